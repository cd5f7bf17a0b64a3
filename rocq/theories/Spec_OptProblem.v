(** Vocabulary used in the statements about [OptimizationProblem] (no code is modelled here). *)
From stdpp Require Import prelude list gmap.
From Verif Require Import Base OptProblemModel.

Section spec.
Context {V : Type}.
(** The variables of a group, or nothing if [getDesignVariablesGroup] throws. *)
Definition group_or_nil (s : oprob V) (g : nat) : list nat :=
  match o_getGroup s g with Ret l => l | _ => [] end.

(** running a list of calls, whatever their outcome *)
Definition o_run (edv : nat -> list nat) (s : oprob V) (ops : list (oop V)) : oprob V :=
  fold_left (fun s op => fst (ostep edv s op)) ops s.

(** The flat list the public enumeration is expected to follow: groups in groups ordering. *)
Definition flat_variables (s : oprob V) : list nat := concat (map (group_or_nil s) (o_order s)).
End spec.
