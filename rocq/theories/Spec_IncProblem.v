(** Vocabulary used in the statements about [IncrementalOptimizationProblem]. *)
From stdpp Require Import prelude list gmap.
From Verif Require Import Base OptProblemModel IncProblemModel.

Section spec.
Context {V : Type}.
Implicit Types (h : nat -> oprob V) (s : inc V).

(** Number of contained batches (with multiplicity) that contain variable [d]. *)
Definition batches_with h s (d : nat) : nat :=
  length (filter (fun b => o_isDVInProblem (h b) d = true) (i_probs s)).

(** The variables of a group, or nothing if [getDesignVariablesGroup] throws. *)
Definition i_group_or_nil s (g : nat) : list nat :=
  match i_getGroup s g with Ret l => l | _ => [] end.

(** Expected flat enumerations: groups in groups ordering; error terms in batch order. *)
Definition i_flat_variables s : list nat := concat (map (i_group_or_nil s) (i_order s)).
Definition i_flat_error_terms h s : list nat := concat (map (fun b => o_ets (h b)) (i_probs s)).

Definition is_clear (op : iop V) : Prop := match op with IClear => True | _ => False end.
Definition is_save (op : iop V) : Prop := match op with ISave _ => True | _ => False end.

(** Histories with successful adds only and no [clear]. *)
Inductive i_reachable_noclear h : inc V -> Prop :=
| irn_init : i_reachable_noclear h i_empty
| irn_step s op s' r :
    i_reachable_noclear h s -> istep h s op = (s', r) -> came_back r ->
    (is_add op -> r = Ret tt) -> ~ is_clear op -> i_reachable_noclear h s'.

(** [s'] is reached from [s] by calls other than [save]/[clear], all adds successful, and the
    condition [P] holds after each call. *)
Inductive i_later h (P : inc V -> Prop) : inc V -> inc V -> Prop :=
| il_refl s : i_later h P s s
| il_step s s' op s'' r :
    i_later h P s s' -> istep h s' op = (s'', r) -> came_back r -> (is_add op -> r = Ret tt) ->
    ~ is_clear op -> ~ is_save op -> P s'' -> i_later h P s s''.

(** All histories over a fixed heap of batches, including throwing adds. *)
Inductive i_history h : inc V -> Prop :=
| ih_init : i_history h i_empty
| ih_step s op s' r : i_history h s -> istep h s op = (s', r) -> came_back r -> i_history h s'.

(** [s'] is reached from [s] by removing batches one by one, by index, in any order. *)
Inductive removed h : inc V -> inc V -> Prop :=
| rm_refl s : removed h s s
| rm_step s idx s1 s2 : i_remove_idx h s idx = (s1, Ret tt) -> removed h s1 s2 -> removed h s s2.
End spec.
