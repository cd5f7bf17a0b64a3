(** Vocabulary for what a failing add leaves behind. *)
From stdpp Require Import prelude list gmap.
From Verif Require Import Base OptProblemModel IncProblemModel Spec_IncProblem.
Global Instance exn_eq_dec : EqDecision exn. Proof. solve_decision. Defined.
Global Instance result_eq_dec {A} `{EqDecision A} : EqDecision (result A). Proof. solve_decision. Defined.
(** How many batches the problem believes to hold the variable. *)
Definition references {V} (s : inc V) (d : nat) : N := default 0%N (fst <$> i_counts s !! d).
(** [s'] is [s] with the variables [L] of batch [b] taken over: each is in the problem with one reference more, those that are new are
    appended to their group in order; batches, backup and everything else are as before (the ordering of groups is not mentioned). *)
Definition taken_over {V} (h : nat -> oprob V) (s : inc V) (b : nat) (L : list nat) (s' : inc V) : Prop :=
  i_probs s' = i_probs s /\ i_backup s' = i_backup s /\
  (forall d, i_isDVInProblem s' d = true <-> i_isDVInProblem s d = true \/ d ∈ L) /\
  (forall d, references s' d = references s d + (if decide (d ∈ L) then 1 else 0))%N /\
  (forall g, i_group_or_nil s' g =
     i_group_or_nil s g ++ filter (fun d => i_isDVInProblem s d = false /\ o_getGroupId (h b) d = Ret g) L) /\
  (forall g, i_isGroupInProblem s' g = true <->
     i_isGroupInProblem s g = true \/ exists d, d ∈ L /\ o_getGroupId (h b) d = Ret g).

