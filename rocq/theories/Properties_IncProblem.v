(** C07-C09 (incremental half), C11-C18, C55, C56: [IncrementalOptimizationProblem].  Statements only.

    [h : nat -> oprob V] is the heap of batches; [forall b, o_reachable edv (h b)] says every batch
    is an [OptimizationProblem] obtained through its public API.  [i_reachable h s]: any history over
    batches that are not mutated, in which no [add] threw (other calls may throw).
    [i_history h s]: as before but [add] may throw too. *)
From stdpp Require Import prelude list gmap.
From Verif Require Import Base PermuteModel OptProblemModel Spec_OptProblem OptSpecProofs
  IncProblemModel Spec_IncProblem IncSpecProofs Spec_IncFailedAdd IncFailedAdd.

(** ** A concrete heap and problem for the examples and refutations *)
Definition hx_edv (e : nat) : list nat :=
  match e with 100 => [1; 2] | 101 => [2] | 102 => [3; 4] | 103 => [5; 8] | _ => [] end.
Definition hx_ops (b : nat) : list (oop nat) :=
  match b with
  | 0 => [OAddDV (Some 1) 7; OAddDV (Some 2) 7; OAddDV (Some 5) 3; OAddET (Some 100); OAddET (Some 101)]
  | 1 => [OAddDV (Some 5) 3; OAddDV (Some 6) 3; OAddDV (Some 3) 9; OAddDV (Some 4) 9; OAddET (Some 102)]
  | 2 => [OAddDV (Some 4) 9]                                          (* no error term *)
  | 3 => [OAddDV (Some 8) 7; OAddDV (Some 1) 11]                      (* variable 1 in another group *)
  | 4 => [OAddDV (Some 8) 7; OAddDV (Some 2) 7; OAddET (Some 101)]    (* error term of batch 0 *)
  | 5 => [OAddDV (Some 1) 3]                    (* conflict on the first variable, existing group *)
  | 6 => [OAddDV (Some 8) 12; OAddDV (Some 5) 3; OAddET (Some 103)]
  | _ => []
  end.
Definition hx (b : nat) : oprob nat := o_run hx_edv o_empty (hx_ops b).
Definition sx_ops : list (iop nat) :=
  [IAdd (Some 0); IAdd (Some 2); IAdd (Some 1); ISetOrdering [9; 3; 7]; IRemove (Some 6);
   IPermuteProblems [1; 0; 2]; ISave (fun d => d * 10)].
Definition sx : inc nat := i_run hx i_empty sx_ops.

Example hx_reachable : forall b, o_reachable hx_edv (hx b).
Proof.
  intros b. apply o_run_reachable; [constructor|].
  do 7 (destruct b as [|b]; [vm_compute; reflexivity|]). reflexivity.
Qed.
Example sx_reachable_noclear : i_reachable_noclear hx sx.
Proof. apply i_run_reachable_noclear; [constructor|vm_compute; reflexivity]. Qed.
Example sx_reachable : i_reachable hx sx.
Proof. apply (i_run_reachable hx true); [constructor|vm_compute; reflexivity]. Qed.
Example sx_state :
  i_probs sx = [2; 0; 1] /\ i_order sx = [9; 3; 7] /\ i_flat_variables sx = [4; 3; 5; 6; 1; 2] /\
  i_flat_error_terms hx sx = [100; 101; 102] /\ i_counts sx !! 4 = Some (2%N, 9).
Proof. vm_compute. done. Qed.

(** C07 (incremental half). *)
Theorem inc_problem_set_ordering :
  forall (V : Type) (h : nat -> oprob V) (edv : nat -> list nat),
    (forall b, o_reachable edv (h b)) -> forall (s : inc V) (o : list nat),
    i_reachable h s ->
    (o ≡ₚ i_order s -> exists s', i_setGroupsOrdering s o = (s', Ret tt) /\ i_order s' = o /\
        i_probs s' = i_probs s /\ i_counts s' = i_counts s /\ i_groups s' = i_groups s /\
        i_backup s' = i_backup s) /\
    (~ o ≡ₚ i_order s -> i_setGroupsOrdering s o = (s, Throw OutOfBound)).
Proof. exact @inc_ordering_accepts. Qed.
Print Assumptions inc_problem_set_ordering.

(** C08 (incremental half). *)
Theorem inc_problem_group_dims :
  forall (V : Type) (h : nat -> oprob V) (edv : nat -> list nat),
    (forall b, o_reachable edv (h b)) ->
    forall (active : nat -> bool) (dim : nat -> nat) (s : inc V),
    i_reachable h s ->
    (forall g, i_getGroupDim active dim s g =
       match i_getGroup s g with
       | Ret l => Ret (sum_list_with dim (filter (fun d => active d = true) l))
       | Throw e => Throw e | UB => UB | Diverge => Diverge end) /\
    (forall g, i_isGroupInProblem s g = false -> i_getGroupDim active dim s g = Throw OutOfBound) /\
    exists D, Forall2 (fun g n => i_getGroupDim active dim s g = Ret n) (i_order s) D /\
      sum_list D = sum_list_with dim (filter (fun d => active d = true) (i_flat_variables s)).
Proof. exact @inc_dims. Qed.
Print Assumptions inc_problem_group_dims.

Example inc_problem_group_dims_case :
  map (i_getGroupDim (fun d => negb (Nat.eqb d 6)) (fun d => d) sx) [9; 3; 7; 8]
  = [Ret 7; Ret 5; Ret 3; Throw OutOfBound].
Proof. vm_compute. done. Qed.

(** C09 (incremental half).  After [saveDesignVariables()] with values [vals] on a problem never
    cleared: a variable of the problem that stays in the problem during any later calls (other than
    save/clear) gets its saved value back; a variable not in the problem at save time is not touched. *)
Theorem inc_problem_save_restore :
  forall (V : Type) (h : nat -> oprob V) (edv : nat -> list nat),
    (forall b, o_reachable edv (h b)) ->
    forall (s : inc V) (vals : nat -> V) (d : nat) (vals' : nat -> V),
    i_reachable_noclear h s ->
    (forall s', i_isDVInProblem s d = true ->
       i_later h (fun t => i_isDVInProblem t d = true) (i_save s vals) s' ->
       i_restore s' vals' d = vals d) /\
    (forall s', i_isDVInProblem s d = false ->
       i_later h (fun _ => True) (i_save s vals) s' -> i_restore s' vals' d = vals' d).
Proof. exact @inc_save_restore. Qed.
Print Assumptions inc_problem_save_restore.

(** save, add batch 6, remove batch 1: variable 4 stays (batch 2), 3 and 6 go, 8 came later *)
Example inc_problem_save_restore_case :
  let s1 := i_run hx (i_save sx (fun d => d * 100)) [IAdd (Some 6); IRemove (Some 1)] in
  map (i_restore s1 (fun d => d)) [1; 2; 3; 4; 5; 6; 8] = [100; 200; 3; 400; 500; 6; 8].
Proof. vm_compute. done. Qed.

(** C11.  Membership, reference count and group of every variable. *)
Theorem inc_problem_reference_counts :
  forall (V : Type) (h : nat -> oprob V) (edv : nat -> list nat),
    (forall b, o_reachable edv (h b)) -> forall (s : inc V),
    i_reachable h s ->
    forall d,
    (i_isDVInProblem s d = true <-> exists b, b ∈ i_probs s /\ o_isDVInProblem (h b) d = true) /\
    (fst <$> i_counts s !! d =
       if decide (batches_with h s d = 0) then None else Some (N.of_nat (batches_with h s d))) /\
    (forall g, i_getGroupId s d = Ret g <-> exists b, b ∈ i_probs s /\ o_getGroupId (h b) d = Ret g) /\
    (forall g, i_getGroupId s d = Ret g <-> exists l, i_getGroup s g = Ret l /\ d ∈ l) /\
    (forall b g g', b ∈ i_probs s -> o_getGroupId (h b) d = Ret g -> i_getGroupId s d = Ret g' -> g = g').
Proof. exact @inc_counts. Qed.
Print Assumptions inc_problem_reference_counts.

(** C12.  A successful add is undone exactly by removing that batch: by index, always; by pointer,
    the variables, counts, groups and ordering always, the batch sequence whenever the pointer was not
    already contained, in particular whenever the batch has an error term. *)
Theorem inc_problem_add_then_remove :
  forall (V : Type) (h : nat -> oprob V) (edv : nat -> list nat),
    (forall b, o_reachable edv (h b)) -> forall (s : inc V) (p : nat) (s1 : inc V),
    i_reachable h s -> i_add h s (Some p) = (s1, Ret tt) ->
    (exists s2, i_remove_idx h s1 (length (i_probs s)) = (s2, Ret tt) /\
       i_probs s2 = i_probs s /\ i_counts s2 = i_counts s /\ i_groups s2 = i_groups s /\
       i_order s2 = i_order s /\ (i_reachable_noclear h s -> s2 = s)) /\
    (exists s2, i_remove h s1 (Some p) = (s2, Ret tt) /\
       i_probs s2 ≡ₚ i_probs s /\ i_counts s2 = i_counts s /\ i_groups s2 = i_groups s /\
       i_order s2 = i_order s /\
       (p ∉ i_probs s -> i_probs s2 = i_probs s /\ (i_reachable_noclear h s -> s2 = s))) /\
    (o_numET (h p) <> 0 -> p ∉ i_probs s).
Proof. exact @inc_add_remove. Qed.
Print Assumptions inc_problem_add_then_remove.

Example inc_problem_add_then_remove_case :
  exists s1 s2, i_add hx sx (Some 6) = (s1, Ret tt) /\ o_numET (hx 6) <> 0 /\
    i_order s1 = [9; 3; 7; 12] /\ i_remove hx s1 (Some 6) = (s2, Ret tt) /\
    i_order s2 = [9; 3; 7] /\ i_flat_variables s2 = i_flat_variables sx.
Proof.
  exists (fst (i_add hx sx (Some 6))), (fst (i_remove hx (fst (i_add hx sx (Some 6))) (Some 6))).
  split; [vm_compute; reflexivity|]. split; [vm_compute; discriminate|].
  split; [vm_compute; reflexivity|]. split; [vm_compute; reflexivity|]. vm_compute. done.
Qed.

(** C12, the exception: a batch without error terms can be added twice, and removing it by pointer
    then removes the older occurrence, so the batch sequence is not the previous one. *)
Theorem inc_problem_remove_pointer_sequence_refuted :
  exists (h : nat -> oprob nat) (edv : nat -> list nat) (s s1 s2 : inc nat) (p : nat),
    (forall b, o_reachable edv (h b)) /\ i_reachable h s /\
    i_add h s (Some p) = (s1, Ret tt) /\ i_remove h s1 (Some p) = (s2, Ret tt) /\
    i_probs s2 <> i_probs s.
Proof.
  exists hx, hx_edv, sx, (fst (i_add hx sx (Some 2))), (fst (i_remove hx (fst (i_add hx sx (Some 2))) (Some 2))), 2.
  split; [exact hx_reachable|]. split; [exact sx_reachable|].
  split; [vm_compute; reflexivity|]. split; [vm_compute; reflexivity|]. vm_compute. discriminate.
Qed.
Print Assumptions inc_problem_remove_pointer_sequence_refuted.

(** C13.  Flat enumerations of variables, error terms and groups. *)
Theorem inc_problem_enumeration :
  forall (V : Type) (h : nat -> oprob V) (edv : nat -> list nat),
    (forall b, o_reachable edv (h b)) -> forall (s : inc V),
    i_reachable h s ->
    NoDup (i_flat_variables s) /\ length (i_flat_variables s) = i_numDV s /\
    (forall d, d ∈ i_flat_variables s <-> i_isDVInProblem s d = true) /\
    (forall i, i_designVariable s i =
       match i_flat_variables s !! i with Some d => Ret d | None => Throw OutOfBound end) /\
    length (i_flat_error_terms h s) = i_numET h s /\
    (forall e, e ∈ i_flat_error_terms h s <-> i_isETInProblem h s e = true) /\
    (forall i, i_errorTerm h s i =
       match i_flat_error_terms h s !! i with Some e => Ret e | None => Throw OutOfBound end) /\
    NoDup (i_order s) /\ length (i_order s) = i_getNumGroups s /\
    (forall g, g ∈ i_order s <-> i_isGroupInProblem s g = true).
Proof. exact @inc_enumeration. Qed.
Print Assumptions inc_problem_enumeration.

Example inc_problem_enumeration_case :
  map (i_designVariable sx) (seq 0 7) = [Ret 4; Ret 3; Ret 5; Ret 6; Ret 1; Ret 2; Throw OutOfBound] /\
  map (i_errorTerm hx sx) (seq 0 4) = [Ret 100; Ret 101; Ret 102; Throw OutOfBound].
Proof. vm_compute. done. Qed.

(** C13, access by position and what is not there; the calls that never throw. *)
Theorem inc_problem_access :
  forall (V : Type) (h : nat -> oprob V) (s : inc V),
    (forall i, i_getProblem s i = match i_probs s !! i with Some b => Ret b | None => Throw OutOfBound end) /\
    (forall i, i_getErrorTerms h s i = match i_probs s !! i with Some b => Ret (o_ets (h b)) | None => Throw OutOfBound end) /\
    i_numProblems s = length (i_probs s) /\
    (forall d, i_isDVInProblem s d = false -> i_getGroupId s d = Throw InvalidOperation) /\
    (forall g, i_isGroupInProblem s g = false -> i_getGroup s g = Throw OutOfBound /\ forall act dim, i_getGroupDim act dim s g = Throw OutOfBound) /\
    snd (istep h s IClear) = Ret tt /\
    (forall vals, snd (istep h s (ISave vals)) = Ret tt) /\
    istep h s IRestore = (s, Ret tt).
Proof.
  intros V h s.
  assert (A : forall i, if Nat.leb (length (i_probs s)) i then i_probs s !! i = None else is_Some (i_probs s !! i)).
  { intros i. destruct (Nat.leb_spec (length (i_probs s)) i); [by apply lookup_ge_None|by apply lookup_lt_is_Some_2]. }
  split; [|split; [|split; [done|split; [|split; [|done]]]]].
  - intros i. unfold i_getProblem. specialize (A i). destruct (Nat.leb _ i); [by rewrite A|]. by destruct A as [b ->].
  - intros i. unfold i_getErrorTerms. specialize (A i). destruct (Nat.leb _ i); [by rewrite A|]. by destruct A as [b ->].
  - intros d Hd. unfold i_isDVInProblem in Hd. apply bool_decide_eq_false in Hd. unfold i_getGroupId. by destruct (i_counts s !! d) as [[? ?]|]; [destruct Hd; eauto|].
  - intros g Hg. unfold i_isGroupInProblem in Hg. apply bool_decide_eq_false in Hg.
    assert (i_getGroup s g = Throw OutOfBound) as E by (unfold i_getGroup; by destruct (i_groups s !! g); [destruct Hg; eauto|]).
    split; [done|]. intros act dim. unfold i_getGroupDim. by rewrite E.
Qed.
Print Assumptions inc_problem_access.
Example inc_problem_access_case : i_getProblem sx 0 = Ret (default 0 (i_probs sx !! 0)) /\ i_getProblem sx 9 = Throw OutOfBound /\
  i_isDVInProblem sx 77 = false /\ i_isGroupInProblem sx 77 = false.
Proof. vm_compute. done. Qed.

(** C14.  No error term twice; a batch sharing one is refused. *)
Theorem inc_problem_error_terms_once :
  forall (V : Type) (h : nat -> oprob V) (edv : nat -> list nat),
    (forall b, o_reachable edv (h b)) -> forall (s : inc V),
    i_reachable h s ->
    NoDup (i_flat_error_terms h s) /\
    (forall i j p q e, i_probs s !! i = Some p -> i_probs s !! j = Some q ->
       o_isETInProblem (h p) e = true -> o_isETInProblem (h q) e = true -> i = j) /\
    (forall p e, o_isETInProblem (h p) e = true -> i_isETInProblem h s e = true ->
       snd (i_add h s (Some p)) = Throw InvalidOperation).
Proof. exact @inc_ets_once. Qed.
Print Assumptions inc_problem_error_terms_once.

Example inc_problem_error_terms_once_case :
  o_isETInProblem (hx 4) 101 = true /\ i_isETInProblem hx sx 101 = true /\
  snd (i_add hx sx (Some 4)) = Throw InvalidOperation.
Proof. vm_compute. done. Qed.

(** C15 (violated).  A throwing [add] changes the problem: (a) after adding a batch that shares an
    error term, its variables are in the problem for ever, even when all batches are removed; (b) after
    a batch with a conflicting group, the groups ordering contains a group that does not exist, so
    that [setGroupsOrdering(getGroupsOrdering())] throws. *)
Theorem inc_problem_failed_add_refuted :
  exists (h : nat -> oprob nat) (edv : nat -> list nat) (s : inc nat) (p q : nat),
    (forall b, o_reachable edv (h b)) /\ i_reachable h s /\
    (exists s1, i_add h s (Some p) = (s1, Throw InvalidOperation) /\
       (exists d, i_isDVInProblem s d = false /\ i_isDVInProblem s1 d = true) /\
       (exists s2 d, removed h s1 s2 /\ i_probs s2 = [] /\ i_isDVInProblem s2 d = true)) /\
    (exists s1 g, i_add h s (Some q) = (s1, Throw InvalidOperation) /\
       g ∈ i_order s1 /\ i_isGroupInProblem s1 g = false /\
       i_setGroupsOrdering s1 (i_order s1) = (s1, Throw OutOfBound)).
Proof.
  exists hx, hx_edv, sx, 4, 3. split; [exact hx_reachable|]. split; [exact sx_reachable|]. split.
  - exists (fst (i_add hx sx (Some 4))). split; [vm_compute; reflexivity|]. split.
    + exists 8. vm_compute. done.
    + exists (i_run hx (fst (i_add hx sx (Some 4))) [IRemoveIdx 0; IRemoveIdx 0; IRemoveIdx 0]), 8.
      split; [|vm_compute; done].
      eapply (rm_step hx _ 0); [vm_compute; reflexivity|].
      eapply (rm_step hx _ 0); [vm_compute; reflexivity|].
      eapply (rm_step hx _ 0); [vm_compute; reflexivity|].
      match goal with |- removed _ ?a ?b => replace b with a by (vm_compute; reflexivity) end. constructor.
  - exists (fst (i_add hx sx (Some 3))), 11.
    split; [vm_compute; reflexivity|]. split; [vm_compute; set_solver|]. split; [vm_compute; reflexivity|].
    vm_compute. reflexivity.
Qed.
Print Assumptions inc_problem_failed_add_refuted.

(** C15, what does hold for a throwing [add]: the batch list and the backup are unchanged, no variable
    leaves the problem or changes group; a null batch, and a batch whose first variable conflicts
    while its group exists, leave the problem unchanged. *)
Theorem inc_problem_failed_add_keeps :
  forall (V : Type) (h : nat -> oprob V) (edv : nat -> list nat),
    (forall b, o_reachable edv (h b)) -> forall (s : inc V) (p : option nat) (s' : inc V) (e : exn),
    i_reachable h s -> i_add h s p = (s', Throw e) ->
    i_probs s' = i_probs s /\ i_backup s' = i_backup s /\
    (forall d, i_isDVInProblem s d = true -> i_isDVInProblem s' d = true) /\
    (forall d g, i_getGroupId s d = Ret g -> i_getGroupId s' d = Ret g) /\
    (p = None -> s' = s) /\
    (forall b d g g', p = Some b -> o_designVariable (h b) 0 = Ret d -> o_getGroupId (h b) d = Ret g ->
       i_getGroupId s d = Ret g' -> g' <> g -> i_isGroupInProblem s g = true -> s' = s).
Proof. exact @inc_failed_add. Qed.
Print Assumptions inc_problem_failed_add_keeps.

Example inc_problem_failed_add_case :
  i_add hx sx (Some 5) = (fst (i_add hx sx (Some 5)), Throw InvalidOperation) /\ o_designVariable (hx 5) 0 = Ret 1 /\
  o_getGroupId (hx 5) 1 = Ret 3 /\ i_getGroupId sx 1 = Ret 7 /\ i_isGroupInProblem sx 3 = true.
Proof. vm_compute. done. Qed.

(** C15, exactly what a throwing [add] leaves behind: the variables of the batch have been taken over in the order of its enumeration, up to the
    first one that is in the problem under another group, or all of them if there is none; in that case some error term of the batch is in the
    problem already.  The ordering has got the new groups of these variables, and that of the conflicting variable too. *)
Theorem inc_problem_failed_add_state :
  forall (V : Type) (h : nat -> oprob V) (edv : nat -> list nat),
    (forall b, o_reachable edv (h b)) -> forall (s : inc V) (b : nat) (s' : inc V) (e : exn),
    i_reachable h s -> i_add h s (Some b) = (s', Throw e) ->
    exists k, let L := take k (flat_variables (h b)) in
      k <= o_numDV (h b) /\ e = InvalidOperation /\ taken_over h s b L s' /\
      (forall d g g', d ∈ L -> o_getGroupId (h b) d = Ret g -> i_getGroupId s d = Ret g' -> g' = g) /\
      exists new, i_order s' = i_order s ++ new /\ NoDup new /\
      ((k = o_numDV (h b) /\ (exists t, o_isETInProblem (h b) t = true /\ i_isETInProblem h s t = true) /\
        (forall g, g ∈ new <-> i_isGroupInProblem s g = false /\ exists d, d ∈ L /\ o_getGroupId (h b) d = Ret g)) \/
       (exists d g g', flat_variables (h b) !! k = Some d /\ o_getGroupId (h b) d = Ret g /\ i_getGroupId s d = Ret g' /\ g' <> g /\
        (forall g0, g0 ∈ new <-> i_isGroupInProblem s g0 = false /\ exists x, x ∈ L ++ [d] /\ o_getGroupId (h b) x = Ret g0))).
Proof. exact @inc_failed_add_state. Qed.
Print Assumptions inc_problem_failed_add_state.

Example inc_problem_failed_add_state_case :
  snd (i_add hx sx (Some 3)) = Throw InvalidOperation /\ snd (i_add hx sx (Some 4)) = Throw InvalidOperation /\
  i_reachable hx sx /\ (forall b, o_reachable hx_edv (hx b)).
Proof. split; [vm_compute; done|]. split; [vm_compute; done|]. split; [exact sx_reachable|exact hx_reachable]. Qed.

(** C16.  Removing two different batches commutes (whole state); more generally the state after
    removals depends only on which batches are left, and removing all gives the empty problem. *)
Theorem inc_problem_removal_commutes :
  forall (V : Type) (h : nat -> oprob V) (edv : nat -> list nat),
    (forall b, o_reachable edv (h b)) -> forall (s : inc V) (p q : nat),
    i_reachable h s -> p <> q -> p ∈ i_probs s -> q ∈ i_probs s ->
    exists s1 s2 s',
      i_remove h s (Some p) = (s1, Ret tt) /\ i_remove h s1 (Some q) = (s', Ret tt) /\
      i_remove h s (Some q) = (s2, Ret tt) /\ i_remove h s2 (Some p) = (s', Ret tt).
Proof. exact @inc_remove_comm. Qed.
Print Assumptions inc_problem_removal_commutes.

Theorem inc_problem_removal_order_irrelevant :
  forall (V : Type) (h : nat -> oprob V) (edv : nat -> list nat),
    (forall b, o_reachable edv (h b)) -> forall (s s1 s2 : inc V),
    i_reachable h s -> removed h s s1 -> removed h s s2 -> i_probs s1 ≡ₚ i_probs s2 ->
    i_counts s1 = i_counts s2 /\ i_groups s1 = i_groups s2 /\ i_order s1 = i_order s2 /\
    i_backup s1 = i_backup s2 /\
    (i_probs s1 = [] -> i_counts s1 = ∅ /\ i_groups s1 = ∅ /\ i_order s1 = [] /\
                        (i_reachable_noclear h s -> s1 = i_empty)).
Proof. exact @inc_removed_all. Qed.
Print Assumptions inc_problem_removal_order_irrelevant.

Example inc_problem_removal_case :
  2 ∈ i_probs sx /\ 1 ∈ i_probs sx /\
  i_flat_variables (i_run hx sx [IRemove (Some 1); IRemove (Some 2)]) = [5; 1; 2] /\
  i_flat_variables (i_run hx sx [IRemove (Some 1); IRemove (Some 0); IRemove (Some 2)]) = [].
Proof. split; [vm_compute; set_solver|]. split; [vm_compute; set_solver|]. vm_compute. done. Qed.

(** C17.  [clear()] empties the problem ... *)
Theorem inc_problem_clear_empties :
  forall (V : Type) (h : nat -> oprob V) (s : inc V),
    i_probs (i_clear s) = [] /\ i_flat_variables (i_clear s) = [] /\ i_order (i_clear s) = [] /\
    i_numDV (i_clear s) = 0 /\ i_numET h (i_clear s) = 0 /\
    (forall d, i_isDVInProblem (i_clear s) d = false) /\
    (forall e, i_isETInProblem h (i_clear s) e = false).
Proof. exact @inc_clear. Qed.
Print Assumptions inc_problem_clear_empties.

(** ... but (violated) the backup survives: restoring afterwards writes a variable that is not in
    the problem. *)
Theorem inc_problem_clear_backup_refuted :
  exists (h : nat -> oprob nat) (edv : nat -> list nat) (s : inc nat) (d : nat) (vals : nat -> nat),
    (forall b, o_reachable edv (h b)) /\ i_reachable h s /\
    i_isDVInProblem (i_clear s) d = false /\ i_restore (i_clear s) vals d <> vals d.
Proof.
  exists hx, hx_edv, sx, 4, (fun _ => 0).
  split; [exact hx_reachable|]. split; [exact sx_reachable|]. vm_compute. done.
Qed.
Print Assumptions inc_problem_clear_backup_refuted.

(** C17: [OptimizationProblem::clear()] does forget the backup. *)
Theorem opt_problem_clear_forgets_backup :
  forall (V : Type) (s : oprob V) (vals : nat -> V), o_restore (o_clear s) vals = vals /\ o_clear s = o_empty.
Proof. exact (fun V s vals => conj eq_refl eq_refl). Qed.
Print Assumptions opt_problem_clear_forgets_backup.

(** C18 (violated).  Add a variable to a batch after the batch was added, then remove the batch: the
    variable stays in a problem without batches, its count is 2^64-1, and indexing it is rejected with
    [std::out_of_range]. *)
Theorem inc_problem_mutated_batch_refuted :
  exists (h h' : nat -> oprob nat) (edv : nat -> list nat) (s s1 s2 : inc nat) (p d g : nat),
    (forall b, o_reachable edv (h b)) /\ i_reachable h s /\
    i_add h s (Some p) = (s1, Ret tt) /\
    (forall b, b <> p -> h' b = h b) /\ o_addDV (h p) (Some d) g = (h' p, Ret tt) /\
    i_remove h' s1 (Some p) = (s2, Ret tt) /\
    i_probs s2 = [] /\ i_isDVInProblem s2 d = true /\
    fst <$> i_counts s2 !! d = Some (2 ^ 64 - 1)%N /\
    i_designVariable s2 0 = Throw StdOutOfRange.
Proof.
  exists hx, (fun b => if Nat.eqb b 6 then fst (o_addDV (hx 6) (Some 20) 12) else hx b), hx_edv,
         i_empty, (fst (i_add hx i_empty (Some 6))),
         (fst (i_remove (fun b => if Nat.eqb b 6 then fst (o_addDV (hx 6) (Some 20) 12) else hx b)
                        (fst (i_add hx i_empty (Some 6))) (Some 6))), 6, 20, 12.
  split; [exact hx_reachable|]. split; [constructor|]. split; [vm_compute; reflexivity|].
  split; [intros b Hb; destruct (Nat.eqb_spec b 6); done|].
  split; [vm_compute; reflexivity|]. split; [vm_compute; reflexivity|]. vm_compute. done.
Qed.
Print Assumptions inc_problem_mutated_batch_refuted.

(** C18, what does hold: with unmutated batches every contained batch is removed without exception or
    undefined behaviour and the remaining state is again consistent (C11 applies to it). *)
Theorem inc_problem_clean_removal :
  forall (V : Type) (h : nat -> oprob V) (edv : nat -> list nat),
    (forall b, o_reachable edv (h b)) -> forall (s : inc V) (idx p : nat),
    i_reachable h s -> i_probs s !! idx = Some p ->
    exists s', i_remove_idx h s idx = (s', Ret tt) /\ i_reachable h s' /\ i_probs s' = delete idx (i_probs s).
Proof. exact @inc_clean_removal. Qed.
Print Assumptions inc_problem_clean_removal.

Example inc_problem_clean_removal_case : i_probs sx !! 2 = Some 1.
Proof. vm_compute. done. Qed.

(** C55.  [add] succeeds exactly when no shared variable sits in another group and no error term is
    already contained; otherwise it throws [InvalidOperationException]; null throws
    [NullPointerException]. *)
Theorem inc_problem_add_succeeds_iff :
  forall (V : Type) (h : nat -> oprob V) (edv : nat -> list nat),
    (forall b, o_reachable edv (h b)) -> forall (s : inc V) (p : nat),
    i_reachable h s ->
    (((forall d g g', o_getGroupId (h p) d = Ret g -> i_getGroupId s d = Ret g' -> g' = g) /\
      (forall e, o_isETInProblem (h p) e = true -> i_isETInProblem h s e = false)) <->
     snd (i_add h s (Some p)) = Ret tt) /\
    (snd (i_add h s (Some p)) = Ret tt \/ snd (i_add h s (Some p)) = Throw InvalidOperation) /\
    i_add h s None = (s, Throw NullPointer).
Proof. exact @inc_add_iff. Qed.
Print Assumptions inc_problem_add_succeeds_iff.

(** C55, effect of a successful [add]. *)
Theorem inc_problem_add_effect :
  forall (V : Type) (h : nat -> oprob V) (edv : nat -> list nat),
    (forall b, o_reachable edv (h b)) -> forall (s : inc V) (p : nat) (s' : inc V),
    i_reachable h s -> i_add h s (Some p) = (s', Ret tt) ->
    i_probs s' = i_probs s ++ [p] /\ i_backup s' = i_backup s /\
    (forall d, i_isDVInProblem s' d = i_isDVInProblem s d || o_isDVInProblem (h p) d) /\
    (forall d g, i_getGroupId s d = Ret g -> i_getGroupId s' d = Ret g) /\
    (forall g, exists k, i_group_or_nil s' g = i_group_or_nil s g ++ k /\
       forall d, d ∈ k -> o_isDVInProblem (h p) d = true /\ i_isDVInProblem s d = false) /\
    (exists k, i_order s' = i_order s ++ k).
Proof. exact @inc_add_effect. Qed.
Print Assumptions inc_problem_add_effect.

Example inc_problem_add_case :
  map (fun p => snd (i_add hx sx (Some p))) [0; 1; 2; 3; 4; 5; 6]
  = [Throw InvalidOperation; Throw InvalidOperation; Ret tt; Throw InvalidOperation; Throw InvalidOperation;
     Throw InvalidOperation; Ret tt].
Proof. vm_compute. done. Qed.

(** C56.  Over unmutated batches no history, not even one with failing adds, leads to undefined
    behaviour. *)
Theorem inc_problem_no_undefined_behaviour :
  forall (V : Type) (h : nat -> oprob V) (edv : nat -> list nat),
    (forall b, o_reachable edv (h b)) -> forall (s : inc V) (op : iop V),
    i_history h s -> snd (istep h s op) <> UB.
Proof. exact @inc_no_ub. Qed.
Print Assumptions inc_problem_no_undefined_behaviour.

Example inc_problem_no_undefined_behaviour_case :
  exists s, i_history hx s /\ i_order s = [7; 3; 11] /\ snd (istep hx s (IRemove (Some 0))) = Ret tt.
Proof.
  exists (i_run hx i_empty [IAdd (Some 0); IAdd (Some 3)]). split; [|vm_compute; done].
  unfold i_run. cbn [fold_left].
  apply (ih_step hx (fst (istep hx i_empty (IAdd (Some 0)))) (IAdd (Some 3)) _ (Throw InvalidOperation));
    [|vm_compute; reflexivity|exact I].
  apply (ih_step hx i_empty (IAdd (Some 0)) _ (Ret tt)); [constructor|vm_compute; reflexivity|exact I].
Qed.
