(** C04-C10: [OptimizationProblem].  Statements only.  [o_reachable edv s]: [s] is the state of an
    object after any sequence of public calls that came back, thrown exceptions included. *)
From stdpp Require Import prelude list gmap.
From Verif Require Import Base PermuteModel OptProblemModel Spec_OptProblem OptSpecProofs.

(** A concrete history used in the examples: groups 7 and 3, five variables, two error terms, a
    reordering, a permutation inside a group and some rejected calls. *)
Definition ex_edv (e : nat) : list nat := if Nat.eqb e 100 then [1; 4] else [2].
Definition ex_ops : list (oop nat) :=
  [OAddDV (Some 1) 7; OAddDV (Some 2) 3; OAddDV (Some 4) 7; OAddDV (Some 4) 3; OAddDV None 7;
   OAddDV (Some 5) 7; OAddDV (Some 6) 3; OAddET (Some 100); OAddET (Some 101); OAddET (Some 100);
   OSetOrdering [3; 7]; OPermuteDV [1; 2; 0] 7; OPermuteET [1; 0]; OSetOrdering [3; 3]].
Definition ex_problem : oprob nat := o_run ex_edv o_empty ex_ops.

Example ex_problem_reachable : o_reachable ex_edv ex_problem.
Proof.
  unfold ex_problem, o_run, ex_ops.
  repeat match goal with
  | |- o_reachable _ (fold_left _ (?op :: ?ops) ?s) =>
      change (o_reachable ex_edv (fold_left (fun s op => fst (ostep ex_edv s op)) ops (fst (ostep ex_edv s op))))
  end.
  cbn [fold_left].
  repeat match goal with
  | |- o_reachable _ (fst (ostep ?e ?s ?op)) =>
      eapply (or_step e s op _ (snd (ostep e s op)));
        [|destruct (ostep e s op); reflexivity|vm_compute; exact I]
  end.
  apply or_init.
Qed.

Example ex_problem_state :
  flat_variables ex_problem = [2; 6; 4; 5; 1] /\ o_order ex_problem = [3; 7] /\ o_ets ex_problem = [101; 100].
Proof. vm_compute. done. Qed.

(** C04.  The linear index follows the flat list (groups in ordering, each variable exactly once),
    indices beyond it throw [OutOfBoundException], [getGroupId] agrees with the groups and the
    ordering lists every group exactly once. *)
Theorem opt_problem_enumeration :
  forall (V : Type) (edv : nat -> list nat) (s : oprob V),
    o_reachable edv s ->
    let L := flat_variables s in
    NoDup L /\ length L = o_numDV s /\
    (forall d, d ∈ L <-> o_isDVInProblem s d = true) /\
    (forall i, o_designVariable s i =
               match L !! i with Some d => Ret d | None => Throw OutOfBound end) /\
    (forall d g, o_getGroupId s d = Ret g <-> exists l, o_getGroup s g = Ret l /\ d ∈ l) /\
    NoDup (o_order s) /\ (forall g, g ∈ o_order s <-> o_isGroupInProblem s g = true).
Proof. exact @o_enumeration. Qed.
Print Assumptions opt_problem_enumeration.

Example opt_problem_enumeration_case :
  map (o_designVariable ex_problem) (seq 0 6) = [Ret 2; Ret 6; Ret 4; Ret 5; Ret 1; Throw OutOfBound].
Proof. vm_compute. done. Qed.

(** C04, what is not there: asking for the group of an unknown variable or for an unknown group throws; the number of groups; and the calls that never throw. *)
Theorem opt_problem_absent :
  forall (V : Type) (edv : nat -> list nat) (s : oprob V),
    (forall d, o_isDVInProblem s d = false -> o_getGroupId s d = Throw InvalidOperation) /\
    (forall g, o_isGroupInProblem s g = false -> o_getGroup s g = Throw OutOfBound /\ forall act dim, o_getGroupDim act dim s g = Throw OutOfBound) /\
    o_getNumGroups s = length (o_order s) /\
    ostep edv s OClear = (o_empty, Ret tt) /\
    (forall vals, snd (ostep edv s (OSave vals)) = Ret tt) /\
    ostep edv s ORestore = (s, Ret tt).
Proof.
  intros V edv s. split; [|split; [|done]].
  - intros d Hd. unfold o_isDVInProblem in Hd. apply bool_decide_eq_false in Hd. unfold o_getGroupId. by destruct (o_lookup s !! d); [destruct Hd; eauto|].
  - intros g Hg. unfold o_isGroupInProblem in Hg. apply bool_decide_eq_false in Hg.
    assert (o_getGroup s g = Throw OutOfBound) as E by (unfold o_getGroup; by destruct (o_groups s !! g); [destruct Hg; eauto|]).
    split; [done|]. intros act dim. unfold o_getGroupDim. by rewrite E.
Qed.
Print Assumptions opt_problem_absent.
Example opt_problem_absent_case : o_isDVInProblem ex_problem 77 = false /\ o_isGroupInProblem ex_problem 77 = false.
Proof. vm_compute. done. Qed.

(** C04, second half: once a variable was added to group [g] it keeps that group until [clear]. *)
Theorem opt_problem_group_is_kept :
  forall (V : Type) (edv : nat -> list nat) (s : oprob V) (d g : nat) (ops : list (oop V)) (s1 : oprob V),
    o_addDV s (Some d) g = (s1, Ret tt) -> ~ OClear ∈ ops ->
    o_getGroupId (o_run edv s1 ops) d = Ret g.
Proof. exact @o_group_stays. Qed.
Print Assumptions opt_problem_group_is_kept.

Example opt_problem_group_is_kept_case :
  exists s1 : oprob nat, o_addDV ex_problem (Some 9) 3 = (s1, Ret tt) /\
    o_getGroupId (o_run ex_edv s1 [OPermuteDV [2; 1; 0] 3; OSetOrdering [7; 3]]) 9 = Ret 3.
Proof. eexists. split; [vm_compute; reflexivity|vm_compute; reflexivity]. Qed.

(** C05.  Every variable of a contained error term is contained; [errorTerm(i)] enumerates the
    contained error terms exactly once and throws beyond [numErrorTerms()]. *)
Theorem opt_problem_error_terms :
  forall (V : Type) (edv : nat -> list nat) (s : oprob V),
    o_reachable edv s ->
    (forall e d, o_isETInProblem s e = true -> d ∈ edv e -> o_isDVInProblem s d = true) /\
    exists L, NoDup L /\ length L = o_numET s /\ (forall e, e ∈ L <-> o_isETInProblem s e = true) /\
      forall i, o_errorTerm s i = match L !! i with Some e => Ret e | None => Throw OutOfBound end.
Proof. exact @o_closure. Qed.
Print Assumptions opt_problem_error_terms.

(** C05, [getErrors(dv, out)] adds exactly the error terms that use the variable. *)
Theorem opt_problem_get_errors :
  forall (V : Type) (edv : nat -> list nat) (s : oprob V) (d : nat) (out : gset nat) (e : nat),
    e ∈ o_getErrors edv s d out <-> e ∈ out \/ (e ∈ o_ets s /\ d ∈ edv e).
Proof. exact @o_getErrors_ok. Qed.
Print Assumptions opt_problem_get_errors.

Example opt_problem_error_terms_case :
  o_isETInProblem ex_problem 100 = true /\ 4 ∈ ex_edv 100 /\
  map (o_errorTerm ex_problem) (seq 0 3) = [Ret 101; Ret 100; Throw OutOfBound].
Proof. split; [|split]; [vm_compute; done|vm_compute; set_solver|vm_compute; done]. Qed.

(** C06.  [addDesignVariable]: exact effect and strong exception safety. *)
Theorem opt_problem_add_variable :
  forall (V : Type) (s : oprob V) (d : option nat) (g : nat),
    (d = None -> o_addDV s d g = (s, Throw NullPointer)) /\
    (forall x, d = Some x -> o_isDVInProblem s x = true -> o_addDV s d g = (s, Throw InvalidOperation)) /\
    (forall x, d = Some x -> o_isDVInProblem s x = false ->
       exists s', o_addDV s d g = (s', Ret tt) /\
         (forall y, o_getGroupId s' y = if decide (y = x) then Ret g else o_getGroupId s y) /\
         (forall g', o_getGroup s' g' =
            if decide (g' = g) then Ret (group_or_nil s g ++ [x]) else o_getGroup s g') /\
         o_order s' = (if o_isGroupInProblem s g then o_order s else o_order s ++ [g]) /\
         o_ets s' = o_ets s /\ o_etlookup s' = o_etlookup s /\ o_backup s' = o_backup s).
Proof. exact @o_addDV_effects. Qed.
Print Assumptions opt_problem_add_variable.

(** C06.  [addErrorTerm]: exact effect and strong exception safety. *)
Theorem opt_problem_add_error_term :
  forall (V : Type) (edv : nat -> list nat) (s : oprob V) (e : option nat),
    (e = None -> o_addET edv s e = (s, Throw NullPointer)) /\
    (forall x, e = Some x ->
       (o_isETInProblem s x = true \/ exists d, d ∈ edv x /\ o_isDVInProblem s d = false) ->
       o_addET edv s e = (s, Throw InvalidOperation)) /\
    (forall x, e = Some x -> o_isETInProblem s x = false ->
       (forall d, d ∈ edv x -> o_isDVInProblem s d = true) ->
       exists s', o_addET edv s e = (s', Ret tt) /\ o_ets s' = o_ets s ++ [x] /\
         (forall y, o_isETInProblem s' y = true <-> y = x \/ o_isETInProblem s y = true) /\
         o_lookup s' = o_lookup s /\ o_groups s' = o_groups s /\ o_order s' = o_order s /\
         o_backup s' = o_backup s).
Proof. exact @o_addET_effects. Qed.
Print Assumptions opt_problem_add_error_term.

Example opt_problem_add_case :
  o_isDVInProblem ex_problem 9 = false /\ o_isDVInProblem ex_problem 4 = true /\
  o_isETInProblem ex_problem 102 = false /\ (forall d, d ∈ ex_edv 102 -> o_isDVInProblem ex_problem d = true) /\
  snd (o_addET (fun _ => [8]) ex_problem (Some 102)) = Throw InvalidOperation.
Proof.
  split; [vm_compute; done|]. split; [vm_compute; done|]. split; [vm_compute; done|]. split.
  - intros d Hd. assert (d = 2) as -> by (revert Hd; vm_compute; set_solver). vm_compute. done.
  - vm_compute. done.
Qed.

(** C07 ([OptimizationProblem] half).  [setGroupsOrdering(o)] succeeds exactly for rearrangements
    of the current groups, sets the ordering and nothing else; otherwise nothing changes. *)
Theorem opt_problem_set_ordering :
  forall (V : Type) (edv : nat -> list nat) (s : oprob V) (o : list nat),
    o_reachable edv s ->
    (o ≡ₚ o_order s -> exists s', o_setGroupsOrdering s o = (s', Ret tt) /\ o_order s' = o /\
        o_lookup s' = o_lookup s /\ o_etlookup s' = o_etlookup s /\ o_groups s' = o_groups s /\
        o_ets s' = o_ets s /\ o_backup s' = o_backup s) /\
    (~ o ≡ₚ o_order s -> o_setGroupsOrdering s o = (s, Throw OutOfBound)).
Proof. exact @o_ordering_accepts. Qed.
Print Assumptions opt_problem_set_ordering.

Example opt_problem_set_ordering_case :
  snd (o_setGroupsOrdering ex_problem [7; 3]) = Ret tt /\
  snd (o_setGroupsOrdering ex_problem [7; 7]) = Throw OutOfBound /\
  snd (o_setGroupsOrdering ex_problem [7]) = Throw OutOfBound.
Proof. vm_compute. done. Qed.

(** C08 ([OptimizationProblem] half).  Group dimension = sum of the minimal dimensions of its
    active variables; over all groups of the ordering they add up to the total active dimension of
    the enumerated variables. *)
Theorem opt_problem_group_dims :
  forall (V : Type) (edv : nat -> list nat) (active : nat -> bool) (dim : nat -> nat) (s : oprob V),
    o_reachable edv s ->
    (forall g, o_getGroupDim active dim s g =
       match o_getGroup s g with
       | Ret l => Ret (sum_list_with dim (filter (fun d => active d = true) l))
       | Throw e => Throw e | UB => UB | Diverge => Diverge end) /\
    (forall g, o_isGroupInProblem s g = false -> o_getGroupDim active dim s g = Throw OutOfBound) /\
    forall L, Forall2 (fun i d => o_designVariable s i = Ret d) (seq 0 (o_numDV s)) L ->
    forall D, Forall2 (fun g n => o_getGroupDim active dim s g = Ret n) (o_order s) D ->
    sum_list D = sum_list_with dim (filter (fun d => active d = true) L).
Proof. exact @o_dims. Qed.
Print Assumptions opt_problem_group_dims.

Example opt_problem_group_dims_case :
  let act d := negb (Nat.eqb d 5) in let dim d := d in
  Forall2 (fun i d => o_designVariable ex_problem i = Ret d) (seq 0 (o_numDV ex_problem)) [2; 6; 4; 5; 1] /\
  Forall2 (fun g n => o_getGroupDim act dim ex_problem g = Ret n) (o_order ex_problem) [8; 5].
Proof. vm_compute. split; repeat constructor. Qed.

(** C09 ([OptimizationProblem] half).  After [saveDesignVariables()] with values [vals], any calls
    other than [clear]/[save] on the problem and any new values [vals'] of all variables,
    [restoreDesignVariables()] sets exactly the variables contained at save time back. *)
Theorem opt_problem_save_restore :
  forall (V : Type) (edv : nat -> list nat) (s : oprob V) (vals : nat -> V) (ops : list (oop V)) (vals' : nat -> V),
    o_reachable edv s ->
    (forall op, op ∈ ops -> match op with OClear | OSave _ => False | _ => True end) ->
    forall d, o_restore (o_run edv (o_save s vals) ops) vals' d =
              if o_isDVInProblem s d then vals d else vals' d.
Proof. exact @o_restore_ok. Qed.
Print Assumptions opt_problem_save_restore.

Example opt_problem_save_restore_case :
  let s := o_run ex_edv (o_save ex_problem (fun d => d * 10)) [OAddDV (Some 9) 3; OPermuteDV [1; 0; 2] 3] in
  map (o_restore s (fun d => d)) [2; 6; 4; 5; 1; 9; 8] = [20; 60; 40; 50; 10; 9; 8].
Proof. vm_compute. done. Qed.

(** C10.  [permuteDesignVariables(p, g)]: an unknown group throws and changes nothing; a permutation
    reorders group [g] by [p]; whatever [p] is and however the call ends, only the order inside
    group [g] can have changed. *)
Theorem opt_problem_permute_variables :
  forall (V : Type) (edv : nat -> list nat) (s : oprob V) (p : list nat) (g : nat),
    o_reachable edv s ->
    (o_isGroupInProblem s g = false -> o_permuteDV s p g = (s, Throw OutOfBound)) /\
    (forall l, o_getGroup s g = Ret l -> p ≡ₚ seq 0 (length l) ->
       exists s' l', o_permuteDV s p g = (s', Ret tt) /\ o_getGroup s' g = Ret l' /\
         length l' = length l /\ (forall i k, p !! i = Some k -> l' !! i = l !! k)) /\
    (forall s' r, o_permuteDV s p g = (s', r) ->
       r <> UB /\ o_lookup s' = o_lookup s /\ o_etlookup s' = o_etlookup s /\ o_ets s' = o_ets s /\
       o_order s' = o_order s /\ o_backup s' = o_backup s /\
       (forall g', g' <> g -> o_getGroup s' g' = o_getGroup s g') /\
       group_or_nil s' g ≡ₚ group_or_nil s g).
Proof. exact @o_permuteDV_ok. Qed.
Print Assumptions opt_problem_permute_variables.

(** C10.  [permuteErrorTerms(p)]. *)
Theorem opt_problem_permute_error_terms :
  forall (V : Type) (s : oprob V) (p : list nat),
    (p ≡ₚ seq 0 (length (o_ets s)) ->
       exists s', o_permuteET s p = (s', Ret tt) /\ length (o_ets s') = length (o_ets s) /\
         (forall i k, p !! i = Some k -> o_ets s' !! i = o_ets s !! k)) /\
    (forall s' r, o_permuteET s p = (s', r) ->
       r <> UB /\ o_lookup s' = o_lookup s /\ o_etlookup s' = o_etlookup s /\ o_groups s' = o_groups s /\
       o_order s' = o_order s /\ o_backup s' = o_backup s /\ o_ets s' ≡ₚ o_ets s).
Proof. exact @o_permuteET_ok. Qed.
Print Assumptions opt_problem_permute_error_terms.

Example opt_problem_permute_case :
  o_getGroup ex_problem 7 = Ret [4; 5; 1] /\ [2; 0; 1] ≡ₚ seq 0 (length [4; 5; 1]) /\
  o_getGroup (fst (o_permuteDV ex_problem [2; 0; 1] 7)) 7 = Ret [1; 4; 5] /\
  [1; 0] ≡ₚ seq 0 (length (o_ets ex_problem)).
Proof.
  split; [vm_compute; done|]. split; [apply (bool_decide_unpack _); vm_compute; exact I|].
  split; [vm_compute; done|]. apply (bool_decide_unpack _); vm_compute; exact I.
Qed.
