(** C19-C25, C57, C58: [IncrementalEstimator].  Statements only.

    [e_reachable A nil h dim edim s]: every history of calls on an estimator over unmutated batches,
    in which [addBatch] was never given a null or incompatible batch; calls may throw for any other
    reason.  [OptReturns o] / [OptThrows new] / [MargThrows new v]: arbitrary behaviour of the optimizer
    and linear solver in that call.  [arith D]: arbitrary comparison/subtraction on doubles. *)
From stdpp Require Import prelude list gmap.
From Coq Require Import Reals.
From Verif Require Import Base OptProblemModel IncProblemModel Spec_IncProblem Properties_IncProblem
  EstimatorModel Spec_Estimator EstimatorSpecProofs.
Local Open Scope nat_scope.

(** ** A concrete estimator: batches of [hx] (Properties_IncProblem.v), marginalised group 7 *)
Definition zarith : arith Z := Arith Z 0%Z (-1)%Z Z.gtb Z.geb (fun x y => ((x - y) / 2)%Z).
Definition xview (rank : Z) (sum : Z) (m : nat) : solver_view Z nat :=
  SolverView m (m + 1) (m + 2) (m + 3) (m + 4) sum 1%Z 2%Z rank 0%Z 3%Z 0%Z 5%N 6%N 7%Z.
(** values of all optimized variables become [v]; JStart 100 *)
Definition xsolved (v : nat) (iters : nat) (jfinal : Z) (rank sum : Z) : outcome nat Z nat :=
  OptReturns (Solved (fun _ => v) iters 100%Z jfinal (xview rank sum 100) (xview rank sum (10 * v)) true).
Definition xopts : opts Z := Opts 2%Z true 20 true.
Definition xdim (d : nat) : nat := d.
Definition xedim (e : nat) : nat := e - 99.
Definition xstep (s : est nat Z nat) (op : eop nat Z nat) := estep zarith 0 hx xdim xedim s op.
Definition xinit : est nat Z nat := e_init zarith 0 7 xopts (fun d => negb (Nat.eqb d 6)) (fun d => d).
Definition xrun (ops : list (eop nat Z nat)) : est nat Z nat := e_run zarith 0 hx xdim xedim xinit ops.
(** batch 0 accepted (rank -1 -> 2), then batch 1 accepted by its gain (20 -> 30) *)
Definition xops : list (eop nat Z nat) :=
  [EAdd (Some 0) false (xsolved 1000 5 50 2 20); EAdd (Some 1) false (xsolved 2000 5 50 2 30)].
Definition xe : est nat Z nat := xrun xops.

Definition xreach := e_reachable zarith 0 hx xdim xedim.
Definition xadd := e_addBatch zarith 0 hx xdim xedim.

Example xe_reachable : xreach xe.
Proof. apply (e_run_reachable zarith 0 hx hx_edv xdim xedim hx_reachable); [constructor|vm_compute; reflexivity]. Qed.
Example xe_state :
  i_probs (e_prob xe) = [0; 1] /\ i_order (e_prob xe) = [3; 9; 7] /\ st_rankTheta (e_stats xe) = 2%Z /\
  st_infoGain (e_stats xe) = 5%Z /\ map (e_vals xe) [1; 2; 3; 4; 5; 6; 8] = [2000; 2000; 2000; 2000; 2000; 6; 8].
Proof. vm_compute. done. Qed.
Definition accepted_of (r : result (retval Z nat)) : option bool :=
  match r with Ret v => Some (rv_accepted v) | _ => None end.

(** C19.  The acceptance rule, and the batch is in the problem afterwards iff it was accepted. *)
Theorem estimator_acceptance_rule :
  forall (V D M : Type) (A : arith D) (nil : M) (h : nat -> oprob V) (edv : nat -> list nat)
         (dim edim : nat -> nat),
    (forall b, o_reachable edv (h b)) ->
    forall (s : est V D M) (b : nat) (force : bool) (o : solved V D M) (s' : est V D M) (r : retval D M),
    e_reachable A nil h dim edim s ->
    e_addBatch A nil h dim edim s (Some b) force (OptReturns o) = (s', Ret r) ->
    (rv_accepted r = true <->
     force = true \/
     ((op_checkValidity (e_opts s) = true ->
         o_iterations o <> op_maxIterations (e_opts s) /\ a_ge A (o_JFinal o) (o_JStart o) = false) /\
      (a_gt A (rv_infoGain r) (op_infoGainDelta (e_opts s)) = true \/
       (st_rankTheta (e_stats s) < rv_rankTheta r)%Z))) /\
    rv_infoGain r = a_half_diff A (v_log2Sum (o_marg_view o)) (st_svLog2Sum (e_stats s)) /\
    rv_rankTheta r = v_svdRank (o_marg_view o) /\
    (rv_accepted r = true -> i_probs (e_prob s') = i_probs (e_prob s) ++ [b]) /\
    (rv_accepted r = false -> i_probs (e_prob s') ≡ₚ i_probs (e_prob s)) /\
    (b ∉ i_probs (e_prob s) -> (b ∈ i_probs (e_prob s') <-> rv_accepted r = true)).
Proof. exact @est_acceptance. Qed.
Print Assumptions estimator_acceptance_rule.

(** rejected: gain 2 not above delta and rank not increased; accepted: gain 3; rejected: gain 3 but
    20 iterations; accepted: forced *)
Example estimator_acceptance_case :
  accepted_of (snd (xadd xe (Some 6) false (xsolved 3000 5 50 2 34))) = Some false /\
  accepted_of (snd (xadd xe (Some 6) false (xsolved 3000 5 50 2 36))) = Some true /\
  accepted_of (snd (xadd xe (Some 6) false (xsolved 3000 20 50 2 36))) = Some false /\
  accepted_of (snd (xadd xe (Some 6) false (xsolved 3000 5 100 3 36))) = Some false /\
  accepted_of (snd (xadd xe (Some 6) false (xsolved 3000 5 50 3 0))) = Some true /\
  accepted_of (snd (xadd xe (Some 6) true (xsolved 3000 20 200 1 0))) = Some true.
Proof. vm_compute. done. Qed.

(** C19, completeness: exactly when [addBatch] returns at all. *)
Theorem estimator_add_batch_returns_iff :
  forall (V D M : Type) (A : arith D) (nil : M) (h : nat -> oprob V) (edv : nat -> list nat)
         (dim edim : nat -> nat),
    (forall b, o_reachable edv (h b)) ->
    forall (s : est V D M) (p : option nat) (force : bool) (oc : outcome V D M),
    e_reachable A nil h dim edim s ->
    (exists s' r, e_addBatch A nil h dim edim s p force oc = (s', Ret r)) <->
    (exists b o, p = Some b /\ oc = OptReturns o /\ compatible h (e_prob s) b /\
       (has_group (e_prob s) (e_marg s) \/ brings_group h b (e_marg s)) /\
       (o_rebuilds o = true \/ accepts A s o force \/ i_probs (e_prob s) = [])).
Proof. exact @est_returns_iff. Qed.
Print Assumptions estimator_add_batch_returns_iff.

(** C20.  A rejected batch leaves no trace: every design variable (in or outside the problem) has its
    value back, the problem and all published statistics are as before.  The sequence of batches is
    the same too unless the very same batch object, without error terms, was already contained.  The
    backup then holds the current values of the problem's variables and nothing else. *)
Theorem estimator_rejected_batch_leaves_no_trace :
  forall (V D M : Type) (A : arith D) (nil : M) (h : nat -> oprob V) (edv : nat -> list nat)
         (dim edim : nat -> nat),
    (forall b, o_reachable edv (h b)) ->
    forall (s : est V D M) (b : nat) (force : bool) (oc : outcome V D M) (s' : est V D M) (r : retval D M),
    e_reachable A nil h dim edim s ->
    e_addBatch A nil h dim edim s (Some b) force oc = (s', Ret r) -> rv_accepted r = false ->
    (forall d, e_vals s' d = e_vals s d) /\
    i_probs (e_prob s') ≡ₚ i_probs (e_prob s) /\
    (b ∉ i_probs (e_prob s) \/ o_numET (h b) <> 0 -> i_probs (e_prob s') = i_probs (e_prob s)) /\
    i_counts (e_prob s') = i_counts (e_prob s) /\
    i_groups (e_prob s') = i_groups (e_prob s) /\
    i_order (e_prob s') = i_order (e_prob s) /\
    e_stats s' = e_stats s /\ e_opts s' = e_opts s /\ e_active s' = e_active s /\ e_marg s' = e_marg s /\
    (forall d vals, i_restore (e_prob s') vals d =
       if i_isDVInProblem (e_prob s') d then e_vals s d else vals d).
Proof. exact @est_rejected. Qed.
Print Assumptions estimator_rejected_batch_leaves_no_trace.

(** batch 6 brings new group 12, which is swapped before group 7 and removed again *)
Example estimator_rejected_case :
  let '(s1, r) := xadd xe (Some 6) false (xsolved 3000 5 50 2 34) in
  accepted_of r = Some false /\ i_order (e_prob s1) = [3; 9; 7] /\ i_probs (e_prob s1) = [0; 1] /\
  map (e_vals s1) [1; 2; 3; 4; 5; 6; 8] = [2000; 2000; 2000; 2000; 2000; 6; 8] /\
  map (fun x => i_order (fst (fst x))) (e_runs s1) = [[3; 7]; [3; 9; 7]; [3; 9; 12; 7]].
Proof. vm_compute. done. Qed.

(** C21.  Whenever the optimizer is started, the marginalised group is last in the groups ordering,
    and the active columns from marginalization index [k] on are exactly those of the active
    variables of that group. *)
Theorem estimator_marginal_block_is_trailing :
  forall (V D M : Type) (A : arith D) (nil : M) (h : nat -> oprob V) (edv : nat -> list nat)
         (dim edim : nat -> nat),
    (forall b, o_reachable edv (h b)) ->
    forall (s : est V D M) (q : inc V) (act : nat -> bool) (k : nat),
    e_reachable A nil h dim edim s -> (q, act, k) ∈ e_runs s ->
    exists pre, i_order q = pre ++ [e_marg s] /\ e_marg s ∉ pre /\
      active_variables act q =
        filter (fun d => act d = true) (concat (map (i_group_or_nil q) pre)) ++ active_in_group act q (e_marg s) /\
      k = total dim (filter (fun d => act d = true) (concat (map (i_group_or_nil q) pre))) /\
      (forall i d, active_variables act q !! i = Some d ->
         (i_getGroupId q d = Ret (e_marg s) <-> k <= total dim (take i (active_variables act q)) /\
            length (filter (fun d => act d = true) (concat (map (i_group_or_nil q) pre))) <= i)) /\
      (forall d, d ∈ active_in_group act q (e_marg s) <->
         act d = true /\ i_getGroupId q d = Ret (e_marg s)).
Proof. exact @est_marg_block. Qed.
Print Assumptions estimator_marginal_block_is_trailing.

(** The log of optimizer starts is complete: every returning [addBatch] adds one entry, for the
    problem that includes the batch. *)
Theorem estimator_runs_are_logged :
  forall (V D M : Type) (A : arith D) (nil : M) (h : nat -> oprob V) (edv : nat -> list nat)
         (dim edim : nat -> nat),
    (forall b, o_reachable edv (h b)) ->
    forall (s : est V D M) (b : nat) (force : bool) (oc : outcome V D M) (s' : est V D M) (r : retval D M),
    e_reachable A nil h dim edim s ->
    e_addBatch A nil h dim edim s (Some b) force oc = (s', Ret r) ->
    exists q k, e_runs s' = e_runs s ++ [(q, e_active s, k)] /\ e_margStart s' = k /\
      i_probs q = i_probs (e_prob s) ++ [b].
Proof. exact @est_run_logged. Qed.
Print Assumptions estimator_runs_are_logged.

Example estimator_marginal_block_case :
  map (fun x => (i_order (fst (fst x)), snd x)) (e_runs xe) = [([3; 7], 5); ([3; 9; 7], 12)].
Proof. vm_compute. done. Qed.

(** C22.  Over any sequence of [addBatch] calls (accepted, rejected or throwing) the information gains
    of the accepted batches add up to half the difference between the last accepted log2 sum of the
    singular values and the one at the start; exact arithmetic. *)
Theorem estimator_gains_telescope :
  forall (V M : Type) (A : arith R) (nil : M) (h : nat -> oprob V) (dim edim : nat -> nat),
    (forall x y, a_half_diff A x y = ((x - y) / 2)%R) ->
    forall (s s' : est V R M) tr,
    e_trace A nil h dim edim s tr s' -> (forall op r, (op, r) ∈ tr -> adds_only op) ->
    foldr Rplus 0%R (accepted_gains tr) = ((st_svLog2Sum (e_stats s') - st_svLog2Sum (e_stats s)) / 2)%R /\
    st_svLog2Sum (e_stats s') = List.last (accepted_log2sums tr) (st_svLog2Sum (e_stats s)).
Proof. exact @est_telescope. Qed.
Print Assumptions estimator_gains_telescope.

(** an estimator over the reals: batch 0 and 1 accepted by rank, batch 6 rejected *)
Definition rarith : arith R := Arith R 0%R (-1)%R (fun _ _ => false) (fun _ _ => false) (fun x y => ((x - y) / 2)%R).
Definition rview (rank : Z) (sum : R) : solver_view R nat :=
  SolverView 0 0 0 0 0 sum 0%R 0%R rank 0%Z 0%Z 0%Z 0%N 0%N 0%R.
Definition rops : list (eop nat R nat) :=
  let oc rank sum := OptReturns (Solved (fun _ => 1) 5 0%R 0%R (rview rank sum) (rview rank sum) true) in
  [EAdd (Some 0) false (oc 2%Z (ln 2)); EAdd (Some 6) false (oc 1%Z (ln 7)); EAdd (Some 1) false (oc 3%Z (ln 5))].
Fixpoint rtrace (s : est nat R nat) (ops : list (eop nat R nat)) :=
  match ops with
  | [] => []
  | op :: ops' => let x := estep rarith 0 hx xdim xedim s op in (op, snd x) :: rtrace (fst x) ops'
  end.
Definition rinit : est nat R nat := e_init rarith 0 7 (Opts 0%R true 20 true) (fun _ => true) (fun d => d).
Lemma rtrace_ok s ops :
  forallb (fun x : eop nat R nat * _ => match snd x with Ret _ | Throw _ => true | UB | Diverge => false end) (rtrace s ops) = true ->
  e_trace rarith 0 hx xdim xedim s (rtrace s ops) (e_run rarith 0 hx xdim xedim s ops).
Proof.
  revert s. induction ops as [|op ops IH]; intros s Hok; [constructor|].
  cbn [rtrace forallb snd] in *. apply andb_true_iff in Hok as [H1 H2].
  eapply et_cons; [apply surjective_pairing| |apply IH, H2].
  destruct (snd (estep rarith 0 hx xdim xedim s op)); done.
Qed.
Example estimator_gains_telescope_case :
  e_trace rarith 0 hx xdim xedim rinit (rtrace rinit rops) (e_run rarith 0 hx xdim xedim rinit rops) /\
  accepted_batches (rtrace rinit rops) = [0; 1] /\
  accepted_log2sums (rtrace rinit rops) = [ln 2; ln 5].
Proof. split; [apply rtrace_ok|]; vm_compute; done. Qed.

(** C23, refuted: a batch without variables of the marginalised group makes the first [addBatch]
    throw, but the batch stays in the problem; the same batch cannot be added again. *)
Theorem estimator_throwing_add_refuted :
  exists (s : est nat Z nat) (b : nat) (oc : outcome nat Z nat) (s' : est nat Z nat),
    xreach s /\ xadd s (Some b) false oc = (s', Throw InvalidOperation) /\ xreach s' /\
    e_getNumBatches s = 0 /\ e_getNumBatches s' = 1 /\ i_probs (e_prob s') = [b] /\
    forall force oc', exists s'', xadd s' (Some b) force oc' = (s'', Throw InvalidOperation).
Proof.
  set (oc := xsolved 1000 5 50 2 20).
  exists xinit, 1, oc, (xrun [EAdd (Some 1) false oc]).
  split; [constructor|]. split; [vm_compute; reflexivity|]. split.
  { apply (e_run_reachable zarith 0 hx hx_edv xdim xedim hx_reachable xinit [EAdd (Some 1) false oc]);
      [constructor|vm_compute; reflexivity]. }
  do 3 (split; [vm_compute; reflexivity|]).
  intros force oc'.
  assert (Hthrow : snd (i_add hx (e_prob (xrun [EAdd (Some 1) false oc])) (Some 1)) = Throw InvalidOperation)
    by (vm_compute; reflexivity).
  revert Hthrow. generalize (xrun [EAdd (Some 1) false oc]). intros s Hthrow.
  unfold xadd, e_addBatch. destruct (i_add hx (e_prob s) (Some 1)) as [q r]. cbn [snd] in Hthrow. subst r. eauto.
Qed.
Print Assumptions estimator_throwing_add_refuted.

(** C23, what holds: a throwing [addBatch] never changes the published statistics, changes values only
    if the optimizer or the marginal analysis itself threw and then only of variables in the problem;
    which exception is thrown when; and for every compatible batch whether the batch stays in the
    problem: always, unless the throw came from rebuilding the solver after a rejection, which is
    complete by then. *)
Theorem estimator_throwing_add_outcome :
  forall (V D M : Type) (A : arith D) (nil : M) (h : nat -> oprob V) (edv : nat -> list nat)
         (dim edim : nat -> nat),
    (forall b, o_reachable edv (h b)) ->
    forall (s : est V D M) (p : option nat) (force : bool) (oc : outcome V D M) (s' : est V D M) (e : exn),
    e_reachable A nil h dim edim s ->
    e_addBatch A nil h dim edim s p force oc = (s', Throw e) ->
    e_stats s' = e_stats s /\ e_opts s' = e_opts s /\
    ((forall new, oc <> OptThrows new) -> (forall new v, oc <> MargThrows new v) -> forall d, e_vals s' d = e_vals s d) /\
    (forall d, i_isDVInProblem (e_prob s') d = false -> e_vals s' d = e_vals s d) /\
    (e = NullPointer <-> p = None) /\
    (p = None -> s' = s) /\
    (forall b, p = Some b -> ~ compatible h (e_prob s) b ->
       e = InvalidOperation /\ i_probs (e_prob s') = i_probs (e_prob s)) /\
    (forall b, p = Some b -> compatible h (e_prob s) b ->
       e = InvalidOperation /\ ~ has_group (e_prob s) (e_marg s) /\ ~ brings_group h b (e_marg s) /\
         i_probs (e_prob s') = i_probs (e_prob s) ++ [b]
       \/ e = External /\ (exists new, oc = OptThrows new \/ exists v, oc = MargThrows new v) /\
         i_probs (e_prob s') = i_probs (e_prob s) ++ [b]
       \/ e = External /\ (exists o, oc = OptReturns o /\ o_rebuilds o = false /\ ~ accepts A s o force) /\
         i_probs (e_prob s') ≡ₚ i_probs (e_prob s) /\ i_probs (e_prob s') <> [] /\
         i_counts (e_prob s') = i_counts (e_prob s) /\ i_groups (e_prob s') = i_groups (e_prob s) /\
         i_order (e_prob s') = i_order (e_prob s)).
Proof. exact @est_throwing_add. Qed.
Print Assumptions estimator_throwing_add_outcome.

(** C24. *)
Theorem estimator_remove_batch :
  forall (V D M : Type) (A : arith D) (nil : M) (h : nat -> oprob V) (edv : nat -> list nat)
         (dim edim : nat -> nat),
    (forall b, o_reachable edv (h b)) ->
    forall (s : est V D M) (p : option nat) (oc : outcome V D M),
    e_reachable A nil h dim edim s ->
    ((forall b, p = Some b -> b ∉ i_probs (e_prob s)) -> e_removeBatch A nil h dim s p oc = (s, Ret tt)) /\
    (forall b l1 l2, p = Some b -> i_probs (e_prob s) = l1 ++ b :: l2 -> b ∉ l1 ->
     exists s' r, e_removeBatch A nil h dim s p oc = (s', r) /\
       i_probs (e_prob s') = l1 ++ l2 /\
       (exists q, i_remove_idx h (e_prob s) (length l1) = (q, Ret tt) /\ e_prob s' = q) /\
       (forall o, has_group (e_prob s') (e_marg s) -> oc = OptReturns o ->
          r = Ret tt /\
          (forall d, e_vals s' d = if i_isDVInProblem (e_prob s') d && e_active s d then o_newvals o d else e_vals s d) /\
          st_rankTheta (e_stats s') = v_svdRank (o_marg_view o) /\
          st_sigma (e_stats s') = v_covariance (o_marg_view o) /\
          st_svLog2Sum (e_stats s') = v_log2Sum (o_marg_view o) /\
          st_infoGain (e_stats s') = a_zero A /\
          st_finalCost (e_stats s') = o_JFinal o) /\
       (~ has_group (e_prob s') (e_marg s) ->
          r = Throw InvalidOperation /\ e_stats s' = e_stats s /\ e_vals s' = e_vals s) /\
       (forall new, has_group (e_prob s') (e_marg s) -> oc = OptThrows new ->
          r = Throw External /\ e_stats s' = e_stats s) /\
       (forall new v, has_group (e_prob s') (e_marg s) -> oc = MargThrows new v ->
          r = Throw External /\ only_scaled_replaced nil (op_columnScaling (e_opts s)) v (e_stats s) (e_stats s'))).
Proof. exact @est_remove. Qed.
Print Assumptions estimator_remove_batch.

(** removing batch 1 re-estimates; removing batch 0, the only one with group 7, throws *)
Example estimator_remove_case :
  let '(s1, r1) := e_removeBatch zarith 0 hx xdim xe (Some 1) (xsolved 9 5 50 1 10) in
  let '(s2, r2) := e_removeBatch zarith 0 hx xdim xe (Some 0) (xsolved 9 5 50 1 10) in
  r1 = Ret tt /\ i_probs (e_prob s1) = [0] /\ map (e_vals s1) [1; 2; 3; 5] = [9; 9; 2000; 9] /\
  st_rankTheta (e_stats s1) = 1%Z /\
  r2 = Throw InvalidOperation /\ i_probs (e_prob s2) = [1] /\ st_rankTheta (e_stats s2) = 2%Z.
Proof. vm_compute. done. Qed.

(** C25.  After a rejection with batches left: block indices number the active variables in
    enumeration order; their column ranges tile [0, total active dimension) in that order, and the
    row ranges of the error terms tile [0, total error dimension). *)
Theorem estimator_layout_after_rejection :
  forall (V D M : Type) (A : arith D) (nil : M) (h : nat -> oprob V) (edv : nat -> list nat)
         (dim edim : nat -> nat),
    (forall b, o_reachable edv (h b)) ->
    forall (s : est V D M) (b : nat) (force : bool) (oc : outcome V D M) (s' : est V D M) (r : retval D M),
    e_reachable A nil h dim edim s ->
    e_addBatch A nil h dim edim s (Some b) force oc = (s', Ret r) -> rv_accepted r = false ->
    i_probs (e_prob s') <> [] ->
    exists l, e_layout s' = Some l /\
      l_dvs l = active_variables (e_active s') (e_prob s') /\ l_ets l = i_flat_error_terms h (e_prob s') /\
      (forall d j, l_block l !! d = Some j <-> l_dvs l !! j = Some d) /\
      (forall d, is_Some (l_col l !! d) <-> d ∈ l_dvs l) /\
      (forall c, c < total dim (l_dvs l) <-> exists d k, l_col l !! d = Some k /\ k <= c < k + dim d) /\
      (forall c d d' k k', l_col l !! d = Some k -> l_col l !! d' = Some k' ->
         k <= c < k + dim d -> k' <= c < k' + dim d' -> d = d') /\
      (forall i j d d' k k', i < j -> l_block l !! d = Some i -> l_block l !! d' = Some j ->
         l_col l !! d = Some k -> l_col l !! d' = Some k' -> k + dim d <= k') /\
      (forall e, is_Some (l_row l !! e) <-> e ∈ l_ets l) /\
      (forall c, c < sum_list_with edim (l_ets l) <-> exists e k, l_row l !! e = Some k /\ k <= c < k + edim e) /\
      (forall c e e' k k', l_row l !! e = Some k -> l_row l !! e' = Some k' ->
         k <= c < k + edim e -> k' <= c < k' + edim e' -> e = e').
Proof. exact @est_layout. Qed.
Print Assumptions estimator_layout_after_rejection.

Example estimator_layout_case :
  let '(s1, r) := xadd xe (Some 6) false (xsolved 3000 5 50 2 34) in
  match e_layout s1 with
  | Some l => map (fun d => (l_block l !! d, l_col l !! d)) [5; 3; 4; 1; 2; 6; 8] =
                [(Some 0, Some 0); (Some 1, Some 5); (Some 2, Some 8); (Some 3, Some 12); (Some 4, Some 13);
                 (None, None); (None, None)] /\
              map (fun e => l_row l !! e) [100; 101; 102; 103] = [Some 0; Some 1; Some 3; None]
  | None => False
  end.
Proof. vm_compute. done. Qed.

(** C57.  In a history of [addBatch] calls that all return, the batches of the problem are exactly
    those already there followed by the accepted ones, in order. *)
Theorem estimator_contains_accepted_batches :
  forall (V D M : Type) (A : arith D) (nil : M) (h : nat -> oprob V) (edv : nat -> list nat)
         (dim edim : nat -> nat),
    (forall b, o_reachable edv (h b)) ->
    forall (s : est V D M) tr (s' : est V D M),
    e_reachable A nil h dim edim s -> e_trace A nil h dim edim s tr s' ->
    (forall op r, (op, r) ∈ tr -> adds_only op /\ exists x, r = Ret x) ->
    e_reachable A nil h dim edim s' /\
    i_probs (e_prob s') ≡ₚ i_probs (e_prob s) ++ accepted_batches tr /\
    ((forall b force oc r, (EAdd (Some b) force oc, r) ∈ tr -> o_numET (h b) <> 0) ->
     i_probs (e_prob s') = i_probs (e_prob s) ++ accepted_batches tr).
Proof. exact @est_accepted_list. Qed.
Print Assumptions estimator_contains_accepted_batches.

(** C58.  After an accepted [addBatch] and after [reoptimize] every getter answers what was returned,
    and that is what optimizer and solver reported; the active variables have the optimizer's values. *)
Theorem estimator_published_after_accept :
  forall (V D M : Type) (A : arith D) (nil : M) (h : nat -> oprob V) (dim edim : nat -> nat)
    (s : est V D M) (b : nat) (force : bool) (oc : outcome V D M) (s' : est V D M) (r : retval D M),
    e_addBatch A nil h dim edim s (Some b) force oc = (s', Ret r) -> rv_accepted r = true ->
    exists o, oc = OptReturns o /\ published_is_returned s' r /\ returned_is_solved nil (e_opts s) o r /\
      rv_infoGain r = a_half_diff A (v_log2Sum (o_marg_view o)) (st_svLog2Sum (e_stats s)) /\
      st_svLog2Sum (e_stats s') = v_log2Sum (o_marg_view o) /\
      st_peakMem (e_stats s') = v_peakMem (o_marg_view o) /\ st_mem (e_stats s') = v_mem (o_marg_view o) /\
      st_flops (e_stats s') = v_flops (o_marg_view o) /\
      (forall d, e_vals s' d = if i_isDVInProblem (e_prob s') d && e_active s d then o_newvals o d else e_vals s d).
Proof. exact @est_published_add. Qed.
Print Assumptions estimator_published_after_accept.

Theorem estimator_published_after_reoptimize :
  forall (V D M : Type) (A : arith D) (nil : M) (h : nat -> oprob V) (edv : nat -> list nat)
         (dim edim : nat -> nat),
    (forall b, o_reachable edv (h b)) ->
    forall (s : est V D M) (oc : outcome V D M) (s' : est V D M) (r : retval D M),
    e_reachable A nil h dim edim s -> e_reoptimize A nil dim s oc = (s', Ret r) ->
    exists o, oc = OptReturns o /\ published_is_returned s' r /\ returned_is_solved nil (e_opts s) o r /\
      rv_accepted r = true /\ rv_infoGain r = a_zero A /\
      st_svLog2Sum (e_stats s') = v_log2Sum (o_marg_view o) /\
      e_prob s' = e_prob s /\
      (forall d, e_vals s' d = if i_isDVInProblem (e_prob s) d && e_active s d then o_newvals o d else e_vals s d).
Proof. exact @est_published_reopt. Qed.
Print Assumptions estimator_published_after_reoptimize.

(** C101.  Exactly what [reoptimize] does. *)
Theorem estimator_reoptimize_outcome :
  forall (V D M : Type) (A : arith D) (nil : M) (h : nat -> oprob V) (edv : nat -> list nat)
         (dim edim : nat -> nat),
    (forall b, o_reachable edv (h b)) ->
    forall (s : est V D M) (oc : outcome V D M) (s' : est V D M) (r : result (retval D M)),
    e_reachable A nil h dim edim s -> e_reoptimize A nil dim s oc = (s', r) ->
    e_prob s' = e_prob s /\ e_opts s' = e_opts s /\ e_layout s' = e_layout s /\
    (~ has_group (e_prob s) (e_marg s) -> r = Throw InvalidOperation /\ s' = s) /\
    (has_group (e_prob s) (e_marg s) ->
       match oc with
       | OptReturns o => exists rv, r = Ret rv
       | OptThrows new => r = Throw External /\ e_stats s' = e_stats s
       | MargThrows _ v => r = Throw External /\
           only_scaled_replaced nil (op_columnScaling (e_opts s)) v (e_stats s) (e_stats s')
       end) /\
    (forall d, e_vals s' d =
       if i_isDVInProblem (e_prob s) d && e_active s d && bool_decide (e_marg s ∈ i_order (e_prob s))
       then match oc with OptReturns o => o_newvals o d | OptThrows new | MargThrows new _ => new d end
       else e_vals s d).
Proof. exact @est_reopt_outcome. Qed.
Print Assumptions estimator_reoptimize_outcome.

(** C101, refuted: after a [reoptimize] that threw, the scaled covariance is that of the new estimate
    and the unscaled one that of the old, while the rank, costs and gain are the old ones. *)
Theorem estimator_reoptimize_throw_refuted :
  exists (s : est nat Z nat) (oc : outcome nat Z nat) (s' : est nat Z nat) (e : exn),
    xreach s /\ e_reoptimize zarith 0 xdim s oc = (s', Throw e) /\
    st_sigmaS (e_stats s') <> st_sigmaS (e_stats s) /\ st_sigma (e_stats s') = st_sigma (e_stats s) /\
    (exists d, e_vals s' d <> e_vals s d).
Proof.
  exists xe, (MargThrows (fun _ => 77) (xview 3 50 500)). eexists _, External.
  split; [exact xe_reachable|]. split; [vm_compute; reflexivity|]. split; [vm_compute; discriminate|].
  split; [vm_compute; reflexivity|]. exists 1. vm_compute. discriminate.
Qed.
Print Assumptions estimator_reoptimize_throw_refuted.
Example estimator_rebuild_throws_case :
  let '(s1, r) := xadd xe (Some 6) false
     (OptReturns (Solved (fun _ => 3000) 5 100%Z 50%Z (xview 2 34 100) (xview 2 34 100) false)) in
  r = Throw External /\ i_probs (e_prob s1) = [0; 1] /\ map (e_vals s1) [1; 2; 5] = [2000; 2000; 2000].
Proof. vm_compute. done. Qed.
