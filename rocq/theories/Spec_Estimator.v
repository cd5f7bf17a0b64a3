(** Vocabulary used in the statements about [IncrementalEstimator]. *)
From stdpp Require Import prelude list gmap.
From Verif Require Import Base OptProblemModel IncProblemModel Spec_IncProblem EstimatorModel.

Section spec.
Context {V D M : Type} (A : arith D) (nil : M) (h : nat -> oprob V) (dim edim : nat -> nat).
Implicit Types s : est V D M.

(** The batch can be added to the problem: no variable already there in another group, no error term
    already there (see C55 for the equivalence with [add] returning). *)
Definition compatible (q : inc V) (p : nat) : Prop :=
  (forall d g g', o_getGroupId (h p) d = Ret g -> i_getGroupId q d = Ret g' -> g' = g) /\
  (forall e, o_isETInProblem (h p) e = true -> i_isETInProblem h q e = false).

(** Every history of estimator calls that came back in which [addBatch] was never called with a null
    or incompatible batch.  Calls may throw for the other reasons: marginalised group missing,
    optimizer failure, index out of range. *)
Inductive e_reachable : est V D M -> Prop :=
| er_init m o act vals : e_reachable (e_init A nil m o act vals)
| er_step s op s' r :
    e_reachable s -> estep A nil h dim edim s op = (s', r) -> came_back r ->
    (forall p force oc, op = EAdd p force oc -> exists b, p = Some b /\ compatible (e_prob s) b) ->
    e_reachable s'.

(** Total dimension of a list of variables that are all active. *)
Definition total (l : list nat) : nat := sum_list_with dim l.
(** Active variables in the order of [designVariable(0), designVariable(1), ...]. *)
Definition active_variables (act : nat -> bool) (q : inc V) : list nat :=
  filter (fun d => act d = true) (i_flat_variables q).
Definition active_in_group (act : nat -> bool) (q : inc V) (g : nat) : list nat :=
  filter (fun d => act d = true) (i_group_or_nil q g).

(** The marginalised group appears in the problem. *)
Definition has_group (q : inc V) (g : nat) : Prop := g ∈ i_order q.
(** Batch [p] brings a variable of group [g]. *)
Definition brings_group (p g : nat) : Prop := exists d, o_getGroupId (h p) d = Ret g.

(** The acceptance rule: forced, or a valid solution that gains enough information or raises the rank. *)
Definition accepts s (o : solved V D M) (force : bool) : Prop :=
  force = true \/
  ((op_checkValidity (e_opts s) = true ->
      o_iterations o <> op_maxIterations (e_opts s) /\ a_ge A (o_JFinal o) (o_JStart o) = false) /\
   (a_gt A (a_half_diff A (v_log2Sum (o_marg_view o)) (st_svLog2Sum (e_stats s))) (op_infoGainDelta (e_opts s)) = true \/
    (st_rankTheta (e_stats s) < v_svdRank (o_marg_view o))%Z)).

(** [t'] differs from [t] exactly in the five scaled statistics, which come from the solver view [v]. *)
Definition only_scaled_replaced (on : bool) (v : solver_view D M) (t t' : stats D M) : Prop :=
  st_nobsS t' = (if on then v_nullSpace v else nil) /\ st_obsS t' = (if on then v_rowSpace v else nil) /\
  st_sigmaS t' = (if on then v_covariance v else nil) /\ st_sigmaObsS t' = (if on then v_rowSpaceCov v else nil) /\
  st_svS t' = (if on then v_singularValues v else nil) /\
  st_infoGain t' = st_infoGain t /\ st_svLog2Sum t' = st_svLog2Sum t /\ st_nobs t' = st_nobs t /\
  st_obs t' = st_obs t /\ st_sigma t' = st_sigma t /\ st_sigmaObs t' = st_sigmaObs t /\ st_sv t' = st_sv t /\
  st_svdTol t' = st_svdTol t /\ st_qrTol t' = st_qrTol t /\
  st_rankTheta t' = st_rankTheta t /\ st_rankThetaDef t' = st_rankThetaDef t /\
  st_rankPsi t' = st_rankPsi t /\ st_rankPsiDef t' = st_rankPsiDef t /\
  st_peakMem t' = st_peakMem t /\ st_mem t' = st_mem t /\ st_flops t' = st_flops t /\
  st_initialCost t' = st_initialCost t /\ st_finalCost t' = st_finalCost t.

(** Histories with what each call returned. *)
Inductive e_trace : est V D M -> list (eop V D M * result (option (retval D M))) -> est V D M -> Prop :=
| et_nil s : e_trace s [] s
| et_cons s op r s1 tr s2 :
    estep A nil h dim edim s op = (s1, r) -> came_back r -> e_trace s1 tr s2 ->
    e_trace s ((op, r) :: tr) s2.

(** Calls to [addBatch], and changes of values, flags and options by the user. *)
Definition adds_only (op : eop V D M) : Prop :=
  match op with EAdd _ _ _ | ESetValues _ | ESetActive _ | ESetOptions _ => True
              | ERemoveIdx _ _ | ERemove _ _ | EReoptimize _ => False end.

(** Batch, solver outcome and return value of an accepted batch. *)
Definition accepted_event (ev : eop V D M * result (option (retval D M)))
  : option (nat * solved V D M * retval D M) :=
  match ev with
  | (EAdd (Some b) _ (OptReturns o), Ret (Some r)) => if rv_accepted r then Some (b, o, r) else None
  | _ => None
  end.
Definition accepted_batches tr : list nat := map (fun x => fst (fst x)) (omap accepted_event tr).
Definition accepted_gains tr : list D := map (fun x => rv_infoGain (snd x)) (omap accepted_event tr).
(** log2 sum of the singular values the solver reported for each accepted batch *)
Definition accepted_log2sums tr : list D := map (fun x => v_log2Sum (o_marg_view (snd (fst x)))) (omap accepted_event tr).

(** All getters answer the corresponding field of a return value. *)
Definition published_is_returned s (r : retval D M) : Prop :=
  st_infoGain (e_stats s) = rv_infoGain r /\
  st_rankPsi (e_stats s) = rv_rankPsi r /\ st_rankPsiDef (e_stats s) = rv_rankPsiDef r /\
  st_rankTheta (e_stats s) = rv_rankTheta r /\ st_rankThetaDef (e_stats s) = rv_rankThetaDef r /\
  st_svdTol (e_stats s) = rv_svdTol r /\ st_qrTol (e_stats s) = rv_qrTol r /\
  st_nobs (e_stats s) = rv_nobs r /\ st_nobsS (e_stats s) = rv_nobsS r /\
  st_obs (e_stats s) = rv_obs r /\ st_obsS (e_stats s) = rv_obsS r /\
  st_sigma (e_stats s) = rv_sigma r /\ st_sigmaS (e_stats s) = rv_sigmaS r /\
  st_sigmaObs (e_stats s) = rv_sigmaObs r /\ st_sigmaObsS (e_stats s) = rv_sigmaObsS r /\
  st_sv (e_stats s) = rv_sv r /\ st_svS (e_stats s) = rv_svS r /\
  st_initialCost (e_stats s) = rv_JStart r /\ st_finalCost (e_stats s) = rv_JFinal r.

(** The part of the return value that comes from the solver. *)
Definition returned_is_solved (op : opts D) (o : solved V D M) (r : retval D M) : Prop :=
  let m := o_marg_view o in
  let v := o_view o in
  let sc (x : M) := if op_columnScaling op then x else nil in
  rv_rankPsi r = v_qrRank m /\ rv_rankPsiDef r = v_qrRankDef m /\
  rv_rankTheta r = v_svdRank m /\ rv_rankThetaDef r = v_svdRankDef m /\
  rv_svdTol r = v_svdTol m /\ rv_qrTol r = v_qrTol m /\
  rv_nobs r = v_nullSpace m /\ rv_nobsS r = sc (v_nullSpace v) /\
  rv_obs r = v_rowSpace m /\ rv_obsS r = sc (v_rowSpace v) /\
  rv_sigma r = v_covariance m /\ rv_sigmaS r = sc (v_covariance v) /\
  rv_sigmaObs r = v_rowSpaceCov m /\ rv_sigmaObsS r = sc (v_rowSpaceCov v) /\
  rv_sv r = v_singularValues m /\ rv_svS r = sc (v_singularValues v) /\
  rv_iterations r = o_iterations o /\ rv_JStart r = o_JStart o /\ rv_JFinal r = o_JFinal o.

End spec.
