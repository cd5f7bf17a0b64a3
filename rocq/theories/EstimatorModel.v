(** Model of [aslam::calibration::IncrementalEstimator]
    (incremental_calibration/src/core/IncrementalEstimator.cpp).

    External parts, passed in as data so that the theorems hold for every behaviour of theirs:
    - the optimizer ([_optimizer->optimize()]) and the truncated-SVD linear solver: one [outcome]
      per call.  The optimizer writes values of active variables of the problem only;
    - floating point: an arbitrary [arith] (comparisons need not be orders, so NaN is covered);
    - matrices and vectors: an arbitrary type [M] with one distinguished empty value.
    Not modelled: elapsed time, verbose output, [getJacobianTranspose]. *)
From stdpp Require Import prelude list gmap.
From Verif Require Import Base PermuteModel OptProblemModel IncProblemModel.

(** The operations of [double] used by the estimator. *)
Record arith (D : Type) := Arith {
  a_zero : D; a_minus_one : D;
  a_gt : D -> D -> bool;               (* x > y *)
  a_ge : D -> D -> bool;               (* x >= y *)
  a_half_diff : D -> D -> D            (* 0.5 * (x - y) *)
}.
Global Arguments a_zero {D}. Global Arguments a_minus_one {D}. Global Arguments a_gt {D}.
Global Arguments a_ge {D}. Global Arguments a_half_diff {D}.

Section est.
Context {V D M : Type}.

(** What the getters of the linear solver answer at one moment (aslam-tsvd-solver). *)
Record solver_view := SolverView {
  v_singularValues : M; v_nullSpace : M; v_rowSpace : M; v_covariance : M; v_rowSpaceCov : M;
  v_log2Sum : D; v_svdTol : D; v_qrTol : D;
  v_svdRank : Z; v_svdRankDef : Z; v_qrRank : Z; v_qrRankDef : Z;
  v_peakMem : N; v_mem : N; v_flops : D
}.

(** Result of [_optimizer->optimize()] followed by the solver state before and after
    [analyzeMarginal()]. *)
Record solved := Solved {
  o_newvals : nat -> V;                (* parameters written to the optimized variables *)
  o_iterations : nat; o_JStart : D; o_JFinal : D;
  o_view : solver_view;                (* after optimize() *)
  o_marg_view : solver_view;           (* after analyzeMarginal() *)
  o_rebuilds : bool                    (* would initMatrixStructure() and buildSystem(), called after a
                                          rejection (517-521), return rather than throw? *)
}.
Inductive outcome :=
| OptReturns (o : solved)
| OptThrows (newvals : nat -> V)       (* threw, possibly after having changed variables *)
| MargThrows (newvals : nat -> V) (v : solver_view).
    (* optimize() returned, leaving the solver at [v]; analyzeMarginal() threw *)

(** [IncrementalEstimator::Options] (verbose omitted), and the two options of the optimizer and of
    the linear solver that the code reads. *)
Record opts := Opts {
  op_infoGainDelta : D; op_checkValidity : bool; op_maxIterations : nat; op_columnScaling : bool
}.

(** Published members, IncrementalEstimator.h; one getter each ([_svLog2Sum] has none). *)
Record stats := Stats {
  st_infoGain : D; st_svLog2Sum : D;
  st_nobs : M; st_nobsS : M; st_obs : M; st_obsS : M;
  st_sigma : M; st_sigmaS : M; st_sigmaObs : M; st_sigmaObsS : M; st_sv : M; st_svS : M;
  st_svdTol : D; st_qrTol : D;
  st_rankTheta : Z; st_rankThetaDef : Z; st_rankPsi : Z; st_rankPsiDef : Z;
  st_peakMem : N; st_mem : N; st_flops : D; st_initialCost : D; st_finalCost : D
}.

(** [ReturnValue] without the elapsed time. *)
Record retval := RetVal {
  rv_accepted : bool; rv_infoGain : D;
  rv_rankPsi : Z; rv_rankPsiDef : Z; rv_rankTheta : Z; rv_rankThetaDef : Z;
  rv_svdTol : D; rv_qrTol : D;
  rv_nobs : M; rv_nobsS : M; rv_obs : M; rv_obsS : M;
  rv_sigma : M; rv_sigmaS : M; rv_sigmaObs : M; rv_sigmaObsS : M; rv_sv : M; rv_svS : M;
  rv_iterations : nat; rv_JStart : D; rv_JFinal : D
}.

(** What [restoreLinearSolver] wrote: block index and column base of the variables, row base of the
    error terms, and the arguments of [initMatrixStructure]. *)
Record layout := Layout {
  l_block : gmap nat nat; l_col : gmap nat nat; l_row : gmap nat nat;
  l_dvs : list nat; l_ets : list nat
}.

Record est := Est {
  e_marg : nat;                        (* _margGroupId *)
  e_opts : opts;                       (* _options and optimizer / solver options *)
  e_active : nat -> bool;              (* activity flags of the design variables *)
  e_vals : nat -> V;                   (* parameters of the design variables *)
  e_prob : inc V;                      (* *_problem *)
  e_stats : stats;
  e_margStart : nat;                   (* marginalization index of the linear solver *)
  e_layout : option layout;            (* written by the last restoreLinearSolver *)
  e_runs : list (inc V * (nat -> bool) * nat)
    (* ghost: problem, activity flags and marginalization index at each start of the optimizer *)
}.

Context (A : arith D) (nil : M) (h : nat -> oprob V) (dim : nat -> nat) (edim : nat -> nat).

(** Constructors 31-61 and 63-92 (both give the same state; option parsing is not modelled). *)
Definition stats0 : stats :=
  Stats (a_zero A) (a_zero A) nil nil nil nil nil nil nil nil nil nil (a_zero A) (a_minus_one A)
    (-1) (-1) (-1) (-1) 0 0 (a_zero A) (a_zero A) (a_zero A).
Definition e_init (m : nat) (o : opts) (act : nat -> bool) (vals : nat -> V) : est :=
  Est m o act vals i_empty stats0 0 None [].

(** 472-487 *)
Definition order_marg (m : nat) (q : inc V) : inc V * result unit :=
  match find_index m (i_order q), last (i_order q) with
  | Some i, Some b =>
    if Nat.eqb m b then (q, Ret tt)
    else i_setGroupsOrdering q (<[length (i_order q) - 1 := m]> (<[i := b]> (i_order q)))
  | _, _ => (q, Throw InvalidOperation)
  end.

(** 242-245, 335-338: total dimension of the groups *)
Fixpoint total_dim (act : nat -> bool) (q : inc V) (order : list nat) (acc : nat) : result nat :=
  match order with
  | [] => Ret acc
  | g :: rest => rbind (i_getGroupDim act dim q g) (fun n => total_dim act q rest (acc + n))
  end.
(** 246-248, 339-341 *)
Definition marg_start (act : nat -> bool) (q : inc V) (m : nat) : result nat :=
  rbind (total_dim act q (i_order q) 0) (fun n =>
  rbind (i_getGroupDim act dim q m) (fun k => Ret (n - k))).

(** Effect of the optimizer on the parameters: active variables of the problem only. *)
Definition written (act : nat -> bool) (q : inc V) (new old : nat -> V) : nat -> V :=
  fun d => if i_isDVInProblem q d && act d then new d else old d.

(** 489-523: [lay_dvs] 493-503, [lay_ets] 507-515; the system is then built from the result *)
Fixpoint lay_dvs (act : nat -> bool) (q : inc V) (todo i : nat) (l : layout) (col : nat) : result layout :=
  match todo with
  | 0 => Ret l
  | S todo' =>
    rbind (i_designVariable q i) (fun d =>
      if act d then
        lay_dvs act q todo' (S i)
          (Layout (<[d := length (l_dvs l ++ [d]) - 1]> (l_block l)) (<[d := col]> (l_col l)) (l_row l)
                  (l_dvs l ++ [d]) (l_ets l)) (col + dim d)
      else lay_dvs act q todo' (S i) l col)
  end.
Fixpoint lay_ets (q : inc V) (todo i : nat) (l : layout) (row : nat) : result layout :=
  match todo with
  | 0 => Ret l
  | S todo' =>
    rbind (i_errorTerm h q i) (fun e =>
      lay_ets q todo' (S i)
        (Layout (l_block l) (l_col l) (<[e := row]> (l_row l)) (l_dvs l) (l_ets l ++ [e])) (row + edim e))
  end.
Definition restoreLinearSolver (act : nat -> bool) (q : inc V) : result layout :=
  rbind (lay_dvs act q (i_numDV q) 0 (Layout ∅ ∅ ∅ [] []) 0) (fun l =>
  lay_ets q (i_numET h q) 0 l 0).

(** 254-267, 355-368: scaled matrices, or empty ones *)
Definition scaled (on : bool) (m : M) : M := if on then m else nil.

(** State right before the optimizer is started (252, 343). *)
Definition started (s : est) (q : inc V) (k : nat) : est :=
  Est (e_marg s) (e_opts s) (e_active s) (e_vals s) q (e_stats s) k (e_layout s)
      (e_runs s ++ [(q, e_active s, k)]).
Definition with_vals (s : est) (vals : nat -> V) : est :=
  Est (e_marg s) (e_opts s) (e_active s) vals (e_prob s) (e_stats s) (e_margStart s) (e_layout s) (e_runs s).
Definition with_prob (s : est) (q : inc V) : est :=
  Est (e_marg s) (e_opts s) (e_active s) (e_vals s) q (e_stats s) (e_margStart s) (e_layout s) (e_runs s).
Definition with_stats (s : est) (t : stats) : est :=
  Est (e_marg s) (e_opts s) (e_active s) (e_vals s) (e_prob s) t (e_margStart s) (e_layout s) (e_runs s).
Definition with_layout (s : est) (l : layout) : est :=
  Est (e_marg s) (e_opts s) (e_active s) (e_vals s) (e_prob s) (e_stats s) (e_margStart s) (Some l) (e_runs s).

(** 254-267: the members written before analyzeMarginal() is called *)
Definition with_scaled (on : bool) (v : solver_view) (t : stats) : stats :=
  Stats (st_infoGain t) (st_svLog2Sum t)
    (st_nobs t) (scaled on (v_nullSpace v)) (st_obs t) (scaled on (v_rowSpace v))
    (st_sigma t) (scaled on (v_covariance v)) (st_sigmaObs t) (scaled on (v_rowSpaceCov v))
    (st_sv t) (scaled on (v_singularValues v))
    (st_svdTol t) (st_qrTol t) (st_rankTheta t) (st_rankThetaDef t) (st_rankPsi t) (st_rankPsiDef t)
    (st_peakMem t) (st_mem t) (st_flops t) (st_initialCost t) (st_finalCost t).

(** 234-317 *)
Definition e_reoptimize (s : est) (oc : outcome) : est * result retval :=
  match order_marg (e_marg s) (e_prob s) with                                       (* 239 *)
  | (q, Ret _) =>
    match marg_start (e_active s) q (e_marg s) with                                 (* 242-248 *)
    | Ret k =>
      let s1 := started s q k in
      match oc with                                                                 (* 251 *)
      | OptThrows new => (with_vals s1 (written (e_active s) q new (e_vals s)), Throw External)
      | MargThrows new v =>                                                         (* 254-270 *)
        (with_stats (with_vals s1 (written (e_active s) q new (e_vals s)))
                    (with_scaled (op_columnScaling (e_opts s)) v (e_stats s)), Throw External)
      | OptReturns o =>
        let s2 := with_vals s1 (written (e_active s) q (o_newvals o) (e_vals s)) in
        let on := op_columnScaling (e_opts s) in
        let v := o_view o in
        let m := o_marg_view o in
        let t := Stats (a_zero A) (v_log2Sum m)                                     (* 254-290 *)
          (v_nullSpace m) (scaled on (v_nullSpace v)) (v_rowSpace m) (scaled on (v_rowSpace v))
          (v_covariance m) (scaled on (v_covariance v)) (v_rowSpaceCov m) (scaled on (v_rowSpaceCov v))
          (v_singularValues m) (scaled on (v_singularValues v))
          (v_svdTol m) (v_qrTol m) (v_svdRank m) (v_svdRankDef m) (v_qrRank m) (v_qrRankDef m)
          (v_peakMem m) (v_mem m) (v_flops m) (o_JStart o) (o_JFinal o) in
        (with_stats s2 t,
         Ret (RetVal true (a_zero A) (st_rankPsi t) (st_rankPsiDef t) (st_rankTheta t)
                (st_rankThetaDef t) (st_svdTol t) (st_qrTol t) (st_nobs t) (st_nobsS t) (st_obs t)
                (st_obsS t) (st_sigma t) (st_sigmaS t) (st_sigmaObs t) (st_sigmaObsS t) (st_sv t)
                (st_svS t) (o_iterations o) (st_initialCost t) (st_finalCost t)))   (* 293-316 *)
      end
    | Throw e => (with_prob s q, Throw e) | UB => (with_prob s q, UB) | Diverge => (with_prob s q, Diverge)
    end
  | (q, Throw e) => (with_prob s q, Throw e)
  | (q, UB) => (with_prob s q, UB)
  | (q, Diverge) => (with_prob s q, Diverge)
  end.

(** 347-384 and 393-394: the return value of [addBatch], before [batchAccepted] is set *)
Definition batch_return (s : est) (o : solved) : retval :=
  let on := op_columnScaling (e_opts s) in
  let v := o_view o in
  let m := o_marg_view o in
  RetVal false (a_half_diff A (v_log2Sum m) (st_svLog2Sum (e_stats s)))
    (v_qrRank m) (v_qrRankDef m) (v_svdRank m) (v_svdRankDef m) (v_svdTol m) (v_qrTol m)
    (v_nullSpace m) (scaled on (v_nullSpace v)) (v_rowSpace m) (scaled on (v_rowSpace v))
    (v_covariance m) (scaled on (v_covariance v)) (v_rowSpaceCov m) (scaled on (v_rowSpaceCov v))
    (v_singularValues m) (scaled on (v_singularValues v))
    (o_iterations o) (o_JStart o) (o_JFinal o).
(** 387-390 *)
Definition solution_valid (op : opts) (o : solved) : bool :=
  negb (op_checkValidity op && (Nat.eqb (o_iterations o) (op_maxIterations op) || a_ge A (o_JFinal o) (o_JStart o))).
(** 397-399 *)
Definition keep_batch (s : est) (o : solved) (r : retval) (force : bool) : bool :=
  ((a_gt A (rv_infoGain r) (op_infoGainDelta (e_opts s)) || Z.gtb (rv_rankTheta r) (st_rankTheta (e_stats s)))
   && solution_valid (e_opts s) o) || force.
(** 408-430 *)
Definition kept_stats (o : solved) (r : retval) : stats :=
  let m := o_marg_view o in
  Stats (rv_infoGain r) (v_log2Sum m) (rv_nobs r) (rv_nobsS r) (rv_obs r) (rv_obsS r)
    (rv_sigma r) (rv_sigmaS r) (rv_sigmaObs r) (rv_sigmaObsS r) (rv_sv r) (rv_svS r)
    (rv_svdTol r) (rv_qrTol r) (rv_rankTheta r) (rv_rankThetaDef r) (rv_rankPsi r) (rv_rankPsiDef r)
    (v_peakMem m) (v_mem m) (v_flops m) (o_JStart o) (o_JFinal o).
Definition with_accepted (r : retval) (b : bool) : retval :=                        (* 432 *)
  RetVal b (rv_infoGain r) (rv_rankPsi r) (rv_rankPsiDef r) (rv_rankTheta r) (rv_rankThetaDef r)
    (rv_svdTol r) (rv_qrTol r) (rv_nobs r) (rv_nobsS r) (rv_obs r) (rv_obsS r)
    (rv_sigma r) (rv_sigmaS r) (rv_sigmaObs r) (rv_sigmaObsS r) (rv_sv r) (rv_svS r)
    (rv_iterations r) (rv_JStart r) (rv_JFinal r).

(** 319-452 *)
Definition e_addBatch (s : est) (p : option nat) (force : bool) (oc : outcome) : est * result retval :=
  match i_add h (e_prob s) p with                                                   (* 325 *)
  | (q1, Ret _) =>
    match order_marg (e_marg s) q1 with                                             (* 328 *)
    | (q2, Ret _) =>
      let q3 := if force then q2 else i_save q2 (e_vals s) in                       (* 331-332 *)
      match marg_start (e_active s) q3 (e_marg s) with                              (* 335-341 *)
      | Ret k =>
        let s1 := started s q3 k in
        match oc with                                                               (* 344 *)
        | OptThrows new | MargThrows new _ =>                                       (* 344, 371 *)
          (with_vals s1 (written (e_active s) q3 new (e_vals s)), Throw External)
        | OptReturns o =>
          let s2 := with_vals s1 (written (e_active s) q3 (o_newvals o) (e_vals s)) in
          let r := batch_return s o in
          if keep_batch s o r force then
            (with_stats s2 (kept_stats o r), Ret (with_accepted r true))
          else
            let s3 := with_vals s2 (i_restore q3 (e_vals s2)) in                    (* 437 *)
            match i_remove h q3 p with                                              (* 440 *)
            | (q4, Ret _) =>
              let s4 := with_prob s3 q4 in
              if Nat.ltb 0 (i_numProblems q4) then                                  (* 443-444 *)
                match restoreLinearSolver (e_active s) q4 with
                | Ret l => (with_layout s4 l,
                            if o_rebuilds o then Ret (with_accepted r false) else Throw External)
                | Throw e => (s4, Throw e) | UB => (s4, UB) | Diverge => (s4, Diverge)
                end
              else (s4, Ret (with_accepted r false))
            | (q4, Throw e) => (with_prob s3 q4, Throw e)
            | (q4, UB) => (with_prob s3 q4, UB)
            | (q4, Diverge) => (with_prob s3 q4, Diverge)
            end
        end
      | Throw e => (with_prob s q3, Throw e) | UB => (with_prob s q3, UB)
      | Diverge => (with_prob s q3, Diverge)
      end
    | (q2, Throw e) => (with_prob s q2, Throw e)
    | (q2, UB) => (with_prob s q2, UB)
    | (q2, Diverge) => (with_prob s q2, Diverge)
    end
  | (q1, Throw e) => (with_prob s q1, Throw e)
  | (q1, UB) => (with_prob s q1, UB)
  | (q1, Diverge) => (with_prob s q1, Diverge)
  end.

(** 454-460 *)
Definition e_removeBatchIdx (s : est) (idx : nat) (oc : outcome) : est * result unit :=
  match i_remove_idx h (e_prob s) idx with
  | (q, Ret _) => match e_reoptimize (with_prob s q) oc with
                  | (s', Ret _) => (s', Ret tt)
                  | (s', Throw e) => (s', Throw e) | (s', UB) => (s', UB) | (s', Diverge) => (s', Diverge)
                  end
  | (q, r) => (with_prob s q, r)
  end.
(** 462-466; a null pointer is never stored, so it is not found *)
Definition e_removeBatch (s : est) (p : option nat) (oc : outcome) : est * result unit :=
  match p with
  | None => (s, Ret tt)
  | Some p => match find_index p (i_probs (e_prob s)) with
              | None => (s, Ret tt)
              | Some idx => e_removeBatchIdx s idx oc
              end
  end.
(** 468-470 *)
Definition e_getNumBatches (s : est) : nat := i_numProblems (e_prob s).

(** ** Histories *)
Inductive eop :=
| EAdd (p : option nat) (force : bool) (oc : outcome)
| ERemoveIdx (idx : nat) (oc : outcome)
| ERemove (p : option nat) (oc : outcome)
| EReoptimize (oc : outcome)
| ESetValues (vals : nat -> V)         (* the user changes design variables between calls *)
| ESetActive (act : nat -> bool)
| ESetOptions (o : opts).              (* through the reference returned by getOptions() etc. *)

(** The new state, and the returned value, if any. *)
Definition estep (s : est) (op : eop) : est * result (option retval) :=
  let lift {B} (f : B -> option retval) (x : est * result B) : est * result (option retval) :=
    (fst x, rbind (snd x) (fun b => Ret (f b))) in
  match op with
  | EAdd p force oc => lift Some (e_addBatch s p force oc)
  | ERemoveIdx idx oc => lift (fun _ => None) (e_removeBatchIdx s idx oc)
  | ERemove p oc => lift (fun _ => None) (e_removeBatch s p oc)
  | EReoptimize oc => lift Some (e_reoptimize s oc)
  | ESetValues vals => (with_vals s vals, Ret None)
  | ESetActive act =>
    (Est (e_marg s) (e_opts s) act (e_vals s) (e_prob s) (e_stats s) (e_margStart s) (e_layout s) (e_runs s), Ret None)
  | ESetOptions o =>
    (Est (e_marg s) o (e_active s) (e_vals s) (e_prob s) (e_stats s) (e_margStart s) (e_layout s) (e_runs s), Ret None)
  end.
End est.
Global Arguments solver_view : clear implicits.
Global Arguments solved : clear implicits.
Global Arguments outcome : clear implicits.
Global Arguments opts : clear implicits.
Global Arguments stats : clear implicits.
Global Arguments retval : clear implicits.
Global Arguments est : clear implicits.
Global Arguments eop : clear implicits.
