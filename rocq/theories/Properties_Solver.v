(** C105, C106: the adapter of the linear solver. *)
From stdpp Require Import prelude list gmap.
From Verif Require Import Base OptProblemModel IncProblemModel EstimatorModel Spec_Estimator SolverModel Properties_Estimator.

Section adapter.
Context {M Vec L P : Type} (lib : library M Vec L P).
Implicit Types a : adapter M Vec L.

(** C105.  [solveSystem]: the library's solver is given the transpose of the Jacobian's transpose, the errors and the marginalisation
    index; [true] is returned exactly when it returned; [false] only if the transposition failed, and then nothing happened. *)
Theorem adapter_solve a dx a' dx' r :
  a_solveSystem lib a dx = (a', dx', r) ->
  a_Jt a' = a_Jt a /\ a_e a' = a_e a /\ a_margStart a' = a_margStart a /\
  (forall J, transpose lib (a_Jt a) = Some J ->
     exists q, lib_solve lib (a_lib a) J (a_e a) (a_margStart a) dx = (a_lib a', dx', q) /\
       (r = Ret true <-> q = Ret tt) /\ r <> Ret false /\ (forall e, r = Throw e <-> q = Throw e) /\ (r = UB <-> q = UB) /\ (r = Diverge <-> q = Diverge)) /\
  (transpose lib (a_Jt a) = None -> a' = a /\ dx' = dx /\ r = Ret false).
Proof.
  unfold a_solveSystem. destruct (transpose lib (a_Jt a)) as [J|].
  - destruct (lib_solve lib (a_lib a) J (a_e a) (a_margStart a) dx) as [[l d] q] eqn:E.
    destruct q as [[]|e| |]; intros [= <- <- <-]; (split_and!; [done|done|done| |done]); intros J' [= <-];
      eexists; (split; [exact E|]); cbn; split_and!; naive_solver.
  - intros [= <- <- <-]. by split_and!.
Qed.
Theorem adapter_analyze a a' r :
  a_analyzeMarginal lib a = (a', r) ->
  a_Jt a' = a_Jt a /\ a_e a' = a_e a /\ a_margStart a' = a_margStart a /\
  (forall J, transpose lib (a_Jt a) = Some J ->
     exists q, lib_analyze lib (a_lib a) J (a_margStart a) = (a_lib a', q) /\
       (r = Ret true <-> q = Ret tt) /\ r <> Ret false /\ (forall e, r = Throw e <-> q = Throw e) /\ (r = UB <-> q = UB) /\ (r = Diverge <-> q = Diverge)) /\
  (transpose lib (a_Jt a) = None -> a' = a /\ r = Ret false).
Proof.
  unfold a_analyzeMarginal. destruct (transpose lib (a_Jt a)) as [J|].
  - destruct (lib_analyze lib (a_lib a) J (a_margStart a)) as [l q] eqn:E.
    destruct q as [[]|e| |]; intros [= <- <-]; (split_and!; [done|done|done| |done]); intros J' [= <-];
      eexists; (split; [exact E|]); cbn; split_and!; naive_solver.
  - intros [= <- <-]. by split_and!.
Qed.
(** [initMatrixStructure]: the previous factorisation is forgotten even if the new structure cannot be built; a diagonal conditioner ends the process. *)
Theorem adapter_init a p :
  a_initMatrixStructure lib a p true = None /\
  exists a' r, a_initMatrixStructure lib a p false = Some (a', r) /\ build_structure lib p = (a_Jt a', r) /\ a_lib a' = lib_clear lib (a_lib a) /\
    a_e a' = a_e a /\ a_margStart a' = a_margStart a.
Proof. unfold a_initMatrixStructure. destruct (build_structure lib p) as [Jt r] eqn:E. split; [done|]. eexists _, _. split; [done|]. done. Qed.

(** C106.  Over every history of calls the matrices that are never freed are exactly one for each [solveSystem] that threw. *)
Definition is_solve (c : acall Vec P) : bool := match c with ASolve _ => true | _ => false end.
Theorem adapter_memory (cs : list (acall Vec P)) :
  forall a a' ts, (forall l J e k dx, snd (lib_solve lib l J e k dx) <> UB /\ snd (lib_solve lib l J e k dx) <> Diverge) ->
  acalls lib a cs = (a', ts) ->
  length ts = length cs /\
  a_live a' = a_live a + length (filter (fun '(c, t) => is_solve c = true /\ t = true) (zip cs ts)).
Proof.
  induction cs as [|c cs IH]; intros a a' ts Hlib H; cbn [acalls] in H; [injection H as <- <-; cbn; split; [done|lia]|].
  destruct (acall_step lib a c) as [a1 t] eqn:E1. destruct (acalls lib a1 cs) as [a2 ts2] eqn:E2. injection H as <- <-.
  destruct (IH _ _ _ Hlib E2) as [Hl Hm]. split; [cbn; by rewrite Hl|].
  cbn [zip zip_with]. rewrite filter_cons. rewrite Hm.
  assert (Hstep : a_live a1 = a_live a + (if decide (is_solve c = true /\ t = true) then 1 else 0)).
  { destruct c as [|dx|p| |k]; cbn in E1.
    - unfold a_buildSystem in E1. destruct (build_values lib (a_Jt a)) as [[? ?] r]. injection E1 as <- <-.
      case_decide as D; [by destruct D|]. cbn. lia.
    - unfold a_solveSystem in E1. destruct (transpose lib (a_Jt a)) as [J|].
      + pose proof (Hlib (a_lib a) J (a_e a) (a_margStart a) dx) as Hq.
        destruct (lib_solve lib (a_lib a) J (a_e a) (a_margStart a) dx) as [[l d] q]. cbn in Hq.
        destruct q as [[]|e| |]; try (by destruct Hq); injection E1 as <- <-; cbn.
        * case_decide as D; [by destruct D|]. lia.
        * case_decide as D; [lia|]. destruct D. done.
      + injection E1 as <- <-. case_decide as D; [by destruct D|]. lia.
    - unfold a_initMatrixStructure in E1. destruct (build_structure lib p) as [Jt r]. injection E1 as <- <-.
      case_decide as D; [by destruct D|]. cbn. lia.
    - unfold a_analyzeMarginal in E1. destruct (transpose lib (a_Jt a)) as [J|].
      + destruct (lib_analyze lib (a_lib a) J (a_margStart a)) as [l q]. destruct q as [[]|e| |]; injection E1 as <- <-; case_decide as D; try (by destruct D); cbn; lia.
      + injection E1 as <- <-. case_decide as D; [by destruct D|]. lia.
    - injection E1 as <- <-. case_decide as D; [by destruct D|]. cbn. lia. }
  rewrite Hstep. repeat case_decide; cbn [length]; try lia; naive_solver.
Qed.
End adapter.
Print Assumptions adapter_solve. Print Assumptions adapter_analyze. Print Assumptions adapter_init. Print Assumptions adapter_memory.

(** A library whose solver throws for the right-hand side 0, whose transposition fails for the matrix 99. *)
Definition toy : library nat nat nat nat :=
  Library (fun m => if decide (m = 99) then None else Some (m + 1000))
    (fun l J e k dx => if decide (e = 0) then (l, dx, Throw External) else (J, e + J, Ret tt))
    (fun l J k => (J + k, Ret tt)) (fun _ => 0) (fun p => (p, Ret tt)) (fun m => (m, 7, Ret tt)).
(** C106, refuted: "no call leaks": every throwing call leaks one more matrix, without bound. *)
Theorem adapter_leak_refuted :
  exists (M Vec L P : Type) (lib : library M Vec L P) (a : adapter M Vec L) (dx : Vec),
    forall n, a_live (fst (acalls lib a (repeat (ASolve dx) n))) = a_live a + n.
Proof.
  exists nat, nat, nat, nat, toy, (Adapter 5 0 2 3 0), 4. intros n. cbn [a_live].
  enough (H : forall k, a_live (fst (acalls toy (Adapter 5 0 2 3 k) (repeat (ASolve 4) n))) = k + n) by apply H.
  induction n as [|n IH]; intros k; [cbn; lia|]. cbn [repeat acalls].
  change (acall_step toy (Adapter 5 0 2 3 k) (ASolve 4)) with (Adapter 5 0 2 3 (S k), true).
  cbn beta iota zeta. specialize (IH (S k)). destruct (acalls toy (Adapter 5 0 2 3 (S k)) (repeat (ASolve 4) n)) as [a1 ts]. cbn [fst] in *. rewrite IH. lia.
Qed.
Print Assumptions adapter_leak_refuted.
Example adapter_case :
  acalls toy (Adapter 5 0 2 3 0) [AInit 6; ASolve 1; ABuild; ASolve 1; AMarg 4; AAnalyze; AInit 99; AAnalyze] =
    (Adapter 99 7 4 0 1, [false; true; false; false; false; false; false; false]).
Proof. vm_compute. done. Qed.

(** C105, refuted: the estimator ignores that the analysis of the unscaled system failed (the transposition returned no matrix) and publishes
    the statistics of the scaled system as those of the unscaled one. *)
Section estimator.
Context {M Vec L P : Type} (lib : library M Vec L P) {V D MM : Type} (view : L -> solver_view D MM).
(** What the estimator sees (IncrementalEstimator.cpp 251-270) when the optimizer returned with the adapter in state [a]. *)
Definition seen_outcome (new : nat -> V) (iters : nat) (j0 j1 : D) (rebuilds : bool) (a : adapter M Vec L) : outcome V D MM :=
  match a_analyzeMarginal lib a with
  | (a', Ret _) => OptReturns (Solved new iters j0 j1 (view (a_lib a)) (view (a_lib a')) rebuilds)
  | _ => MargThrows new (view (a_lib a))
  end.
Theorem estimator_failed_analysis_refuted :
  forall (A : arith D) (nil : MM) (h : nat -> oprob V) (edv : nat -> list nat) (dim edim : nat -> nat),
    (forall b, o_reachable edv (h b)) ->
    forall (s : est V D MM) (a : adapter M Vec L) new iters j0 j1 rebuilds,
    e_reachable A nil h dim edim s -> has_group (e_prob s) (e_marg s) -> op_columnScaling (e_opts s) = true ->
    transpose lib (a_Jt a) = None ->
    exists s' rv, e_reoptimize A nil dim s (seen_outcome new iters j0 j1 rebuilds a) = (s', Ret rv) /\
      st_sigma (e_stats s') = st_sigmaS (e_stats s') /\ st_sv (e_stats s') = st_svS (e_stats s') /\
      st_nobs (e_stats s') = st_nobsS (e_stats s') /\ st_obs (e_stats s') = st_obsS (e_stats s').
Proof.
  intros A nil h edv dim edim Hh s a new iters j0 j1 rebuilds Hr Hg Hc Ht.
  unfold seen_outcome, a_analyzeMarginal. rewrite Ht.
  set (oc := OptReturns _). destruct (e_reoptimize A nil dim s oc) as [s' r] eqn:E.
  destruct (estimator_reoptimize_outcome V D MM A nil h edv dim edim Hh s oc s' r Hr E) as (_ & _ & _ & _ & H & _).
  specialize (H Hg). cbn in H. destruct H as [rv ->]. exists s', rv. split; [done|].
  unfold e_reoptimize in E. destruct (order_marg (e_marg s) (e_prob s)) as [q [?|?| |]]; try done.
  destruct (marg_start dim (e_active s) q (e_marg s)) as [k|?| |]; try done. cbn in E. injection E as <- _. cbn. rewrite Hc. done.
Qed.
End estimator.
Print Assumptions estimator_failed_analysis_refuted.
Example estimator_failed_analysis_case :
  xreach xe /\ has_group (e_prob xe) (e_marg xe) /\ op_columnScaling (e_opts xe) = true /\
  transpose toy (a_Jt (Adapter 99 7 2 3 0)) = None /\
  st_sigma (e_stats xe) <> st_sigmaS (e_stats xe).
Proof.
  split; [exact xe_reachable|]. split; [unfold has_group; apply (bool_decide_unpack _); vm_compute; exact I|].
  split; [done|]. split; [done|]. vm_compute. discriminate.
Qed.
