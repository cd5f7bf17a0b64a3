(** C10 (incremental half), C12 (refused removals), C19 (before the first estimate). *)
From Coq Require Import Reals.
From stdpp Require Import prelude list gmap.
From Verif Require Import Base PermuteModel PermuteProofs OptProblemModel Spec_OptProblem OptSpecProofs
  IncProblemModel IncProblemProofs Spec_IncProblem EstimatorModel Spec_Estimator EstimatorProofs EstimatorSpecProofs Properties_IncProblem Properties_Estimator.

(** C10.  The permutation entry points of the incremental problem: an unknown group throws and changes nothing; a permutation reorders exactly the
    variables of the group, or the batches; whatever the vector is and however the call ends, nothing else changes. *)
Theorem inc_problem_permute :
  forall (V : Type) (s : inc V) (p : list nat),
    (forall g, i_isGroupInProblem s g = false -> i_permuteDV s p g = (s, Throw OutOfBound)) /\
    (forall g l, i_getGroup s g = Ret l -> p ≡ₚ seq 0 (length l) ->
       exists s' l', i_permuteDV s p g = (s', Ret tt) /\ i_getGroup s' g = Ret l' /\
         length l' = length l /\ (forall i k, p !! i = Some k -> l' !! i = l !! k)) /\
    (forall g s' r, i_permuteDV s p g = (s', r) ->
       r <> UB /\ i_probs s' = i_probs s /\ i_counts s' = i_counts s /\ i_order s' = i_order s /\ i_backup s' = i_backup s /\
       (forall g', g' <> g -> i_getGroup s' g' = i_getGroup s g') /\
       (forall l, i_getGroup s g = Ret l -> exists l', i_getGroup s' g = Ret l' /\ l' ≡ₚ l)) /\
    (p ≡ₚ seq 0 (length (i_probs s)) ->
       exists s', i_permuteProblems s p = (s', Ret tt) /\ length (i_probs s') = length (i_probs s) /\
         (forall i k, p !! i = Some k -> i_probs s' !! i = i_probs s !! k)) /\
    (forall s' r, i_permuteProblems s p = (s', r) ->
       r <> UB /\ i_probs s' ≡ₚ i_probs s /\ i_counts s' = i_counts s /\ i_groups s' = i_groups s /\ i_order s' = i_order s /\ i_backup s' = i_backup s).
Proof.
  intros V s p. split_and!.
  - intros g. unfold i_isGroupInProblem, i_permuteDV. intros Hg%bool_decide_eq_false. destruct (i_groups s !! g); [|done]. destruct Hg. eauto.
  - intros g l. unfold i_getGroup, i_permuteDV. intros Hl Hp. destruct (i_groups s !! g) as [l0|] eqn:Hg; [|done].
    injection Hl as ->. destruct (permute_valid l p Hp) as (l' & -> & Hlen & Hi). eexists _, l'. split; [done|]. simpl. rewrite lookup_insert. done.
  - intros g s' r. unfold i_permuteDV. destruct (i_groups s !! g) as [l|] eqn:Hg.
    + destruct (permute l p) as [l' r'] eqn:Hp. intros [= <- <-]. split; [eapply permute_never_ub, Hp|]. simpl. do 4 (split; [done|]). split.
      * intros g' Hg'. unfold i_getGroup. simpl. rewrite lookup_insert_ne; done.
      * unfold i_getGroup. simpl. rewrite lookup_insert, Hg. intros l0 [= <-]. exists l'. split; [done|]. eapply permute_fuel_perm, Hp.
    + intros [= <- <-]. do 6 (split; [done|]). intros l. unfold i_getGroup. rewrite Hg. done.
  - intros Hp. unfold i_permuteProblems. destruct (permute_valid _ _ Hp) as (l' & -> & Hlen & Hi). eexists. done.
  - intros s' r. unfold i_permuteProblems. destruct (permute (i_probs s) p) as [l' r'] eqn:Hp. intros [= <- <-].
    split; [eapply permute_never_ub, Hp|]. simpl. split; [eapply permute_fuel_perm, Hp|done].
Qed.
Print Assumptions inc_problem_permute.
Example inc_problem_permute_case : i_getGroup sx 7 = Ret [1; 2] /\ i_getGroup (fst (i_permuteDV sx [1; 0] 7)) 7 = Ret [2; 1].
Proof. vm_compute. done. Qed.

(** C12.  What is not there cannot be removed: a null pointer, a batch that is not contained and a position beyond the last batch are refused and change
    nothing; the deprecated query for the error terms of a variable is refused. *)
Theorem inc_problem_refused_removal :
  forall (V : Type) (h : nat -> oprob V) (s : inc V),
    i_remove h s None = (s, Throw InvalidOperation) /\
    (forall b, b ∉ i_probs s -> i_remove h s (Some b) = (s, Throw InvalidOperation)) /\
    (forall i, length (i_probs s) <= i -> i_remove_idx h s i = (s, Throw OutOfBound)) /\
    i_getErrors = Throw InvalidOperation.
Proof.
  intros V h s. split; [done|]. split; [|split; [|done]].
  - intros b Hb. unfold i_remove. by rewrite (proj2 (find_index_None b (i_probs s)) Hb).
  - intros i Hi. unfold i_remove_idx. by rewrite lookup_ge_None_2.
Qed.
Print Assumptions inc_problem_refused_removal.

(** C19.  Before the first accepted batch (and without removals and reoptimisations) all statistics are the initial ones, whatever was added without being
    accepted or thrown at the estimator. *)
Theorem estimator_before_first_estimate :
  forall (V D M : Type) (A : arith D) (nil : M) (h : nat -> oprob V) (dim edim : nat -> nat) m o act vals
         (s : est V D M) tr,
    e_trace A nil h dim edim (e_init A nil m o act vals) tr s ->
    (forall op r, (op, r) ∈ tr -> adds_only op) -> accepted_batches tr = [] ->
    let t := e_stats s in
    st_infoGain t = a_zero A /\ st_svLog2Sum t = a_zero A /\ st_initialCost t = a_zero A /\ st_finalCost t = a_zero A /\
    st_svdTol t = a_zero A /\ st_qrTol t = a_minus_one A /\
    st_rankTheta t = (-1)%Z /\ st_rankThetaDef t = (-1)%Z /\ st_rankPsi t = (-1)%Z /\ st_rankPsiDef t = (-1)%Z /\
    st_peakMem t = 0%N /\ st_mem t = 0%N /\ st_flops t = a_zero A /\
    Forall (fun x => x = nil) [st_nobs t; st_nobsS t; st_obs t; st_obsS t; st_sigma t; st_sigmaS t; st_sigmaObs t; st_sigmaObsS t; st_sv t; st_svS t].
Proof.
  intros V D M A nil h dim edim m o act vals s tr Htr Hadds Hacc.
  assert (E : forall s0 s1 tr, e_trace A nil h dim edim s0 tr s1 -> (forall op r, (op, r) ∈ tr -> adds_only op) -> accepted_batches tr = [] ->
            e_stats s1 = e_stats s0).
  { clear. intros s0 s1 tr H. induction H as [s|s op r s1 tr s2 Hs Hb _ IH]; intros Ha Hacc; [done|].
    rewrite IH; [|intros op' r' Hin; apply (Ha op' r'); by right|].
    2:{ unfold accepted_batches in *. cbn [omap list_omap] in Hacc.
        destruct (accepted_event (op, r)); [discriminate Hacc|done]. }
    assert (Hop : adds_only op) by (apply (Ha op r); left).
    destruct op as [p force oc| | | |vals|act|o]; try done; cbn [estep] in Hs.
    2-4: injection Hs as <- _; done.
    destruct (e_addBatch A nil h dim edim s p force oc) as [s' r'] eqn:Ea. cbn [fst snd] in Hs. injection Hs as -> <-.
    pose proof (addBatch_stats A nil h dim edim s p force oc s1 r' Ea) as Hst.
    unfold accepted_batches in Hacc. cbn [omap list_omap] in Hacc.
    destruct (accepted_event (EAdd p force oc, rbind r' (fun b => Ret (Some b)))) as [[[b' o'] rv]|]; [discriminate Hacc|done]. }
  rewrite (E _ _ _ Htr Hadds Hacc). cbn. split_and!; try done. repeat (apply List.Forall_cons; [done|]). apply List.Forall_nil.
Qed.
Print Assumptions estimator_before_first_estimate.
Local Definition xops : list (eop nat R nat) :=
  [EAdd (Some 0) false (OptReturns (Solved (fun _ => 1) 5 0%R 0%R (rview (-1) (ln 2)) (rview (-1) (ln 2)) true)); EAdd None false (OptThrows (fun _ => 3))].
Example estimator_before_first_estimate_case :
  e_trace rarith 0 hx xdim xedim rinit (rtrace rinit xops) (e_run rarith 0 hx xdim xedim rinit xops) /\
  accepted_batches (rtrace rinit xops) = [] /\ length (rtrace rinit xops) = 2.
Proof. split; [apply rtrace_ok|]; vm_compute; done. Qed.

(** C19.  Therefore the first batch that passes the validity check is accepted, however little information it has, if its rank is not negative. *)
Theorem estimator_first_batch_is_accepted :
  forall (V D M : Type) (A : arith D) (nil : M) (h : nat -> oprob V) (edv : nat -> list nat) (dim edim : nat -> nat),
    (forall b, o_reachable edv (h b)) ->
    forall m o act vals (s : est V D M) tr,
    e_trace A nil h dim edim (e_init A nil m o act vals) tr s -> e_reachable A nil h dim edim s ->
    (forall op r, (op, r) ∈ tr -> adds_only op) -> accepted_batches tr = [] ->
    forall b force (oc : solved V D M) s' r, e_addBatch A nil h dim edim s (Some b) force (OptReturns oc) = (s', Ret r) ->
    (op_checkValidity (e_opts s) = true -> o_iterations oc <> op_maxIterations (e_opts s) /\ a_ge A (o_JFinal oc) (o_JStart oc) = false) ->
    (0 <= v_svdRank (o_marg_view oc))%Z -> rv_accepted r = true.
Proof.
  intros V D M A nil h edv dim edim Hr m o act vals s tr Htr Hs Hadds Hacc b force oc s' r Ea Hv Hrank.
  destruct (estimator_acceptance_rule V D M A nil h edv dim edim Hr s b force oc s' r Hs Ea) as (Hrule & _ & Hrk & _).
  apply Hrule. right. split; [done|]. right. rewrite Hrk.
  destruct (estimator_before_first_estimate V D M A nil h dim edim m o act vals s tr Htr Hadds Hacc) as (_ & _ & _ & _ & _ & _ & -> & _). lia.
Qed.
Print Assumptions estimator_first_batch_is_accepted.
