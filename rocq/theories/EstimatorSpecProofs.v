(** Packaged lemmas for Properties_Estimator.v. *)
From stdpp Require Import prelude list gmap.
From Coq Require Import Lia Reals Lra.
From Verif Require Import Base PermuteModel PermuteProofs OptProblemModel OptProblemProofs
  IncProblemModel Spec_IncProblem IncProblemProofs IncHistoryProofs IncExtraProofs IncSpecProofs
  EstimatorModel Spec_Estimator EstimatorProofs.
Local Open Scope nat_scope.

Section packaged.
Context {V D M : Type} (A : arith D) (nil : M) (h : nat -> oprob V) (edv : nat -> list nat).
Context (dim edim : nat -> nat).
Context (Hr : forall b, o_reachable edv (h b)).
Implicit Types s : est V D M.
Implicit Types q : inc V.

Let Hh : forall b, o_wf edv (h b).
Proof. intros b. apply o_reachable_wf, Hr. Qed.

Notation reach := (e_reachable A nil h dim edim).
Notation addB := (e_addBatch A nil h dim edim).

Lemma add_ret_compatible s p force oc s' r :
  reach s -> addB s p force oc = (s', r) ->
  (exists b, p = Some b /\ compatible h (e_prob s) b /\ add_result A nil h dim edim s b force oc s' r) \/
  (exists e, r = Throw e /\ e_stats s' = e_stats s /\ e_vals s' = e_vals s /\ (p = None -> s' = s) /\
     (p = None -> e = NullPointer) /\ (forall b, p = Some b -> e = InvalidOperation) /\
     i_probs (e_prob s') = i_probs (e_prob s) /\ e_runs s' = e_runs s /\ e_opts s' = e_opts s /\
     ~ (exists b, p = Some b /\ compatible h (e_prob s) b)).
Proof.
  intros Hs Heq. destruct (e_reachable_inv A nil h edv dim edim Hr s Hs) as [Hg _].
  destruct Hg as [Hq Hla]. destruct (backup_in_counts h edv Hr _ Hq) as [Hq' _].
  destruct p as [b|].
  - destruct (inc_add_iff h edv Hr (e_prob s) b Hq') as ([Hi1 Hi2] & Hor & _).
    destruct (i_add h (e_prob s) (Some b)) as [q1 r1] eqn:Hadd. cbn [snd] in *.
    destruct Hor as [->|Hthrow].
    + left. exists b. split; [done|]. split; [apply Hi2; done|].
      eapply (addBatch_spec A nil h edv dim edim Hr); [done|apply Hi2; done|done].
    + right. exists InvalidOperation. unfold e_addBatch in Heq. rewrite Hadd, Hthrow in Heq.
      injection Heq as <- <-. do 3 (split; [done|]). split; [intros [=]|]. split; [intros [=]|].
      split; [done|].
      destruct (inc_failed_add h edv Hr (e_prob s) (Some b) q1 InvalidOperation Hq') as (Hp & _); [rewrite Hadd, Hthrow; done|].
      split; [exact Hp|]. do 2 (split; [done|]). intros (b' & [= <-] & Hc). apply Hi1 in Hc. congruence.
  - right. exists NullPointer. cbn in Heq. injection Heq as <- <-. rewrite with_prob_id. do 9 (split; [done|]).
    intros (b' & [=] & _).
Qed.

Lemma add_ret s p force oc s' r :
  reach s -> addB s p force oc = (s', Ret r) ->
  exists b, p = Some b /\ compatible h (e_prob s) b /\ add_result A nil h dim edim s b force oc s' (Ret r).
Proof.
  intros Hs Heq. destruct (add_ret_compatible _ _ _ _ _ _ Hs Heq) as [H|(e & He & _)]; [exact H|done].
Qed.

Lemma keep_iff s o r force :
  keep_batch A s o r force = true <->
  force = true \/
  ((op_checkValidity (e_opts s) = true ->
      o_iterations o <> op_maxIterations (e_opts s) /\ a_ge A (o_JFinal o) (o_JStart o) = false) /\
   (a_gt A (rv_infoGain r) (op_infoGainDelta (e_opts s)) = true \/
    (st_rankTheta (e_stats s) < rv_rankTheta r)%Z)).
Proof.
  unfold keep_batch, solution_valid.
  rewrite orb_true_iff, andb_true_iff, orb_true_iff, negb_true_iff, Z.gtb_lt.
  rewrite andb_false_iff, orb_false_iff, Nat.eqb_neq.
  destruct (op_checkValidity (e_opts s)); split; intros H; naive_solver.
Qed.

Lemma keep_accepts s o force :
  keep_batch A s o (batch_return A nil s o) force = true <-> accepts A s o force.
Proof. rewrite keep_iff. done. Qed.
Lemma rej_ret {X : Type} (P1 P2 P3 P4 : Prop) (rr : result X) (x r : X) (b : bool) :
  (P1 /\ P2 /\ rr = Ret x \/ P3 /\ P4 /\ rr = if b then Ret x else Throw External) -> rr = Ret r ->
  r = x /\ (b = true \/ P1).
Proof. intros [(H1 & _ & ->)|(_ & _ & ->)]; [|destruct b; [|done]]; intros [= <-]; auto. Qed.
Lemma est_acceptance s b force o s' r :
  reach s -> addB s (Some b) force (OptReturns o) = (s', Ret r) ->
  (rv_accepted r = true <->
   force = true \/
   ((op_checkValidity (e_opts s) = true ->
       o_iterations o <> op_maxIterations (e_opts s) /\ a_ge A (o_JFinal o) (o_JStart o) = false) /\
    (a_gt A (rv_infoGain r) (op_infoGainDelta (e_opts s)) = true \/
     (st_rankTheta (e_stats s) < rv_rankTheta r)%Z))) /\
  rv_infoGain r = a_half_diff A (v_log2Sum (o_marg_view o)) (st_svLog2Sum (e_stats s)) /\
  rv_rankTheta r = v_svdRank (o_marg_view o) /\
  (rv_accepted r = true -> i_probs (e_prob s') = i_probs (e_prob s) ++ [b]) /\
  (rv_accepted r = false -> i_probs (e_prob s') ≡ₚ i_probs (e_prob s)) /\
  (b ∉ i_probs (e_prob s) -> (b ∈ i_probs (e_prob s') <-> rv_accepted r = true)).
Proof.
  intros Hs Heq. destruct (add_ret _ _ _ _ _ _ Hs Heq) as (b' & [= <-] & Hc & Hres).
  destruct (e_reachable_inv A nil h edv dim edim Hr s Hs) as [Hg _].
  remember (Ret r) as rr eqn:Hrr. remember (OptReturns o) as oc eqn:Hoc.
  destruct Hres as [|q1 q3 k new Hprep Hn|q1 q3 k o' Hprep Ho Hk|q1 q3 k o' q4 vals l rr' Hprep Ho Hk _ Hq4 Hp4 _ Hc4 Hg4 Ho4 Hb4 Hv Hl]; try congruence.
  - assert (o' = o) as -> by congruence. injection Hrr as <-.
    destruct (prepared_good h edv dim Hr _ _ _ _ _ _ Hg Hprep) as (_ & _ & Hp & _).
    cbn [with_accepted rv_accepted rv_infoGain rv_rankTheta batch_return].
    split; [rewrite <- (keep_iff s o (batch_return A nil s o) force); rewrite Hk; done|].
    cbn [e_prob with_stats with_vals started]. rewrite Hp.
    do 3 (split; [done|]). split; [done|]. intros _. split; [done|]. set_solver.
  - assert (o' = o) as -> by congruence. destruct (rej_ret _ _ _ _ _ _ _ _ Hl Hrr) as [-> _].
    cbn [with_accepted rv_accepted rv_infoGain rv_rankTheta batch_return].
    split; [rewrite <- (keep_iff s o (batch_return A nil s o) force); rewrite Hk; done|].
    cbn [e_prob]. do 3 (split; [done|]). split; [intros _; exact Hp4|]. intros Hn. rewrite Hp4. done.
Qed.

(** groups after an add *)
Lemma order_after_add q b q1 g :
  i_reachable h q -> i_add h q (Some b) = (q1, Ret tt) ->
  g ∈ i_order q1 <-> g ∈ i_order q \/ brings_group h b g.
Proof.
  intros Hq Hadd. pose proof (i_reachable_wf h edv Hh q Hq) as Hwf.
  destruct (i_add_ok h edv Hh q b q1 Hwf Hadd) as (Hwf1 & _ & _ & Hc & Hgr & _ & [k Hk] & _).
  assert (Hord : forall q', i_wf h q' -> g ∈ i_order q' <-> exists d c, i_counts q' !! d = Some (c, g)).
  { intros q' [[T1 T2 T3] _ _ _]. rewrite (gwf_dom _ _ T1). split.
    - intros [l Hl]. destruct l as [|d l]; [exfalso; eapply (gwf_ne _ _ T1); done|].
      destruct (T3 g (d :: l) d Hl) as [c Hcc]; [set_solver|]. eauto.
    - intros (d & c & Hcc). destruct (T2 _ _ _ Hcc) as (_ & l & Hl & _). eauto. }
  rewrite (Hord q1 Hwf1), (Hord q Hwf). unfold brings_group, o_getGroupId. split.
  - intros (d & c & Hd). rewrite Hc in Hd. destruct (o_lookup (h b) !! d) as [g'|] eqn:Hl.
    + right. exists d. rewrite Hl. destruct (i_counts q !! d) as [[c' g'']|]; congruence.
    + left. eauto.
  - intros [(d & c & Hd)|[d Hd]].
    + exists d. rewrite Hc, Hd. destruct (o_lookup (h b) !! d) as [g'|] eqn:Hl; [|eauto].
      rewrite (Hgr _ _ _ _ Hl Hd). eauto.
    + destruct (o_lookup (h b) !! d) as [g'|] eqn:Hl; [|done]. injection Hd as ->.
      exists d. rewrite Hc, Hl. destruct (i_counts q !! d) as [[c' g'']|]; eauto.
Qed.

Lemma est_returns_iff s p force oc :
  reach s ->
  (exists s' r, addB s p force oc = (s', Ret r)) <->
  (exists b o, p = Some b /\ oc = OptReturns o /\ compatible h (e_prob s) b /\
     (has_group (e_prob s) (e_marg s) \/ brings_group h b (e_marg s)) /\
     (o_rebuilds o = true \/ accepts A s o force \/ i_probs (e_prob s) = [])).
Proof.
  intros Hs. destruct (e_reachable_inv A nil h edv dim edim Hr s Hs) as [Hg _].
  pose proof Hg as [Hq Hla]. destruct (backup_in_counts h edv Hr _ Hq) as [Hq' _]. split.
  - intros (s' & r & Heq). destruct (add_ret _ _ _ _ _ _ Hs Heq) as (b & -> & Hc & Hres).
    remember (Ret r) as rr eqn:Hrr.
    destruct Hres as [|q1 q3 k new Hprep Hn|q1 q3 k o' Hprep Ho Hk|q1 q3 k o' q4 vals l rr' Hprep Ho Hk _ Hq4 Hp4 _ Hc4 Hg4 Ho4 Hb4 Hv Hl]; try congruence.
    + exists b, o'. do 3 (split; [done|]). split; [|right; left; apply keep_accepts, Hk].
      destruct Hprep as [q1 oo pre Hadd _ Hperm Hpre _].
      apply (order_after_add (e_prob s) b q1 _ Hq' Hadd). rewrite <- Hperm, Hpre. set_solver.
    + exists b, o'. do 3 (split; [done|]). split.
      2: { destruct (rej_ret _ _ _ _ _ _ _ _ Hl Hrr) as [_ [?|He]]; [by left|]. right. right.
           rewrite He in Hp4. by apply Permutation_nil in Hp4. }
      destruct Hprep as [q1 oo pre Hadd _ Hperm Hpre _].
      apply (order_after_add (e_prob s) b q1 _ Hq' Hadd). rewrite <- Hperm, Hpre. set_solver.
  - intros (b & o & -> & -> & Hc & Hm & Hrb).
    destruct (addB s (Some b) force (OptReturns o)) as [s' r] eqn:Heq.
    pose proof (addBatch_spec A nil h edv dim edim Hr _ _ _ _ _ _ Hg Hc Heq) as Hres.
    remember (OptReturns o) as oc eqn:Hoc.
    destruct Hres as [q1 Hadd Hn|q1 q3 k new Hprep Hn|q1 q3 k o' Hprep Ho Hk|q1 q3 k o' q4 vals l rr' Hprep Ho Hk _ Hq4 Hp4 _ Hc4 Hg4 Ho4 Hb4 Hv Hl]; eauto.
    + destruct Hn. rewrite (order_after_add (e_prob s) b q1 _ Hq' Hadd). done.
    + destruct Hn as [?|[v ?]]; congruence.
    + assert (o' = o) as -> by congruence. destruct Hl as [(_ & _ & ->)|(Hne & _ & ->)]; [eauto|].
      destruct Hrb as [->|[Ha|He]]; [eauto| |].
      * apply keep_accepts in Ha. congruence.
      * rewrite He in Hp4. apply Permutation_sym, Permutation_nil in Hp4. done.
Qed.

Lemma est_rejected s b force oc s' r :
  reach s -> addB s (Some b) force oc = (s', Ret r) -> rv_accepted r = false ->
  (forall d, e_vals s' d = e_vals s d) /\
  i_probs (e_prob s') ≡ₚ i_probs (e_prob s) /\
  (b ∉ i_probs (e_prob s) \/ o_numET (h b) <> 0 -> i_probs (e_prob s') = i_probs (e_prob s)) /\
  i_counts (e_prob s') = i_counts (e_prob s) /\
  i_groups (e_prob s') = i_groups (e_prob s) /\
  i_order (e_prob s') = i_order (e_prob s) /\
  e_stats s' = e_stats s /\ e_opts s' = e_opts s /\ e_active s' = e_active s /\ e_marg s' = e_marg s /\
  (forall d vals, i_restore (e_prob s') vals d = if i_isDVInProblem (e_prob s') d then e_vals s d else vals d).
Proof.
  intros Hs Heq Hrej. destruct (add_ret _ _ _ _ _ _ Hs Heq) as (b' & [= <-] & Hc & Hres).
  destruct (e_reachable_inv A nil h edv dim edim Hr s Hs) as [[Hq _] _].
  remember (Ret r) as rr eqn:Hrr.
  destruct Hres as [|q1 q3 k new Hprep Hn|q1 q3 k o' Hprep Ho Hk|q1 q3 k o' q4 vals l rr' Hprep Ho Hk _ Hq4 Hp4 Hp4' Hc4 Hg4 Ho4 Hb4 Hv Hl]; try congruence.
  - injection Hrr as <-. done.
  - cbn [e_vals e_prob e_stats e_opts e_active e_marg]. split; [done|]. split; [done|]. split.
    { intros [Hn|Hn]; [apply Hp4'; done|]. apply Hp4'. destruct Hprep as [q1 oo pre Hadd _ _ _ _].
      eapply (added_not_contained h edv Hh); [apply (noclear_wf h edv Hr), Hq|exact Hadd|].
      intros He. rewrite (o_wf_numET edv), He in Hn by apply Hh. done. }
    do 7 (split; [done|]). intros d vals'. unfold i_restore, write_back, i_isDVInProblem. rewrite Hb4.
    destruct (decide (is_Some (i_counts q4 !! d))) as [Hd|Hd];
      [rewrite bool_decide_true by done|rewrite bool_decide_false by done]; done.
Qed.

Lemma flat_pre q pre : concat (map (i_group_or_nil q) pre) = enum (i_groups q) pre.
Proof.
  unfold enum. f_equal. apply map_ext. intros g. unfold i_group_or_nil, i_getGroup. destruct (i_groups q !! g); done.
Qed.

Lemma est_marg_block s q act k :
  reach s -> (q, act, k) ∈ e_runs s ->
  exists pre, i_order q = pre ++ [e_marg s] /\ e_marg s ∉ pre /\
    active_variables act q =
      filter (fun d => act d = true) (concat (map (i_group_or_nil q) pre)) ++ active_in_group act q (e_marg s) /\
    k = total dim (filter (fun d => act d = true) (concat (map (i_group_or_nil q) pre))) /\
    (forall i d, active_variables act q !! i = Some d ->
       (i_getGroupId q d = Ret (e_marg s) <-> k <= total dim (take i (active_variables act q)) /\
          length (filter (fun d => act d = true) (concat (map (i_group_or_nil q) pre))) <= i)) /\
    (forall d, d ∈ active_in_group act q (e_marg s) <->
       act d = true /\ i_getGroupId q d = Ret (e_marg s)).
Proof.
  intros Hs Hin. destruct (e_reachable_inv A nil h edv dim edim Hr s Hs) as [_ Hruns].
  rewrite Forall_forall in Hruns. destruct (Hruns _ Hin) as (Hq & pre & Hpre & Hk).
  pose proof (noclear_wf h edv Hr _ Hq) as Hwf. exists pre. split; [done|].
  pose proof (gwf_nodup _ _ (tw_g _ (iw_t _ _ Hwf))) as Hnd. rewrite Hpre in Hnd.
  assert (Hm : e_marg s ∉ pre) by (apply NoDup_app in Hnd; set_solver). split; [done|].
  assert (Hsplit : active_variables act q =
     filter (fun d => act d = true) (concat (map (i_group_or_nil q) pre)) ++ active_in_group act q (e_marg s)).
  { unfold active_variables, active_in_group, i_flat_variables. rewrite Hpre, map_app, concat_app, filter_app.
    simpl. rewrite app_nil_r. done. }
  split; [exact Hsplit|].
  assert (Hk' : k = total dim (filter (fun d => act d = true) (concat (map (i_group_or_nil q) pre)))).
  { rewrite Hk, flat_pre, sum_dims_spec. done. }
  split; [exact Hk'|].
  destruct (backup_in_counts h edv Hr _ Hq) as [Hq' _].
  assert (Hgrp : forall d, i_getGroupId q d = Ret (e_marg s) <-> d ∈ i_group_or_nil q (e_marg s)).
  { intros d. destruct (inc_counts h edv Hr q Hq' d) as (_ & _ & _ & Hg & _). rewrite Hg. unfold i_group_or_nil.
    split; [intros (l & -> & ?); done|]. destruct (i_getGroup q (e_marg s)) as [l|e| |] eqn:E; try set_solver.
    }
  split.
  - intros i d Hi. rewrite Hgrp. set (L := filter _ (concat _)) in *. rewrite Hsplit in Hi |- *.
    destruct (decide (i < length L)) as [Hlt|Hge].
    + rewrite lookup_app_l in Hi by done. split; [|lia]. intros Hd. exfalso.
      apply elem_of_list_lookup_2 in Hi. unfold L in Hi. rewrite elem_of_list_filter, flat_pre in Hi.
      destruct Hi as [_ Hi]. apply elem_of_enum in Hi as (g & l & Hg & Hl & Hdl).
      unfold i_group_or_nil, i_getGroup in Hd. destruct (i_groups q !! e_marg s) as [l'|] eqn:Hl'; [|set_solver].
      assert (g = e_marg s) as -> by (eapply (gwf_disj _ _ (tw_g _ (iw_t _ _ Hwf))); done). done.
    + split.
      * intros _. split; [|lia]. rewrite take_app_ge by lia. rewrite (total_app dim), Hk'. lia.
      * intros _. rewrite lookup_app_r in Hi by lia. apply elem_of_list_lookup_2 in Hi.
        unfold active_in_group in Hi. rewrite elem_of_list_filter in Hi. tauto.
  - intros d. unfold active_in_group. rewrite elem_of_list_filter, Hgrp. done.
Qed.

(** every run is logged, with the batch in the problem *)
Lemma est_run_logged s b force oc s' r :
  reach s -> addB s (Some b) force oc = (s', Ret r) ->
  exists q k, e_runs s' = e_runs s ++ [(q, e_active s, k)] /\ e_margStart s' = k /\
    i_probs q = i_probs (e_prob s) ++ [b].
Proof.
  intros Hs Heq. destruct (add_ret _ _ _ _ _ _ Hs Heq) as (b' & [= <-] & Hc & Hres).
  destruct (e_reachable_inv A nil h edv dim edim Hr s Hs) as [Hg _].
  remember (Ret r) as rr eqn:Hrr.
  destruct Hres as [|q1 q3 k new Hprep Hn|q1 q3 k o' Hprep Ho Hk|q1 q3 k o' q4 vals l rr' Hprep Ho Hk _ Hq4 Hp4 Hp4' Hc4 Hg4 Ho4 Hb4 Hv Hl]; try congruence.
  all: destruct (prepared_good h edv dim Hr _ _ _ _ _ _ Hg Hprep) as (_ & _ & Hp & _); exists q3, k; done.
Qed.

Lemma est_throwing_add s p force oc s' e :
  reach s -> addB s p force oc = (s', Throw e) ->
  e_stats s' = e_stats s /\ e_opts s' = e_opts s /\
  ((forall new, oc <> OptThrows new) -> (forall new v, oc <> MargThrows new v) -> forall d, e_vals s' d = e_vals s d) /\
  (forall d, i_isDVInProblem (e_prob s') d = false -> e_vals s' d = e_vals s d) /\
  (e = NullPointer <-> p = None) /\
  (p = None -> s' = s) /\
  (forall b, p = Some b -> ~ compatible h (e_prob s) b ->
     e = InvalidOperation /\ i_probs (e_prob s') = i_probs (e_prob s)) /\
  (forall b, p = Some b -> compatible h (e_prob s) b ->
     e = InvalidOperation /\ ~ has_group (e_prob s) (e_marg s) /\ ~ brings_group h b (e_marg s) /\
       i_probs (e_prob s') = i_probs (e_prob s) ++ [b]
     \/ e = External /\ (exists new, oc = OptThrows new \/ exists v, oc = MargThrows new v) /\
       i_probs (e_prob s') = i_probs (e_prob s) ++ [b]
     \/ e = External /\ (exists o, oc = OptReturns o /\ o_rebuilds o = false /\ ~ accepts A s o force) /\
       i_probs (e_prob s') ≡ₚ i_probs (e_prob s) /\ i_probs (e_prob s') <> [] /\
       i_counts (e_prob s') = i_counts (e_prob s) /\ i_groups (e_prob s') = i_groups (e_prob s) /\
       i_order (e_prob s') = i_order (e_prob s)).
Proof.
  intros Hs Heq. destruct (e_reachable_inv A nil h edv dim edim Hr s Hs) as [Hg _].
  pose proof Hg as [Hq Hla]. destruct (backup_in_counts h edv Hr _ Hq) as [Hq' _].
  destruct (add_ret_compatible _ _ _ _ _ _ Hs Heq) as
    [(b & -> & Hc & Hres)|(e' & [= <-] & H1 & H2 & H3 & H4 & H5 & H6 & _ & H7 & H8)].
  - remember (Throw e) as rr eqn:Hrr.
    destruct Hres as [q1 Hadd Hm|q1 q3 k new Hprep Hn|q1 q3 k o' Hprep Ho Hk|q1 q3 k o' q4 vals l rr' Hprep Ho Hk _ Hq4 Hp4 Hp4' Hc4 Hg4 Ho4 Hb4 Hv Hl]; try congruence.
    + injection Hrr as <-. do 4 (split; [done|]). split; [done|]. split; [done|]. split; [intros ? [= <-] Hn; done|].
      intros ? [= <-] _. destruct (i_add_ok h edv Hh (e_prob s) b q1 (noclear_wf h edv Hr _ Hq) Hadd) as (_ & Hp & _).
      left. split; [done|]. rewrite (order_after_add (e_prob s) b q1 _ Hq' Hadd) in Hm.
      unfold has_group. split; [tauto|]. split; [tauto|]. exact Hp.
    + injection Hrr as <-. destruct (prepared_good h edv dim Hr _ _ _ _ _ _ Hg Hprep) as (_ & _ & Hp & _).
      do 2 (split; [done|]). split.
      { intros Hno Hno'. exfalso. destruct Hn as [Hn|[v Hn]]; [eapply Hno|eapply Hno']; exact Hn. }
      split. { intros d Hd. cbn [e_vals e_prob with_vals started] in *. unfold written. rewrite Hd. done. }
      do 2 (split; [done|]). split; [intros ? [= <-] Hno; done|].
      intros ? [= <-] _. right. left. split; [done|]. split; [|exact Hp]. exists new. destruct Hn as [?|[v ?]]; eauto.
    + cbn [e_stats e_opts e_vals e_prob].
      assert (Hl' : i_probs q4 <> [] /\ o_rebuilds o' = false /\ e = External).
      { destruct Hl as [(_ & _ & ->)|(Hne & _ & ->)]; [done|]. destruct (o_rebuilds o'); [done|].
        by injection Hrr as <-. }
      destruct Hl' as (Hne & Hrb & ->).
      do 2 (split; [done|]). split; [intros _ _; exact Hv|]. split; [intros d _; apply Hv|].
      do 2 (split; [done|]). split; [intros ? [= <-] Hno; done|].
      intros ? [= <-] _. right. right. split; [done|]. split.
      { exists o'. do 2 (split; [done|]). intros Ha. apply keep_accepts in Ha. congruence. }
      done.
  - split; [done|]. split; [done|]. split; [intros _ _ d; rewrite H2; done|].
    split; [intros d _; rewrite H2; done|]. split.
    { destruct p as [b|]; [|split; intros; [done|apply H4; done]]. rewrite (H5 b eq_refl). done. }
    split; [done|]. split; [intros b -> _; split; [apply (H5 b); done|done]|].
    intros b -> Hc. destruct H8. eauto.
Qed.

(** ** removeBatch *)
Lemma find_index_split p l i :
  find_index p l = Some i -> exists l1 l2, l = l1 ++ p :: l2 /\ p ∉ l1 /\ delete i l = l1 ++ l2.
Proof.
  revert i. induction l as [|y l IH]; intros i; cbn [find_index]; [done|].
  destruct (Nat.eqb_spec y p) as [->|Hne].
  - intros [= <-]. exists [], l. set_solver.
  - destruct (find_index p l) as [j|]; [|done]. intros [= <-].
    destruct (IH j eq_refl) as (l1 & l2 & -> & H1 & H2). exists (y :: l1), l2. simpl.
    split; [done|]. split; [set_solver|]. f_equal. exact H2.
Qed.

Lemma est_remove s p oc :
  reach s ->
  ((forall b, p = Some b -> b ∉ i_probs (e_prob s)) -> e_removeBatch A nil h dim s p oc = (s, Ret tt)) /\
  (forall b l1 l2, p = Some b -> i_probs (e_prob s) = l1 ++ b :: l2 -> b ∉ l1 ->
   exists s' r, e_removeBatch A nil h dim s p oc = (s', r) /\
     i_probs (e_prob s') = l1 ++ l2 /\
     (exists q, i_remove_idx h (e_prob s) (length l1) = (q, Ret tt) /\ e_prob s' = q) /\
     (forall o, has_group (e_prob s') (e_marg s) -> oc = OptReturns o ->
        r = Ret tt /\
        (forall d, e_vals s' d = if i_isDVInProblem (e_prob s') d && e_active s d then o_newvals o d else e_vals s d) /\
        st_rankTheta (e_stats s') = v_svdRank (o_marg_view o) /\
        st_sigma (e_stats s') = v_covariance (o_marg_view o) /\
        st_svLog2Sum (e_stats s') = v_log2Sum (o_marg_view o) /\
        st_infoGain (e_stats s') = a_zero A /\
        st_finalCost (e_stats s') = o_JFinal o) /\
     (~ has_group (e_prob s') (e_marg s) ->
        r = Throw InvalidOperation /\ e_stats s' = e_stats s /\ e_vals s' = e_vals s) /\
     (forall new, has_group (e_prob s') (e_marg s) -> oc = OptThrows new ->
        r = Throw External /\ e_stats s' = e_stats s) /\
     (forall new v, has_group (e_prob s') (e_marg s) -> oc = MargThrows new v ->
        r = Throw External /\ only_scaled_replaced nil (op_columnScaling (e_opts s)) v (e_stats s) (e_stats s'))).
Proof.
  intros Hs. destruct (e_reachable_inv A nil h edv dim edim Hr s Hs) as [Hg _].
  pose proof Hg as [Hq Hla]. pose proof (noclear_wf h edv Hr _ Hq) as Hwf. split.
  - intros Hn. destruct p as [b|]; [|done]. cbn [e_removeBatch].
    destruct (find_index b (i_probs (e_prob s))) as [i|] eqn:Hf; [|done].
    apply find_index_Some in Hf as [Hi _]. apply elem_of_list_lookup_2 in Hi. destruct (Hn b eq_refl Hi).
  - intros b l1 l2 -> Hprobs Hb. cbn [e_removeBatch].
    assert (Hf : find_index b (i_probs (e_prob s)) = Some (length l1)).
    { rewrite Hprobs. clear -Hb. induction l1 as [|x l1 IH]; cbn [find_index app length].
      - rewrite Nat.eqb_refl. done.
      - destruct (Nat.eqb_spec x b) as [->|]; [set_solver|]. rewrite IH by set_solver. done. }
    rewrite Hf. unfold e_removeBatchIdx.
    assert (Hidx : i_probs (e_prob s) !! length l1 = Some b).
    { rewrite Hprobs, lookup_app_r, Nat.sub_diag by lia. done. }
    destruct (i_remove_idx_ok h edv Hh (e_prob s) (length l1) b Hwf Hidx) as (q & Hrm & Hwfq & Hpq & _).
    assert (Hpq' : i_probs q = l1 ++ l2).
    { rewrite Hpq, Hprobs. clear. induction l1 as [|x l1 IH]; [done|]. cbn. f_equal. exact IH. }
    rewrite Hrm.
    destruct (e_reoptimize A nil dim (with_prob s q) oc) as [s1 r1] eqn:Hre.
    assert (Hgq : e_good h (with_prob s q)).
    { split; [exact (remove_idx_noclear h (e_prob s) (length l1) q Hq Hrm)|]. exact (remove_last_or_absent h edv Hr (e_marg s) (e_prob s) (length l1) q Hwf Hla Hrm). }
    pose proof (reoptimize_spec A nil h edv dim edim Hr _ _ _ _ Hgq Hre) as Hres.
    destruct Hres as [Hm|pre k new Hpre Hk Hn|pre k new v Hpre Hk Hn|pre k o Hpre Hk Ho].
    + exists (with_prob s q), (Throw InvalidOperation). split; [done|]. split; [exact Hpq'|]. split; [eauto|].
      split; [intros o Hh' _; destruct (Hm Hh')|]. split; [done|]. split; intros; destruct Hm; done.
    + eexists _, (Throw External). split; [reflexivity|]. split; [exact Hpq'|]. split; [eauto|].
      split; [congruence|]. split; [|split; [done|congruence]]. intros Hnm. destruct Hnm. unfold has_group.
      cbn [e_prob with_vals started with_prob e_marg] in *. rewrite Hpre. set_solver.
    + eexists _, (Throw External). split; [reflexivity|]. split; [exact Hpq'|]. split; [eauto|].
      split; [congruence|]. split; [|split; [congruence|]].
      * intros Hnm. destruct Hnm. unfold has_group.
        cbn [e_prob with_stats with_vals started with_prob e_marg] in *. rewrite Hpre. set_solver.
      * intros new' v' _ E. rewrite Hn in E. injection E as <- <-. split; [done|].
        unfold only_scaled_replaced, with_scaled, scaled. cbn. done.
    + eexists _, (Ret tt). split; [reflexivity|]. split; [exact Hpq'|]. split; [eauto|].
      split; [|split; [|split; congruence]].
      * intros o' _ E. assert (o' = o) as -> by congruence. done.
      * intros Hnm. destruct Hnm. unfold has_group.
        cbn [e_prob with_stats with_vals started with_prob e_marg] in *. rewrite Hpre. set_solver.
Qed.

(** ** Layout after a rejection *)
Lemma layout_tiles (f : nat -> nat) (L : list nat) c :
  c < sum_list_with f L <->
  exists j d, L !! j = Some d /\ sum_list_with f (take j L) <= c < sum_list_with f (take j L) + f d.
Proof.
  revert c. induction L as [|x L IH]; intros c; simpl.
  - split; [lia|]. intros (j & d & Hj & _). rewrite lookup_nil in Hj. done.
  - destruct (decide (c < f x)) as [Hlt|Hge].
    + split; [intros _; exists 0, x; simpl; split; [done|lia]|]. lia.
    + split.
      * intros Hc. destruct (proj1 (IH (c - f x))) as (j & d & Hj & Hb); [lia|]. exists (S j), d. simpl. split; [done|lia].
      * intros (j & d & Hj & Hb). destruct j as [|j]; simpl in *; [injection Hj as ->; lia|].
        assert (c - f x < sum_list_with f L); [|lia]. apply IH. exists j, d. split; [done|lia].
Qed.
Lemma layout_disjoint (f : nat -> nat) (L : list nat) c i j d d' :
  L !! i = Some d -> L !! j = Some d' ->
  sum_list_with f (take i L) <= c < sum_list_with f (take i L) + f d ->
  sum_list_with f (take j L) <= c < sum_list_with f (take j L) + f d' -> i = j.
Proof.
  revert c i j. induction L as [|x L IH]; intros c i j Hi Hj Bi Bj; [rewrite lookup_nil in Hi; done|].
  destruct i as [|i], j as [|j]; simpl in *; [done| | |].
  - injection Hi as ->. lia.
  - injection Hj as ->. lia.
  - f_equal. apply (IH (c - f x)); [done..|lia|lia].
Qed.

Lemma est_layout s b force oc s' r :
  reach s -> addB s (Some b) force oc = (s', Ret r) -> rv_accepted r = false -> i_probs (e_prob s') <> [] ->
  exists l, e_layout s' = Some l /\
    l_dvs l = active_variables (e_active s') (e_prob s') /\ l_ets l = i_flat_error_terms h (e_prob s') /\
    (forall d j, l_block l !! d = Some j <-> l_dvs l !! j = Some d) /\
    (forall d, is_Some (l_col l !! d) <-> d ∈ l_dvs l) /\
    (forall c, c < total dim (l_dvs l) <-> exists d k, l_col l !! d = Some k /\ k <= c < k + dim d) /\
    (forall c d d' k k', l_col l !! d = Some k -> l_col l !! d' = Some k' ->
       k <= c < k + dim d -> k' <= c < k' + dim d' -> d = d') /\
    (forall i j d d' k k', i < j -> l_block l !! d = Some i -> l_block l !! d' = Some j ->
       l_col l !! d = Some k -> l_col l !! d' = Some k' -> k + dim d <= k') /\
    (forall e, is_Some (l_row l !! e) <-> e ∈ l_ets l) /\
    (forall c, c < sum_list_with edim (l_ets l) <-> exists e k, l_row l !! e = Some k /\ k <= c < k + edim e) /\
    (forall c e e' k k', l_row l !! e = Some k -> l_row l !! e' = Some k' ->
       k <= c < k + edim e -> k' <= c < k' + edim e' -> e = e').
Proof.
  intros Hs Heq Hrej Hne. destruct (add_ret _ _ _ _ _ _ Hs Heq) as (b' & [= <-] & Hc & Hres).
  remember (Ret r) as rr eqn:Hrr.
  destruct Hres as [|q1 q3 k new Hprep Hn|q1 q3 k o' Hprep Ho Hk|q1 q3 k o' q4 vals l rr' Hprep Ho Hk _ Hq4 Hp4 Hp4' Hc4 Hg4 Ho4 Hb4 Hv Hl]; try congruence.
  { injection Hrr as <-. done. }
  cbn [e_prob e_layout e_active] in *.
  destruct Hl as [[Hl _]|(_ & (l' & -> & Hl') & _)]; [done|].
  destruct (backup_in_counts h edv Hr _ Hq4) as [Hq4' _].
  destruct (restoreLinearSolver_spec h edv dim edim Hr (e_active s) q4 Hq4') as (l & Hl & H1 & H2 & H3 & H4 & H5).
  rewrite Hl' in Hl. injection Hl as ->. exists l. split; [done|]. rewrite H1, H2.
  set (L := active_variables (e_active s) q4) in *. set (E := i_flat_error_terms h q4) in *.
  split; [done|]. split; [done|]. split; [done|].
  assert (Hnd : NoDup L).
  { apply NoDup_filter. apply (inc_enumeration h edv Hr q4 Hq4'). }
  assert (HndE : NoDup E) by (apply (inc_ets_once h edv Hr q4 Hq4')).
  split.
  { intros d. rewrite elem_of_list_lookup. split.
    - intros [c Hcc]. apply H4 in Hcc as (j & Hj & _). eauto.
    - intros [j Hj]. eexists. apply H4. exists j. split; [done|reflexivity]. }
  split.
  { intros c. unfold total. rewrite layout_tiles. split.
    - intros (j & d & Hj & Hb). exists d, (sum_list_with dim (take j L)). split; [apply H4; eauto|done].
    - intros (d & k0 & Hd & Hb). apply H4 in Hd as (j & Hj & ->). exists j, d. done. }
  split.
  { intros c d d' k0 k0' Hd Hd' B B'. apply H4 in Hd as (i & Hi & ->). apply H4 in Hd' as (j & Hj & ->).
    assert (i = j) as <- by (eapply (layout_disjoint dim L); eauto). congruence. }
  split.
  { intros i j d d' k0 k0' Hij Hi Hj Hd Hd'. apply H3 in Hi, Hj.
    apply H4 in Hd as (i' & Hi' & ->). apply H4 in Hd' as (j' & Hj' & ->).
    assert (i' = i) as -> by exact (NoDup_lookup L i' i d Hnd Hi' Hi).
    assert (j' = j) as -> by exact (NoDup_lookup L j' j d' Hnd Hj' Hj).
    unfold total. replace (take j L) with (take i L ++ d :: take (j - S i) (drop (S i) L)).
    - rewrite sum_list_with_app. simpl. lia.
    - rewrite <- (take_drop i (take j L)), take_take, Nat.min_l by lia. f_equal.
      rewrite <- (take_drop_middle (take j L) i d) at 1 by (rewrite lookup_take by lia; done).
      rewrite take_take, Nat.min_l by lia.
      rewrite drop_app_alt by (rewrite take_length; apply lookup_lt_Some in Hi; lia).
      f_equal. rewrite skipn_firstn_comm. done. }
  split.
  { intros e. rewrite elem_of_list_lookup. split.
    - intros [c Hcc]. apply H5 in Hcc as (j & Hj & _). eauto.
    - intros [j Hj]. eexists. apply H5. exists j. split; [done|reflexivity]. }
  split.
  { intros c. rewrite layout_tiles. split.
    - intros (j & d & Hj & Hb). exists d, (sum_list_with edim (take j E)). split; [apply H5; eauto|done].
    - intros (d & k0 & Hd & Hb). apply H5 in Hd as (j & Hj & ->). exists j, d. done. }
  intros c d d' k0 k0' Hd Hd' B B'. apply H5 in Hd as (i & Hi & ->). apply H5 in Hd' as (j & Hj & ->).
  assert (i = j) as <- by (eapply (layout_disjoint edim E); eauto). congruence.
Qed.

(** ** Published statistics *)
Lemma addBatch_stats s p force oc s' r :
  addB s p force oc = (s', r) ->
  match accepted_event (EAdd p force oc, rbind r (fun x => Ret (Some x))) with
  | Some (b, o, rv) =>
      r = Ret rv /\ oc = OptReturns o /\ p = Some b /\
      rv_infoGain rv = a_half_diff A (v_log2Sum (o_marg_view o)) (st_svLog2Sum (e_stats s)) /\
      st_svLog2Sum (e_stats s') = v_log2Sum (o_marg_view o) /\
      published_is_returned s' rv /\ returned_is_solved nil (e_opts s) o rv /\
      st_peakMem (e_stats s') = v_peakMem (o_marg_view o) /\ st_mem (e_stats s') = v_mem (o_marg_view o) /\
      st_flops (e_stats s') = v_flops (o_marg_view o) /\
      (forall d, e_vals s' d = if i_isDVInProblem (e_prob s') d && e_active s d then o_newvals o d else e_vals s d)
  | None => e_stats s' = e_stats s
  end.
Proof.
  unfold e_addBatch. intros Heq.
  destruct (i_add h (e_prob s) p) as [q1 [[]|e| |]] eqn:Hadd; try (injection Heq as <- <-; destruct p, oc; done).
  destruct p as [b|]; [|done].
  destruct (order_marg (e_marg s) q1) as [q2 [[]|e| |]]; try (injection Heq as <- <-; destruct oc; done).
  cbv zeta in Heq. set (q3 := if force then q2 else i_save q2 (e_vals s)) in *. clearbody q3.
  destruct (marg_start dim (e_active s) q3 (e_marg s)) as [k|e| |]; try (injection Heq as <- <-; destruct oc; done).
  destruct oc as [o|new|new v]; [|injection Heq as <- <-; done..].
  destruct (keep_batch A s o (batch_return A nil s o) force) eqn:Hk.
  - injection Heq as <- <-. cbn [rbind accepted_event with_accepted rv_accepted].
    do 5 (split; [done|]). split; [repeat split|]. split; [repeat split|]. repeat split.
  - destruct (i_remove h q3 (Some b)) as [q4 [[]|e| |]]; try (injection Heq as <- <-; done).
    destruct (Nat.ltb 0 (i_numProblems q4)); [|injection Heq as <- <-; done].
    destruct (restoreLinearSolver h dim edim (e_active s) q4); injection Heq as <- <-; try done.
    destruct (o_rebuilds o); done.
Qed.

Lemma est_published_add s b force oc s' r :
  addB s (Some b) force oc = (s', Ret r) -> rv_accepted r = true ->
  exists o, oc = OptReturns o /\ published_is_returned s' r /\ returned_is_solved nil (e_opts s) o r /\
    rv_infoGain r = a_half_diff A (v_log2Sum (o_marg_view o)) (st_svLog2Sum (e_stats s)) /\
    st_svLog2Sum (e_stats s') = v_log2Sum (o_marg_view o) /\
    st_peakMem (e_stats s') = v_peakMem (o_marg_view o) /\ st_mem (e_stats s') = v_mem (o_marg_view o) /\
    st_flops (e_stats s') = v_flops (o_marg_view o) /\
    (forall d, e_vals s' d = if i_isDVInProblem (e_prob s') d && e_active s d then o_newvals o d else e_vals s d).
Proof.
  intros Heq Hacc. apply addBatch_stats in Heq as Hst. cbn [rbind] in Hst.
  destruct oc as [o|new|new v].
  - cbn [accepted_event] in Hst. rewrite Hacc in Hst. exists o. tauto.
  - exfalso. unfold e_addBatch in Heq.
    destruct (i_add h (e_prob s) (Some b)) as [q1 [[]|e| |]]; try done.
    destruct (order_marg (e_marg s) q1) as [q2 [[]|e| |]]; try done. cbv zeta in Heq.
    destruct (marg_start dim _ _ _); done.
  - exfalso. unfold e_addBatch in Heq.
    destruct (i_add h (e_prob s) (Some b)) as [q1 [[]|e| |]]; try done.
    destruct (order_marg (e_marg s) q1) as [q2 [[]|e| |]]; try done. cbv zeta in Heq.
    destruct (marg_start dim _ _ _); done.
Qed.

Lemma est_published_reopt s oc s' r :
  reach s -> e_reoptimize A nil dim s oc = (s', Ret r) ->
  exists o, oc = OptReturns o /\ published_is_returned s' r /\ returned_is_solved nil (e_opts s) o r /\
    rv_accepted r = true /\ rv_infoGain r = a_zero A /\
    st_svLog2Sum (e_stats s') = v_log2Sum (o_marg_view o) /\
    e_prob s' = e_prob s /\
    (forall d, e_vals s' d = if i_isDVInProblem (e_prob s) d && e_active s d then o_newvals o d else e_vals s d).
Proof.
  intros Hs Heq. destruct (e_reachable_inv A nil h edv dim edim Hr s Hs) as [Hg _].
  pose proof (reoptimize_spec A nil h edv dim edim Hr _ _ _ _ Hg Heq) as Hres.
  remember (Ret r) as rr eqn:Hrr.
  destruct Hres as [Hm|pre k new Hpre Hk Hn|pre k new v Hpre Hk Hn|pre k o Hpre Hk Ho]; try congruence.
  injection Hrr as <-. exists o. split; [done|]. split; [repeat split|]. split; [repeat split|]. done.
Qed.

Lemma est_reopt_outcome s oc s' r :
  reach s -> e_reoptimize A nil dim s oc = (s', r) ->
  e_prob s' = e_prob s /\ e_opts s' = e_opts s /\ e_layout s' = e_layout s /\
  (~ has_group (e_prob s) (e_marg s) -> r = Throw InvalidOperation /\ s' = s) /\
  (has_group (e_prob s) (e_marg s) ->
     match oc with
     | OptReturns o => exists rv, r = Ret rv
     | OptThrows new => r = Throw External /\ e_stats s' = e_stats s
     | MargThrows _ v => r = Throw External /\
         only_scaled_replaced nil (op_columnScaling (e_opts s)) v (e_stats s) (e_stats s')
     end) /\
  (forall d, e_vals s' d =
     if i_isDVInProblem (e_prob s) d && e_active s d && bool_decide (e_marg s ∈ i_order (e_prob s))
     then match oc with OptReturns o => o_newvals o d | OptThrows new | MargThrows new _ => new d end
     else e_vals s d).
Proof.
  intros Hs Heq. destruct (e_reachable_inv A nil h edv dim edim Hr s Hs) as [Hg _].
  pose proof (reoptimize_spec A nil h edv dim edim Hr _ _ _ _ Hg Heq) as Hres. unfold has_group.
  destruct Hres as [Hm|pre k new Hpre Hk ->|pre k new v Hpre Hk ->|pre k o Hpre Hk ->].
  { do 3 (split; [done|]). split; [done|]. split; [done|]. intros d. rewrite (bool_decide_false _ Hm), andb_false_r. done. }
  all: assert (Hin : e_marg s ∈ i_order (e_prob s)) by (rewrite Hpre; set_solver).
  all: do 3 (split; [done|]); split; [done|]; rewrite (bool_decide_true _ Hin).
  all: split; [|intros d; rewrite andb_true_r; done]; intros _.
  - done.
  - split; [done|]. unfold only_scaled_replaced, with_scaled, scaled. cbn. done.
  - eauto.
Qed.

(** other calls on the published statistics *)
Lemma estep_stats s op s' r :
  estep A nil h dim edim s op = (s', r) -> adds_only op ->
  match accepted_event (op, r) with
  | Some (b, o, rv) =>
      rv_infoGain rv = a_half_diff A (v_log2Sum (o_marg_view o)) (st_svLog2Sum (e_stats s)) /\
      st_svLog2Sum (e_stats s') = v_log2Sum (o_marg_view o)
  | None => e_stats s' = e_stats s
  end.
Proof.
  intros Heq Had. destruct op as [p force oc|idx oc|p oc|oc|vals|act|o]; try done; cbn [estep] in Heq;
    try (injection Heq as <- <-; done).
  destruct (addB s p force oc) as [s1 r1] eqn:He. cbn [fst snd] in Heq. injection Heq as <- <-.
  apply addBatch_stats in He. revert He.
  destruct (accepted_event (EAdd p force oc, rbind r1 (fun x => Ret (Some x)))) as [[[b o] rv]|]; tauto.
Qed.

(** ** Accepted batches are the batches of the problem *)
Lemma est_accepted_list s tr s' :
  reach s -> e_trace A nil h dim edim s tr s' ->
  (forall op r, (op, r) ∈ tr -> adds_only op /\ exists x, r = Ret x) ->
  reach s' /\ i_probs (e_prob s') ≡ₚ i_probs (e_prob s) ++ accepted_batches tr /\
  ((forall b force oc r, (EAdd (Some b) force oc, r) ∈ tr -> o_numET (h b) <> 0) ->
   i_probs (e_prob s') = i_probs (e_prob s) ++ accepted_batches tr).
Proof.
  intros Hs Htr. revert Hs. induction Htr as [s|s op r s1 tr s2 Hstep Hcb Htr IH]; intros Hs Hall.
  { rewrite app_nil_r. done. }
  destruct (Hall op r) as [Had [x ->]]; [set_solver|].
  assert (H1 : reach s1 /\ i_probs (e_prob s1) ≡ₚ i_probs (e_prob s) ++ accepted_batches [(op, Ret x)] /\
    ((forall b force oc, op = EAdd (Some b) force oc -> o_numET (h b) <> 0) ->
     i_probs (e_prob s1) = i_probs (e_prob s) ++ accepted_batches [(op, Ret x)])).
  { destruct op as [p force oc|idx oc|p oc|oc|vals|act|o]; try done.
    - cbn [estep] in Hstep. destruct (addB s p force oc) as [s1' r1] eqn:He. cbn [fst snd] in Hstep.
      injection Hstep as -> Hr1. destruct r1 as [rv|e| |]; try done. cbn [rbind] in Hr1. injection Hr1 as <-.
      destruct (add_ret _ _ _ _ _ _ Hs He) as (b & -> & Hc & Hres).
      assert (Hoc : exists o, oc = OptReturns o).
      { destruct (proj1 (est_returns_iff s (Some b) force oc Hs)) as (? & o & _ & -> & _); eauto. }
      destruct Hoc as [o ->].
      split.
      { eapply (er_step A nil h dim edim s (EAdd (Some b) force (OptReturns o)) s1 (Ret (Some rv))); [exact Hs| |done|].
        - cbn [estep]. rewrite He. reflexivity.
        - intros p' f' oc' [= <- <- <-]. eauto. }
      destruct (est_acceptance _ _ _ _ _ _ Hs He) as (_ & _ & _ & Hyes & Hno & _).
      unfold accepted_batches. cbn [omap list_omap accepted_event].
      destruct (rv_accepted rv) eqn:Hacc; simpl.
      + rewrite Hyes by done. done.
      + rewrite app_nil_r. split; [apply Hno; done|]. intros Het.
        destruct (est_rejected _ _ _ _ _ _ Hs He Hacc) as (_ & _ & Hp & _). apply Hp. right. eapply Het. done.
    - assert (Hr1 : reach s1) by (eapply er_step; [exact Hs|exact Hstep|done|intros ? ? ? [=]]).
      cbn [estep] in Hstep. injection Hstep as <- <-. split; [exact Hr1|]. cbn. rewrite app_nil_r. done.
    - assert (Hr1 : reach s1) by (eapply er_step; [exact Hs|exact Hstep|done|intros ? ? ? [=]]).
      cbn [estep] in Hstep. injection Hstep as <- <-. split; [exact Hr1|]. cbn. rewrite app_nil_r. done.
    - assert (Hr1 : reach s1) by (eapply er_step; [exact Hs|exact Hstep|done|intros ? ? ? [=]]).
      cbn [estep] in Hstep. injection Hstep as <- <-. split; [exact Hr1|]. cbn. rewrite app_nil_r. done. }
  destruct H1 as (Hs1 & Hp1 & He1).
  destruct (IH Hs1) as (Hs2 & Hp2 & He2); [intros op' r' Hin; apply Hall; set_solver|].
  assert (Happ : accepted_batches ((op, Ret x) :: tr) = accepted_batches [(op, Ret x)] ++ accepted_batches tr).
  { unfold accepted_batches. cbn [omap list_omap]. destruct (accepted_event (op, Ret x)); done. }
  split; [done|]. split; [rewrite Hp2, Hp1, Happ, app_assoc; done|].
  intros Het. rewrite He2, He1, Happ, app_assoc; [done| |].
  - intros b force oc ->. eapply Het. apply elem_of_list_here.
  - intros b force oc r' Hin. eapply Het. apply elem_of_list_further, Hin.
Qed.

(** ** Running concrete histories *)
Definition e_run s ops : est V D M := foldl (fun s op => fst (estep A nil h dim edim s op)) s ops.
Fixpoint e_good_run s (ops : list (eop V D M)) : bool :=
  match ops with
  | [] => true
  | op :: ops' =>
    match snd (estep A nil h dim edim s op) with Ret _ | Throw _ => true | UB | Diverge => false end
    && match op with
       | EAdd p _ _ => match snd (i_add h (e_prob s) p) with Ret _ => true | _ => false end
       | _ => true end
    && e_good_run (fst (estep A nil h dim edim s op)) ops'
  end.
Lemma e_run_reachable s ops : reach s -> e_good_run s ops = true -> reach (e_run s ops).
Proof.
  revert s. induction ops as [|op ops IH]; intros s Hs Hg; [done|].
  cbn [e_good_run] in Hg. apply andb_true_iff in Hg as [Hg1 Hg3]. apply andb_true_iff in Hg1 as [Hg1 Hg2].
  change (reach (e_run (fst (estep A nil h dim edim s op)) ops)). apply IH; [|done].
  eapply (er_step A nil h dim edim s op _ (snd (estep A nil h dim edim s op))); [done|apply surjective_pairing| |].
  - destruct (snd (estep A nil h dim edim s op)); done.
  - intros p force oc ->. destruct p as [b|]; [|done]. exists b. split; [done|].
    destruct (e_reachable_inv A nil h edv dim edim Hr s Hs) as [[Hq _] _].
    destruct (backup_in_counts h edv Hr _ Hq) as [Hq' _].
    apply (inc_add_iff h edv Hr (e_prob s) b Hq').
    destruct (snd (i_add h (e_prob s) (Some b))) as [[]|e| |]; done.
Qed.
End packaged.

(** ** Telescoping *)
Section telescope.
Context {V M : Type} (A : arith R) (nil : M) (h : nat -> oprob V) (dim edim : nat -> nat).
Context (Hhalf : forall x y, a_half_diff A x y = ((x - y) / 2)%R).

Lemma last_cons_default (x : R) l d : List.last (x :: l) d = List.last l x.
Proof. revert x d. induction l as [|y l IH]; intros x d; [done|]. change (List.last (y :: l) d = List.last (y :: l) x). rewrite !IH. done. Qed.

Lemma est_telescope (s s' : est V R M) tr :
  e_trace A nil h dim edim s tr s' -> (forall op r, (op, r) ∈ tr -> adds_only op) ->
  foldr Rplus 0%R (accepted_gains tr) = ((st_svLog2Sum (e_stats s') - st_svLog2Sum (e_stats s)) / 2)%R /\
  st_svLog2Sum (e_stats s') = List.last (accepted_log2sums tr) (st_svLog2Sum (e_stats s)).
Proof.
  induction 1 as [s|s op r s1 tr s2 Hstep Hcb Htr IH]; intros Hall.
  { cbn. split; [lra|done]. }
  destruct IH as [IH1 IH2]; [intros op' r' Hin; apply (Hall op' r'); apply elem_of_list_further, Hin|].
  pose proof (estep_stats A nil h dim edim _ _ _ _ Hstep (Hall op r ltac:(set_solver))) as Hst.
  unfold accepted_gains, accepted_log2sums in *. cbn [omap list_omap] in *.
  destruct (accepted_event (op, r)) as [[[b o] rv]|].
  - destruct Hst as [Hg Hl]. cbn [map foldr fst snd]. rewrite IH1, Hl, Hg, Hhalf. split; [lra|].
    rewrite IH2, Hl. symmetry. apply last_cons_default.
  - rewrite IH1, IH2, Hst. done.
Qed.
End telescope.
