(** Proofs behind Properties_Report.v: in which order the variables of a group follow each other after
    [IncrementalOptimizationProblem::add], and what the marginalised group looks like when every batch brings the
    same variables in it. *)
From stdpp Require Import prelude list gmap.
From Verif Require Import Base PermuteModel OptProblemModel OptProblemProofs IncProblemModel IncProblemProofs IncHistoryProofs
  Spec_IncProblem EstimatorModel Spec_Estimator EstimatorProofs.

Section order.
Context {V : Type} (h : nat -> oprob V) (edv : nat -> list nat) (Hr : forall b, o_reachable edv (h b)).
Let Hh : forall b, o_wf edv (h b).
Proof. intros b. apply o_reachable_wf, Hr. Qed.
Implicit Types s q : inc V.

(** The variables of the list that are new and belong to group [g]. *)
Definition fresh s (g : nat) (L : list (nat * nat)) : list nat :=
  map fst (filter (fun x : nat * nat => x.2 = g /\ i_counts s !! x.1 = None) L).

Lemma fresh_ext s1 s2 g L :
  (forall d, d ∈ map fst L -> (i_counts s1 !! d = None <-> i_counts s2 !! d = None)) -> fresh s1 g L = fresh s2 g L.
Proof.
  intros He. unfold fresh. f_equal. induction L as [|[d g'] L IH]; [done|].
  rewrite !filter_cons. cbn [fst snd]. specialize (He d) as Hd. cbn [map fst] in Hd.
  destruct (decide (g' = g /\ i_counts s1 !! d = None)) as [D1|D1], (decide (g' = g /\ i_counts s2 !! d = None)) as [D2|D2];
    rewrite ?IH; try done.
  all: try (intros x Hx; apply He; cbn [map fst]; set_solver).
  all: exfalso; assert (d ∈ d :: map fst L) as Hin by set_solver; tauto.
Qed.

Lemma add_list_order L s s' g :
  NoDup (map fst L) -> twf s -> add_list L s = (s', Ret tt) ->
  default [] (i_groups s' !! g) = default [] (i_groups s !! g) ++ fresh s g L.
Proof.
  revert s. induction L as [|[d gd] L IH]; intros s Hnd Hwf Hadd; cbn [add_list] in Hadd.
  { injection Hadd as <-. unfold fresh. simpl. rewrite app_nil_r. done. }
  cbn [map fst] in Hnd. apply NoDup_cons in Hnd as [Hdn Hnd].
  assert (Hcons : fresh s g ((d, gd) :: L) =
            (if decide (gd = g /\ i_counts s !! d = None) then [d] else []) ++ fresh s g L).
  { unfold fresh. rewrite filter_cons. cbn [fst snd]. destruct (decide _); done. }
  destruct (i_counts s !! d) as [[c g']|] eqn:Hc.
  - assert (g' = gd) as ->.
    { unfold add_dv in Hadd. rewrite Hc in Hadd. destruct (Nat.eqb_spec g' gd); [done|discriminate]. }
    rewrite (add_dv_old s d gd c) in Hadd by done.
    set (s1 := Inc _ _ _ _ _) in Hadd.
    assert (Hwf1 : twf s1) by (apply twf_add_old; done).
    rewrite (IH s1 Hnd Hwf1 Hadd), Hcons, decide_False by (intros [_ ?]; done).
    simpl. f_equal. apply fresh_ext. intros x Hx. simpl. rewrite lookup_insert_ne; [done|]. set_solver.
  - rewrite (add_dv_new s d gd _ Hc eq_refl) in Hadd.
    set (s1 := Inc _ _ _ _ _) in Hadd.
    assert (Hwf1 : twf s1) by (apply twf_add_new; done).
    rewrite (IH s1 Hnd Hwf1 Hadd), Hcons.
    assert (fresh s1 g L = fresh s g L) as ->.
    { apply fresh_ext. intros x Hx. simpl. rewrite lookup_insert_ne; [done|]. set_solver. }
    simpl. unfold gadd. destruct (decide (gd = g)) as [->|Hne].
    + rewrite lookup_insert. simpl. rewrite decide_True by done. rewrite <- app_assoc. done.
    + rewrite lookup_insert_ne by done. rewrite decide_False by tauto. done.
Qed.

(** The part of a batch's enumeration that belongs to group [g] is that group. *)
Lemma enum_filter_group groups order g (f : nat -> nat) :
  gwf groups order -> (forall g' l d, groups !! g' = Some l -> d ∈ l -> f d = g') ->
  filter (fun d => f d = g) (enum groups order) = default [] (groups !! g).
Proof.
  intros Hwf Hf.
  assert (forall order', NoDup order' -> (forall g', g' ∈ order' -> is_Some (groups !! g')) ->
            filter (fun d => f d = g) (enum groups order') = if decide (g ∈ order') then default [] (groups !! g) else []) as Hgen.
  { induction order' as [|g' o IH]; intros Hnd Hs; [rewrite decide_False by set_solver; done|].
    apply NoDup_cons in Hnd as [Hn Hnd]. unfold enum. cbn [map concat].
    rewrite filter_app. fold (enum groups o). rewrite IH; [|done|set_solver].
    destruct (Hs g') as [l Hl]; [set_solver|]. rewrite Hl. cbn [default].
    destruct (decide (g' = g)) as [->|Hne].
    - rewrite decide_False by done. rewrite decide_True by set_solver. rewrite app_nil_r.
      rewrite filter_id_eq; [rewrite Hl; done|]. intros d Hd. eapply Hf; done.
    - rewrite filter_none_eq; [|intros d Hd ->%symmetry; apply Hne; symmetry; eapply Hf; done].
      cbn [app]. destruct (decide (g ∈ o)); [rewrite decide_True by set_solver|rewrite decide_False by set_solver]; done. }
  rewrite Hgen; [|apply Hwf|intros g' Hg'; apply Hwf, Hg'].
  destruct (decide (g ∈ order)) as [Hin|Hin]; [done|].
  destruct (groups !! g) eqn:E; [|done]. exfalso. apply Hin, Hwf. eauto.
Qed.

Lemma fresh_opairs s g p :
  fresh s g (opairs (h p)) = filter (fun d => i_counts s !! d = None) (default [] (o_groups (h p) !! g)).
Proof.
  rewrite <- (enum_filter_group (o_groups (h p)) (o_order (h p)) g (ogrp (h p))).
  - unfold fresh, opairs. fold (o_enum (h p)). induction (o_enum (h p)) as [|d l IH]; [done|].
    cbn [map]. rewrite !filter_cons. cbn [fst snd].
    destruct (decide (ogrp (h p) d = g)) as [Hg|Hg].
    + rewrite filter_cons. destruct (decide (i_counts s !! d = None)) as [Hc|Hc].
      * rewrite decide_True by done. cbn [map fst]. f_equal. exact IH.
      * rewrite decide_False by tauto. exact IH.
    + rewrite decide_False by tauto. exact IH.
  - apply Hh.
  - intros g' l d Hl Hd. unfold ogrp. assert (o_lookup (h p) !! d = Some g') as -> by (apply (ow_lookup _ _ (Hh p)); eauto). done.
Qed.

Lemma i_add_order s p s' g :
  i_wf h s -> i_add h s (Some p) = (s', Ret tt) ->
  default [] (i_groups s' !! g) =
  default [] (i_groups s !! g) ++ filter (fun d => i_counts s !! d = None) (default [] (o_groups (h p) !! g)).
Proof.
  intros Hwf Hadd. rewrite (i_add_eq h edv Hh) in Hadd.
  destruct (add_list (opairs (h p)) s) as [s1 [[]|e| |]] eqn:Hl; try done.
  destruct (existsb _ _); [done|]. injection Hadd as <-. cbn [i_groups].
  rewrite (add_list_order _ s s1 g) by (done || apply (opairs_nodup h edv Hh) || apply (iw_t _ _ Hwf)).
  rewrite fresh_opairs. done.
Qed.

(** ** Every batch brings the same variables in group [m] *)
Context (m : nat) (L : list nat) (HL : forall b, o_getGroup (h b) m = Ret L).
Definition common q : Prop := i_groups q !! m = (if decide (i_probs q = []) then None else Some L).

Lemma batch_group b : o_groups (h b) !! m = Some L.
Proof. specialize (HL b). unfold o_getGroup in HL. destruct (o_groups (h b) !! m); [congruence|done]. Qed.
Lemma batch_lookup b d : d ∈ L -> o_lookup (h b) !! d = Some m.
Proof. intros Hd. apply (ow_lookup _ _ (Hh b)). exists L. split; [apply batch_group|done]. Qed.
Lemma L_ne : L <> [].
Proof. apply (gwf_ne _ _ (ow_groups _ _ (Hh 0)) m). apply batch_group. Qed.

Lemma no_batches_empty q : i_wf h q -> i_probs q = [] -> i_groups q !! m = None.
Proof.
  intros Hwf Hp. destruct (i_groups q !! m) as [l|] eqn:E; [|done]. exfalso.
  pose proof (gwf_ne _ _ (tw_g _ (iw_t _ _ Hwf)) _ _ E) as Hne. destruct l as [|d l]; [done|].
  destruct (tw_m _ (iw_t _ _ Hwf) _ _ d E) as [c Hc]; [set_solver|].
  pose proof (iw_cnt _ _ Hwf d) as Ho. rewrite Hc, Hp in Ho. simpl in Ho.
  destruct (tw_c _ (iw_t _ _ Hwf) _ _ _ Hc) as [Hpos _]. unfold occ in Ho. simpl in Ho. lia.
Qed.
Lemma member_counted q d : i_wf h q -> i_probs q <> [] -> d ∈ L -> exists c, i_counts q !! d = Some (c, m).
Proof.
  intros Hwf Hp Hd. destruct (i_probs q) as [|b rest] eqn:E; [done|].
  eapply (iw_grp _ _ Hwf b); [rewrite E; set_solver|]. apply batch_lookup, Hd.
Qed.

Lemma common_add q p q' : i_wf h q -> common q -> i_add h q (Some p) = (q', Ret tt) -> common q'.
Proof.
  intros Hwf Hc Hadd. destruct (i_add_ok h edv Hh q p q' Hwf Hadd) as (Hwf' & Hp & _ & _ & _ & _ & _ & _).
  pose proof (i_add_order q p q' m Hwf Hadd) as Ho. rewrite batch_group in Ho. cbn [default] in Ho.
  unfold common in *. rewrite decide_False; [|rewrite Hp; intros E; apply app_eq_nil in E as [_ E]; done].
  assert (default [] (i_groups q' !! m) = L) as HL'.
  { rewrite Ho, Hc. destruct (decide (i_probs q = [])) as [E|E].
    - cbn [default app]. apply filter_id_eq. intros d Hd.
      destruct (i_counts q !! d) as [[c g]|] eqn:Hd'; [|done]. exfalso.
      pose proof (iw_cnt _ _ Hwf d) as Hx. rewrite Hd', E in Hx. unfold occ in Hx. simpl in Hx.
      destruct (tw_c _ (iw_t _ _ Hwf) _ _ _ Hd') as [Hpos _]. lia.
    - cbn [default]. rewrite filter_none_eq; [apply app_nil_r|].
      intros d Hd Hn. destruct (member_counted q d Hwf E Hd) as [c Hc']. congruence. }
  destruct (i_groups q' !! m) as [l|] eqn:E; simpl in HL'; [rewrite HL'; done|]. exfalso. apply L_ne. done.
Qed.

Lemma common_remove q idx q' : i_wf h q -> common q -> i_remove_idx h q idx = (q', Ret tt) -> common q'.
Proof.
  intros Hwf Hc Hrm. destruct (i_remove_idx_eq h edv Hh _ _ _ _ Hwf Hrm) as [[? _]|(_ & p & Hp)]; [done|].
  destruct (i_remove_idx_ok h edv Hh q idx p Hwf Hp) as (q2 & Hrm2 & Hwf2 & Hp2 & Hcnt & Hg & _).
  rewrite Hrm in Hrm2. injection Hrm2 as <-. unfold common in *.
  destruct (decide (i_probs q' = [])) as [E|E]; [apply no_batches_empty; done|].
  rewrite decide_False in Hc by (intros E'; rewrite E' in Hp; rewrite lookup_nil in Hp; done).
  assert (Hall : filter (fun d => d ∉ gone q q') L = L).
  { apply filter_id_eq. intros d Hd. unfold gone. rewrite elem_of_difference, !elem_of_dom. intros [_ Hn]. apply Hn.
    destruct (member_counted q' d Hwf2 E Hd) as [c Hc']. eauto. }
  rewrite Hg. rewrite (rem_groups_lookup _ _ _ _ Hc), Hall.
  pose proof L_ne as Hne. destruct L; done.
Qed.
End order.

Section est.
Context {V D M : Type} (A : arith D) (nil : M) (h : nat -> oprob V) (edv : nat -> list nat) (dim edim : nat -> nat).
Context (Hr : forall b, o_reachable edv (h b)).
Context (m : nat) (L : list nat) (HL : forall b, o_getGroup (h b) m = Ret L).
Let Hh : forall b, o_wf edv (h b).
Proof. intros b. apply o_reachable_wf, Hr. Qed.
Notation common := (common m L).
Implicit Types s : est V D M.

Definition all_common s : Prop := common (e_prob s) /\ Forall (fun x => common x.1.1) (e_runs s).

Lemma common_reopt s oc s' r :
  e_good h s -> all_common s -> e_reoptimize A nil dim s oc = (s', r) -> all_common s'.
Proof.
  intros Hg [Hp Hruns] Heq. destruct (reoptimize_spec A nil h edv dim edim Hr _ _ _ _ Hg Heq); [done| | |].
  all: split; [done|]; cbn [e_runs with_stats with_vals started]; apply Forall_app; split; [done|]; repeat constructor; done.
Qed.
Lemma common_removeIdx s idx oc s' r :
  e_good h s -> all_common s -> e_removeBatchIdx A nil h dim s idx oc = (s', r) -> all_common s'.
Proof.
  intros Hg [Hp Hruns] Heq. pose proof Hg as [Hq Hla].
  pose proof (noclear_wf h edv Hr _ Hq) as Hwf. unfold e_removeBatchIdx in Heq.
  destruct (i_remove_idx h (e_prob s) idx) as [q rr] eqn:Hrm.
  destruct (i_remove_idx_eq h edv Hh _ _ _ _ Hwf Hrm) as [(-> & -> & _)|(-> & p & Hp')].
  - injection Heq as <- <-. split; done.
  - destruct (e_reoptimize A nil dim (with_prob s q) oc) as [s1 r1] eqn:Hre.
    assert (all_common s1) as H1.
    { eapply common_reopt; [|split|exact Hre].
      - split; [eapply remove_idx_noclear; done|]. eapply remove_last_or_absent; done.
      - eapply common_remove; done.
      - done. }
    destruct r1; injection Heq as <- _; done.
Qed.

Lemma common_step s op s' r :
  e_inv h dim s -> all_common s -> estep A nil h dim edim s op = (s', r) ->
  (forall p force oc, op = EAdd p force oc -> exists b, p = Some b /\ compatible h (e_prob s) b) ->
  all_common s'.
Proof.
  intros [Hg _] Hcm Heq Hadd. pose proof Hg as [Hq Hla]. pose proof Hcm as [Hp Hruns].
  pose proof (noclear_wf h edv Hr _ Hq) as Hwf.
  destruct op as [p force oc|idx oc|p oc|oc|vals|act|o]; cbn [estep] in Heq.
  - destruct (Hadd _ _ _ eq_refl) as (b & -> & Hc).
    destruct (e_addBatch A nil h dim edim s (Some b) force oc) as [s1 r1] eqn:He.
    cbn [fst snd] in Heq. injection Heq as <- <-.
    assert (Hprep : forall q1 q3 k, prepared h dim s b force q1 q3 k -> common q3).
    { intros q1 q3 k Hpr. destruct (prepared_good h edv dim Hr _ _ _ _ _ _ Hg Hpr) as (_ & _ & Hp3 & Hg3 & _).
      destruct Hpr as [q1 o pre Hadd1 _ _ _ _].
      pose proof (common_add h edv Hr m L HL _ _ _ Hwf Hp Hadd1) as Hc1. unfold MargOrderProofs.common in Hc1 |- *.
      destruct (i_add_ok h edv Hh _ _ _ Hwf Hadd1) as (_ & Hp1 & _). rewrite Hg3, Hp3, <- Hp1. exact Hc1. }
    destruct (addBatch_spec A nil h edv dim edim Hr _ _ _ _ _ _ Hg Hc He)
      as [q1 Hq1 Hm|q1 q3 k new Hpr Hn|q1 q3 k o Hpr -> Hk|q1 q3 k o q4 vals l rr Hpr -> Hk -> Hq4 Hp4 _ Hc4 Hg4 Ho4 Hb4 Hv Hl].
    + split; [|done]. cbn [e_prob with_prob]. eapply common_add; done.
    + split; [exact (Hprep _ _ _ Hpr)|]. cbn [e_runs with_vals started]. apply Forall_app. split; [done|].
      repeat constructor. exact (Hprep _ _ _ Hpr).
    + split; [exact (Hprep _ _ _ Hpr)|]. cbn [e_runs with_stats with_vals started]. apply Forall_app. split; [done|].
      repeat constructor. exact (Hprep _ _ _ Hpr).
    + split.
      * cbn [e_prob]. unfold MargOrderProofs.common in *. rewrite Hg4, Hp.
        destruct (decide (i_probs q4 = [])) as [E|E], (decide (i_probs (e_prob s) = [])) as [E'|E']; try done; exfalso.
        -- rewrite E in Hp4. apply E'. apply Permutation_nil. done.
        -- rewrite E' in Hp4. apply E. apply Permutation_nil. symmetry. done.
      * cbn [e_runs]. apply Forall_app. split; [done|]. repeat constructor. exact (Hprep _ _ _ Hpr).
  - destruct (e_removeBatchIdx A nil h dim s idx oc) as [s1 r1] eqn:He. cbn [fst snd] in Heq. injection Heq as <- <-.
    eapply common_removeIdx; done.
  - destruct p as [p|]; cbn [e_removeBatch] in Heq; [|injection Heq as <- <-; done].
    destruct (find_index p (i_probs (e_prob s))) as [idx|]; [|injection Heq as <- <-; done].
    destruct (e_removeBatchIdx A nil h dim s idx oc) as [s1 r1] eqn:He. cbn [fst snd] in Heq. injection Heq as <- <-.
    eapply common_removeIdx; done.
  - destruct (e_reoptimize A nil dim s oc) as [s1 r1] eqn:He. cbn [fst snd] in Heq. injection Heq as <- <-.
    eapply common_reopt; done.
  - injection Heq as <- <-. done.
  - injection Heq as <- <-. done.
  - injection Heq as <- <-. done.
Qed.

Lemma reachable_common s : e_reachable A nil h dim edim s -> all_common s.
Proof.
  induction 1 as [mg o act vals|s op s' r Hs IH Hstep _ Hadd].
  - split; [|constructor]. unfold MargOrderProofs.common. simpl. done.
  - eapply common_step; [|exact IH|exact Hstep|exact Hadd]. eapply e_reachable_inv; done.
Qed.

(** What the optimizer is started on: in each run the group holds exactly [L], in this order. *)
Lemma run_group s q act k :
  e_reachable A nil h dim edim s -> (q, act, k) ∈ e_runs s -> e_marg s = m -> i_getGroup q m = Ret L.
Proof.
  intros Hs Hin Hm. destruct (reachable_common s Hs) as [_ Hf]. rewrite Forall_forall in Hf.
  specialize (Hf _ Hin). cbn [fst] in Hf.
  destruct (e_reachable_inv A nil h edv dim edim Hr s Hs) as [_ Hruns]. rewrite Forall_forall in Hruns.
  destruct (Hruns _ Hin) as (Hq & pre & Ho & _). pose proof (noclear_wf h edv Hr _ Hq) as Hwf.
  assert (is_Some (i_groups q !! m)) as [l Hl].
  { apply (gwf_dom _ _ (tw_g _ (iw_t _ _ Hwf))). rewrite Ho, Hm. set_solver. }
  unfold i_getGroup. rewrite Hl. unfold MargOrderProofs.common in Hf. rewrite Hl in Hf.
  destruct (decide _); [done|]. injection Hf as ->. done.
Qed.
End est.
