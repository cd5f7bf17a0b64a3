(** Packaged lemmas for Properties_IncProblem.v. *)
From stdpp Require Import prelude list gmap.
From Coq Require Import Lia.
From Verif Require Import Base PermuteModel PermuteProofs OptProblemModel OptProblemProofs
  IncProblemModel Spec_IncProblem IncProblemProofs IncHistoryProofs IncExtraProofs.

Section packaged.
Context {V : Type} (h : nat -> oprob V) (edv : nat -> list nat).
Context (Hr : forall b, o_reachable edv (h b)).
Implicit Types s : inc V.

Let Hh : forall b, o_wf edv (h b).
Proof. intros b. apply o_reachable_wf, Hr. Qed.

Lemma batches_with_occ s d : batches_with h s d = occ h (i_probs s) d.
Proof.
  unfold batches_with, occ. f_equal. apply list_filter_iff. intros b. unfold o_isDVInProblem.
  rewrite bool_decide_eq_true. done.
Qed.

Lemma inc_counts s :
  i_reachable h s ->
  forall d,
  (i_isDVInProblem s d = true <-> exists b, b ∈ i_probs s /\ o_isDVInProblem (h b) d = true) /\
  (fst <$> i_counts s !! d = if decide (batches_with h s d = 0) then None else Some (N.of_nat (batches_with h s d))) /\
  (forall g, i_getGroupId s d = Ret g <-> exists b, b ∈ i_probs s /\ o_getGroupId (h b) d = Ret g) /\
  (forall g, i_getGroupId s d = Ret g <-> exists l, i_getGroup s g = Ret l /\ d ∈ l) /\
  (forall b g g', b ∈ i_probs s -> o_getGroupId (h b) d = Ret g -> i_getGroupId s d = Ret g' -> g = g').
Proof.
  intros Hs d. apply (i_reachable_wf h edv Hh) in Hs as Hwf.
  split; [apply (i_wf_member h edv Hh); done|]. split.
  { rewrite batches_with_occ. pose proof (iw_cnt _ _ Hwf d) as Hc.
    destruct (i_counts s !! d) as [[c g]|] eqn:E; simpl.
    - destruct (tw_c _ (iw_t _ _ Hwf) _ _ _ E) as [Hpos _].
      rewrite decide_False by lia. subst. done.
    - rewrite decide_True by done. done. }
  split; [intros g; apply (i_wf_group h edv Hh); done|]. split.
  { intros g. unfold i_getGroupId, i_getGroup. split.
    - destruct (i_counts s !! d) as [[c g']|] eqn:E; [|done]. intros [= ->].
      destruct (tw_c _ (iw_t _ _ Hwf) _ _ _ E) as (_ & l & -> & Hin). eauto.
    - intros (l & Hl & Hin). destruct (i_groups s !! g) as [l'|] eqn:E; [|done]. injection Hl as ->.
      destruct (tw_m _ (iw_t _ _ Hwf) _ _ _ E Hin) as [c ->]. done. }
  intros b g g' Hb Hg Hg'.
  assert (Hg2 : i_getGroupId s d = Ret g) by (apply (i_wf_group h edv Hh); [done|]; eauto).
  congruence.
Qed.

Lemma i_flat_enum s : i_flat_variables s = i_enum s.
Proof.
  unfold i_flat_variables, i_enum, enum. f_equal. apply map_ext. intros g.
  unfold i_group_or_nil, i_getGroup. destruct (i_groups s !! g); done.
Qed.

Lemma inc_enumeration s :
  i_reachable h s ->
  NoDup (i_flat_variables s) /\ length (i_flat_variables s) = i_numDV s /\
  (forall d, d ∈ i_flat_variables s <-> i_isDVInProblem s d = true) /\
  (forall i, i_designVariable s i =
     match i_flat_variables s !! i with Some d => Ret d | None => Throw OutOfBound end) /\
  length (i_flat_error_terms h s) = i_numET h s /\
  (forall e, e ∈ i_flat_error_terms h s <-> i_isETInProblem h s e = true) /\
  (forall i, i_errorTerm h s i =
     match i_flat_error_terms h s !! i with Some e => Ret e | None => Throw OutOfBound end) /\
  NoDup (i_order s) /\ length (i_order s) = i_getNumGroups s /\
  (forall g, g ∈ i_order s <-> i_isGroupInProblem s g = true).
Proof.
  intros Hs. apply (i_reachable_wf h edv Hh) in Hs as Hwf. rewrite i_flat_enum.
  pose proof (iw_t _ _ Hwf) as Ht.
  split; [apply NoDup_enum, Ht|]. split; [symmetry; apply twf_size, Ht|]. split.
  { intros d. rewrite twf_enum by done. unfold i_isDVInProblem. rewrite bool_decide_eq_true. done. }
  split; [intros i; apply i_designVariable_spec, Ht|].
  split; [symmetry; apply (i_numET_spec h edv Hh)|].
  split; [intros e; symmetry; apply (isET_spec h edv Hh)|].
  split; [intros i; apply (i_errorTerm_spec h edv Hh)|].
  split; [apply Ht|]. split.
  { unfold i_getNumGroups. rewrite <- size_dom.
    assert (Hd : dom (i_groups s) =@{gset nat} list_to_set (i_order s)).
    { apply set_eq. intros g. rewrite elem_of_dom, elem_of_list_to_set. symmetry. apply Ht. }
    rewrite Hd, size_list_to_set; [done|]. apply Ht. }
  intros g. unfold i_isGroupInProblem. rewrite bool_decide_eq_true. apply Ht.
Qed.

Lemma inc_ets_once s :
  i_reachable h s ->
  NoDup (i_flat_error_terms h s) /\
  (forall i j p q e, i_probs s !! i = Some p -> i_probs s !! j = Some q ->
     o_isETInProblem (h p) e = true -> o_isETInProblem (h q) e = true -> i = j) /\
  (forall p e, o_isETInProblem (h p) e = true -> i_isETInProblem h s e = true ->
     snd (i_add h s (Some p)) = Throw InvalidOperation).
Proof.
  intros Hs. apply (i_reachable_wf h edv Hh) in Hs as Hwf. split; [apply Hwf|]. split.
  - intros i j p q e Hi Hj He He'. pose proof (iw_ets _ _ Hwf) as Hnd.
    assert (Hpe : e ∈ o_ets (h p)).
    { unfold o_isETInProblem in He. apply bool_decide_eq_true in He. apply (Hh p), He. }
    assert (Hqe : e ∈ o_ets (h q)).
    { unfold o_isETInProblem in He'. apply bool_decide_eq_true in He'. apply (Hh q), He'. }
    clear He He'. revert i j Hi Hj Hnd. induction (i_probs s) as [|b l IH]; intros i j Hi Hj Hnd; [done|].
    unfold ets_of in Hnd. simpl in Hnd. apply NoDup_app in Hnd as (H1 & H2 & H3).
    destruct i as [|i], j as [|j]; simpl in *; [done| | |].
    + injection Hi as ->. exfalso. apply (H2 e Hpe). apply (elem_of_ets_of h).
      exists q. split; [eapply elem_of_list_lookup_2, Hj|done].
    + injection Hj as ->. exfalso. apply (H2 e Hqe). apply (elem_of_ets_of h).
      exists p. split; [eapply elem_of_list_lookup_2, Hi|done].
    + f_equal. eapply IH; done.
  - intros p e He Hse. destruct (i_add_iff h edv Hh s p Hwf) as [Hiff Hor].
    destruct Hor as [Hret|Hthrow]; [|done]. apply Hiff in Hret as [_ Hno].
    rewrite (Hno e He) in Hse. done.
Qed.

Lemma inc_add_iff s p :
  i_reachable h s ->
  (((forall d g g', o_getGroupId (h p) d = Ret g -> i_getGroupId s d = Ret g' -> g' = g) /\
    (forall e, o_isETInProblem (h p) e = true -> i_isETInProblem h s e = false)) <->
   snd (i_add h s (Some p)) = Ret tt) /\
  (snd (i_add h s (Some p)) = Ret tt \/ snd (i_add h s (Some p)) = Throw InvalidOperation) /\
  i_add h s None = (s, Throw NullPointer).
Proof.
  intros Hs. apply (i_reachable_wf h edv Hh) in Hs as Hwf.
  destruct (i_add_iff h edv Hh s p Hwf) as [Hiff Hor]. split; [symmetry; exact Hiff|]. split; [done|]. done.
Qed.

Lemma inc_add_effect s p s' :
  i_reachable h s -> i_add h s (Some p) = (s', Ret tt) ->
  i_probs s' = i_probs s ++ [p] /\ i_backup s' = i_backup s /\
  (forall d, i_isDVInProblem s' d = i_isDVInProblem s d || o_isDVInProblem (h p) d) /\
  (forall d g, i_getGroupId s d = Ret g -> i_getGroupId s' d = Ret g) /\
  (forall g, exists k, i_group_or_nil s' g = i_group_or_nil s g ++ k /\
     forall d, d ∈ k -> o_isDVInProblem (h p) d = true /\ i_isDVInProblem s d = false) /\
  (exists k, i_order s' = i_order s ++ k).
Proof.
  intros Hs Hadd. apply (i_reachable_wf h edv Hh) in Hs as Hwf.
  destruct (i_add_ok h edv Hh s p s' Hwf Hadd) as (Hwf' & Hp & Hb & Hc & Hgrp & Hg & Ho & _).
  split; [done|]. split; [done|]. split.
  { intros d. unfold i_isDVInProblem, o_isDVInProblem. rewrite Hc.
    destruct (o_lookup (h p) !! d) as [g|]; [destruct (i_counts s !! d) as [[c g']|]|]; simpl.
    - done.
    - done.
    - rewrite orb_false_r. done. }
  split.
  { intros d g. unfold i_getGroupId. rewrite Hc.
    destruct (i_counts s !! d) as [[c g']|] eqn:E; [|done]. intros [= ->].
    destruct (o_lookup (h p) !! d) as [g2|] eqn:E2; [|done]. rewrite (Hgrp _ _ _ _ E2 E). done. }
  split; [|done].
  intros g. destruct (Hg g) as (k & Hk & Hin). exists k. unfold i_group_or_nil, i_getGroup. split.
  - destruct (i_groups s' !! g), (i_groups s !! g); done.
  - intros d Hd. destruct (Hin d Hd) as [H1 H2]. unfold o_isDVInProblem, i_isDVInProblem.
    rewrite H2. split; [apply bool_decide_eq_true; done|apply bool_decide_eq_false; intros [? ?]; done].
Qed.

Lemma inc_ordering_accepts s o :
  i_reachable h s ->
  (o ≡ₚ i_order s -> exists s', i_setGroupsOrdering s o = (s', Ret tt) /\ i_order s' = o /\
      i_probs s' = i_probs s /\ i_counts s' = i_counts s /\ i_groups s' = i_groups s /\ i_backup s' = i_backup s) /\
  (~ o ≡ₚ i_order s -> i_setGroupsOrdering s o = (s, Throw OutOfBound)).
Proof.
  intros Hs. apply (i_reachable_wf h edv Hh) in Hs as Hwf.
  pose proof (ordering_accepts (i_groups s) (i_order s) o (tw_g _ (iw_t _ _ Hwf))) as Hacc.
  unfold i_setGroupsOrdering. split.
  - intros Hp. apply Hacc in Hp as [Hl Hok]. rewrite Hl, Nat.eqb_refl, Hok. simpl. eexists. done.
  - intros Hn. destruct (Nat.eqb_spec (length o) (length (i_order s))) as [Hl|]; [|done]. simpl.
    destruct (ordering_ok _ _ _) eqn:Hok; [|done]. destruct Hn. apply Hacc. done.
Qed.

Lemma inc_dims active dim s :
  i_reachable h s ->
  (forall g, i_getGroupDim active dim s g =
     match i_getGroup s g with
     | Ret l => Ret (sum_list_with dim (filter (fun d => active d = true) l))
     | Throw e => Throw e | UB => UB | Diverge => Diverge end) /\
  (forall g, i_isGroupInProblem s g = false -> i_getGroupDim active dim s g = Throw OutOfBound) /\
  exists D, Forall2 (fun g n => i_getGroupDim active dim s g = Ret n) (i_order s) D /\
  sum_list D = sum_list_with dim (filter (fun d => active d = true) (i_flat_variables s)).
Proof.
  intros Hs. apply (i_reachable_wf h edv Hh) in Hs as Hwf. split; [|split].
  - intros g. unfold i_getGroupDim. destruct (i_getGroup s g); try done. rewrite sum_dims_spec. done.
  - intros g. unfold i_isGroupInProblem, i_getGroupDim, i_getGroup. intros Hg%bool_decide_eq_false.
    destruct (i_groups s !! g); [|done]. destruct Hg. eauto.
  - rewrite i_flat_enum, <- sum_dims_spec. unfold i_enum. rewrite sum_dims_enum.
    exists (map (fun g => sum_dims active dim (default [] (i_groups s !! g))) (i_order s)). split.
    + assert (Hsub : forall g, g ∈ i_order s -> is_Some (i_groups s !! g)) by (intros g; apply Hwf).
      induction (i_order s) as [|g o IH]; constructor.
      * unfold i_getGroupDim, i_getGroup. destruct (Hsub g) as [l ->]; [set_solver|done].
      * apply IH. intros g' Hg'. apply Hsub. set_solver.
    + induction (i_order s) as [|g o IH]; [done|]. simpl. rewrite IH. done.
Qed.

(** ** Backup *)
Lemma backup_in_counts s :
  i_reachable_noclear h s -> i_reachable h s /\ forall d, is_Some (i_backup s !! d) -> is_Some (i_counts s !! d).
Proof.
  induction 1 as [|s op s' r Hprev [IHr IH] Hstep Hcb Hadd Hnc].
  { split; [constructor|]. intros d. simpl. rewrite lookup_empty. intros [? ?]; done. }
  split; [eapply ir_step; done|].
  apply (i_reachable_wf h edv Hh) in IHr as Hwf.
  assert (Hrem : forall idx s2 r2, i_remove_idx h s idx = (s2, r2) ->
    forall d, is_Some (i_backup s2 !! d) -> is_Some (i_counts s2 !! d)).
  { intros idx s2 r2 Heq. destruct (i_remove_idx_eq h edv Hh _ _ _ _ Hwf Heq) as [(_ & -> & _)|(_ & p & Hp)]; [done|].
    destruct (i_remove_idx_ok h edv Hh s idx p Hwf Hp) as (s3 & Heq3 & _ & _ & _ & _ & _ & Hb).
    rewrite Heq in Heq3. injection Heq3 as <- _.
    intros d Hd. rewrite Hb in Hd. unfold gone in Hd. destruct (decide _) as [|Hn]; [destruct Hd; done|].
    rewrite elem_of_difference, !elem_of_dom in Hn. specialize (IH d Hd).
    destruct (i_counts s2 !! d) eqn:E; [eauto|]. exfalso. apply Hn. split; [done|]. intros [? ?]; done. }
  destruct op as [p|idx|p| |o|p|p g|vals|]; cbn [istep] in Hstep.
  - rewrite (Hadd I) in Hstep. destruct p as [p|]; [|done].
    destruct (i_add_ok h edv Hh s p s' Hwf Hstep) as (_ & _ & Hb & Hc & _).
    intros d Hd. rewrite Hb in Hd. apply IH in Hd. rewrite Hc.
    destruct Hd as [[c g] ->]. destruct (o_lookup (h p) !! d); eauto.
  - eapply Hrem, Hstep.
  - destruct p as [p|]; cbn [i_remove] in Hstep; [|injection Hstep as <- _; done].
    destruct (find_index p (i_probs s)); [|injection Hstep as <- _; done]. eapply Hrem, Hstep.
  - destruct Hnc. done.
  - unfold i_setGroupsOrdering in Hstep. destruct (negb _); [injection Hstep as <- _; done|].
    destruct (ordering_ok _ _ _); injection Hstep as <- _; done.
  - unfold i_permuteProblems in Hstep. destruct (permute _ _); injection Hstep as <- _; done.
  - unfold i_permuteDV in Hstep. destruct (i_groups s !! g); [|injection Hstep as <- _; done].
    destruct (permute _ _); injection Hstep as <- _; done.
  - injection Hstep as <- _. simpl. intros d Hd. rewrite lookup_union, map_lookup_imap in Hd.
    destruct (i_counts s !! d) eqn:E; [eauto|]. simpl in Hd. exfalso.
    destruct (i_backup s !! d) eqn:Eb; [|destruct Hd; done].
    destruct (IH d) as [? ?]; [eauto|congruence].
  - injection Hstep as <- _. done.
Qed.

(** what a later call does to the backup of a variable *)
Lemma later_backup s P s' d :
  i_reachable h s -> i_later h P s s' ->
  i_reachable h s' /\
  ((i_backup s' !! d = i_backup s !! d) \/ i_backup s' !! d = None) /\
  ((forall t, P t -> is_Some (i_counts t !! d)) -> i_backup s' !! d = i_backup s !! d).
Proof.
  intros Hs. induction 1 as [|s s' op s'' r Hl IH Hstep Hcb Hadd Hnc Hns HP]; [eauto|].
  destruct (IH Hs) as (Hs' & IH1 & IH2).
  split; [eapply ir_step; done|].
  apply (i_reachable_wf h edv Hh) in Hs' as Hwf.
  assert (Hone : (i_backup s'' !! d = i_backup s' !! d) \/ (i_backup s'' !! d = None /\ i_counts s'' !! d = None)).
  { assert (Hrem : forall idx s2 r2, i_remove_idx h s' idx = (s2, r2) ->
      (i_backup s2 !! d = i_backup s' !! d) \/ (i_backup s2 !! d = None /\ i_counts s2 !! d = None)).
    { intros idx s2 r2 Heq. destruct (i_remove_idx_eq h edv Hh _ _ _ _ Hwf Heq) as [(_ & -> & _)|(_ & p & Hp)]; [auto|].
      destruct (i_remove_idx_ok h edv Hh s' idx p Hwf Hp) as (s3 & Heq3 & _ & _ & _ & _ & _ & Hb).
      rewrite Heq in Heq3. injection Heq3 as <- _. rewrite Hb. destruct (decide (d ∈ gone s' s2)) as [Hg|]; [|auto].
      right. split; [done|]. unfold gone in Hg. rewrite elem_of_difference, !elem_of_dom in Hg.
      destruct (i_counts s2 !! d); [|done]. destruct Hg as [_ []]. eauto. }
    destruct op as [p|idx|p| |o|p|p g|vals|]; cbn [istep] in Hstep.
    - rewrite (Hadd I) in Hstep. destruct p as [p|]; [|done].
      destruct (i_add_ok h edv Hh s' p s'' Hwf Hstep) as (_ & _ & Hb & _). rewrite Hb. auto.
    - eapply Hrem, Hstep.
    - destruct p as [p|]; cbn [i_remove] in Hstep; [|injection Hstep as <- _; auto].
      destruct (find_index p (i_probs s')); [|injection Hstep as <- _; auto]. eapply Hrem, Hstep.
    - destruct Hnc. done.
    - left. unfold i_setGroupsOrdering in Hstep. destruct (negb _); [injection Hstep as <- _; done|].
      destruct (ordering_ok _ _ _); injection Hstep as <- _; done.
    - left. unfold i_permuteProblems in Hstep. destruct (permute _ _); injection Hstep as <- _; done.
    - left. unfold i_permuteDV in Hstep. destruct (i_groups s' !! g); [|injection Hstep as <- _; done].
      destruct (permute _ _); injection Hstep as <- _; done.
    - destruct Hns. done.
    - injection Hstep as <- _. auto. }
  split.
  - destruct Hone as [->|[-> _]]; auto.
  - intros HPd. rewrite <- (IH2 HPd). destruct Hone as [->|[_ Hn]]; [done|].
    destruct (HPd _ HP) as [? ?]. congruence.
Qed.

Lemma inc_save_restore s vals d vals' :
  i_reachable_noclear h s ->
  (forall s', i_isDVInProblem s d = true ->
     i_later h (fun t => i_isDVInProblem t d = true) (i_save s vals) s' ->
     i_restore s' vals' d = vals d) /\
  (forall s', i_isDVInProblem s d = false ->
     i_later h (fun _ => True) (i_save s vals) s' -> i_restore s' vals' d = vals' d).
Proof.
  intros Hs. destruct (backup_in_counts s Hs) as [Hre Hsub].
  assert (Hsv : i_reachable h (i_save s vals)).
  { apply (ir_step h s (ISave vals) _ (Ret tt) Hre); [done|done|intros []]. }
  assert (Hbk : i_backup (i_save s vals) !! d = if i_isDVInProblem s d then Some (vals d) else None).
  { simpl. rewrite lookup_union, map_lookup_imap. unfold i_isDVInProblem.
    specialize (Hsub d). destruct (i_counts s !! d) eqn:E; simpl.
    - destruct (i_backup s !! d); done.
    - destruct (i_backup s !! d); [|done]. destruct Hsub; [eauto|done]. }
  split; intros s' Hd Hl; rewrite Hd in Hbk; destruct (later_backup _ _ _ d Hsv Hl) as (_ & H1 & H2).
  - unfold i_restore, write_back. rewrite H2, Hbk; [done|]. intros t Ht. unfold i_isDVInProblem in Ht.
    apply bool_decide_eq_true in Ht. done.
  - unfold i_restore, write_back. rewrite Hbk in H1. destruct H1 as [-> | ->]; done.
Qed.

(** ** add / remove *)
Lemma inc_add_remove s p s1 :
  i_reachable h s -> i_add h s (Some p) = (s1, Ret tt) ->
  (exists s2, i_remove_idx h s1 (length (i_probs s)) = (s2, Ret tt) /\
     i_probs s2 = i_probs s /\ i_counts s2 = i_counts s /\ i_groups s2 = i_groups s /\
     i_order s2 = i_order s /\ (i_reachable_noclear h s -> s2 = s)) /\
  (exists s2, i_remove h s1 (Some p) = (s2, Ret tt) /\
     i_probs s2 ≡ₚ i_probs s /\ i_counts s2 = i_counts s /\ i_groups s2 = i_groups s /\
     i_order s2 = i_order s /\ (p ∉ i_probs s -> i_probs s2 = i_probs s /\ (i_reachable_noclear h s -> s2 = s))) /\
  (o_numET (h p) <> 0 -> p ∉ i_probs s).
Proof.
  intros Hs Hadd. apply (i_reachable_wf h edv Hh) in Hs as Hwf.
  destruct (add_remove_same h edv Hh s p s1 Hwf Hadd) as (s2 & Hrm & Hp & Hc & Hg & Ho & Hsame).
  destruct (i_add_ok h edv Hh s p s1 Hwf Hadd) as (Hwf1 & Hp1 & _).
  split; [|split].
  - exists s2. repeat (split; [done|]). intros Hnc. apply Hsame. intros d. apply backup_in_counts, Hnc.
  - destruct (decide (p ∈ i_probs s)) as [Hin|Hnin].
    + cbn [i_remove]. destruct (find_index p (i_probs s1)) as [idx|] eqn:Hf.
      * apply find_index_Some in Hf as [Hidx _].
        destruct (i_remove_idx_ok h edv Hh s1 idx p Hwf1 Hidx) as (s3 & Hrm3 & Hwf3 & Hp3 & _).
        exists s3. split; [done|].
        assert (Hperm : i_probs s3 ≡ₚ i_probs s).
        { rewrite Hp3. apply (Permutation_cons_inv (a := p)). rewrite <- (delete_perm _ _ _ Hidx), Hp1.
          rewrite Permutation_app_comm. done. }
        split; [done|].
        assert (H3 : removed h s1 s3) by (eapply rm_step; [exact Hrm3|constructor]).
        assert (H2 : removed h s1 s2) by (eapply rm_step; [exact Hrm|constructor]).
        destruct (removed_det h edv Hh s1 s3 s2 Hwf1 H3 H2) as (E1 & E2 & E3 & _); [rewrite Hp; done|].
        rewrite E1, E2, E3. do 3 (split; [done|]). intros Hn. destruct (Hn Hin).
      * apply find_index_None in Hf. rewrite Hp1 in Hf. set_solver.
    + exists s2. rewrite (add_remove_pointer h edv Hh s p s1 Hwf Hnin Hadd), Hrm, Hp.
      do 5 (split; [done|]). intros _. split; [done|]. intros Hnc. apply Hsame. intros d. apply backup_in_counts, Hnc.
  - intros Hne. eapply (added_not_contained h edv Hh); [done|done|]. intros He.
    rewrite (o_wf_numET edv), He in Hne by apply Hh. done.
Qed.

Lemma erase_first_notin x l : x ∉ l -> erase_first x l = None.
Proof.
  induction l as [|y l IH]; [done|]. intros Hx. cbn [erase_first].
  destruct (Nat.eqb_spec y x); [set_solver|]. rewrite IH by set_solver. done.
Qed.

Lemma find_index_delete p l i : find_index p l = Some i -> erase_first p l = Some (delete i l).
Proof.
  revert i. induction l as [|y l IH]; intros i; cbn [find_index erase_first]; [done|].
  destruct (Nat.eqb_spec y p) as [->|]; [intros [= <-]; done|].
  destruct (find_index p l) as [j|]; [|done]. intros [= <-]. rewrite (IH j) by done. done.
Qed.

Lemma erase_first_comm p q l l1 l2 l3 l4 :
  erase_first p l = Some l1 -> erase_first q l1 = Some l2 ->
  erase_first q l = Some l3 -> erase_first p l3 = Some l4 -> l2 = l4.
Proof.
  revert l1 l2 l3 l4. induction l as [|y l IH]; intros l1 l2 l3 l4; cbn [erase_first]; [done|].
  destruct (Nat.eqb_spec y p) as [->|Hyp].
  - destruct (Nat.eqb_spec p q) as [->|Hpq].
    + intros [= <-] ? [= <-]. congruence.
    + intros [= <-] Hq. destruct (erase_first q l) as [l'|]; [|done]. injection Hq as <-. simpl.
      intros [= <-]. cbn [erase_first]. rewrite Nat.eqb_refl. congruence.
  - destruct (erase_first p l) as [lp|] eqn:Ep; [|done]. simpl. intros [= <-]. cbn [erase_first].
    destruct (Nat.eqb_spec y q) as [->|Hyq].
    + intros [= <-] [= <-]. congruence.
    + destruct (erase_first q lp) as [lpq|] eqn:Epq; [|done]. simpl. intros [= <-].
      destruct (erase_first q l) as [lq|] eqn:Eq; [|done]. simpl. intros [= <-]. cbn [erase_first].
      destruct (Nat.eqb_spec y p); [done|].
      destruct (erase_first p lq) as [lqp|] eqn:Eqp; [|done]. simpl. intros [= <-]. f_equal. eapply IH; eauto.
Qed.

Lemma erase_first_in x l : x ∈ l -> exists l', erase_first x l = Some l' /\ forall y, y <> x -> y ∈ l -> y ∈ l'.
Proof.
  induction l as [|y l IH]; [set_solver|]. intros Hx. cbn [erase_first].
  destruct (Nat.eqb_spec y x) as [->|Hne].
  - exists l. split; [done|]. set_solver.
  - destruct IH as (l' & -> & Hl'); [set_solver|]. exists (y :: l'). split; [done|]. set_solver.
Qed.

Lemma i_remove_in s p :
  i_wf h s -> p ∈ i_probs s ->
  exists s' idx, i_remove h s (Some p) = (s', Ret tt) /\ i_remove_idx h s idx = (s', Ret tt) /\
    i_wf h s' /\ erase_first p (i_probs s) = Some (i_probs s').
Proof.
  intros Hwf Hin. cbn [i_remove]. destruct (find_index p (i_probs s)) as [idx|] eqn:Hf.
  - pose proof (find_index_delete _ _ _ Hf) as He. apply find_index_Some in Hf as [Hidx _].
    destruct (i_remove_idx_ok h edv Hh s idx p Hwf Hidx) as (s3 & Hrm3 & Hwf3 & Hp3 & _).
    exists s3, idx. rewrite Hp3. done.
  - apply find_index_None in Hf. done.
Qed.

Lemma inc_remove_comm s p q :
  i_reachable h s -> p <> q -> p ∈ i_probs s -> q ∈ i_probs s ->
  exists s1 s2 s',
    i_remove h s (Some p) = (s1, Ret tt) /\ i_remove h s1 (Some q) = (s', Ret tt) /\
    i_remove h s (Some q) = (s2, Ret tt) /\ i_remove h s2 (Some p) = (s', Ret tt).
Proof.
  intros Hs Hne Hp Hq. apply (i_reachable_wf h edv Hh) in Hs as Hwf.
  destruct (i_remove_in s p Hwf Hp) as (s1 & i1 & R1 & X1 & W1 & E1).
  destruct (i_remove_in s q Hwf Hq) as (s2 & i2 & R2 & X2 & W2 & E2).
  assert (Hq1 : q ∈ i_probs s1).
  { destruct (erase_first_in p (i_probs s) Hp) as (l' & El & Hl'). rewrite E1 in El. injection El as <-. auto. }
  assert (Hp2 : p ∈ i_probs s2).
  { destruct (erase_first_in q (i_probs s) Hq) as (l' & El & Hl'). rewrite E2 in El. injection El as <-. auto. }
  destruct (i_remove_in s1 q W1 Hq1) as (s3 & i3 & R3 & X3 & W3 & E3).
  destruct (i_remove_in s2 p W2 Hp2) as (s4 & i4 & R4 & X4 & W4 & E4).
  assert (Hprobs : i_probs s3 = i_probs s4) by exact (erase_first_comm p q _ _ _ _ _ E1 E3 E2 E4).
  exists s1, s2, s3. split; [done|]. split; [done|]. split; [done|]. rewrite R4. f_equal.
  destruct (removed_det h edv Hh s s3 s4 Hwf) as (H1 & H2 & H3 & H4).
  - eapply rm_step; [exact X1|]. eapply rm_step; [exact X3|constructor].
  - eapply rm_step; [exact X2|]. eapply rm_step; [exact X4|constructor].
  - rewrite Hprobs. done.
  - destruct s3, s4. simpl in *. congruence.
Qed.

Lemma inc_removed_all s s1 s2 :
  i_reachable h s -> removed h s s1 -> removed h s s2 -> i_probs s1 ≡ₚ i_probs s2 ->
  i_counts s1 = i_counts s2 /\ i_groups s1 = i_groups s2 /\ i_order s1 = i_order s2 /\
  i_backup s1 = i_backup s2 /\
  (i_probs s1 = [] -> i_counts s1 = ∅ /\ i_groups s1 = ∅ /\ i_order s1 = [] /\
                      (i_reachable_noclear h s -> s1 = i_empty)).
Proof.
  intros Hs H1 H2 Hp. apply (i_reachable_wf h edv Hh) in Hs as Hwf.
  destruct (removed_det h edv Hh s s1 s2 Hwf H1 H2 Hp) as (E1 & E2 & E3 & E4).
  repeat (split; [done|]). intros Hnil.
  destruct (removed_spec h edv Hh _ _ Hwf H1) as (Hwf1 & _ & _ & _ & _ & Hb).
  destruct (i_wf_no_batches h edv Hh s1 Hwf1 Hnil) as (C1 & C2 & C3).
  repeat (split; [done|]). intros Hnc.
  assert (Hbk : i_backup s1 = ∅).
  { apply map_eq. intros d. rewrite lookup_empty, Hb. destruct (decide (d ∈ gone s s1)) as [|Hn]; [done|].
    destruct (i_backup s !! d) eqn:Ed; [|done]. exfalso. apply Hn. unfold gone.
    rewrite elem_of_difference, !elem_of_dom, C1, lookup_empty. split; [|intros [? ?]; done].
    apply (backup_in_counts s Hnc). eauto. }
  clear -Hnil C1 C2 C3 Hbk. destruct s1. simpl in *. subst. done.
Qed.

Lemma inc_failed_add s p s' e :
  i_reachable h s -> i_add h s p = (s', Throw e) ->
  i_probs s' = i_probs s /\ i_backup s' = i_backup s /\
  (forall d, i_isDVInProblem s d = true -> i_isDVInProblem s' d = true) /\
  (forall d g, i_getGroupId s d = Ret g -> i_getGroupId s' d = Ret g) /\
  (p = None -> s' = s) /\
  (forall b d g g', p = Some b -> o_designVariable (h b) 0 = Ret d -> o_getGroupId (h b) d = Ret g ->
     i_getGroupId s d = Ret g' -> g' <> g -> i_isGroupInProblem s g = true -> s' = s).
Proof.
  intros Hs Hadd. apply (i_reachable_wf h edv Hh) in Hs as Hwf.
  destruct (i_add_failed_keeps h edv Hh s p s' e Hwf Hadd) as (Hp & Hb & Hc).
  split; [done|]. split; [done|]. split.
  { intros d. unfold i_isDVInProblem. rewrite !bool_decide_eq_true. intros [[c g] Hd].
    destruct (Hc _ _ _ Hd) as (c' & _ & ->). eauto. }
  split.
  { intros d g. unfold i_getGroupId. destruct (i_counts s !! d) as [[c g']|] eqn:E; [|done]. intros [= ->].
    destruct (Hc _ _ _ E) as (c' & _ & ->). done. }
  split.
  { intros ->. cbn [i_add] in Hadd. congruence. }
  intros b d g g' -> Hd Hg Hg' Hne Hgr.
  rewrite (o_designVariable_spec edv) in Hd by apply Hh.
  destruct (o_enum (h b)) as [|x l] eqn:He; [done|]. simpl in Hd. injection Hd as ->.
  unfold o_getGroupId in Hg. destruct (o_lookup (h b) !! d) as [gg|] eqn:Hgl; [|done]. injection Hg as ->.
  rewrite (i_add_first_conflict h edv Hh s b d g g' l) in Hadd by done. congruence.
Qed.

Lemma inc_no_ub s op : i_history h s -> snd (istep h s op) <> UB.
Proof. intros Hs. apply (i_history_wwf h edv Hh) in Hs as Hw. apply (wwf_step h edv Hh), Hw. Qed.

Lemma inc_clean_removal s idx p :
  i_reachable h s -> i_probs s !! idx = Some p ->
  exists s', i_remove_idx h s idx = (s', Ret tt) /\ i_reachable h s' /\ i_probs s' = delete idx (i_probs s).
Proof.
  intros Hs Hp. apply (i_reachable_wf h edv Hh) in Hs as Hwf.
  destruct (i_remove_idx_ok h edv Hh s idx p Hwf Hp) as (s3 & Hrm3 & Hwf3 & Hp3 & _).
  exists s3. split; [done|]. split; [|done]. exact (ir_step h s (IRemoveIdx idx) s3 (Ret tt) Hs Hrm3 I (fun H => match H with end)).
Qed.

Lemma inc_clear s :
  i_probs (i_clear s) = [] /\ i_flat_variables (i_clear s) = [] /\ i_order (i_clear s) = [] /\
  i_numDV (i_clear s) = 0 /\ i_numET h (i_clear s) = 0 /\ (forall d, i_isDVInProblem (i_clear s) d = false) /\
  (forall e, i_isETInProblem h (i_clear s) e = false).
Proof. repeat (split; [done|]). done. Qed.
End packaged.

(** computable check used by the examples *)
Section examples.
Context {V : Type} (h : nat -> oprob V).
Definition i_run (s : inc V) (ops : list (iop V)) : inc V := fold_left (fun s op => fst (istep h s op)) ops s.
Fixpoint i_good_run (clear_ok : bool) (s : inc V) (ops : list (iop V)) : bool :=
  match ops with
  | [] => true
  | op :: ops' =>
    match op, snd (istep h s op) with
    | IAdd _, Ret _ => i_good_run clear_ok (fst (istep h s op)) ops'
    | IAdd _, _ => false
    | IClear, _ => if clear_ok then i_good_run clear_ok (fst (istep h s op)) ops' else false
    | _, Ret _ | _, Throw _ => i_good_run clear_ok (fst (istep h s op)) ops'
    | _, _ => false
    end
  end.
Lemma i_run_reachable c s ops :
  i_reachable h s -> i_good_run c s ops = true -> i_reachable h (i_run s ops).
Proof.
  revert s. induction ops as [|op ops IH]; intros s Hs Hg; [done|].
  cbn [i_good_run] in Hg. change (i_run s (op :: ops)) with (i_run (fst (istep h s op)) ops).
  assert (Hn : i_reachable h (fst (istep h s op)) /\ i_good_run c (fst (istep h s op)) ops = true).
  { destruct (istep h s op) as [s1 r] eqn:Hstep. cbn [fst snd] in *.
    assert (Hgen : came_back r -> (is_add op -> r = Ret tt) -> i_reachable h s1)
      by (intros Hb Ha; exact (ir_step h s op s1 r Hs Hstep Hb Ha)).
    destruct op; destruct r as [[]|e| |]; rewrite ?Hstep in Hg; cbn [fst snd] in Hg; try discriminate Hg;
      try (destruct c; [|discriminate Hg]);
      (split; [apply Hgen; [exact I|first [intros []; reflexivity|intros []]]|exact Hg]) || discriminate Hstep. }
  apply IH; apply Hn.
Qed.
Lemma i_run_reachable_noclear s ops :
  i_reachable_noclear h s -> i_good_run false s ops = true -> i_reachable_noclear h (i_run s ops).
Proof.
  revert s. induction ops as [|op ops IH]; intros s Hs Hg; [done|].
  cbn [i_good_run] in Hg. change (i_run s (op :: ops)) with (i_run (fst (istep h s op)) ops).
  assert (Hn : i_reachable_noclear h (fst (istep h s op)) /\ i_good_run false (fst (istep h s op)) ops = true).
  { destruct (istep h s op) as [s1 r] eqn:Hstep. cbn [fst snd] in *.
    assert (Hgen : came_back r -> (is_add op -> r = Ret tt) -> ~ is_clear op -> i_reachable_noclear h s1)
      by (intros Hb Ha Hc; exact (irn_step h s op s1 r Hs Hstep Hb Ha Hc)).
    destruct op; destruct r as [[]|e| |]; rewrite ?Hstep in Hg; cbn [fst snd] in Hg; try discriminate Hg;
      (split; [apply Hgen; [exact I|first [intros []; reflexivity|intros []]|intros []]|exact Hg]). }
  apply IH; apply Hn.
Qed.
End examples.
