From stdpp Require Import prelude list gmap.
From Coq Require Import Lia.
From Verif Require Import Base PermuteModel PermuteProofs OptProblemModel OptProblemProofs
  IncProblemModel Spec_IncProblem IncProblemProofs.

Section hist.
Context {V : Type} (h : nat -> oprob V) (edv : nat -> list nat).
Context (Hh : forall b, o_wf edv (h b)).
Implicit Types s : inc V.

(** number of listed batches containing variable [d] *)
Definition occ (probs : list nat) (d : nat) : nat :=
  length (filter (fun b => is_Some (o_lookup (h b) !! d)) probs).

Lemma occ_app p1 p2 d : occ (p1 ++ p2) d = occ p1 d + occ p2 d.
Proof. unfold occ. rewrite filter_app, app_length. done. Qed.
Lemma occ_single b d : occ [b] d = if decide (is_Some (o_lookup (h b) !! d)) then 1 else 0.
Proof. unfold occ. rewrite filter_cons. destruct (decide _); done. Qed.
Lemma occ_perm p1 p2 d : p1 ≡ₚ p2 -> occ p1 d = occ p2 d.
Proof. intros H. unfold occ. rewrite H. done. Qed.
Lemma occ_pos probs d : 0 < occ probs d <-> exists b, b ∈ probs /\ is_Some (o_lookup (h b) !! d).
Proof.
  unfold occ. split.
  - intros H. destruct (filter _ probs) as [|b l] eqn:Hf; [simpl in H; lia|].
    assert (Hb : b ∈ filter (fun b => is_Some (o_lookup (h b) !! d)) probs) by (rewrite Hf; set_solver).
    apply elem_of_list_filter in Hb. exists b. tauto.
  - intros (b & Hb & Hd).
    assert (Hin : b ∈ filter (fun b => is_Some (o_lookup (h b) !! d)) probs)
      by (apply elem_of_list_filter; done).
    destruct (filter _ probs); [set_solver|simpl; lia].
Qed.
Lemma delete_perm (l : list nat) i b : l !! i = Some b -> l ≡ₚ b :: delete i l.
Proof. apply delete_Permutation. Qed.
Lemma occ_delete probs i b d :
  probs !! i = Some b -> occ probs d = occ [b] d + occ (delete i probs) d.
Proof. intros Hb. rewrite <- occ_app. apply occ_perm. simpl. apply delete_perm, Hb. Qed.

(** the flat error-term sequence *)
Definition ets_of (probs : list nat) : list nat := concat (map (fun b => o_ets (h b)) probs).
Lemma ets_of_app p1 p2 : ets_of (p1 ++ p2) = ets_of p1 ++ ets_of p2.
Proof. unfold ets_of. rewrite map_app, concat_app. done. Qed.
Lemma ets_of_perm p1 p2 : p1 ≡ₚ p2 -> ets_of p1 ≡ₚ ets_of p2.
Proof.
  intros H. unfold ets_of.
  induction H as [|b o o' _ IH|b b' o|o1' o2' o3' _ IH1 _ IH2]; [done| | |].
  - simpl. rewrite IH. done.
  - simpl. rewrite !app_assoc. apply Permutation_app_tail, Permutation_app_comm.
  - rewrite IH1. done.
Qed.
Lemma elem_of_ets_of probs e : e ∈ ets_of probs <-> exists b, b ∈ probs /\ e ∈ o_ets (h b).
Proof.
  unfold ets_of. rewrite elem_of_list_In, in_concat. setoid_rewrite <- elem_of_list_In. split.
  - intros (l & Hl & He). apply elem_of_list_fmap in Hl as (b & -> & Hb). eauto.
  - intros (b & Hb & He). exists (o_ets (h b)). split; [|done]. apply elem_of_list_fmap. eauto.
Qed.

(** ** Invariant *)
Record i_wf s : Prop := {
  iw_t : twf s;
  iw_cnt : forall d, match i_counts s !! d with
                     | Some (c, _) => c = N.of_nat (occ (i_probs s) d)
                     | None => occ (i_probs s) d = 0 end;
  iw_grp : forall b d g, b ∈ i_probs s -> o_lookup (h b) !! d = Some g ->
                         exists c, i_counts s !! d = Some (c, g);
  iw_ets : NoDup (ets_of (i_probs s));
}.

Lemma twf_empty bk : twf (Inc [] ∅ ∅ [] bk : inc V).
Proof.
  constructor; simpl.
  - constructor; try (intros; rewrite lookup_empty in *; done).
    + constructor.
    + intros g. rewrite lookup_empty. split; [set_solver|intros [? ?]; done].
  - intros d c g. rewrite lookup_empty. done.
  - intros g l d. rewrite lookup_empty. done.
Qed.
Lemma i_wf_cleared bk : i_wf (Inc [] ∅ ∅ [] bk).
Proof.
  constructor; simpl; [apply twf_empty| | |constructor].
  - intros d. rewrite lookup_empty. done.
  - set_solver.
Qed.

Lemma isET_spec s e : i_isETInProblem h s e = true <-> e ∈ ets_of (i_probs s).
Proof.
  unfold i_isETInProblem. rewrite elem_of_ets_of, existsb_exists.
  setoid_rewrite <- elem_of_list_In. unfold o_isETInProblem. split.
  - intros (b & Hb & He). apply bool_decide_eq_true in He. exists b. split; [done|]. apply (ow_etl _ _ (Hh b)), He.
  - intros (b & Hb & He). exists b. split; [done|]. apply bool_decide_eq_true. apply (ow_etl _ _ (Hh b)), He.
Qed.

(** shape of [i_add] *)
Lemma i_add_eq s p :
  i_add h s (Some p) =
    match add_list (opairs (h p)) s with
    | (s1, Ret _) =>
      if existsb (i_isETInProblem h s1) (o_ets (h p)) then (s1, Throw InvalidOperation)
      else (Inc (i_probs s1 ++ [p]) (i_counts s1) (i_groups s1) (i_order s1) (i_backup s1), Ret tt)
    | (s1, r) => (s1, r)
    end.
Proof.
  cbn [i_add]. rewrite (add_dvs_fold edv) by (done || rewrite (o_wf_size edv); done).
  rewrite drop_0. destruct (add_list (opairs (h p)) s) as [s1 [[]|e| |]]; try done.
  rewrite add_check_ets_spec by (rewrite (o_wf_numET edv); done).
  rewrite drop_0. destruct (existsb _ _); done.
Qed.

Lemma opairs_nodup p : NoDup (map fst (opairs (h p))).
Proof. rewrite opairs_fst. apply NoDup_enum, Hh. Qed.

Lemma in_opairs_fst p d : d ∈ map fst (opairs (h p)) <-> is_Some (o_lookup (h p) !! d).
Proof. rewrite opairs_fst. apply (o_wf_enum edv), Hh. Qed.

Lemma i_add_ok s p s' :
  i_wf s -> i_add h s (Some p) = (s', Ret tt) ->
  i_wf s' /\ i_probs s' = i_probs s ++ [p] /\ i_backup s' = i_backup s /\
  (forall d, i_counts s' !! d =
     match o_lookup (h p) !! d with
     | Some g => match i_counts s !! d with Some (c, _) => Some ((c + 1)%N, g) | None => Some (1%N, g) end
     | None => i_counts s !! d end) /\
  (forall d c g g', o_lookup (h p) !! d = Some g -> i_counts s !! d = Some (c, g') -> g' = g) /\
  (forall g, exists k, default [] (i_groups s' !! g) = default [] (i_groups s !! g) ++ k /\
             forall d, d ∈ k -> is_Some (o_lookup (h p) !! d) /\ i_counts s !! d = None) /\
  (exists k, i_order s' = i_order s ++ k) /\
  (forall e, e ∈ o_ets (h p) -> e ∉ ets_of (i_probs s)).
Proof.
  intros Hwf. rewrite i_add_eq.
  destruct (add_list (opairs (h p)) s) as [s1 r] eqn:Hadd.
  destruct r as [[]|e| |]; try discriminate.
  destruct (existsb _ _) eqn:Het; [discriminate|]. intros [= <-].
  destruct (add_list_ok _ _ _ (iw_t _ Hwf) (opairs_nodup p) Hadd)
    as (Ht & Hp & Hb & Hc1 & Hc2 & Hg & Ho).
  assert (Hcnt : forall d, i_counts s1 !! d =
     match o_lookup (h p) !! d with
     | Some g => match i_counts s !! d with Some (c, _) => Some ((c + 1)%N, g) | None => Some (1%N, g) end
     | None => i_counts s !! d end).
  { intros d. destruct (o_lookup (h p) !! d) as [g|] eqn:Hd.
    - apply (Hc2 d g). apply (elem_of_opairs edv); [apply Hh|done].
    - apply Hc1. rewrite in_opairs_fst, Hd. intros [? ?]; done. }
  assert (Hgrp : forall d c g g', o_lookup (h p) !! d = Some g -> i_counts s !! d = Some (c, g') -> g' = g).
  { intros d c g g' Hd Hc. eapply (Hc2 d g); [apply (elem_of_opairs edv); [apply Hh|done]|exact Hc]. }
  assert (Hnew : forall e, e ∈ o_ets (h p) -> e ∉ ets_of (i_probs s)).
  { intros e He Hin. rewrite <- Hp in Hin. apply isET_spec in Hin.
    assert (Hex : existsb (i_isETInProblem h s1) (o_ets (h p)) = true).
    { apply existsb_exists. exists e. split; [apply elem_of_list_In, He|done]. }
    congruence. }
  split.
  { constructor; simpl.
    - destruct Ht as [T1 T2 T3]. constructor; done.
    - intros d. rewrite Hcnt, Hp, occ_app, occ_single. pose proof (iw_cnt _ Hwf d) as Hd.
      destruct (o_lookup (h p) !! d) as [g|] eqn:Hl.
      + rewrite decide_True by eauto. destruct (i_counts s !! d) as [[c g']|]; lia.
      + rewrite decide_False by (intros [? ?]; done). rewrite Nat.add_0_r. done.
    - intros b d g. rewrite Hp. intros Hb' Hd. apply elem_of_app in Hb' as [Hb'|Hb'].
      + destruct (iw_grp _ Hwf _ _ _ Hb' Hd) as [c Hc]. rewrite Hcnt.
        destruct (o_lookup (h p) !! d) as [g'|] eqn:Hl; [|eauto].
        rewrite Hc. rewrite (Hgrp _ _ _ _ Hl Hc). eauto.
      + apply elem_of_list_singleton in Hb'. subst b. rewrite Hcnt, Hd.
        destruct (i_counts s !! d) as [[c g']|]; eauto.
    - rewrite Hp, ets_of_app. unfold ets_of at 2. simpl. rewrite app_nil_r.
      apply NoDup_app. split; [apply Hwf|]. split; [|apply Hh]. intros e He He'. apply (Hnew e He' He). }
  simpl. split; [rewrite Hp; done|]. split; [done|]. split; [done|]. split; [done|].
  split; [|done].
  intros g. destruct (Hg g) as (k & Hk & Hkd). exists k. split; [done|].
  intros d Hd. destruct (Hkd d Hd) as [Ha Hb']. split; [|done]. apply in_opairs_fst, Ha.
Qed.

Definition gone s s' : gset nat := dom (i_counts s) ∖ dom (i_counts s').

Lemma i_remove_idx_ok s idx p :
  i_wf s -> i_probs s !! idx = Some p ->
  exists s', i_remove_idx h s idx = (s', Ret tt) /\ i_wf s' /\ i_probs s' = delete idx (i_probs s) /\
    (forall d, i_counts s' !! d =
       match i_counts s !! d with
       | None => None
       | Some (c, g) => match o_lookup (h p) !! d with
                        | None => Some (c, g)
                        | Some _ => if (c =? 1)%N then None else Some ((c - 1)%N, g) end end) /\
    i_groups s' = rem_groups (gone s s') (i_groups s) /\
    i_order s' = rem_order (i_groups s') (i_order s) /\
    (forall d, i_backup s' !! d = if decide (d ∈ gone s s') then None else i_backup s !! d).
Proof.
  intros Hwf Hp. unfold i_remove_idx. rewrite Hp.
  rewrite (remove_dvs_fold edv); [|apply Hh|apply (o_wf_size edv), Hh].
  rewrite drop_0.
  assert (Hsub : forall d, d ∈ o_enum (h p) -> is_Some (i_counts s !! d)).
  { intros d Hd. apply (o_wf_enum edv) in Hd; [|apply Hh]. destruct Hd as [g Hg].
    destruct (iw_grp _ Hwf p d g) as [c Hc]; [eapply elem_of_list_lookup_2, Hp|done|]. eauto. }
  destruct (remove_list_ok (o_enum (h p)) s (iw_t _ Hwf)) as (s1 & -> & Ht & Hpr & Hcnt & Hgr & Hor & Hbk);
    [apply NoDup_enum, Hh|done|].
  assert (Hcnt' : forall d, i_counts s1 !! d =
       match i_counts s !! d with
       | None => None
       | Some (c, g) => match o_lookup (h p) !! d with
                        | None => Some (c, g)
                        | Some _ => if (c =? 1)%N then None else Some ((c - 1)%N, g) end end).
  { intros d. rewrite Hcnt. destruct (decide (d ∈ o_enum (h p))) as [Hd|Hd].
    - apply (o_wf_enum edv) in Hd; [|apply Hh]. destruct Hd as [g' ->]. destruct (i_counts s !! d) as [[c g]|]; done.
    - destruct (o_lookup (h p) !! d) as [g'|] eqn:Hl.
      { exfalso. apply Hd. apply (o_wf_enum edv); [apply Hh|]. eauto. }
      destruct (i_counts s !! d) as [[c g]|]; done. }
  assert (HR : last_refs (i_counts s) (o_enum (h p)) = dom (i_counts s) ∖ dom (i_counts s1)).
  { apply set_eq. intros d. rewrite elem_of_last_refs, elem_of_difference, !elem_of_dom, Hcnt.
    split.
    - intros [Hd Hc]. rewrite decide_True by done. destruct (i_counts s !! d) as [[c g]|]; [|done].
      simpl in Hc. injection Hc as ->. split; [eauto|]. change (1 =? 1)%N with true. intros [? ?]; done.
    - intros [Hs Hn]. destruct (decide (d ∈ o_enum (h p))) as [Hd|Hd].
      + split; [done|]. destruct (i_counts s !! d) as [[c g]|]; [|destruct Hs; done].
        destruct (N.eqb_spec c 1) as [->|]; [done|]. exfalso. apply Hn. eauto.
      + exfalso. apply Hn, Hs. }
  eexists. split; [done|]. split; [|simpl].
  { constructor; simpl.
    - destruct Ht as [T1 T2 T3]. constructor; done.
    - intros d. rewrite Hpr, Hcnt'. pose proof (iw_cnt _ Hwf d) as Hd.
      pose proof (occ_delete (i_probs s) idx p d Hp) as Hocc. rewrite occ_single in Hocc.
      destruct (i_counts s !! d) as [[c g]|]; [|lia].
      destruct (o_lookup (h p) !! d) as [g'|] eqn:Hl.
      + rewrite decide_True in Hocc by eauto. destruct (N.eqb_spec c 1); lia.
      + rewrite decide_False in Hocc by (intros [? ?]; done). lia.
    - intros b d g. rewrite Hpr. intros Hb Hd.
      assert (Hb' : b ∈ i_probs s) by (rewrite (delete_perm _ _ _ Hp); set_solver).
      destruct (iw_grp _ Hwf _ _ _ Hb' Hd) as [c Hc]. rewrite Hcnt', Hc.
      destruct (o_lookup (h p) !! d) as [g'|] eqn:Hl; [|eauto].
      pose proof (iw_cnt _ Hwf d) as Hcd. rewrite Hc in Hcd.
      pose proof (occ_delete (i_probs s) idx p d Hp) as Hocc. rewrite occ_single in Hocc.
      rewrite decide_True in Hocc by eauto.
      assert (0 < occ (delete idx (i_probs s)) d) by (apply occ_pos; eauto).
      destruct (N.eqb_spec c 1); [lia|]. eauto.
    - rewrite Hpr. pose proof (iw_ets _ Hwf) as He. rewrite (ets_of_perm _ _ (delete_perm _ _ _ Hp)) in He.
      unfold ets_of in He |- *. simpl in He. apply NoDup_app in He. tauto. }
  split; [rewrite Hpr; done|]. split; [done|]. unfold gone. simpl. rewrite <- HR.
  split; [done|]. split; [rewrite Hgr; done|]. done.
Qed.

Lemma i_remove_idx_eq s idx s' r :
  i_wf s -> i_remove_idx h s idx = (s', r) ->
  (r = Throw OutOfBound /\ s' = s /\ i_probs s !! idx = None) \/
  (r = Ret tt /\ exists p, i_probs s !! idx = Some p).
Proof.
  intros Hwf Heq. destruct (i_probs s !! idx) as [p|] eqn:Hp.
  - destruct (i_remove_idx_ok s idx p Hwf Hp) as (s1 & H1 & _). rewrite H1 in Heq. injection Heq as <- <-. eauto.
  - unfold i_remove_idx in Heq. rewrite Hp in Heq. injection Heq as <- <-. auto.
Qed.

Lemma i_wf_remove_idx s idx s' r : i_wf s -> i_remove_idx h s idx = (s', r) -> i_wf s'.
Proof.
  intros Hwf Heq. destruct (i_remove_idx_eq _ _ _ _ Hwf Heq) as [(-> & -> & _)|(-> & p & Hp)]; [done|].
  destruct (i_remove_idx_ok s idx p Hwf Hp) as (s1 & H1 & ? & _). rewrite H1 in Heq. injection Heq as <-. done.
Qed.

(** group-table surgery that keeps counts and batches *)
Lemma i_wf_reorder s o bk :
  i_wf s -> o ≡ₚ i_order s -> i_wf (Inc (i_probs s) (i_counts s) (i_groups s) o bk).
Proof.
  intros [[T1 T2 T3] H2 H3 H4] Hp. constructor; simpl; [|done..].
  constructor; simpl; [eapply gwf_reorder; done|done..].
Qed.

Lemma i_wf_step s op s' r :
  i_wf s -> istep h s op = (s', r) -> (is_add op -> r = Ret tt) -> i_wf s'.
Proof.
  intros Hwf. destruct op as [p|idx|p| |o|p|p g|vals|]; cbn [istep is_add].
  - intros Heq Hr. specialize (Hr I). subst r. destruct p as [p|]; [|discriminate].
    eapply i_add_ok in Heq; [|done]. tauto.
  - intros Heq _. eapply i_wf_remove_idx; done.
  - destruct p as [p|]; cbn [i_remove]; [|intros [= <- <-]; done].
    destruct (find_index p (i_probs s)); [|intros [= <- <-]; done].
    intros Heq _. eapply i_wf_remove_idx; done.
  - intros [= <- <-] _. apply i_wf_cleared.
  - unfold i_setGroupsOrdering. destruct (Nat.eqb_spec (length o) (length (i_order s))) as [Hl|]; simpl; [|intros [= <- <-]; done].
    destruct (ordering_ok _ _ _) eqn:Hok; [|intros [= <- <-]; done].
    intros [= <- <-] _. apply i_wf_reorder; [done|].
    apply (ordering_accepts (i_groups s)); [apply Hwf|]. done.
  - unfold i_permuteProblems. destruct (permute (i_probs s) p) as [l r'] eqn:Hp. intros [= <- <-] _.
    apply permute_fuel_perm in Hp. destruct Hwf as [[T1 T2 T3] H2 H3 H4].
    constructor; simpl; [constructor; done| | |].
    + intros d. rewrite (occ_perm _ _ d Hp). apply H2.
    + intros b d g. rewrite Hp. apply H3.
    + rewrite (ets_of_perm _ _ Hp). done.
  - unfold i_permuteDV. destruct (i_groups s !! g) as [l|] eqn:Hg; [|intros [= <- <-]; done].
    destruct (permute l p) as [l' r'] eqn:Hp. intros [= <- <-] _.
    apply permute_fuel_perm in Hp. destruct Hwf as [[T1 T2 T3] H2 H3 H4].
    constructor; simpl; [|done..]. constructor; simpl.
    + eapply gwf_permute; done.
    + intros d c g' Hc. destruct (T2 _ _ _ Hc) as (Hpos & k & Hk & Hd). split; [done|].
      destruct (decide (g' = g)) as [->|Hne].
      * exists l'. rewrite lookup_insert. split; [done|]. rewrite Hp. congruence.
      * exists k. rewrite lookup_insert_ne; done.
    + intros g' k d. destruct (decide (g' = g)) as [->|Hne].
      * rewrite lookup_insert. intros [= <-]. rewrite Hp. apply T3, Hg.
      * rewrite lookup_insert_ne by done. apply T3.
  - intros [= <- <-] _. destruct Hwf as [[T1 T2 T3] H2 H3 H4]. constructor; simpl; [constructor|..]; done.
  - intros [= <- <-] _. done.
Qed.

Lemma i_reachable_wf s : i_reachable h s -> i_wf s.
Proof.
  induction 1 as [|s op s' r _ IH Hstep _ Hadd]; [apply i_wf_cleared|].
  eapply i_wf_step; done.
Qed.

(** ** Membership and counts *)
Lemma i_wf_member s d :
  i_wf s -> i_isDVInProblem s d = true <-> exists b, b ∈ i_probs s /\ o_isDVInProblem (h b) d = true.
Proof.
  intros Hwf. unfold i_isDVInProblem, o_isDVInProblem. setoid_rewrite bool_decide_eq_true.
  rewrite <- occ_pos. pose proof (iw_cnt _ Hwf d) as Hc. split.
  - intros [[c g] Hd]. rewrite Hd in Hc. destruct (tw_c _ (iw_t _ Hwf) _ _ _ Hd) as [Hpos _]. lia.
  - intros Hpos. destruct (i_counts s !! d) as [[c g]|]; [eauto|lia].
Qed.

Lemma i_wf_group s d g :
  i_wf s -> i_getGroupId s d = Ret g <-> exists b, b ∈ i_probs s /\ o_getGroupId (h b) d = Ret g.
Proof.
  intros Hwf. unfold i_getGroupId, o_getGroupId. split.
  - destruct (i_counts s !! d) as [[c g']|] eqn:Hc; [|done]. intros [= ->].
    pose proof (iw_cnt _ Hwf d) as Hn. rewrite Hc in Hn.
    destruct (tw_c _ (iw_t _ Hwf) _ _ _ Hc) as [Hpos _].
    assert (Hocc : 0 < occ (i_probs s) d) by lia.
    apply occ_pos in Hocc as (b & Hb & [g' Hg']). exists b. split; [done|]. rewrite Hg'.
    destruct (iw_grp _ Hwf _ _ _ Hb Hg') as [c' Hc']. congruence.
  - intros (b & Hb & Hg). destruct (o_lookup (h b) !! d) as [g'|] eqn:Hl; [|done].
    injection Hg as ->. destruct (iw_grp _ Hwf _ _ _ Hb Hl) as [c ->]. done.
Qed.

(** ** add then remove *)
Lemma restored_groups s s' p :
  i_wf s ->
  (forall g, exists k, default [] (i_groups s' !! g) = default [] (i_groups s !! g) ++ k /\
             forall d, d ∈ k -> is_Some (o_lookup (h p) !! d) /\ i_counts s !! d = None) ->
  (forall g l, i_groups s' !! g = Some l -> l <> []) ->
  forall R, (forall d, d ∈ R <-> is_Some (o_lookup (h p) !! d) /\ i_counts s !! d = None) ->
  rem_groups R (i_groups s') = i_groups s.
Proof.
  intros Hwf Hg Hne R HR. apply map_eq. intros g. destruct (Hg g) as (k & Hk & Hkd).
  assert (Hfil : filter (fun d => d ∉ R) (default [] (i_groups s !! g) ++ k) = default [] (i_groups s !! g)).
  { rewrite filter_app. rewrite filter_id_eq, filter_none_eq; [apply app_nil_r| |].
    - intros d Hd HnR. apply HnR, HR. apply Hkd, Hd.
    - intros d Hd HinR. apply HR in HinR as [_ Hnone].
      destruct (i_groups s !! g) as [l|] eqn:Hl; simpl in Hd; [|set_solver].
      destruct (tw_m _ (iw_t _ Hwf) _ _ _ Hl Hd) as [c Hc]. congruence. }
  rewrite <- Hk in Hfil.
  destruct (i_groups s' !! g) as [l'|] eqn:Hl'.
  - rewrite (rem_groups_lookup _ _ _ _ Hl'). cbn [from_option id] in Hfil. rewrite Hfil.
    destruct (i_groups s !! g) as [l|] eqn:Hl; simpl; [|done].
    destruct l; [|done]. exfalso. eapply (gwf_ne _ _ (tw_g _ (iw_t _ Hwf))); done.
  - rewrite rem_groups_lookup_None by done. destruct (i_groups s !! g) as [l|] eqn:Hl; [|done].
    exfalso. simpl in Hk. symmetry in Hk. apply app_eq_nil in Hk as [-> _].
    eapply (gwf_ne _ _ (tw_g _ (iw_t _ Hwf))); done.
Qed.

(** Undoing an add, with the ordering of the intermediate state changed arbitrarily
    (as the estimator does) and values saved in between. *)
Lemma add_remove_general s p s1 o bk :
  i_wf s -> i_add h s (Some p) = (s1, Ret tt) -> o ≡ₚ i_order s1 ->
  let s2 := Inc (i_probs s1) (i_counts s1) (i_groups s1) o bk in
  exists s3, i_remove_idx h s2 (length (i_probs s)) = (s3, Ret tt) /\
    i_probs s3 = i_probs s /\ i_counts s3 = i_counts s /\ i_groups s3 = i_groups s /\
    i_order s3 = filter (fun g => is_Some (i_groups s !! g)) o /\
    (forall d, i_backup s3 !! d =
       if decide (is_Some (o_lookup (h p) !! d) /\ i_counts s !! d = None) then None else bk !! d).
Proof.
  intros Hwf Hadd Ho s2.
  destruct (i_add_ok _ _ _ Hwf Hadd) as (Hwf1 & Hp1 & Hb1 & Hc1 & Hgm & Hg1 & Ho1 & _).
  assert (Hwf2 : i_wf s2) by (apply i_wf_reorder; done).
  destruct (i_remove_idx_ok s2 (length (i_probs s)) p Hwf2) as (s3 & Heq & Hwf3 & Hp3 & Hc3 & Hg3 & Ho3 & Hb3).
  { simpl. rewrite Hp1. rewrite lookup_app_r, Nat.sub_diag by lia. done. }
  exists s3. split; [done|].
  assert (Hcc : i_counts s3 = i_counts s).
  { apply map_eq. intros d. rewrite Hc3. simpl. rewrite Hc1.
    destruct (o_lookup (h p) !! d) as [g|] eqn:Hl.
    - destruct (i_counts s !! d) as [[c g']|] eqn:Hd.
      + rewrite (Hgm _ _ _ _ Hl Hd). destruct (tw_c _ (iw_t _ Hwf) _ _ _ Hd) as [Hpos _].
        destruct (N.eqb_spec (c + 1) 1); [lia|]. f_equal. f_equal. lia.
      + done.
    - destruct (i_counts s !! d) as [[c g']|]; done. }
  assert (HR : forall d, d ∈ gone s2 s3 <-> is_Some (o_lookup (h p) !! d) /\ i_counts s !! d = None).
  { intros d. unfold gone. rewrite elem_of_difference, !elem_of_dom, Hcc. simpl. rewrite Hc1.
    destruct (o_lookup (h p) !! d) as [g|]; destruct (i_counts s !! d) as [[c g']|];
      split; intros [Ha Hb]; try done; try (destruct Ha; done); try (exfalso; apply Hb; eauto; done). }
  assert (Hgg : i_groups s3 = i_groups s).
  { rewrite Hg3. simpl. eapply restored_groups; [done|exact Hg1| |exact HR].
    intros g l. apply (gwf_ne _ _ (tw_g _ (iw_t _ Hwf1))). }
  split; [|split; [done|split; [done|split]]].
  - rewrite Hp3. simpl. rewrite Hp1. 
    rewrite delete_take_drop, take_app, drop_ge by (rewrite app_length; simpl; lia). apply app_nil_r.
  - rewrite Ho3, Hgg. done.
  - intros d. rewrite Hb3. simpl. destruct (decide (d ∈ gone s2 s3)) as [H|H]; rewrite HR in H;
      [rewrite decide_True|rewrite decide_False]; done.
Qed.

Lemma filter_old_order s s1 :
  i_wf s -> i_wf s1 -> (exists k, i_order s1 = i_order s ++ k) ->
  filter (fun g => is_Some (i_groups s !! g)) (i_order s1) = i_order s.
Proof.
  intros Hwf Hwf1 [k Hk]. rewrite Hk, filter_app, filter_id_eq, filter_none_eq; [apply app_nil_r| |].
  - intros g Hg Hs. apply (gwf_dom _ _ (tw_g _ (iw_t _ Hwf))) in Hs.
    pose proof (gwf_nodup _ _ (tw_g _ (iw_t _ Hwf1))) as Hnd. rewrite Hk in Hnd.
    apply NoDup_app in Hnd as (_ & Hdis & _). apply (Hdis g); done.
  - intros g Hg. apply (gwf_dom _ _ (tw_g _ (iw_t _ Hwf))), Hg.
Qed.

Lemma add_remove_same s p s1 :
  i_wf s -> i_add h s (Some p) = (s1, Ret tt) ->
  exists s3, i_remove_idx h s1 (length (i_probs s)) = (s3, Ret tt) /\
    i_probs s3 = i_probs s /\ i_counts s3 = i_counts s /\ i_groups s3 = i_groups s /\
    i_order s3 = i_order s /\
    ((forall d, is_Some (i_backup s !! d) -> is_Some (i_counts s !! d)) -> s3 = s).
Proof.
  intros Hwf Hadd.
  destruct (i_add_ok _ _ _ Hwf Hadd) as (Hwf1 & Hp1 & Hb1 & Hc1 & Hgm & Hg1 & Ho1 & _).
  destruct (add_remove_general s p s1 (i_order s1) (i_backup s1) Hwf Hadd) as (s3 & H1 & H2 & H3 & H4 & H5 & H6);
    [done|].
  assert (Heta : Inc (i_probs s1) (i_counts s1) (i_groups s1) (i_order s1) (i_backup s1) = s1) by (destruct s1; done).
  rewrite Heta in H1. rewrite filter_old_order in H5 by done.
  exists s3. split; [done|]. do 4 (split; [done|]). intros Hbk. rewrite Hb1 in H6. clear Hb1.
  destruct s3 as [p3 c3 g3 o3 b3]; destruct s as [p0 c0 g0 o0 b0]; simpl in *. subst. f_equal.
  apply map_eq. intros d. rewrite H6.
  destruct (decide _) as [[_ Hd]|]; [|done].
  destruct (b0 !! d) as [v|] eqn:Hv; [|done]. destruct (Hbk d); [rewrite Hv; eauto|]. congruence.
Qed.

Lemma find_index_last l p : p ∉ l -> find_index p (l ++ [p]) = Some (length l).
Proof.
  induction l as [|x l IH]; intros Hp; cbn [find_index app length].
  - rewrite Nat.eqb_refl. done.
  - destruct (Nat.eqb_spec x p) as [->|]; [set_solver|]. rewrite IH by set_solver. done.
Qed.

Lemma add_remove_pointer s p s1 :
  i_wf s -> p ∉ i_probs s -> i_add h s (Some p) = (s1, Ret tt) ->
  i_remove h s1 (Some p) = i_remove_idx h s1 (length (i_probs s)).
Proof.
  intros Hwf Hp Hadd. destruct (i_add_ok _ _ _ Hwf Hadd) as (_ & Hp1 & _).
  cbn [i_remove]. rewrite Hp1, find_index_last by done. done.
Qed.

(** a batch with an error term cannot be contained twice *)
Lemma added_not_contained s p s1 :
  i_wf s -> i_add h s (Some p) = (s1, Ret tt) -> o_ets (h p) <> [] -> p ∉ i_probs s.
Proof.
  intros Hwf Hadd Hne Hin. destruct (i_add_ok _ _ _ Hwf Hadd) as (_ & _ & _ & _ & _ & _ & _ & Hnew).
  destruct (o_ets (h p)) as [|e l] eqn:He; [done|].
  apply (Hnew e); [set_solver|]. apply elem_of_ets_of. exists p. rewrite He. set_solver.
Qed.

(** ** Removal order *)
Lemma removed_spec s s' :
  i_wf s -> removed h s s' ->
  i_wf s' /\ i_probs s' ⊆+ i_probs s /\ (forall d, is_Some (i_counts s' !! d) -> snd <$> i_counts s' !! d = snd <$> i_counts s !! d) /\
  i_groups s' = rem_groups (gone s s') (i_groups s) /\
  i_order s' = rem_order (i_groups s') (i_order s) /\
  (forall d, i_backup s' !! d = if decide (d ∈ gone s s') then None else i_backup s !! d).
Proof.
  intros Hwf Hr. induction Hr as [s|s idx s1 s2 Heq Hr IH].
  { split; [done|]. split; [done|]. split; [done|].
    assert (He : gone s s = ∅) by (unfold gone; set_solver). rewrite He.
    rewrite (rem_groups_empty _ (i_order s)) by apply Hwf.
    split; [done|]. split; [rewrite rem_order_id; [done|apply Hwf]|].
    intros d. rewrite decide_False by set_solver. done. }
  destruct (i_remove_idx_eq _ _ _ _ Hwf Heq) as [(? & _)|(_ & p & Hp)]; [done|].
  destruct (i_remove_idx_ok s idx p Hwf Hp) as (s1' & Heq' & Hwf1 & Hp1 & Hc1 & Hg1 & Ho1 & Hb1).
  rewrite Heq in Heq'. injection Heq' as <-.
  destruct (IH Hwf1) as (Hwf2 & Hp2 & Hc2 & Hg2 & Ho2 & Hb2).
  assert (Hmono : forall d, is_Some (i_counts s2 !! d) -> is_Some (i_counts s1 !! d)).
  { intros d Hd. specialize (Hc2 d Hd). destruct Hd as [x Hx]. rewrite Hx in Hc2. simpl in Hc2.
    destruct (i_counts s1 !! d); [eauto|done]. }
  assert (Hmono1 : forall d, is_Some (i_counts s1 !! d) -> is_Some (i_counts s !! d)).
  { intros d Hd. rewrite Hc1 in Hd. destruct (i_counts s !! d) as [[c g]|]; [eauto|]. destruct Hd; done. }
  assert (Hgone : gone s s1 ∪ gone s1 s2 = gone s s2).
  { unfold gone. apply set_eq. intros d. rewrite elem_of_union, !elem_of_difference, !elem_of_dom.
    split.
    - intros [[H1 H2]|[H1 H2]]; (split; [auto|]).
      + intros H3. apply H2, Hmono, H3.
      + done.
    - intros [H1 H2]. destruct (i_counts s1 !! d) eqn:Hd; [right|left]; (split; [eauto|]); [done|].
      intros [? ?]; done. }
  split; [done|]. split.
  { rewrite Hp2, Hp1. rewrite (delete_perm _ _ _ Hp) at 2. apply submseteq_cons. done. }
  split.
  { intros d Hd. rewrite Hc2 by done. apply Hmono in Hd. rewrite Hc1 in Hd |- *.
    destruct (i_counts s !! d) as [[c g]|]; [|done].
    destruct (o_lookup (h p) !! d); [|done]. destruct (N.eqb c 1); [destruct Hd|]; done. }
  split; [|split].
  - rewrite Hg2, Hg1, rem_groups_compose, Hgone. done.
  - rewrite Ho2, Hg2, Ho1, Hg1. rewrite rem_order_compose, rem_groups_compose. done.
  - intros d. rewrite Hb2, Hb1, <- Hgone. destruct (decide (d ∈ gone s1 s2)).
    + rewrite decide_True by set_solver. done.
    + destruct (decide (d ∈ gone s s1)); [rewrite decide_True by set_solver|rewrite decide_False by set_solver]; done.
Qed.

Lemma removed_det s s1 s2 :
  i_wf s -> removed h s s1 -> removed h s s2 -> i_probs s1 ≡ₚ i_probs s2 ->
  i_counts s1 = i_counts s2 /\ i_groups s1 = i_groups s2 /\ i_order s1 = i_order s2 /\
  i_backup s1 = i_backup s2.
Proof.
  intros Hwf H1 H2 Hp.
  destruct (removed_spec _ _ Hwf H1) as (Hwf1 & _ & Hc1 & Hg1 & Ho1 & Hb1).
  destruct (removed_spec _ _ Hwf H2) as (Hwf2 & _ & Hc2 & Hg2 & Ho2 & Hb2).
  assert (Hc : i_counts s1 = i_counts s2).
  { apply map_eq. intros d. pose proof (iw_cnt _ Hwf1 d) as N1. pose proof (iw_cnt _ Hwf2 d) as N2.
    rewrite (occ_perm _ _ d Hp) in N1. specialize (Hc1 d). specialize (Hc2 d).
    destruct (i_counts s1 !! d) as [[c1 g1]|] eqn:E1; destruct (i_counts s2 !! d) as [[c2 g2]|] eqn:E2.
    - specialize (Hc1 ltac:(eauto)). specialize (Hc2 ltac:(eauto)). simpl in *.
      rewrite <- Hc2 in Hc1. simpl in Hc1. congruence.
    - exfalso. destruct (tw_c _ (iw_t _ Hwf1) _ _ _ E1) as [Hpos _]. lia.
    - exfalso. destruct (tw_c _ (iw_t _ Hwf2) _ _ _ E2) as [Hpos _]. lia.
    - done. }
  assert (Hgo : gone s s1 = gone s s2) by (unfold gone; rewrite Hc; done).
  split; [done|]. rewrite Ho1, Ho2, Hg1, Hg2, Hgo. split; [done|]. split; [done|].
  apply map_eq. intros d. rewrite Hb1, Hb2, Hgo. done.
Qed.

Lemma i_wf_no_batches s :
  i_wf s -> i_probs s = [] -> i_counts s = ∅ /\ i_groups s = ∅ /\ i_order s = [].
Proof.
  intros Hwf Hp.
  assert (Hc : i_counts s = ∅).
  { apply map_eq. intros d. rewrite lookup_empty. pose proof (iw_cnt _ Hwf d) as Hn. rewrite Hp in Hn.
    destruct (i_counts s !! d) as [[c g]|] eqn:E; [|done].
    destruct (tw_c _ (iw_t _ Hwf) _ _ _ E) as [Hpos _]. simpl in Hn. unfold occ in Hn. simpl in Hn. lia. }
  assert (Hg : i_groups s = ∅).
  { apply map_eq. intros g. rewrite lookup_empty. destruct (i_groups s !! g) as [l|] eqn:E; [|done].
    destruct l as [|d l]; [exfalso; eapply (gwf_ne _ _ (tw_g _ (iw_t _ Hwf))); done|].
    destruct (tw_m _ (iw_t _ Hwf) _ _ d E) as [c Hd]; [set_solver|]. rewrite Hc, lookup_empty in Hd. done. }
  split; [done|]. split; [done|].
  destruct (i_order s) as [|g o] eqn:E; [done|].
  assert (Hin : g ∈ i_order s) by (rewrite E; set_solver).
  apply (gwf_dom _ _ (tw_g _ (iw_t _ Hwf))) in Hin. rewrite Hg, lookup_empty in Hin. destruct Hin; done.
Qed.

(** ** Flat error-term index *)
Lemma i_numET_spec s : i_numET h s = length (ets_of (i_probs s)).
Proof.
  unfold i_numET.
  assert (Hacc : forall l acc, foldl (fun acc b => acc + o_numET (h b)) acc l = acc + length (ets_of l)).
  { induction l as [|b l IH]; intros acc; simpl; [unfold ets_of; simpl; lia|].
    rewrite IH. unfold ets_of. simpl. rewrite app_length, (o_wf_numET edv) by apply Hh. lia. }
  rewrite Hacc. lia.
Qed.

Lemma locate_et_spec probs idx running bi :
  running <= idx ->
  match locate_et h probs idx running bi with
  | None => length (ets_of probs) <= idx - running
  | Some (i, j) => exists b, bi <= i /\ probs !! (i - bi) = Some b /\
        o_ets (h b) !! j = ets_of probs !! (idx - running) /\ idx - running < length (ets_of probs)
  end.
Proof.
  revert running bi. induction probs as [|b l IH]; intros running bi Hr; cbn [locate_et].
  { unfold ets_of. simpl. lia. }
  rewrite (o_wf_numET edv) by apply Hh.
  assert (Hets : ets_of (b :: l) = o_ets (h b) ++ ets_of l) by done.
  rewrite Hets, app_length.
  destruct (Nat.ltb_spec idx (running + length (o_ets (h b)))) as [Hlt|Hge].
  - exists b. split; [lia|]. rewrite Nat.sub_diag. split; [done|].
    rewrite lookup_app_l by lia. split; [done|lia].
  - specialize (IH (running + length (o_ets (h b))) (S bi) ltac:(lia)).
    destruct (locate_et h l idx _ (S bi)) as [[i j]|].
    + destruct IH as (b' & Hi & Hb' & Hj & Hlen). exists b'. split; [lia|]. split.
      { replace (i - bi) with (S (i - S bi)) by lia. done. }
      split; [|lia]. rewrite Hj, lookup_app_r by lia. f_equal. lia.
    + lia.
Qed.

Lemma i_errorTerm_spec s i :
  i_errorTerm h s i = match ets_of (i_probs s) !! i with Some e => Ret e | None => Throw OutOfBound end.
Proof.
  unfold i_errorTerm. pose proof (locate_et_spec (i_probs s) i 0 0 ltac:(lia)) as H.
  destruct (locate_et h (i_probs s) i 0 0) as [[bi j]|].
  - destruct H as (b & _ & Hb & Hj & Hlen). rewrite Nat.sub_0_r in *. rewrite Hb.
    rewrite o_errorTerm_spec, Hj. done.
  - rewrite Nat.sub_0_r in H. rewrite lookup_ge_None_2 by done. done.
Qed.
End hist.
