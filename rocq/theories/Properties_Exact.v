(** Exact behaviour where a user's expectation is refuted by a witness elsewhere: clear() and the backup (C17), a batch changed after
    it was added (C18), later batches after a throwing addBatch (C23), negative grid indices (C30), splines after clear() and after a
    rejected addSpline (C76). *)
From stdpp Require Import prelude list gmap.
From Coq Require Import NArith ZArith.
From Verif Require Import Base OptProblemModel OptProblemProofs IncProblemModel IncProblemProofs IncHistoryProofs EstimatorModel EstimatorProofs Spec_Estimator Properties_IncProblem Properties_Estimator.

(** ** C17 *)
(** clear() has no effect on what restoreDesignVariables() does, and saveDesignVariables() on the cleared problem erases nothing either;
    so a save, a clear and a restore give every variable that was in the problem its saved value although it is no longer contained. *)
Theorem inc_problem_clear_keeps_backup {V} (s : inc V) (v v' vals : nat -> V) (d : nat) :
  i_restore (i_clear s) vals d = i_restore s vals d /\
  i_restore (i_save (i_clear s) v') vals d = i_restore s vals d /\
  i_restore (i_clear (i_save s v)) vals d = (if i_isDVInProblem s d then v d else i_restore s vals d).
Proof.
  unfold i_restore, i_save, i_clear, write_back, i_isDVInProblem. cbn [i_backup i_counts].
  split_and!; [done|rewrite map_imap_empty, (left_id_L ∅ (∪)); done|].
  destruct (i_counts s !! d) as [x|] eqn:E.
  - rewrite bool_decide_true by (by eexists). rewrite (lookup_union_Some_l _ _ _ (v d)); [done|]. by rewrite map_lookup_imap, E.
  - rewrite bool_decide_false by (by intros [? ?]). rewrite lookup_union_r; [done|]. by rewrite map_lookup_imap, E.
Qed.

(** ** C18 *)
Section mutated.
  Context {V : Type}.
  Implicit Types s : inc V.
  Local Definition ph (m : gmap nat (N * nat)) s : inc V := Inc (i_probs s) (m ∪ i_counts s) (i_groups s) (i_order s) (i_backup s).
  Local Lemma ph_absent m s d : m !! d = None -> i_counts s !! d = None ->
    remove_dv (ph m s) d = (ph (<[d := ((2 ^ 64 - 1)%N, 0)]> m) s, Ret tt).
  Proof.
    intros Hm Hs. unfold remove_dv, ph. cbn [i_counts i_probs i_groups i_order i_backup].
    rewrite (proj2 (lookup_union_None _ _ _)) by done. cbn. rewrite insert_union_l. done.
  Qed.
  Local Lemma ph_present m s d c g s1 : m !! d = None -> i_counts s !! d = Some (c, g) -> remove_dv s d = (s1, Ret tt) ->
    remove_dv (ph m s) d = (ph m s1, Ret tt).
  Proof.
    intros Hm Hs. unfold remove_dv, ph. cbn [i_counts i_probs i_groups i_order i_backup].
    rewrite lookup_union_r by done. rewrite Hs. cbn [default from_option id].
    assert (Hd : forall x, delete d (<[d := x]> (m ∪ i_counts s)) = m ∪ delete d (<[d := x]> (i_counts s))).
    { intros x. rewrite !delete_insert_delete, delete_union. by rewrite (delete_notin m). }
    destruct (wrap_pred c =? 0)%N.
    - destruct (erase_first d _) as [[|y l]|]; [|intros [= <-]; cbn; by rewrite Hd|done].
      destruct (erase_first g _) as [o|]; [|done]. intros [= <-]. cbn. by rewrite Hd.
    - intros [= <-]. cbn. by rewrite insert_union_r.
  Qed.
  Local Lemma remove_list_ph L : forall m s, twf s -> NoDup L -> (forall d, d ∈ L -> m !! d = None) ->
    exists m' s', remove_list L (ph m s) = (ph m' s', Ret tt) /\ twf s' /\ i_probs s' = i_probs s /\
      (forall d, i_counts s' !! d =
         if decide (d ∈ L) then match i_counts s !! d with
                                | Some (c, g) => if (c =? 1)%N then None else Some ((c - 1)%N, g)
                                | None => None end
         else i_counts s !! d) /\
      (forall d, m' !! d = if decide (d ∈ L) then match i_counts s !! d with None => Some ((2 ^ 64 - 1)%N, 0) | Some _ => None end else m !! d).
  Proof.
    induction L as [|d L IH]; intros m s Hs Hnd Hm.
    { exists m, s. split_and!; try done; intros d; (rewrite decide_False; [done|by apply not_elem_of_nil]). }
    apply NoDup_cons in Hnd as [Hd Hnd]. cbn [remove_list].
    destruct (i_counts s !! d) as [[c g]|] eqn:Hc.
    - destruct (remove_list_ok [d] s Hs) as (s1 & H1 & Ht1 & Hp1 & Hc1 & _); [apply NoDup_singleton|intros x Hx; apply elem_of_list_singleton in Hx as ->; by eexists|].
      cbn [remove_list] in H1. destruct (remove_dv s d) as [s1' [[]| | |]] eqn:Hr; try done. injection H1 as ->.
      rewrite (ph_present m s d c g s1 (Hm d ltac:(by left)) Hc Hr).
      destruct (IH m s1 Ht1 Hnd ltac:(intros x Hx; apply Hm; by right)) as (m' & s' & -> & Ht' & Hp' & Hc' & Hm').
      exists m', s'. split; [done|]. split; [done|]. split; [congruence|]. split.
      + intros x. rewrite Hc', Hc1. destruct (decide (x = d)) as [->|Hx].
        * rewrite decide_False by done. rewrite decide_True by apply elem_of_list_singleton, eq_refl. rewrite decide_True by by left. done.
        * rewrite (decide_False (P := x ∈ [d])) by (rewrite elem_of_list_singleton; done).
          destruct (decide (x ∈ L)); [rewrite decide_True by by right|rewrite decide_False by (intros [?|?]%elem_of_cons; done)]; done.
      + intros x. rewrite Hm', Hc1. destruct (decide (x = d)) as [->|Hx].
        * rewrite decide_False by done. rewrite decide_True by by left. rewrite Hc. apply Hm. by left.
        * rewrite (decide_False (P := x ∈ [d])) by (rewrite elem_of_list_singleton; done).
          destruct (decide (x ∈ L)); [rewrite decide_True by by right|rewrite decide_False by (intros [?|?]%elem_of_cons; done)]; done.
    - rewrite (ph_absent m s d (Hm d ltac:(by left)) Hc).
      destruct (IH (<[d := ((2 ^ 64 - 1)%N, 0)]> m) s Hs Hnd) as (m' & s' & -> & Ht' & Hp' & Hc' & Hm').
      { intros x Hx. rewrite lookup_insert_ne by (intros ->; done). apply Hm. by right. }
      exists m', s'. split; [done|]. split; [done|]. split; [done|]. split.
      + intros x. rewrite Hc'. destruct (decide (x = d)) as [->|Hx].
        * rewrite decide_False by done. rewrite decide_True by by left. by rewrite Hc.
        * destruct (decide (x ∈ L)); [rewrite decide_True by by right|rewrite decide_False by (intros [?|?]%elem_of_cons; done)]; done.
      + intros x. rewrite Hm'. destruct (decide (x = d)) as [->|Hx].
        * rewrite decide_False by done. rewrite decide_True by by left. by rewrite lookup_insert, Hc.
        * rewrite lookup_insert_ne by done.
          destruct (decide (x ∈ L)); [rewrite decide_True by by right|rewrite decide_False by (intros [?|?]%elem_of_cons; done)]; done.
  Qed.
  (** Removing a batch whose object is, by now, any other problem [b]: the call returns and removes the batch, and a variable is then
      reported in the problem exactly if the number of contained batches with it, as they were added, is not zero (variables not in [b])
      respectively not one (variables in [b]). In particular a variable of [b] that was in no batch is reported from then on, in group 0,
      and one that [b] has lost stays for ever. *)
  Theorem inc_problem_mutated_batch (h : nat -> oprob V) (edv : nat -> list nat) s idx p (b : oprob V) :
    (forall x, o_reachable edv (h x)) -> o_reachable edv b -> i_reachable h s -> i_probs s !! idx = Some p ->
    let h' := fun x => if Nat.eqb x p then b else h x in
    let holders d := List.length (List.filter (fun x => o_isDVInProblem (h x) d) (i_probs s)) in
    exists s', i_remove_idx h' s idx = (s', Ret tt) /\ i_probs s' = delete idx (i_probs s) /\
      (forall d, o_isDVInProblem b d = false -> i_isDVInProblem s' d = true <-> holders d <> 0) /\
      (forall d, o_isDVInProblem b d = true -> i_isDVInProblem s' d = true <-> holders d <> 1) /\
      (forall d, o_isDVInProblem b d = true -> holders d = 0 -> i_getGroupId s' d = Ret 0 /\ fst <$> i_counts s' !! d = Some (2 ^ 64 - 1)%N).
  Proof.
    intros Hh Hb Hs Hp h' holders.
    assert (Hwf : forall x, o_wf edv (h x)) by (intros x; apply o_reachable_wf, Hh).
    pose proof (o_reachable_wf _ _ Hb) as Hwb.
    pose proof (i_reachable_wf h edv Hwf s Hs) as Hi.
    assert (Hho : forall d, holders d = occ h (i_probs s) d).
    { intros d. unfold holders, occ. f_equal. clear. induction (i_probs s) as [|x l IH]; [done|]. cbn [List.filter].
      rewrite filter_cons. unfold o_isDVInProblem at 1. destruct (decide (is_Some (o_lookup (h x) !! d))) as [H|H].
      - rewrite bool_decide_true by done. by rewrite IH.
      - by rewrite bool_decide_false by done. }
    unfold i_remove_idx. rewrite Hp. unfold h' at 1 2. rewrite Nat.eqb_refl.
    rewrite (remove_dvs_fold edv); [|done|apply (o_wf_size edv), Hwb]. rewrite drop_0.
    destruct (remove_list_ph (o_enum b) ∅ s (iw_t _ _ Hi)) as (m' & s1 & H1 & Ht1 & Hp1 & Hc1 & Hm1); [apply NoDup_enum, Hwb|intros; apply lookup_empty|].
    assert (He : ph ∅ s = s) by (unfold ph; rewrite (left_id_L ∅ (∪)); by destruct s).
    rewrite He in H1. rewrite H1. eexists. split; [reflexivity|]. cbn [i_probs i_counts ph]. rewrite Hp1. split; [done|].
    assert (Hin : forall d, o_isDVInProblem b d = true <-> d ∈ o_enum b).
    { intros d. unfold o_isDVInProblem. rewrite bool_decide_eq_true. symmetry. by apply (o_wf_enum edv). }
    assert (Hcnt : forall d, (m' ∪ i_counts s1) !! d =
      if decide (d ∈ o_enum b) then match i_counts s !! d with None => Some ((2 ^ 64 - 1)%N, 0)
                                    | Some (c, g) => if (c =? 1)%N then None else Some ((c - 1)%N, g) end
      else i_counts s !! d).
    { intros d. specialize (Hm1 d). specialize (Hc1 d). destruct (decide (d ∈ o_enum b)).
      - destruct (i_counts s !! d) as [[c g]|] eqn:Hc.
        + rewrite lookup_union_r by done. done.
        + by rewrite (lookup_union_Some_l _ _ _ _ Hm1).
      - rewrite lookup_empty in Hm1. rewrite lookup_union_r by done. done. }
    unfold i_isDVInProblem, i_getGroupId. cbn [i_counts].
    split_and!.
    - intros d Hd. rewrite bool_decide_eq_true, Hcnt, decide_False by (rewrite <- Hin, Hd; done). rewrite Hho.
      pose proof (iw_cnt _ _ Hi d) as Hn. pose proof (tw_c _ (iw_t _ _ Hi) d) as Hc.
      destruct (i_counts s !! d) as [[c g]|] eqn:E.
      + destruct (Hc _ _ eq_refl) as [Hpos _]. split; [lia|by eexists].
      + rewrite Hn. split; [intros [? ?]; done|done].
    - intros d Hd. rewrite bool_decide_eq_true, Hcnt, decide_True by (by apply Hin). rewrite Hho.
      pose proof (iw_cnt _ _ Hi d) as Hn.
      destruct (i_counts s !! d) as [[c g]|] eqn:E.
      + destruct (N.eqb_spec c 1); [split; [intros [? ?]; done|lia]|]. split; [lia|by eexists].
      + rewrite Hn. split; [done|by eexists].
    - intros d Hd Hz. rewrite Hcnt, decide_True by (by apply Hin). rewrite Hho in Hz.
      pose proof (iw_cnt _ _ Hi d) as Hn. pose proof (tw_c _ (iw_t _ _ Hi) d) as Hc.
      destruct (i_counts s !! d) as [[c g]|] eqn:E; [|done]. destruct (Hc _ _ eq_refl) as [Hpos _]. lia.
  Qed.
End mutated.

(** ** C23 *)
(** As long as no variable of the marginalised group is in the problem, every addBatch of a batch that does not bring one throws
    InvalidOperation: statistics and variables are unchanged and the group is still missing, so that this goes on for ever. *)
Section nogroup.
  Context {V D M : Type} (A : arith D) (nil : M) (h : nat -> oprob V) (edv : nat -> list nat) (dim edim : nat -> nat).
  Context (Hh : forall b, o_reachable edv (h b)).
  Local Lemma add_list_order L : forall (q : inc V) q' r, add_list L q = (q', r) ->
    (r = Ret tt \/ r = Throw InvalidOperation) /\ (forall g, g ∈ i_order q' -> g ∈ i_order q \/ exists d, (d, g) ∈ L).
  Proof.
    induction L as [|[d g] L IH]; intros q q' r; cbn [add_list].
    { intros [= <- <-]. split; [by left|]. intros g H. by left. }
    assert (Ho : forall x, x ∈ i_order (fst (add_dv q d g)) -> x ∈ i_order q \/ x = g).
    { intros x. unfold add_dv. destruct (i_isGroupInProblem q g); destruct (i_counts q !! d) as [[c g']|]; try (destruct (Nat.eqb g' g));
        cbn; rewrite ?elem_of_app, ?elem_of_list_singleton; tauto. }
    assert (Hr : snd (add_dv q d g) = Ret tt \/ snd (add_dv q d g) = Throw InvalidOperation).
    { unfold add_dv. destruct (i_counts q !! d) as [[c g']|]; [destruct (Nat.eqb g' g)|]; cbn; tauto. }
    destruct (add_dv q d g) as [q1 r1]. cbn [fst snd] in *. destruct Hr as [->| ->].
    - intros H. apply IH in H as [H1 H2]. split; [done|]. intros x Hx. destruct (H2 x Hx) as [Hx'|[d' Hd']].
      + destruct (Ho x Hx') as [?| ->]; [by left|]. right. exists d. by left.
      + right. exists d'. by right.
    - intros [= <- <-]. split; [by right|]. intros x Hx. destruct (Ho x Hx) as [?| ->]; [by left|]. right. exists d. by left.
  Qed.
  Theorem estimator_missing_group (s : est V D M) b force oc : ~ has_group (e_prob s) (e_marg s) -> ~ brings_group h b (e_marg s) ->
    exists s', e_addBatch A nil h dim edim s (Some b) force oc = (s', Throw InvalidOperation) /\
      e_stats s' = e_stats s /\ e_vals s' = e_vals s /\ e_marg s' = e_marg s /\ ~ has_group (e_prob s') (e_marg s').
  Proof.
    unfold has_group, brings_group. intros Hg Hb. unfold e_addBatch.
    pose proof (o_reachable_wf _ _ (Hh b)) as Hwb.
    unfold i_add. rewrite (add_dvs_fold edv); [|done|apply (o_wf_size edv), Hwb]. rewrite drop_0.
    destruct (add_list (opairs (h b)) (e_prob s)) as [q1 r1] eqn:E. apply add_list_order in E as [Hr Ho].
    assert (Hq : e_marg s ∉ i_order q1).
    { intros H. apply Ho in H as [H|[d Hd]]; [done|]. apply (elem_of_opairs edv) in Hd; [|done]. apply Hb. exists d.
      unfold o_getGroupId. by rewrite Hd. }
    destruct Hr as [->| ->]; [|eexists; split; [reflexivity|]; done].
    rewrite add_check_ets_spec by (rewrite (o_wf_numET edv); done). destruct (existsb _ _); [eexists; split; [reflexivity|]; done|].
    rewrite order_marg_absent by done. eexists. split; [reflexivity|]. done.
  Qed.
  Corollary estimator_missing_group_for_ever (calls : list (nat * bool * outcome V D M)) : forall s : est V D M,
    ~ has_group (e_prob s) (e_marg s) -> Forall (fun c => ~ brings_group h c.1.1 (e_marg s)) calls ->
    forall pre c post, calls = pre ++ c :: post ->
      snd (e_addBatch A nil h dim edim
             (fold_left (fun t c => fst (e_addBatch A nil h dim edim t (Some c.1.1) c.1.2 c.2)) pre s) (Some c.1.1) c.1.2 c.2) = Throw InvalidOperation.
  Proof.
    intros s Hs Hc pre c post ->. apply Forall_app in Hc as [Hc1 Hc2]. apply Forall_cons in Hc2 as [Hc _].
    revert s Hs Hc1 Hc. induction pre as [|d pre IH]; intros s Hs Hp Hc; cbn [fold_left].
    - destruct (estimator_missing_group s c.1.1 c.1.2 c.2 Hs Hc) as (s' & -> & _). done.
    - apply Forall_cons in Hp as [Hd Hp].
      destruct (estimator_missing_group s d.1.1 d.1.2 d.2 Hs Hd) as (s' & -> & _ & _ & Hm & Hg). cbn [fst].
      apply IH; [done|by rewrite Hm|by rewrite Hm].
  Qed.
End nogroup.

(** Reachable cases: batch 6 gets a variable 20 after it was added; the first addBatch of a batch without variables of group 7. *)
Example exact_cases :
  (let s := fst (i_add hx i_empty (Some 6)) in let b := fst (o_addDV (hx 6) (Some 20) 12) in
   i_probs s !! 0 = Some 6 /\ o_isDVInProblem b 20 = true /\ i_isDVInProblem s 20 = false /\
   i_isDVInProblem (fst (i_remove_idx (fun x => if Nat.eqb x 6 then b else hx x) s 0)) 20 = true) /\
  (~ has_group (e_prob xinit) (e_marg xinit) /\ ~ brings_group hx 1 (e_marg xinit)).
Proof.
  split; [vm_compute; split_and!; reflexivity|]. split; [unfold has_group; apply (bool_decide_eq_false _); vm_compute; reflexivity|].
  assert (H : forallb (fun x : nat * nat => negb (Nat.eqb x.2 (e_marg xinit))) (map_to_list (o_lookup (hx 1))) = true) by (vm_compute; reflexivity).
  revert H. unfold brings_group, o_getGroupId. generalize (hx 1) (e_marg xinit). clear. intros o g H [d Hd].
  destruct (o_lookup o !! d) as [g'|] eqn:E; [|discriminate Hd]. assert (g' = g) as -> by congruence.
  apply elem_of_map_to_list, elem_of_list_In in E. rewrite forallb_forall in H. specialize (H _ E). cbn in H. by rewrite Nat.eqb_refl in H.
Qed.
