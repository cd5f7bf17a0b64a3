From Coq Require Import ZArith Lia Reals Lra.
From Flocq Require Import Core.Raux.
From stdpp Require Import prelude list.
From Verif Require Import Base GridModel Spec_Grid GridProofs GridCoordProofs HistogramModel Spec_Histogram.
Local Open Scope R_scope.

Definition with_cells {T C} (g : grid T C) (l : list C) : grid T C :=
  Grid (g_min g) (g_max g) (g_res g) (g_n g) (g_tot g) (g_lin g) l.

Lemma fold_Rplus l a : fold_left Rplus l a = a + Rsum l.
Proof. revert a; induction l as [|x l IH]; intros a; simpl; [lra|]. rewrite IH. lra. Qed.
Lemma getSum_Rsum {T} (g : grid T R) : getSum g = Rsum (g_cells g).
Proof. unfold getSum. rewrite fold_Rplus. lra. Qed.

Lemma Rsum_alter l k : (k < length l)%nat -> Rsum (alter (fun c => c + 1) k l) = Rsum l + 1.
Proof.
  revert k. induction l as [|x l IH]; intros [|k] H; simpl in *; try lia; [lra|].
  change (list_alter (fun c => c + 1) k l) with (alter (fun c => c + 1) k l).
  rewrite IH by lia. lra.
Qed.

Section add.
Context {T : Type} (o : coord_ops T).

(** the position of the bin of a sample; [None] if the sample is ignored *)
Definition good (g : grid T R) : Prop :=
  gwf o g /\ forall p, length p = length (g_min g) -> isInRange o g p = true ->
    exists idx, getIndex o g p = Ret idx /\ valid_index (g_n g) idx.

Lemma good_cells g l : length l = length (g_cells g) -> good g -> good (with_cells g l).
Proof. intros HL [Hw H]. split; [|exact H]. unfold gwf in *. simpl. rewrite HL. done. Qed.

Definition pos (g : grid T R) (p : list T) : option nat :=
  if isInRange o g p then
    match getIndex o g p with Ret idx => Some (Z.to_nat (linr (g_n g) idx)) | _ => None end
  else None.
Definition bump (k : option nat) (l : list R) : list R :=
  match k with Some k => alter (fun c => c + 1) k l | None => l end.

Lemma bump_length k l : length (bump k l) = length l.
Proof. destruct k; simpl; [apply alter_length|done]. Qed.

Lemma with_cells_id {C} (g : grid T C) : with_cells g (g_cells g) = g.
Proof. destruct g; done. Qed.

Lemma alter_insert_eq {A} (f : A -> A) (k : nat) (l : list A) c : l !! k = Some c -> alter f k l = <[k := f c]> l.
Proof.
  intros H. apply list_eq. intros j. destruct (decide (j = k)) as [->|Hne].
  - rewrite list_lookup_alter, H. simpl. rewrite list_lookup_insert; [done|].
    by apply lookup_lt_Some in H.
  - rewrite list_lookup_alter_ne, list_lookup_insert_ne; done.
Qed.

Lemma addSample_bump g p : good g -> length p = length (g_min g) ->
  addSample o g p = (with_cells g (bump (pos g p) (g_cells g)), Ret tt).
Proof.
  intros [Hw Hg] HL. unfold addSample, pos. destruct (isInRange o g p) eqn:E.
  - destruct (Hg p HL E) as (idx & E' & Hv). rewrite E'. simpl.
    destruct (getCell_valid _ g idx Hw Hv) as (c & Hc & Hl).
    unfold setCell. rewrite Hc. rewrite (linear_linr o) by done.
    rewrite (alter_insert_eq _ _ _ c) by done. done.
  - simpl. rewrite with_cells_id. done.
Qed.

Lemma pos_lt g p k : good g -> length p = length (g_min g) -> pos g p = Some k ->
  (k < length (g_cells g))%nat.
Proof.
  intros [Hw Hg] HL. unfold pos. destruct (isInRange o g p) eqn:E; [|done].
  destruct (Hg p HL E) as (idx & -> & Hv). intros [= <-].
  pose proof (linr_bound _ _ Hv). destruct Hw as (_&_&_&_&_&_&->&_). lia.
Qed.

Lemma addSamples_bump g l : good g -> Forall (fun p => length p = length (g_min g)) l ->
  addSamples o g l = (with_cells g (fold_left (fun c p => bump (pos g p) c) l (g_cells g)), Ret tt).
Proof.
  intros Hg HL. revert g Hg HL. induction l as [|p l IH]; intros g Hg HL; simpl.
  - by rewrite with_cells_id.
  - inversion HL; subst. rewrite addSample_bump by done.
    rewrite IH; [|apply good_cells; [apply bump_length|done]|done]. done.
Qed.

Lemma bump_comm a b l : bump a (bump b l) = bump b (bump a l).
Proof.
  destruct a as [i|], b as [j|]; simpl; try done.
  destruct (decide (i = j)) as [->|Hne]; [done|]. by apply list_alter_commute.
Qed.

Lemma fold_bump_perm (f : list T -> option nat) l l' c : l ≡ₚ l' ->
  fold_left (fun c p => bump (f p) c) l c = fold_left (fun c p => bump (f p) c) l' c.
Proof.
  intros H. revert c. induction H; intros c; simpl; try done.
  - by rewrite bump_comm.
  - by rewrite IHPermutation1.
Qed.

Lemma addSamples_perm g l l' : good g -> Forall (fun p => length p = length (g_min g)) l ->
  l ≡ₚ l' -> addSamples o g l = addSamples o g l'.
Proof.
  intros Hg HL HP. rewrite !addSamples_bump; try done; [|by rewrite <- HP].
  by rewrite (fold_bump_perm _ l l').
Qed.

Lemma fold_bump_length (f : list T -> option nat) l c :
  length (fold_left (fun c p => bump (f p) c) l c) = length c.
Proof. revert c; induction l; intros c; simpl; [done|]. rewrite IHl. apply bump_length. Qed.

Lemma fold_bump_lookup (f : list T -> option nat) l c k v : c !! k = Some v ->
  exists m, counts (fun p => f p = Some k) l m /\
    fold_left (fun c p => bump (f p) c) l c !! k = Some (v + INR m).
Proof.
  revert c v. induction l as [|p l IH]; intros c v Hk; cbn [fold_left].
  - exists 0%nat. split; [constructor|]. rewrite Hk. simpl. f_equal. lra.
  - destruct (f p) as [j|] eqn:E; cbn [bump].
    + destruct (decide (j = k)) as [->|Hne].
      * destruct (IH (alter (fun c => c + 1) k c) (v + 1)) as (m & H1 & H2).
        { rewrite list_lookup_alter, Hk. done. }
        exists (S m). split; [by constructor|]. rewrite H2. f_equal. rewrite S_INR. lra.
      * destruct (IH (alter (fun c => c + 1) j c) v) as (m & H1 & H2).
        { rewrite list_lookup_alter_ne by done. done. }
        exists m. split; [|done]. constructor; [|done]. congruence.
    + destruct (IH c v Hk) as (m & H1 & H2). exists m. split; [|done].
      constructor; [|done]. congruence.
Qed.

Lemma fold_bump_sum (f : list T -> option nat) l c :
  Forall (fun p => forall k, f p = Some k -> (k < length c)%nat) l ->
  exists m, counts (fun p => is_Some (f p)) l m /\
    Rsum (fold_left (fun c p => bump (f p) c) l c) = Rsum c + INR m.
Proof.
  revert c. induction l as [|p l IH]; intros c HF; cbn [fold_left].
  - exists 0%nat. split; [constructor|]. simpl. lra.
  - inversion HF as [|? ? Hp HF']; subst. destruct (IH (bump (f p) c)) as (m & H1 & H2).
    { by rewrite bump_length. }
    destruct (f p) as [k|] eqn:E.
    + exists (S m). split; [constructor; [by rewrite E|done]|].
      rewrite H2. cbn [bump]. rewrite Rsum_alter by auto. rewrite S_INR. lra.
    + exists m. split; [|done]. constructor; [|done]. rewrite E. by intros [? ?].
Qed.

Lemma counts_impl {A} (P Q : A -> Prop) l m :
  Forall (fun x => P x <-> Q x) l -> counts P l m -> counts Q l m.
Proof.
  intros HF H. induction H; inversion HF; subst; constructor; naive_solver.
Qed.

Lemma counts_det {A} (P : A -> Prop) l m m' : counts P l m -> counts P l m' -> m = m'.
Proof.
  intros H. revert m'. induction H; intros m' H'; inversion H'; subst; try done.
  - f_equal. auto.
  - auto.
Qed.

(** The counting theorem for any arithmetic in which in-range points have a valid index. *)
Lemma addSamples_counts (g : grid T R) l : good g ->
  Forall (fun p => length p = length (g_min g)) l ->
  exists g', addSamples o g l = (g', Ret tt) /\
    g_min g' = g_min g /\ g_max g' = g_max g /\ g_res g' = g_res g /\ g_n g' = g_n g /\
    good g' /\
    (forall idx c, valid_index (g_n g) idx -> getCell g idx = Ret c ->
       exists m, counts (fun p => isInRange o g p = true /\ getIndex o g p = Ret idx) l m /\
         getCell g' idx = Ret (c + INR m)) /\
    (exists m, counts (fun p => isInRange o g p = true) l m /\ getSum g' = getSum g + INR m).
Proof.
  intros Hg HL. rewrite addSamples_bump by done. eexists. split; [done|]. do 4 (split; [done|]).
  pose proof (good_cells g _ (fold_bump_length (pos g) l (g_cells g)) Hg) as Hg'.
  split; [exact Hg'|]. destruct Hg as [Hw Hgi]. split.
  - intros idx c Hv Hc. destruct (getCell_valid _ g idx Hw Hv) as (c' & Hc' & Hk).
    assert (c' = c) as -> by congruence.
    destruct (fold_bump_lookup (pos g) l (g_cells g) _ _ Hk) as (m & H1 & H2).
    exists m. split.
    + eapply counts_impl; [|exact H1]. rewrite Forall_forall in *. intros p Hp.
      specialize (HL p Hp). unfold pos. destruct (isInRange o g p) eqn:E; [|naive_solver].
      destruct (Hgi p HL E) as (idx' & E' & Hv'). rewrite E'. split.
      * intros [= HE]. split; [done|]. f_equal. eapply linr_inj; eauto.
        pose proof (linr_bound _ _ Hv). pose proof (linr_bound _ _ Hv'). lia.
      * intros [_ [= ->]]. done.
    + destruct (getCell_valid _ _ idx (proj1 Hg') Hv) as (c1 & -> & Hk1).
      simpl in Hk1. rewrite H2 in Hk1. congruence.
  - destruct (fold_bump_sum (pos g) l (g_cells g)) as (m & H1 & H2).
    { rewrite Forall_forall in *. intros p Hp k Hk. exact (pos_lt g p k (conj Hw Hgi) (HL p Hp) Hk). }
    exists m. split.
    + eapply counts_impl; [|exact H1]. rewrite Forall_forall in *. intros p Hp.
      specialize (HL p Hp). unfold pos. destruct (isInRange o g p) eqn:E.
      * destruct (Hgi p HL E) as (idx' & E' & Hv'). rewrite E'. split; [done|]. eauto.
      * split; [by intros [? ?]|done].
    + rewrite !getSum_Rsum. simpl. done.
Qed.

Lemma fresh_cells mn mx rs g idx : length mn = length rs -> length mx = length rs -> rs <> [] ->
  hist_new o mn mx rs = Ret g -> valid_index (g_n g) idx -> getCell g idx = Ret 0.
Proof.
  intros H1 H2 H3 H Hv. destruct (grid_new_wf o 0 _ _ _ _ H1 H2 H3 H) as (Hw & _ & _ & _ & HC).
  destruct (getCell_valid _ g idx Hw Hv) as (c & -> & Hl). rewrite HC in Hl.
  apply lookup_replicate in Hl as [-> _]. done.
Qed.
Lemma Rsum_replicate n : Rsum (replicate n 0) = 0.
Proof. induction n; simpl; [done|]. rewrite IHn. lra. Qed.
Lemma fresh_sum mn mx rs g : length mn = length rs -> length mx = length rs -> rs <> [] ->
  hist_new o mn mx rs = Ret g -> getSum g = 0.
Proof.
  intros H1 H2 H3 H. destruct (grid_new_wf o 0 _ _ _ _ H1 H2 H3 H) as (Hw & _ & _ & _ & HC).
  rewrite getSum_Rsum, HC. apply Rsum_replicate.
Qed.
End add.

(** * Instances *)
Lemma real_good g : grid_reachable (real_ops exact) 0 g -> good (real_ops exact) g.
Proof.
  intros Hr. split; [by eapply reachable_wf|]. intros p HL HI.
  pose proof (reachable_wf _ _ _ Hr) as (_&_&L2&L3&_).
  apply (in_range_iff (real_ops exact) Rle g p) in HI; [|by intros; apply Rleb_true|lia..].
  destruct (real_index 0 g p Hr HL) as [H _]. destruct (H HI) as (idx & ? & ? & _). eauto.
Qed.
Lemma int_good g : grid_reachable int_ops 0 g -> good int_ops g.
Proof.
  intros Hr. split; [by eapply reachable_wf|]. intros p HL HI.
  pose proof (reachable_wf _ _ _ Hr) as (_&_&L2&L3&_).
  apply (in_range_iff int_ops Z.le g p) in HI; [|by intros; apply Z.leb_le|lia..].
  destruct (int_index 0 g p Hr HL) as [H _]. destruct (H HI) as (idx & ? & ? & _). eauto.
Qed.

Lemma in_bin_iff g p idx : grid_reachable (real_ops exact) 0 g -> length p = length (g_min g) ->
  valid_index (g_n g) idx ->
  in_bin g idx p <-> isInRange (real_ops exact) g p = true /\ getIndex (real_ops exact) g p = Ret idx.
Proof.
  intros Hr HL Hv. pose proof (reachable_wf _ _ _ Hr) as Hw. pose proof Hw as (_&L1&L2&L3&_).
  rewrite (in_range_iff (real_ops exact) Rle g p); [|by intros; apply Rleb_true|lia..].
  unfold in_bin. fold (inside g p). destruct (real_index 0 g p Hr HL) as [H _]. split.
  - intros [HI HC]. split; [done|]. destruct (H HI) as (idx' & E & Hv' & Hcell). rewrite E. f_equal.
    pose proof (Forall2_length _ _ _ Hv). pose proof (Forall2_length _ _ _ Hv').
    apply same_index; [lia|]. intros k j i Hj Hi.
    destruct (lookup_both idx (g_n g) _ _ ltac:(lia) Hi) as [c Hc].
    destruct (wf_all _ _ _ _ Hw Hc) as (a & b & r & Ha & Hb & Hr').
    destruct (lookup_both idx p _ _ ltac:(lia) Hi) as [x Hx].
    destruct (Hcell k a b r x j Ha Hb Hr' Hx Hj) as [J1 J2].
    destruct (HC k a b r x i Ha Hb Hr' Hx Hi) as [I1 I2].
    destruct (real_counts 0 g Hr) as [Hok Hcnt].
    destruct (Hok k a b r Ha Hb Hr') as (Hr0 & _). specialize (Hcnt k a b r c Ha Hb Hr' Hc).
    destruct (Rlt_le_dec x b) as [Hlt|Hge].
    + eapply (cell_unique j i a r x); lra.
    + pose proof (valid_lookup _ _ _ _ _ Hv Hi Hc). pose proof (valid_lookup _ _ _ _ _ Hv' Hj Hc).
      assert (x = b) as ->.
      { destruct HI as [_ HB]. rewrite Forall2_lookup in HB. specialize (HB k).
        rewrite Hx, Hb in HB. inversion HB; subst. lra. }
      assert (c - 1 < i + 1)%Z by (apply lt_IZR; rewrite minus_IZR, plus_IZR; nra).
      assert (c - 1 < j + 1)%Z by (apply lt_IZR; rewrite minus_IZR, plus_IZR; nra). lia.
  - intros [HI E]. split; [done|]. destruct (H HI) as (idx' & E' & Hv' & Hcell).
    rewrite E in E'. injection E' as <-. done.
Qed.

Lemma in_bin_int_iff g p idx : grid_reachable int_ops 0 g -> length p = length (g_min g) ->
  valid_index (g_n g) idx ->
  in_bin_int g idx p <-> isInRange int_ops g p = true /\ getIndex int_ops g p = Ret idx.
Proof.
  intros Hr HL Hv. pose proof (reachable_wf _ _ _ Hr) as Hw. pose proof Hw as (_&L1&L2&L3&_).
  rewrite (in_range_iff int_ops Z.le g p); [|by intros; apply Z.leb_le|lia..].
  unfold in_bin_int. fold (inside_int g p). destruct (int_index 0 g p Hr HL) as [H _]. split.
  - intros [HI HC]. split; [done|]. destruct (H HI) as (idx' & E & Hv' & Hcell). rewrite E. f_equal.
    pose proof (Forall2_length _ _ _ Hv). pose proof (Forall2_length _ _ _ Hv').
    apply same_index; [lia|]. intros k j i Hj Hi.
    destruct (lookup_both idx (g_n g) _ _ ltac:(lia) Hi) as [c Hc].
    destruct (wf_all _ _ _ _ Hw Hc) as (a & b & r & Ha & Hb & Hr').
    destruct (lookup_both idx p _ _ ltac:(lia) Hi) as [x Hx].
    specialize (Hcell k a r x j Ha Hr' Hx Hj). specialize (HC k a r x i Ha Hr' Hx Hi).
    destruct (int_counts 0 g Hr) as [Hok _]. destruct (Hok k a b r Ha Hb Hr') as (Hr0 & _). nia.
  - intros [HI E]. split; [done|]. destruct (H HI) as (idx' & E' & Hv' & Hcell).
    rewrite E in E'. injection E' as <-. done.
Qed.

Lemma hist_counts_real mn mx rs g samples :
  length mn = length rs -> length mx = length rs -> rs <> [] ->
  hist_new (real_ops exact) mn mx rs = Ret g ->
  Forall (fun p => length p = length rs) samples ->
  exists g', addSamples (real_ops exact) g samples = (g', Ret tt) /\ g_n g' = g_n g /\
    (forall idx, valid_index (g_n g) idx ->
       exists m, counts (in_bin g idx) samples m /\ getCell g' idx = Ret (INR m)) /\
    (exists m, counts (inside g) samples m /\ getSum g' = INR m) /\
    (forall samples', samples' ≡ₚ samples -> addSamples (real_ops exact) g samples' = (g', Ret tt)).
Proof.
  intros H1 H2 H3 H HL.
  assert (grid_reachable (real_ops exact) 0 g) as Hr by exact (gr_new _ _ _ _ _ _ H1 H2 H3 H).
  pose proof (real_good g Hr) as Hg.
  destruct (grid_new_wf _ 0 _ _ _ _ H1 H2 H3 H) as (Hw & E1 & E2 & E3 & _).
  assert (Forall (fun p => length p = length (g_min g)) samples) as HL'.
  { rewrite E1, H1. done. }
  destruct (addSamples_counts _ g samples Hg HL') as (g' & HA & _ & _ & _ & En & _ & Hcell & Hsum).
  exists g'. split; [done|]. split; [done|]. split; [|split].
  - intros idx Hv. destruct (Hcell idx 0 Hv) as (m & Hm & Hc).
    { exact (fresh_cells _ _ _ _ _ idx H1 H2 H3 H Hv). }
    exists m. split; [|rewrite Hc; f_equal; lra].
    eapply counts_impl; [|exact Hm]. rewrite Forall_forall in *. intros p Hp.
    symmetry. apply in_bin_iff; auto.
  - destruct Hsum as (m & Hm & Hs). exists m. split.
    + eapply counts_impl; [|exact Hm]. rewrite Forall_forall in *. intros p Hp.
      apply (in_range_iff (real_ops exact) Rle g p); [by intros; apply Rleb_true| |].
      * auto.
      * rewrite (HL' p Hp), E1, E2. lia.
    + rewrite Hs, (fresh_sum _ _ _ _ g H1 H2 H3 H). lra.
  - intros s' HP. rewrite <- HA. symmetry. apply addSamples_perm; done.
Qed.

Lemma hist_counts_int mn mx rs g samples :
  length mn = length rs -> length mx = length rs -> rs <> [] ->
  hist_new int_ops mn mx rs = Ret g ->
  Forall (fun p => length p = length rs) samples ->
  exists g', addSamples int_ops g samples = (g', Ret tt) /\ g_n g' = g_n g /\
    (forall idx, valid_index (g_n g) idx ->
       exists m, counts (in_bin_int g idx) samples m /\ getCell g' idx = Ret (INR m)) /\
    (exists m, counts (inside_int g) samples m /\ getSum g' = INR m) /\
    (forall samples', samples' ≡ₚ samples -> addSamples int_ops g samples' = (g', Ret tt)).
Proof.
  intros H1 H2 H3 H HL.
  assert (grid_reachable int_ops 0 g) as Hr by exact (gr_new _ _ _ _ _ _ H1 H2 H3 H).
  pose proof (int_good g Hr) as Hg.
  destruct (grid_new_wf _ 0 _ _ _ _ H1 H2 H3 H) as (Hw & E1 & E2 & E3 & _).
  assert (Forall (fun p => length p = length (g_min g)) samples) as HL'.
  { rewrite E1, H1. done. }
  destruct (addSamples_counts _ g samples Hg HL') as (g' & HA & _ & _ & _ & En & _ & Hcell & Hsum).
  exists g'. split; [done|]. split; [done|]. split; [|split].
  - intros idx Hv. destruct (Hcell idx 0 Hv) as (m & Hm & Hc).
    { exact (fresh_cells _ _ _ _ _ idx H1 H2 H3 H Hv). }
    exists m. split; [|rewrite Hc; f_equal; lra].
    eapply counts_impl; [|exact Hm]. rewrite Forall_forall in *. intros p Hp.
    symmetry. apply in_bin_int_iff; auto.
  - destruct Hsum as (m & Hm & Hs). exists m. split.
    + eapply counts_impl; [|exact Hm]. rewrite Forall_forall in *. intros p Hp.
      apply (in_range_iff int_ops Z.le g p); [by intros; apply Z.leb_le| |].
      * auto.
      * rewrite (HL' p Hp), E1, E2. lia.
    + rewrite Hs, (fresh_sum _ _ _ _ g H1 H2 H3 H). lra.
  - intros s' HP. rewrite <- HA. symmetry. apply addSamples_perm; done.
Qed.
