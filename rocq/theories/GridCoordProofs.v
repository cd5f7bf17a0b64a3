From Coq Require Import ZArith Lia Reals Lra.
From Flocq Require Import Core.Raux.
From stdpp Require Import prelude list.
From Verif Require Import Base GridModel Spec_Grid GridProofs.
Local Open Scope Z_scope.

(** * Pointwise views *)
Lemma existsb_false {A} (f : A -> bool) l :
  existsb f l = false <-> forall k x, l !! k = Some x -> f x = false.
Proof.
  induction l as [|a l IH]; simpl.
  - split; [intros _ k x H; by rewrite lookup_nil in H|done].
  - rewrite orb_false_iff, IH. split.
    + intros [H1 H2] [|k] x; simpl; [by intros [= <-]|apply H2].
    + intros H. split; [by apply (H 0%nat)|]. intros k x Hk. by apply (H (S k)).
Qed.
Lemma any2_false {T} (f : T -> T -> bool) l m :
  any2 f l m = false <-> forall k x y, l !! k = Some x -> m !! k = Some y -> f x y = false.
Proof.
  revert m. induction l as [|a l IH]; intros [|b m]; simpl.
  1-3: split; [intros _ k x y H H'; by (rewrite lookup_nil in H || rewrite lookup_nil in H')|done].
  rewrite orb_false_iff, IH. split.
  + intros [H1 H2] [|k] x y; simpl; [by intros [= <-] [= <-]|apply H2].
  + intros H. split; [by apply (H 0%nat)|]. intros k x y Hk Hk'. by apply (H (S k)).
Qed.
Lemma all2_true {T} (f : T -> T -> bool) l m :
  all2 f l m = true <-> forall k x y, l !! k = Some x -> m !! k = Some y -> f x y = true.
Proof.
  revert m. induction l as [|a l IH]; intros [|b m]; simpl.
  1-3: split; [intros _ k x y H H'; by (rewrite lookup_nil in H || rewrite lookup_nil in H')|done].
  rewrite andb_true_iff, IH. split.
  + intros [H1 H2] [|k] x y; simpl; [by intros [= <-] [= <-]|apply H2].
  + intros H. split; [by apply (H 0%nat)|]. intros k x y Hk Hk'. by apply (H (S k)).
Qed.

Lemma cell_counts_lookup {T} (o : coord_ops T) mn mx rs n :
  cell_counts o mn mx rs = Some n -> forall k a b r c,
  mn !! k = Some a -> mx !! k = Some b -> rs !! k = Some r -> n !! k = Some c ->
  c_cells o (c_sub o b a) r = Some c.
Proof.
  revert mx rs n. induction mn as [|a mn IH]; intros [|b mx] [|r rs] n H k; simpl in *;
    try (intros ? ? ? ? H1 H2 H3; (by rewrite lookup_nil in H1) || (by rewrite lookup_nil in H2)
                                  || (by rewrite lookup_nil in H3)).
  destruct (c_cells _ _ _) as [c0|] eqn:E; [|done].
  destruct (cell_counts o mn mx rs) as [ks|] eqn:E'; [|done]. injection H as <-.
  destruct k as [|k]; simpl.
  - intros ? ? ? ? [= <-] [= <-] [= <-] [= <-]. done.
  - by apply IH.
Qed.

Lemma cell_counts_some {T} (o : coord_ops T) mn mx rs :
  (forall d r, exists c, c_cells o d r = Some c) -> exists n, cell_counts o mn mx rs = Some n.
Proof.
  intros Ho. revert mx rs. induction mn as [|a mn IH]; intros [|b mx] [|r rs]; simpl; eauto.
  destruct (Ho (c_sub o b a) r) as [c ->]. destruct (IH mx rs) as [n ->]. eauto.
Qed.

Lemma index_loop_lookup {T} (o : coord_ops T) mn mx rs n p idx :
  index_loop o mn mx rs n p = Some idx -> forall k a b r c x i,
  mn !! k = Some a -> mx !! k = Some b -> rs !! k = Some r -> n !! k = Some c -> p !! k = Some x ->
  idx !! k = Some i ->
  (if c_eqb o x b then Some (c - 1) else c_cell o (c_sub o x a) r) = Some i.
Proof.
  revert mx rs n p idx. induction mn as [|a mn IH]; intros [|b mx] [|r rs] [|c n] [|x p] idx H k;
    simpl in *;
    try (intros ? ? ? ? ? ? H1 H2 H3 H4 H5;
       (by rewrite lookup_nil in H1) || (by rewrite lookup_nil in H2)
       || (by rewrite lookup_nil in H3) || (by rewrite lookup_nil in H4) || (by rewrite lookup_nil in H5)).
  destruct (if c_eqb o x b then _ else _) as [i0|] eqn:E; [|done].
  destruct (index_loop o mn mx rs n p) as [ks|] eqn:E'; [|done]. injection H as <-.
  destruct k as [|k]; simpl.
  - intros ? ? ? ? ? ? [= <-] [= <-] [= <-] [= <-] [= <-] [= <-]. done.
  - by apply IH.
Qed.

Lemma index_loop_some {T} (o : coord_ops T) mn mx rs n p :
  (forall d r, exists c, c_cell o d r = Some c) ->
  length mx = length mn -> length rs = length mn -> length n = length mn -> length p = length mn ->
  exists idx, index_loop o mn mx rs n p = Some idx /\ length idx = length mn.
Proof.
  intros Ho. revert mx rs n p. induction mn as [|a mn IH]; intros [|b mx] [|r rs] [|c n] [|x p];
    intros H1 H2 H3 H4; simpl in *; try discriminate; eauto.
  destruct (Ho (c_sub o x a) r) as [c' ->].
  destruct (IH mx rs n p) as (idx & -> & HL); [lia..|].
  destruct (c_eqb o x b); eexists; (split; [done|simpl; lia]).
Qed.

Lemma Forall2_lookups {A B} (P : A -> B -> Prop) l m :
  length l = length m -> (forall k x y, l !! k = Some x -> m !! k = Some y -> P x y) -> Forall2 P l m.
Proof.
  intros HL H. apply Forall2_same_length_lookup_2; [done|]. intros. by eapply H.
Qed.
Lemma lookup_both {A B} (l : list A) (m : list B) k x : length l = length m -> l !! k = Some x ->
  exists y, m !! k = Some y.
Proof. intros HL H. apply lookup_lt_Some in H. apply lookup_lt_is_Some_2. lia. Qed.

(** * Integers *)
Lemma int_counts_positive : counts_positive int_ops.
Proof.
  intros a b r k H1 H2 H3 [= <-]. simpl in *.
  apply Z.leb_gt in H1, H2. apply Z.ltb_ge in H3.
  assert (0 <= Z.quot (b - a) r) by (apply Z.quot_pos; lia). lia.
Qed.

Lemma zip_sub_lookup {T} (f : T -> T -> T) mx mn k d :
  zip_with f mx mn !! k = Some d -> exists b a, mx !! k = Some b /\ mn !! k = Some a /\ d = f b a.
Proof. intros H. apply lookup_zip_with_Some in H as (b & a & -> & ? & ?). eauto 6. Qed.

Section ctor.
Context {T C : Type} (o : coord_ops T) (c0 : C).
(** the three checks, pointwise *)
Lemma grid_new_cases mn mx rs :
  (forall d r, exists c, c_cells o d r = Some c) ->
  length mn = length rs -> length mx = length rs ->
  let ok := forall k a b r, mn !! k = Some a -> mx !! k = Some b -> rs !! k = Some r ->
     c_nonpos o r = false /\ c_leb o b a = false /\ c_ltb o (c_sub o b a) r = false in
  (ok /\ exists g, grid_new o c0 mn mx rs = Ret g) \/
  (~ ok /\ grid_new o c0 mn mx rs = Throw BadArgument).
Proof.
  intros Hc H1 H2 ok. unfold grid_new.
  destruct (existsb _ _) eqn:E1; [|destruct (any2 _ mn mx) eqn:E2; [|destruct (any2 _ rs _) eqn:E3]].
  - right. split; [|done]. intros Hok. rewrite <- not_false_iff_true in E1. apply E1.
    apply existsb_false. intros k r Hr.
    destruct (lookup_both rs mn _ _ (eq_sym H1) Hr) as [a Ha].
    destruct (lookup_both rs mx _ _ (eq_sym H2) Hr) as [b Hb].
    by apply (Hok k a b r).
  - right. split; [|done]. intros Hok. rewrite <- not_false_iff_true in E2. apply E2.
    apply any2_false. intros k a b Ha Hb.
    destruct (lookup_both mn rs _ _ H1 Ha) as [r Hr].
    by apply (Hok k a b r).
  - right. split; [|done]. intros Hok. rewrite <- not_false_iff_true in E3. apply E3.
    apply any2_false. intros k r d Hr Hd.
    apply zip_sub_lookup in Hd as (b & a & Hb & Ha & ->).
    by apply (Hok k a b r).
  - left. destruct (cell_counts_some o mn mx rs Hc) as [n ->]. split; [|eauto].
    intros k a b r Ha Hb Hr. split; [by eapply existsb_false in E1|].
    split; [by eapply any2_false in E2|].
    eapply any2_false in E3; [done|done|]. rewrite lookup_zip_with, Hb, Ha. done.
Qed.

Lemma in_range_false g p :
  isInRange (C:=C) o g p = true <->
  (forall k x b, p !! k = Some x -> g_max g !! k = Some b -> c_leb o x b = true) /\
  (forall k x a, p !! k = Some x -> g_min g !! k = Some a -> c_leb o a x = true).
Proof. unfold isInRange. rewrite andb_true_iff, !all2_true. done. Qed.

Lemma in_range_iff (P : T -> T -> Prop) (g : grid T C) p :
  (forall x y, c_leb o x y = true <-> P x y) ->
  length p = length (g_min g) -> length p = length (g_max g) ->
  isInRange o g p = true <-> Forall2 P (g_min g) p /\ Forall2 P p (g_max g).
Proof.
  intros HP HL HL'. rewrite in_range_false. split.
  - intros [A B]. split; apply Forall2_lookups; try lia; intros; apply HP; eauto.
  - intros [A B]. rewrite !Forall2_lookup in *. split; intros k x y Hx Hy; apply HP.
    + specialize (B k). rewrite Hx, Hy in B. by inversion B.
    + specialize (A k). rewrite Hx, Hy in A. by inversion A.
Qed.
End ctor.

Lemma int_ctor {C} (c0 : C) mn mx rs :
  length mn = length rs -> length mx = length rs ->
  (int_args_ok mn mx rs /\ exists g, grid_new int_ops c0 mn mx rs = Ret g) \/
  (~ int_args_ok mn mx rs /\ grid_new int_ops c0 mn mx rs = Throw BadArgument).
Proof.
  intros H1 H2. destruct (grid_new_cases int_ops c0 mn mx rs) as [[H H']|[H H']]; [eauto|done|done|..].
  - left. split; [|done]. intros k a b r Ha Hb Hr. destruct (H k a b r Ha Hb Hr) as (E1 & E2 & E3).
    simpl in *. apply Z.leb_gt in E1, E2. apply Z.ltb_ge in E3. lia.
  - right. split; [|done]. intros HA. apply H. intros k a b r Ha Hb Hr.
    specialize (HA k a b r Ha Hb Hr). simpl. rewrite !Z.leb_gt, Z.ltb_ge. lia.
Qed.

Lemma quot_cell d r : 0 <= d -> 0 < r -> Z.quot d r * r <= d < (Z.quot d r + 1) * r.
Proof.
  intros Hd Hr. rewrite Z.quot_div_nonneg by lia. pose proof (Z.div_mod d r). 
  pose proof (Z.mod_pos_bound d r). nia.
Qed.
Lemma quot_mono d d' r : 0 <= d <= d' -> 0 < r -> 0 <= Z.quot d r <= Z.quot d' r.
Proof.
  intros Hd Hr. rewrite !Z.quot_div_nonneg by lia. split; [apply Z.div_pos; lia|].
  apply Z.div_le_mono; lia.
Qed.

(** Pointwise facts about the arguments of a reachable grid. *)
Lemma wf_checks {T C} (o : coord_ops T) (g : grid T C) : gwf o g ->
  forall k a b r, g_min g !! k = Some a -> g_max g !! k = Some b -> g_res g !! k = Some r ->
  c_nonpos o r = false /\ c_leb o b a = false /\ c_ltb o (c_sub o b a) r = false.
Proof.
  intros (?&?&?&?&?&?&?&E1&E2&E3&E4) k a b r Ha Hb Hr.
  split; [by eapply existsb_false in E1|]. split; [by eapply any2_false in E2|].
  eapply any2_false in E3; [done|done|]. rewrite lookup_zip_with, Hb, Ha. done.
Qed.
Lemma wf_counts_at {T C} (o : coord_ops T) (g : grid T C) : gwf o g ->
  forall k a b r c, g_min g !! k = Some a -> g_max g !! k = Some b -> g_res g !! k = Some r ->
  g_n g !! k = Some c -> c_cells o (c_sub o b a) r = Some c.
Proof. intros (?&?&?&?&?&?&?&E1&E2&E3&E4). by apply cell_counts_lookup. Qed.

Lemma wf_all {T C} (o : coord_ops T) (g : grid T C) k c : gwf o g -> g_n g !! k = Some c ->
  exists a b r, g_min g !! k = Some a /\ g_max g !! k = Some b /\ g_res g !! k = Some r.
Proof.
  intros (?&L1&L2&L3&_) Hc.
  destruct (lookup_both _ (g_res g) _ _ L1 Hc) as [r Hr].
  destruct (lookup_both _ (g_min g) _ _ (eq_sym L2) Hr) as [a Ha].
  destruct (lookup_both _ (g_max g) _ _ (eq_sym L3) Hr) as [b Hb]. eauto 8.
Qed.

Lemma int_counts {C} (c0 : C) g : grid_reachable int_ops c0 g ->
  int_args_ok (g_min g) (g_max g) (g_res g) /\
  forall k a b r c, g_min g !! k = Some a -> g_max g !! k = Some b -> g_res g !! k = Some r ->
    g_n g !! k = Some c -> (c - 1) * r <= b - a < c * r.
Proof.
  intros Hr. apply reachable_wf in Hr as Hw.
  assert (int_args_ok (g_min g) (g_max g) (g_res g)) as Hok.
  { intros k a b r Ha Hb Hr'. destruct (wf_checks _ _ Hw k a b r Ha Hb Hr') as (E1 & E2 & E3).
    simpl in *. apply Z.leb_gt in E1, E2. apply Z.ltb_ge in E3. lia. }
  split; [done|]. intros k a b r c Ha Hb Hr' Hc.
  pose proof (wf_counts_at _ _ Hw k a b r c Ha Hb Hr' Hc) as [= <-].
  destruct (Hok k a b r Ha Hb Hr') as (?&?&?).
  pose proof (quot_cell (b - a) r). simpl. lia.
Qed.

Lemma int_index {C} (c0 : C) g p : grid_reachable int_ops c0 g -> length p = length (g_min g) ->
  (Forall2 Z.le (g_min g) p /\ Forall2 Z.le p (g_max g) ->
   exists idx, getIndex int_ops g p = Ret idx /\ valid_index (g_n g) idx /\
     forall k a r x i, g_min g !! k = Some a -> g_res g !! k = Some r -> p !! k = Some x ->
       idx !! k = Some i -> a + i * r <= x < a + (i + 1) * r) /\
  (~ (Forall2 Z.le (g_min g) p /\ Forall2 Z.le p (g_max g)) ->
   getIndex int_ops g p = Throw OutOfBound).
Proof.
  intros Hr HL. apply reachable_wf in Hr as Hw. destruct (int_counts c0 g Hr) as [Hok Hcnt].
  pose proof Hw as (?&L1&L2&L3&_).
  assert (isInRange int_ops g p = true <-> Forall2 Z.le (g_min g) p /\ Forall2 Z.le p (g_max g)) as HR.
  { apply (in_range_iff int_ops Z.le); [by intros; apply Z.leb_le|lia..]. }
  unfold getIndex. split.
  - intros HI. rewrite (proj2 HR HI). destruct HI as [HA HB].
    destruct (index_loop_some int_ops (g_min g) (g_max g) (g_res g) (g_n g) p) as (idx & E & Hlen);
      [eauto|lia..|].
    rewrite E. exists idx. split; [done|].
    pose proof (index_loop_lookup _ _ _ _ _ _ _ E) as Hl. simpl in Hl.
    assert (forall k a b r c x i, g_min g !! k = Some a -> g_max g !! k = Some b ->
      g_res g !! k = Some r -> g_n g !! k = Some c -> p !! k = Some x -> idx !! k = Some i ->
      0 <= i < c /\ a + i * r <= x < a + (i + 1) * r) as Hkey.
    { intros k a b r c x i Ha Hb Hr' Hc Hx Hi.
      specialize (Hl k a b r c x i Ha Hb Hr' Hc Hx Hi).
      destruct (Hok k a b r Ha Hb Hr') as (?&?&?).
      pose proof (Hcnt k a b r c Ha Hb Hr' Hc) as Hc'.
      rewrite Forall2_lookup in HA, HB. specialize (HA k). specialize (HB k).
      rewrite Ha, Hx in HA. rewrite Hb, Hx in HB. inversion HA. inversion HB. subst.
      destruct (Z.eqb_spec x b) as [->|Hne].
      - injection Hl as <-. nia.
      - injection Hl as <-. pose proof (quot_cell (x - a) r).
        assert (Z.quot (x - a) r < c) by nia. 
        assert (0 <= Z.quot (x - a) r) by (apply Z.quot_pos; lia). lia. }
    split.
    + apply Forall2_lookups; [lia|]. intros k i c Hi Hc.
      destruct (wf_all _ _ _ _ Hw Hc) as (a & b & r & Ha & Hb & Hr').
      destruct (lookup_both _ p _ _ (eq_sym HL) Ha) as [x Hx]. by eapply Hkey.
    + intros k a r x i Ha Hr' Hx Hi.
      destruct (lookup_both _ (g_max g) _ _ (eq_trans L2 (eq_sym L3)) Ha) as [b Hb].
      destruct (lookup_both _ (g_n g) _ _ (eq_sym L1) Hr') as [c Hc]. by eapply Hkey.
  - intros HN. destruct (isInRange int_ops g p) eqn:E; [|done]. exfalso. by apply HN, HR.
Qed.

(** * Reals *)
Local Open Scope R_scope.
Lemma Rleb_true a b : (if Rle_dec a b then true else false) = true <-> a <= b.
Proof. destruct (Rle_dec a b); split; done. Qed.
Lemma Rleb_false a b : (if Rle_dec a b then true else false) = false <-> b < a.
Proof. destruct (Rle_dec a b); split; intros; try done; lra. Qed.
Lemma Rltb_false a b : (if Rlt_dec a b then true else false) = false <-> b <= a.
Proof. destruct (Rlt_dec a b); split; intros; try done; lra. Qed.

Lemma div_ge1 d r : 0 < r -> r <= d -> 1 <= d / r.
Proof. intros. apply Rmult_le_reg_r with r; [done|]. unfold Rdiv. rewrite Rmult_assoc, Rinv_l; lra. Qed.

Lemma real_counts_positive rnd : rounding rnd -> counts_positive (real_ops rnd).
Proof.
  intros (Hm & H0 & H1) a b r k E1 E2 E3 [= <-]. simpl in *.
  apply Rleb_false in E1, E2. apply Rltb_false in E3.
  apply le_IZR. apply Rle_trans with (rnd (rnd (b - a) / r)); [|apply Zceil_ub].
  rewrite <- H1. apply Hm. by apply div_ge1.
Qed.

Lemma exact_rounding : rounding exact.
Proof. split; [done|]. split; done. Qed.

Lemma real_ctor {C} (c0 : C) mn mx rs :
  length mn = length rs -> length mx = length rs ->
  (real_args_ok mn mx rs /\ exists g, grid_new (real_ops exact) c0 mn mx rs = Ret g) \/
  (~ real_args_ok mn mx rs /\ grid_new (real_ops exact) c0 mn mx rs = Throw BadArgument).
Proof.
  intros H1 H2.
  destruct (grid_new_cases (real_ops exact) c0 mn mx rs) as [[H H']|[H H']]; [simpl; eauto|done|done|..].
  - left. split; [|done]. intros k a b r Ha Hb Hr. destruct (H k a b r Ha Hb Hr) as (E1 & E2 & E3).
    simpl in *. apply Rleb_false in E1, E2. apply Rltb_false in E3. unfold exact in *. lra.
  - right. split; [|done]. intros HA. apply H. intros k a b r Ha Hb Hr.
    specialize (HA k a b r Ha Hb Hr). simpl. rewrite !Rleb_false, Rltb_false. unfold exact. lra.
Qed.

Lemma real_counts {C} (c0 : C) g : grid_reachable (real_ops exact) c0 g ->
  real_args_ok (g_min g) (g_max g) (g_res g) /\
  forall k a b r c, g_min g !! k = Some a -> g_max g !! k = Some b -> g_res g !! k = Some r ->
    g_n g !! k = Some c -> (IZR c - 1) * r < b - a <= IZR c * r.
Proof.
  intros Hr. apply reachable_wf in Hr as Hw.
  assert (real_args_ok (g_min g) (g_max g) (g_res g)) as Hok.
  { intros k a b r Ha Hb Hr'. destruct (wf_checks _ _ Hw k a b r Ha Hb Hr') as (E1 & E2 & E3).
    simpl in *. apply Rleb_false in E1, E2. apply Rltb_false in E3. unfold exact in *. lra. }
  split; [done|]. intros k a b r c Ha Hb Hr' Hc.
  pose proof (wf_counts_at _ _ Hw k a b r c Ha Hb Hr' Hc) as E. simpl in E. injection E as <-.
  destruct (Hok k a b r Ha Hb Hr') as (?&?&?). unfold exact.
  pose proof (Zceil_ub ((b - a) / r)). pose proof (Zceil_lb ((b - a) / r)).
  assert ((b - a) = (b - a) / r * r) as E by (unfold Rdiv; rewrite Rmult_assoc, Rinv_l; lra).
  rewrite E at 2 3. split.
  - apply Rmult_lt_compat_r; lra.
  - apply Rmult_le_compat_r; lra.
Qed.

Lemma trunc_cell d r : 0 <= d -> 0 < r ->
  IZR (Ztrunc (d / r)) * r <= d < (IZR (Ztrunc (d / r)) + 1) * r /\ (0 <= Ztrunc (d / r))%Z.
Proof.
  intros Hd Hr. assert (0 <= d / r) by (apply Rmult_le_pos; [done|]; left; by apply Rinv_0_lt_compat).
  rewrite Ztrunc_floor by done.
  pose proof (Zfloor_lb (d / r)). pose proof (Zfloor_ub (d / r)).
  assert (d = d / r * r) as E by (unfold Rdiv; rewrite Rmult_assoc, Rinv_l; lra).
  split; [|by apply Zfloor_lub].
  rewrite E at 2 3. split.
  - apply Rmult_le_compat_r; lra.
  - apply Rmult_lt_compat_r; lra.
Qed.

Lemma real_index {C} (c0 : C) g p :
  grid_reachable (real_ops exact) c0 g -> length p = length (g_min g) ->
  (Forall2 Rle (g_min g) p /\ Forall2 Rle p (g_max g) ->
   exists idx, getIndex (real_ops exact) g p = Ret idx /\ valid_index (g_n g) idx /\
     forall k a b r x i, g_min g !! k = Some a -> g_max g !! k = Some b -> g_res g !! k = Some r ->
       p !! k = Some x -> idx !! k = Some i ->
       a + IZR i * r <= x <= a + (IZR i + 1) * r /\ (x < b -> x < a + (IZR i + 1) * r)) /\
  (~ (Forall2 Rle (g_min g) p /\ Forall2 Rle p (g_max g)) ->
   getIndex (real_ops exact) g p = Throw OutOfBound).
Proof.
  intros Hr HL. apply reachable_wf in Hr as Hw. destruct (real_counts c0 g Hr) as [Hok Hcnt].
  pose proof Hw as (?&L1&L2&L3&_).
  assert (isInRange (real_ops exact) g p = true <->
          Forall2 Rle (g_min g) p /\ Forall2 Rle p (g_max g)) as HR.
  { apply (in_range_iff (real_ops exact) Rle); [by intros; apply Rleb_true|lia..]. }
  unfold getIndex. split.
  - intros HI. rewrite (proj2 HR HI). destruct HI as [HA HB].
    destruct (index_loop_some (real_ops exact) (g_min g) (g_max g) (g_res g) (g_n g) p)
      as (idx & E & Hlen); [simpl; eauto|lia..|].
    rewrite E. exists idx. split; [done|].
    pose proof (index_loop_lookup _ _ _ _ _ _ _ E) as Hl. simpl in Hl.
    assert (forall k a b r c x i, g_min g !! k = Some a -> g_max g !! k = Some b ->
      g_res g !! k = Some r -> g_n g !! k = Some c -> p !! k = Some x -> idx !! k = Some i ->
      (0 <= i < c)%Z /\ a + IZR i * r <= x <= a + (IZR i + 1) * r /\
      (x < b -> x < a + (IZR i + 1) * r)) as Hkey.
    { intros k a b r c x i Ha Hb Hr' Hc Hx Hi.
      specialize (Hl k a b r c x i Ha Hb Hr' Hc Hx Hi).
      destruct (Hok k a b r Ha Hb Hr') as (?&?&?).
      pose proof (Hcnt k a b r c Ha Hb Hr' Hc) as Hc'.
      rewrite Forall2_lookup in HA, HB. specialize (HA k). specialize (HB k).
      rewrite Ha, Hx in HA. rewrite Hb, Hx in HB. inversion HA. inversion HB. subst.
      destruct (Req_EM_T x b) as [->|Hne].
      - injection Hl as <-. rewrite minus_IZR. split; [|split; lra].
        assert (0 < c)%Z; [|lia]. apply lt_IZR. 
        apply Rmult_lt_reg_r with r; lra.
      - injection Hl as <-. unfold exact.
        destruct (trunc_cell (x - a) r) as [T1 T2]; [lra..|].
        split; [|lra]. split; [done|]. apply lt_IZR.
        apply Rmult_lt_reg_r with r; lra. }
    split.
    + apply Forall2_lookups; [lia|]. intros k i c Hi Hc.
      destruct (wf_all _ _ _ _ Hw Hc) as (a & b & r & Ha & Hb & Hr').
      destruct (lookup_both _ p _ _ (eq_sym HL) Ha) as [x Hx]. by eapply Hkey.
    + intros k a b r x i Ha Hb Hr' Hx Hi.
      destruct (lookup_both _ (g_n g) _ _ (eq_sym L1) Hr') as [c Hc]. by eapply Hkey.
  - intros HN. destruct (isInRange _ g p) eqn:E; [|done]. exfalso. by apply HN, HR.
Qed.

(** Any rounding: the index is at most one too large. *)
Lemma rounded_index {C} (c0 : C) rnd g p : rounding rnd ->
  grid_reachable (real_ops rnd) c0 g -> length p = length (g_min g) ->
  Forall2 Rle (g_min g) p /\ Forall2 Rle p (g_max g) ->
  exists idx, getIndex (real_ops rnd) g p = Ret idx /\
    Forall2 (fun i c => 0 <= i <= c)%Z idx (g_n g).
Proof.
  intros Hrnd Hr HL HI. apply reachable_wf in Hr as Hw.
  pose proof Hw as (?&L1&L2&L3&_). pose proof Hrnd as (Hm & H0 & H1).
  unfold getIndex.
  rewrite (proj2 (in_range_iff (real_ops rnd) Rle g p ltac:(by intros; apply Rleb_true)
    HL ltac:(lia)) HI).
  destruct HI as [HA HB].
  destruct (index_loop_some (real_ops rnd) (g_min g) (g_max g) (g_res g) (g_n g) p)
    as (idx & E & Hlen); [simpl; eauto|lia..|].
  rewrite E. exists idx. split; [done|].
  pose proof (index_loop_lookup _ _ _ _ _ _ _ E) as Hl. simpl in Hl.
  pose proof (wf_counts _ _ (real_counts_positive _ Hrnd) Hw) as Hpos. rewrite Forall_lookup in Hpos.
  apply Forall2_lookups; [lia|]. intros k i c Hi Hc.
  destruct (wf_all _ _ _ _ Hw Hc) as (a & b & r & Ha & Hb & Hr').
  destruct (lookup_both _ p _ _ (eq_sym HL) Ha) as [x Hx].
  specialize (Hl k a b r c x i Ha Hb Hr' Hc Hx Hi).
  destruct (wf_checks _ _ Hw k a b r Ha Hb Hr') as (E1 & E2 & E3). simpl in *.
  apply Rleb_false in E1, E2. apply Rltb_false in E3.
  pose proof (wf_counts_at _ _ Hw k a b r c Ha Hb Hr' Hc) as Ec. simpl in Ec. injection Ec as Ec.
  specialize (Hpos k c Hc).
  rewrite Forall2_lookup in HA, HB. specialize (HA k). specialize (HB k).
  rewrite Ha, Hx in HA. rewrite Hb, Hx in HB. inversion HA. inversion HB. subst.
  destruct (Req_EM_T x b) as [->|Hne].
  - injection Hl as <-. lia.
  - injection Hl as <-.
    assert (0 <= rnd (x - a)) by (rewrite <- H0; apply Hm; lra).
    assert (0 < / r) by by apply Rinv_0_lt_compat.
    assert (0 <= rnd (rnd (x - a) / r)).
    { rewrite <- H0. apply Hm. unfold Rdiv. nra. }
    rewrite Ztrunc_floor by done. split; [by apply Zfloor_lub|].
    apply le_IZR. apply Rle_trans with (rnd (rnd (x - a) / r)); [apply Zfloor_lb|].
    apply Rle_trans with (rnd (rnd (b - a) / r)); [|apply Zceil_ub].
    apply Hm. unfold Rdiv. apply Rmult_le_compat_r; [lra|]. apply Hm. lra.
Qed.

(** * Centres *)
Lemma centre_loop_lookup {T} (o : coord_ops T) mn rs idx :
  length rs = length mn -> length idx = length mn ->
  length (centre_loop o mn rs idx) = length mn /\
  forall k a r i, mn !! k = Some a -> rs !! k = Some r -> idx !! k = Some i ->
    centre_loop o mn rs idx !! k = Some (c_centre o a i r).
Proof.
  revert rs idx. induction mn as [|a mn IH]; intros [|r rs] [|i idx] H1 H2; simpl in *; try discriminate.
  - split; [done|]. intros ? ? ? ? H. by rewrite lookup_nil in H.
  - destruct (IH rs idx ltac:(lia) ltac:(lia)) as [E1 E2]. split; [lia|].
    intros [|k]; simpl; [|apply E2]. by intros ? ? ? [= <-] [= <-] [= <-].
Qed.

Lemma valid_lookup n idx k i c : valid_index n idx -> idx !! k = Some i -> n !! k = Some c ->
  (0 <= i < c)%Z.
Proof.
  intros H Hi Hc. unfold valid_index in H. rewrite Forall2_lookup in H. specialize (H k).
  rewrite Hi, Hc in H. by inversion H.
Qed.

Lemma same_index (l m : list Z) : length l = length m ->
  (forall k i j, l !! k = Some i -> m !! k = Some j -> i = j) -> l = m.
Proof.
  intros HL H. apply list_eq. intros k. destruct (l !! k) as [i|] eqn:E.
  - destruct (lookup_both _ m _ _ HL E) as [j Hj]. rewrite Hj. f_equal. by eapply H.
  - symmetry. apply lookup_ge_None in E. apply lookup_ge_None. lia.
Qed.

Lemma cell_unique (i j : Z) a r x : 0 < r ->
  a + IZR i * r <= x < a + (IZR i + 1) * r -> a + IZR j * r <= x < a + (IZR j + 1) * r -> i = j.
Proof.
  intros Hr Hi Hj.
  assert (i < j + 1)%Z by (apply lt_IZR; rewrite plus_IZR; nra).
  assert (j < i + 1)%Z by (apply lt_IZR; rewrite plus_IZR; nra). lia.
Qed.

Lemma real_centre {C} (c0 : C) g idx :
  grid_reachable (real_ops exact) c0 g -> valid_index (g_n g) idx ->
  exists p, getCoordinates (real_ops exact) g idx = Ret p /\ length p = length (g_min g) /\
    (forall k a r i, g_min g !! k = Some a -> g_res g !! k = Some r -> idx !! k = Some i ->
       p !! k = Some (a + (IZR i + 1 / 2) * r)) /\
    (Forall2 Rle p (g_max g) -> getIndex (real_ops exact) g p = Ret idx) /\
    ((forall k a b r c, g_min g !! k = Some a -> g_max g !! k = Some b -> g_res g !! k = Some r ->
        g_n g !! k = Some c -> b - a = IZR c * r) -> Forall2 Rle p (g_max g)).
Proof.
  intros Hr Hv. apply reachable_wf in Hr as Hw. destruct (real_counts c0 g Hr) as [Hok Hcnt].
  pose proof Hw as (?&L1&L2&L3&_).
  pose proof (Forall2_length _ _ _ Hv) as LI.
  unfold getCoordinates. rewrite isValid_valid by done.
  destruct (centre_loop_lookup (real_ops exact) (g_min g) (g_res g) idx) as [LC HC]; [lia..|].
  set (p := centre_loop (real_ops exact) (g_min g) (g_res g) idx) in *. clearbody p.
  simpl in HC. unfold exact in HC.
  assert (forall k x, p !! k = Some x -> exists a b r c i,
    g_min g !! k = Some a /\ g_max g !! k = Some b /\ g_res g !! k = Some r /\ g_n g !! k = Some c /\
    idx !! k = Some i /\ x = a + (IZR i + / 2) * r /\ (0 <= i < c)%Z /\ 0 < r) as Hp.
  { intros k x Hx. destruct (lookup_both p (g_n g) _ _ ltac:(lia) Hx) as [c Hc].
    destruct (wf_all _ _ _ _ Hw Hc) as (a & b & r & Ha & Hb & Hr').
    destruct (lookup_both p idx _ _ ltac:(lia) Hx) as [i Hi].
    exists a, b, r, c, i. do 5 (split; [done|]).
    split; [|split; [by eapply valid_lookup|by apply (Hok k a b r)]].
    specialize (HC k a r i Ha Hr' Hi). congruence. }
  exists p. split; [done|]. split; [lia|]. split; [|split].
  - intros k a r i Ha Hr' Hi. rewrite (HC k a r i) by done. f_equal. lra.
  - intros Hle.
    destruct (real_index c0 g p Hr LC) as [HI _]. destruct HI as (idx' & E & Hv' & Hcell).
    { split; [|done]. apply Forall2_lookups; [lia|]. intros k a x Ha Hx.
      destruct (Hp k x Hx) as (a' & b & r & c & i & Ha' & Hb & Hr' & Hc & Hi & -> & Hic & Hr0).
      assert (a' = a) as -> by congruence. assert (0 <= IZR i) by (apply IZR_le; lia). nra. }
    rewrite E. f_equal. pose proof (Forall2_length _ _ _ Hv').
    apply same_index; [lia|]. intros k j i Hj Hi.
    destruct (lookup_both idx p _ _ ltac:(lia) Hi) as [x Hx].
    destruct (Hp k x Hx) as (a & b & r & c & i' & Ha & Hb & Hr' & Hc & Hi' & -> & Hic & Hr0).
    assert (i' = i) as -> by congruence.
    destruct (Hcell k a b r _ j Ha Hb Hr' Hx Hj) as [[G1 G2] G3].
    assert (j <= i)%Z.
    { assert (j < i + 1)%Z; [|lia]. apply lt_IZR. rewrite plus_IZR. nra. }
    assert (i < j + 1)%Z; [|lia]. apply lt_IZR. rewrite plus_IZR. nra.
  - intros Hd. apply Forall2_lookups; [lia|]. intros k x b Hx Hb.
    destruct (Hp k x Hx) as (a & b' & r & c & i & Ha & Hb' & Hr' & Hc & Hi & -> & Hic & Hr0).
    assert (b' = b) as -> by congruence.
    specialize (Hd k a b r c Ha Hb Hr' Hc).
    assert (IZR i + 1 <= IZR c) by (rewrite <- plus_IZR; apply IZR_le; lia). nra.
Qed.

Lemma int_centre {C} (c0 : C) g idx :
  grid_reachable int_ops c0 g -> valid_index (g_n g) idx ->
  exists p, getCoordinates int_ops g idx = Ret p /\ length p = length (g_min g) /\
    (Forall (fun a => 0 <= a)%Z (g_min g) -> Forall2 Z.le p (g_max g) ->
     getIndex int_ops g p = Ret idx).
Proof.
  intros Hr Hv. apply reachable_wf in Hr as Hw. destruct (int_counts c0 g Hr) as [Hok Hcnt].
  pose proof Hw as (?&L1&L2&L3&_).
  pose proof (Forall2_length _ _ _ Hv) as LI.
  unfold getCoordinates. rewrite isValid_valid by done.
  destruct (centre_loop_lookup int_ops (g_min g) (g_res g) idx) as [LC HC]; [lia..|].
  set (p := centre_loop int_ops (g_min g) (g_res g) idx) in *. clearbody p. simpl in HC.
  exists p. split; [done|]. split; [lia|]. intros Hpos Hle. rewrite Forall_lookup in Hpos.
  assert (forall k x, p !! k = Some x -> exists a b r c i,
    g_min g !! k = Some a /\ g_max g !! k = Some b /\ g_res g !! k = Some r /\ g_n g !! k = Some c /\
    idx !! k = Some i /\ (0 <= i < c)%Z /\ (0 < r)%Z /\ (a + i * r <= x < a + (i + 1) * r)%Z) as Hp.
  { intros k x Hx. destruct (lookup_both p (g_n g) _ _ ltac:(lia) Hx) as [c Hc].
    destruct (wf_all _ _ _ _ Hw Hc) as (a & b & r & Ha & Hb & Hr').
    destruct (lookup_both p idx _ _ ltac:(lia) Hx) as [i Hi].
    exists a, b, r, c, i. do 5 (split; [done|]).
    pose proof (valid_lookup _ _ _ _ _ Hv Hi Hc) as Hic.
    destruct (Hok k a b r Ha Hb Hr') as (Hr0 & _). do 2 (split; [done|]).
    specialize (HC k a r i Ha Hr' Hi). rewrite Hx in HC. injection HC as ->.
    specialize (Hpos k a Ha).
    rewrite Z.quot_div_nonneg by nia.
    pose proof (Z.div_mod (2 * a + (2 * i + 1) * r) 2) as D.
    pose proof (Z.mod_pos_bound (2 * a + (2 * i + 1) * r) 2). nia. }
  destruct (int_index c0 g p Hr LC) as [HI _]. destruct HI as (idx' & E & Hv' & Hcell).
  { split; [|done]. apply Forall2_lookups; [lia|]. intros k a x Ha Hx.
    destruct (Hp k x Hx) as (a' & b & r & c & i & Ha' & Hb & Hr' & Hc & Hi & Hic & Hr0 & Hx').
    assert (a' = a) as -> by congruence. nia. }
  rewrite E. f_equal. pose proof (Forall2_length _ _ _ Hv').
  apply same_index; [lia|]. intros k j i Hj Hi.
  destruct (lookup_both idx p _ _ ltac:(lia) Hi) as [x Hx].
  destruct (Hp k x Hx) as (a & b & r & c & i' & Ha & Hb & Hr' & Hc & Hi' & Hic & Hr0 & Hx').
  assert (i' = i) as -> by congruence.
  pose proof (Hcell k a r _ j Ha Hr' Hx Hj). nia.
Qed.

(** * Invalid indices *)
Lemma getCell_throws {T C} (g : grid T C) idx : length idx = length (g_n g) ->
  getCell g idx = Throw OutOfBound <->
  exists k i c, idx !! k = Some i /\ g_n g !! k = Some c /\ (c <= i)%Z.
Proof.
  intros HL. unfold getCell, isValidIndex.
  destruct (all2 Z.ltb idx (g_n g)) eqn:E.
  - split.
    + unfold vec_get. destruct (decide _); [|done]. destruct (_ !! _); done.
    + intros (k & i & c & Hi & Hc & Hle). rewrite all2_true in E.
      specialize (E k i c Hi Hc). apply Z.ltb_lt in E. lia.
  - split; [|done]. intros _. revert E HL. generalize (g_n g) as n. clear.
    induction idx as [|i idx IH]; intros [|c n] E HL; simpl in *; try discriminate.
    apply andb_false_iff in E as [E|E].
    + apply Z.ltb_ge in E. exists 0%nat, i, c. done.
    + destruct (IH n E) as (k & i' & c' & ? & ? & ?); [lia|]. by exists (S k), i', c'.
Qed.
