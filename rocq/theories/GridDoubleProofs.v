From Coq Require Import ZArith Lia Reals Lra.
From Flocq Require Import Core.Core IEEE754.BinarySingleNaN.
From stdpp Require Import prelude list.
From Verif Require Import Base GridModel Spec_Grid GridProofs GridCoordProofs.
Local Open Scope R_scope.

Definition rnd64 : R -> R := round radix2 (SpecFloat.fexp 53 1024) ZnearestE.

Lemma fexp_valid : Valid_exp (SpecFloat.fexp 53 1024).
Proof. apply (fexp_correct 53 1024). exact prec53. Qed.
#[export] Existing Instance fexp_valid.

Lemma rnd64_rounding : rounding rnd64.
Proof.
  split; [|split].
  - intros x y H. apply round_le; [apply fexp_valid|apply valid_rnd_N|done].
  - apply round_0. apply valid_rnd_N.
  - apply round_generic; [apply valid_rnd_N|].
    rewrite <- (Bone_correct 53 1024 prec53 emax1024). apply generic_format_B2R.
Qed.

Lemma Btrunc_Ztrunc (x : double) : Btrunc x = Ztrunc (B2R x).
Proof.
  apply eq_IZR. rewrite Btrunc_correct; [|exact emax1024]. unfold round, F2R, scaled_mantissa, cexp, FIX_exp. simpl.
  rewrite !Rmult_1_r. done.
Qed.

Lemma to_int_finite (x : double) : is_finite x = true ->
  double_to_int x = int_range (Ztrunc (B2R x)).
Proof. intros H. unfold double_to_int. rewrite H, Btrunc_Ztrunc. done. Qed.

Lemma int_range_some z c : int_range z = Some c -> c = z /\ (-2147483648 <= z <= 2147483647)%Z.
Proof.
  unfold int_range. destruct (_ && _)%bool eqn:E; [|done]. intros [= <-].
  apply andb_true_iff in E as [E1 E2]. apply Z.leb_le in E1, E2. lia.
Qed.
Lemma int_range_in z : (-2147483648 <= z <= 2147483647)%Z -> int_range z = Some z.
Proof.
  intros [H1 H2]. unfold int_range. apply Z.leb_le in H1, H2. rewrite H1, H2. done.
Qed.

Lemma ceil_to_int_some (x : double) c : double_ceil_to_int x = Some c ->
  is_finite x = true /\ c = Zceil (B2R x) /\ (c <= 2147483647)%Z.
Proof.
  destruct x as [s|s| |s m e He]; simpl; try done.
  - intros [= <-]. split; [done|]. rewrite Zceil_IZR. split; [done|lia].
  - intros H. apply int_range_some in H as [-> H2]. split; [done|]. split; [|lia]. clear H2.
    assert (cond_Zopp s (Zpos m) = if s then Zneg m else Zpos m) as E by (destruct s; done).
    rewrite E. set (m' := if s then Zneg m else Zpos m). clearbody m'. clear E.
    unfold F2R. simpl. destruct (Z.leb_spec 0 e) as [H|H].
    + replace (bpow radix2 e) with (IZR (2 ^ e)) by (rewrite <- IZR_Zpower; done).
      rewrite <- mult_IZR, Zceil_IZR. done.
    + unfold Zceil. f_equal.
      replace (- (IZR m' * bpow radix2 e)) with (IZR (- m') / IZR (2 ^ (- e))).
      * symmetry. apply Zfloor_div. assert (0 < 2 ^ (- e))%Z by (apply Z.pow_pos_nonneg; lia). lia.
      * rewrite opp_IZR. unfold Rdiv. rewrite Ropp_mult_distr_l. f_equal.
        replace e with (- (- e))%Z at 2 by lia. rewrite bpow_opp.
        rewrite <- IZR_Zpower by lia. done.
Qed.

Lemma sub_finite (a b : double) : is_finite (d_sub b a) = true ->
  is_finite a = true /\ is_finite b = true /\ B2R (d_sub b a) = rnd64 (B2R b - B2R a).
Proof.
  intros H.
  assert (is_finite a = true /\ is_finite b = true) as [Ha Hb].
  { destruct a as [sa|sa| |sa ma ea Ha], b as [sb|sb| |sb mb eb Hb]; simpl in *; try done.
    destruct (eqb sb (negb sa)); done. }
  split; [done|]. split; [done|].
  generalize (Bminus_correct 53 1024 _ _ mode_NE b a Hb Ha).
  destruct (Rlt_bool _ _); [by intros [? _]|].
  intros [E _]. exfalso. unfold d_sub in H. destruct (Bminus mode_NE b a); simpl in *; done.
Qed.

Lemma div_finite (x r : double) : is_finite r = true -> B2R r <> 0 -> is_finite (d_div x r) = true ->
  is_finite x = true /\ B2R (d_div x r) = rnd64 (B2R x / B2R r).
Proof.
  intros Hr H0 H.
  generalize (Bdiv_correct 53 1024 _ _ mode_NE x r H0).
  destruct (Rlt_bool _ _).
  - intros (E1 & E2 & _). split; [|done]. unfold d_div in H. rewrite <- E2. done.
  - intros E. exfalso. unfold d_div in H. destruct (Bdiv mode_NE x r); simpl in *; done.
Qed.

Lemma sub_bounded (a b x : double) : is_finite a = true -> is_finite x = true ->
  is_finite (d_sub b a) = true -> B2R a <= B2R x <= B2R b ->
  is_finite (d_sub x a) = true /\ B2R (d_sub x a) = rnd64 (B2R x - B2R a) /\
  0 <= B2R (d_sub x a) <= B2R (d_sub b a).
Proof.
  intros Ha Hx Hba Hin. destruct (sub_finite _ _ Hba) as (_ & Hb & Eb).
  destruct rnd64_rounding as (Hm & H0 & _).
  assert (0 <= rnd64 (B2R x - B2R a) <= rnd64 (B2R b - B2R a)) as Hr.
  { split; [rewrite <- H0|]; apply Hm; lra. }
  generalize (Bminus_correct 53 1024 _ _ mode_NE x a Hx Ha).
  rewrite Rlt_bool_true.
  - intros (E1 & E2 & _). unfold d_sub. split; [done|]. split; [done|].
    rewrite E1. change (round _ _ _ _) with (rnd64 (B2R x - B2R a)).
    unfold d_sub in Eb. rewrite Eb. done.
  - change (round _ _ _ _) with (rnd64 (B2R x - B2R a)). rewrite Rabs_pos_eq by lra.
    eapply Rle_lt_trans; [apply Hr|]. rewrite <- Eb.
    eapply Rle_lt_trans; [apply Rle_abs|]. apply (abs_B2R_lt_emax 53 1024).
Qed.

Lemma div_bounded (d x r : double) : is_finite r = true -> 0 < B2R r ->
  is_finite x = true -> is_finite (d_div d r) = true -> 0 <= B2R x <= B2R d ->
  is_finite (d_div x r) = true /\ 0 <= B2R (d_div x r) <= B2R (d_div d r).
Proof.
  intros Hr Hr0 Hx Hd Hin. destruct (div_finite d r Hr ltac:(lra) Hd) as (_ & Ed).
  destruct rnd64_rounding as (Hm & H0 & _).
  assert (0 < / B2R r) by by apply Rinv_0_lt_compat.
  assert (0 <= rnd64 (B2R x / B2R r) <= rnd64 (B2R d / B2R r)) as Hr'.
  { split; [rewrite <- H0|]; apply Hm; unfold Rdiv; [nra|]. apply Rmult_le_compat_r; lra. }
  generalize (Bdiv_correct 53 1024 _ _ mode_NE x r ltac:(lra)).
  rewrite Rlt_bool_true.
  - intros (E1 & E2 & _). unfold d_div. split; [by rewrite E2|].
    rewrite E1. change (round _ _ _ _) with (rnd64 (B2R x / B2R r)).
    unfold d_div in Ed. rewrite Ed. done.
  - change (round _ _ _ _) with (rnd64 (B2R x / B2R r)). rewrite Rabs_pos_eq by lra.
    eapply Rle_lt_trans; [apply Hr'|]. rewrite <- Ed.
    eapply Rle_lt_trans; [apply Rle_abs|]. apply (abs_B2R_lt_emax 53 1024).
Qed.

(** What a dimension that passed the constructor looks like. *)
Lemma double_dim (a b r : double) c :
  c_nonpos double_ops r = false -> c_leb double_ops b a = false ->
  c_ltb double_ops (c_sub double_ops b a) r = false ->
  c_cells double_ops (c_sub double_ops b a) r = Some c ->
  is_finite a = true /\ is_finite b = true /\ is_finite r = true /\ 0 < B2R r /\ B2R a < B2R b /\
  is_finite (d_sub b a) = true /\ is_finite (d_div (d_sub b a) r) = true /\
  c = Zceil (B2R (d_div (d_sub b a) r)) /\ (1 <= c <= 2147483647)%Z.
Proof.
  simpl. intros H1 H2 H3 H4. apply ceil_to_int_some in H4 as (F1 & -> & Hc).
  assert (is_finite r = true) as Hr.
  { destruct r as [s|s| |s m e He]; try done.
    - exfalso. destruct s; [done|]. 
      destruct (d_sub b a) as [s'|s'| |s' m' e' He']; simpl in *; try done; destruct s'; done.
    - exfalso. destruct (d_sub b a) as [s'|s'| |s' m' e' He']; done. }
  assert (0 < B2R r) as Hr0.
  { rewrite (Bleb_correct 53 1024 r (B754_zero false) Hr eq_refl) in H1. simpl in H1.
    destruct (Rle_bool_spec (B2R r) 0); [done|lra]. }
  destruct (div_finite _ r Hr ltac:(lra) F1) as (F2 & E2).
  destruct (sub_finite _ _ F2) as (Ha & Hb & E1).
  assert (B2R a < B2R b) as Hab.
  { rewrite (Bleb_correct 53 1024 b a Hb Ha) in H2. destruct (Rle_bool_spec (B2R b) (B2R a)); [done|lra]. }
  assert (B2R r <= B2R (d_sub b a)) as Hle.
  { rewrite (Bltb_correct 53 1024 _ _ F2 Hr) in H3.
    destruct (Rlt_bool_spec (B2R (d_sub b a)) (B2R r)); [done|lra]. }
  do 8 (split; [done|]). split; [|done].
  apply le_IZR. eapply Rle_trans; [|apply Zceil_ub]. rewrite E2.
  destruct rnd64_rounding as (Hm & _ & H11). rewrite <- H11. apply Hm. by apply div_ge1.
Qed.

Lemma double_counts_positive : counts_positive double_ops.
Proof. intros a b r k H1 H2 H3 H4. eapply double_dim in H4; [|done..]. naive_solver. Qed.

Lemma leb_finite (x b : double) : is_finite b = true -> Bleb x b = true -> x <> B754_nan /\ x <> B754_infinity false.
Proof. destruct x as [|[]| |], b as [|[]| |]; done. Qed.
Lemma leb_finite' (x b : double) : is_finite b = true -> Bleb b x = true -> x <> B754_nan /\ x <> B754_infinity true.
Proof. destruct x as [|[]| |], b as [|[]| |[]]; try done. Qed.

Lemma cell_bounded (a b r x : double) c :
  c_nonpos double_ops r = false -> c_leb double_ops b a = false ->
  c_ltb double_ops (c_sub double_ops b a) r = false ->
  c_cells double_ops (c_sub double_ops b a) r = Some c ->
  c_leb double_ops a x = true -> c_leb double_ops x b = true ->
  is_finite x = true /\
  exists i, c_cell double_ops (c_sub double_ops x a) r = Some i /\ (0 <= i <= c)%Z.
Proof.
  intros H1 H2 H3 H4 H5 H6.
  destruct (double_dim a b r c H1 H2 H3 H4) as (Ha & Hb & Hr & Hr0 & Hab & F2 & F1 & -> & Hc).
  simpl in *. 
  assert (is_finite x = true) as Hx.
  { destruct (leb_finite _ _ Hb H6), (leb_finite' _ _ Ha H5). destruct x as [|[]| |]; done. }
  split; [done|].
  rewrite (Bleb_correct 53 1024 a x Ha Hx) in H5. rewrite (Bleb_correct 53 1024 x b Hx Hb) in H6.
  destruct (Rle_bool_spec (B2R a) (B2R x)); [|done]. destruct (Rle_bool_spec (B2R x) (B2R b)); [|done].
  destruct (sub_bounded a b x Ha Hx F2 ltac:(lra)) as (G1 & _ & G2).
  destruct (div_bounded (d_sub b a) (d_sub x a) r Hr Hr0 G1 F1 G2) as (G3 & G4).
  rewrite to_int_finite by done. rewrite Ztrunc_floor by apply G4.
  assert (0 <= Zfloor (B2R (d_div (d_sub x a) r)))%Z by (apply Zfloor_lub; apply G4).
  assert (Zfloor (B2R (d_div (d_sub x a) r)) <= Zceil (B2R (d_div (d_sub b a) r)))%Z.
  { apply le_IZR. eapply Rle_trans; [apply Zfloor_lb|]. eapply Rle_trans; [apply G4|]. apply Zceil_ub. }
  eexists. rewrite int_range_in by lia. split; [done|lia].
Qed.

Lemma index_loop_some' {T} (o : coord_ops T) mn mx rs n p :
  length mx = length mn -> length rs = length mn -> length n = length mn -> length p = length mn ->
  (forall k a b r c x, mn !! k = Some a -> mx !! k = Some b -> rs !! k = Some r -> n !! k = Some c ->
     p !! k = Some x -> exists i, c_cell o (c_sub o x a) r = Some i) ->
  exists idx, index_loop o mn mx rs n p = Some idx /\ length idx = length mn.
Proof.
  revert mx rs n p. induction mn as [|a mn IH]; intros [|b mx] [|r rs] [|c n] [|x p];
    intros H1 H2 H3 H4 Ho; simpl in *; try discriminate; eauto.
  destruct (Ho 0%nat a b r c x) as [i Hi]; [done..|]. rewrite Hi.
  destruct (IH mx rs n p) as (idx & -> & HL); [lia..| |].
  { intros k a' b' r' c' x' ? ? ? ? ?. by apply (Ho (S k) a' b' r' c' x'). }
  destruct (c_eqb o x b); eexists; (split; [done|simpl; lia]).
Qed.

Lemma double_index {C} (c0 : C) g p :
  grid_reachable double_ops c0 g -> length p = length (g_min g) ->
  (isInRange double_ops g p = false /\ getIndex double_ops g p = Throw OutOfBound) \/
  (isInRange double_ops g p = true /\ exists idx, getIndex double_ops g p = Ret idx /\
    Forall2 (fun i c => 0 <= i <= c)%Z idx (g_n g)).
Proof.
  intros Hr HL. apply reachable_wf in Hr as Hw. pose proof Hw as (?&L1&L2&L3&_).
  unfold getIndex. destruct (isInRange double_ops g p) eqn:HI; [|by left]. right. split; [done|].
  apply in_range_false in HI as [HB HA].
  assert (forall k a b r c x, g_min g !! k = Some a -> g_max g !! k = Some b ->
    g_res g !! k = Some r -> g_n g !! k = Some c -> p !! k = Some x ->
    (1 <= c)%Z /\
    exists i, c_cell double_ops (c_sub double_ops x a) r = Some i /\ (0 <= i <= c)%Z) as Hk.
  { intros k a b r c x Ha Hb Hr' Hc Hx.
    destruct (wf_checks _ _ Hw k a b r Ha Hb Hr') as (E1 & E2 & E3).
    pose proof (wf_counts_at _ _ Hw k a b r c Ha Hb Hr' Hc) as E4.
    split; [by eapply double_counts_positive|].
    eapply cell_bounded; eauto. }
  destruct (index_loop_some' double_ops (g_min g) (g_max g) (g_res g) (g_n g) p)
    as (idx & E & Hlen); [lia..| |].
  { intros k a b r c x Ha Hb Hr' Hc Hx.
    destruct (Hk k a b r c x Ha Hb Hr' Hc Hx) as (_ & i & ? & _). eauto. }
  rewrite E. exists idx. split; [done|].
  pose proof (index_loop_lookup _ _ _ _ _ _ _ E) as Hl.
  apply Forall2_lookups; [lia|]. intros k i c Hi Hc.
  destruct (wf_all _ _ _ _ Hw Hc) as (a & b & r & Ha & Hb & Hr').
  destruct (lookup_both _ p _ _ (eq_sym HL) Ha) as [x Hx].
  specialize (Hl k a b r c x i Ha Hb Hr' Hc Hx Hi).
  destruct (Hk k a b r c x Ha Hb Hr' Hc Hx) as (Hc1 & i' & E' & Hi').
  destruct (c_eqb double_ops x b).
  - injection Hl as <-. lia.
  - rewrite E' in Hl. by injection Hl as <-.
Qed.

(** Looking up a point never runs into undefined behaviour, whatever the doubles. *)
Lemma double_lookup_safe {C} (c0 : C) g p :
  grid_reachable double_ops c0 g -> length p = length (g_min g) ->
  came_back (getCellAt double_ops g p).
Proof.
  intros Hr HL. unfold getCellAt.
  destruct (double_index c0 g p Hr HL) as [[_ ->]|(_ & idx & -> & HF)]; [done|]. simpl.
  pose proof (reachable_wf _ _ _ Hr) as Hw.
  unfold getCell at 1. destruct (isValidIndex g idx) eqn:E; [|done].
  assert (valid_index (g_n g) idx) as Hv.
  { unfold isValidIndex in E. apply all2_ltb_iff in E; [|by apply Forall2_length in HF].
    unfold valid_index. clear -HF E. revert E. induction HF; [constructor|].
    inversion 1; subst. constructor; [lia|auto]. }
  destruct (getCell_valid _ g idx Hw Hv) as (c & E' & _). unfold getCell in E'. rewrite E in E'.
  rewrite E'. done.
Qed.
