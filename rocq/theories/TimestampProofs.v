From stdpp Require Import prelude.
From Coq Require Import Reals Lra Psatz ZArith.
From Flocq Require Import Core BinarySingleNaN Sterbenz.
From Verif Require Import Base GridModel Spec_Grid GridDoubleProofs RandomizerDoubleProofs TimestampModel.
Local Open Scope R_scope.

Local Notation fmt := (generic_format radix2 (SpecFloat.fexp 53 1024)).

Lemma fmt_int z : (Z.abs z <= 2 ^ 53)%Z -> fmt (IZR z).
Proof.
  intros H. destruct (Z.eq_dec (Z.abs z) (2 ^ 53)) as [E|E].
  - assert (z = 2 ^ 53 \/ z = - 2 ^ 53)%Z as [-> | ->] by lia.
    + change (IZR (2 ^ 53)) with (bpow radix2 53). apply generic_format_bpow. unfold SpecFloat.fexp, SpecFloat.emin. lia.
    + rewrite opp_IZR. apply generic_format_opp. change (IZR (2 ^ 53)) with (bpow radix2 53).
      apply generic_format_bpow. unfold SpecFloat.fexp, SpecFloat.emin. lia.
  - apply generic_format_FLT. exists (Float radix2 z 0); simpl; [unfold F2R; simpl; lra|lia|unfold SpecFloat.emin; lia].
Qed.
Lemma rnd_int z : (Z.abs z <= 2 ^ 53)%Z -> rnd64 (IZR z) = IZR z.
Proof. intros H. apply round_generic; [apply valid_rnd_N|by apply fmt_int]. Qed.
Lemma fmt_big x : fmt x -> bpow radix2 52 <= x -> IZR (Zfloor x) = x.
Proof.
  intros Hx Hb. rewrite Hx at 1 2. unfold F2R. simpl Fnum; simpl Fexp.
  assert (He : (0 <= cexp radix2 (SpecFloat.fexp 53 1024) x)%Z).
  { unfold cexp, SpecFloat.fexp, SpecFloat.emin.
    assert (53 <= mag radix2 x)%Z; [|lia]. apply mag_ge_bpow. rewrite Rabs_pos_eq; [exact Hb|].
    eapply Rle_trans; [apply bpow_ge_0|exact Hb]. }
  set (e := cexp _ _ x) in *. rewrite <- IZR_Zpower by done. rewrite <- mult_IZR, Zfloor_IZR. done.
Qed.
Lemma fmt_floor x : fmt x -> 0 <= x -> fmt (IZR (Zfloor x)).
Proof.
  intros Hx H0. destruct (Rle_lt_dec (bpow radix2 52) x) as [Hb|Hb]; [by rewrite fmt_big|].
  apply fmt_int. assert (0 <= Zfloor x)%Z by (apply Zfloor_lub; simpl; lra).
  assert (Zfloor x < 2 ^ 52)%Z; [|lia]. apply lt_IZR. change (IZR (2 ^ 52)) with (bpow radix2 52).
  pose proof (Zfloor_lb x). lra.
Qed.
Lemma fmt_frac x : fmt x -> 0 <= x -> fmt (x - IZR (Zfloor x)).
Proof.
  intros Hx H0. assert (Hf := fmt_floor x Hx H0). pose proof (Zfloor_lb x) as Hl. pose proof (Zfloor_ub x) as Hu.
  destruct (Rlt_le_dec x 1) as [H1|H1].
  - assert (Zfloor x = 0)%Z as ->; [|by rewrite Rminus_0_r]. apply Zfloor_imp. change (0 + 1)%Z with 1%Z. lra.
  - apply sterbenz; [apply fexp_valid|apply (FLT_exp_monotone (SpecFloat.emin 53 1024) 53)|done|done|].
    assert (1 <= IZR (Zfloor x)) by (apply (IZR_le 1); apply Zfloor_lub; done). lra.
Qed.
(** Integers up to 2^63 in magnitude convert to finite doubles. *)
Lemma of_Z_correct' z : (Z.abs z <= 2 ^ 63)%Z ->
  is_finite (double_of_Z z 0) = true /\ B2R (double_of_Z z 0) = rnd64 (IZR z).
Proof.
  intros Hz. unfold double_of_Z.
  generalize (binary_normalize_correct 53 1024 eq_refl eq_refl mode_NE z 0 false). cbv zeta.
  assert (E : F2R (Float radix2 z 0) = IZR z) by (unfold F2R; simpl; lra). rewrite E.
  change (round radix2 (SpecFloat.fexp 53 1024) (round_mode mode_NE) (IZR z)) with (rnd64 (IZR z)).
  rewrite Rlt_bool_true; [intros (H1 & H2 & _); done|].
  apply Rle_lt_trans with (bpow radix2 63); [|apply bpow_lt; lia].
  assert (Hb : rnd64 (bpow radix2 63) = bpow radix2 63).
  { apply round_generic; [apply valid_rnd_N|]. apply generic_format_bpow. unfold SpecFloat.fexp, SpecFloat.emin. lia. }
  assert (HR : Rabs (IZR z) <= bpow radix2 63).
  { rewrite <- abs_IZR. change (bpow radix2 63) with (IZR (2 ^ 63)). by apply IZR_le. }
  destruct rnd64_rounding as (Hm & _ & _). apply Rabs_le_inv in HR as [H1 H2]. apply Rabs_le. split.
  - rewrite <- Hb at 1. unfold rnd64. rewrite <- round_NE_opp. apply Hm. done.
  - rewrite <- Hb. apply Hm. done.
Qed.
(** Subtraction and multiplication that do not overflow. *)
Lemma no_overflow x : Rabs x <= bpow radix2 63 -> Rabs (rnd64 x) < bpow radix2 1024.
Proof.
  intros HR. apply Rle_lt_trans with (bpow radix2 63); [|apply bpow_lt; lia].
  assert (Hb : rnd64 (bpow radix2 63) = bpow radix2 63).
  { apply round_generic; [apply valid_rnd_N|]. apply generic_format_bpow. unfold SpecFloat.fexp, SpecFloat.emin. lia. }
  destruct rnd64_rounding as (Hm & _ & _). apply Rabs_le_inv in HR as [H1 H2]. apply Rabs_le. split.
  - rewrite <- Hb at 1. unfold rnd64. rewrite <- round_NE_opp. apply Hm. done.
  - rewrite <- Hb. apply Hm. done.
Qed.
Lemma sub_ok (a b : double) : is_finite a = true -> is_finite b = true -> Rabs (B2R a - B2R b) <= bpow radix2 63 ->
  is_finite (d_sub a b) = true /\ B2R (d_sub a b) = rnd64 (B2R a - B2R b).
Proof.
  intros Ha Hb H. generalize (Bminus_correct 53 1024 _ _ mode_NE a b Ha Hb).
  rewrite Rlt_bool_true by (by apply no_overflow). intros (H1 & H2 & _). done.
Qed.
Lemma mul_ok (a b : double) : is_finite a = true -> is_finite b = true -> Rabs (B2R a * B2R b) <= bpow radix2 63 ->
  is_finite (d_mul a b) = true /\ B2R (d_mul a b) = rnd64 (B2R a * B2R b).
Proof.
  intros Ha Hb H. generalize (Bmult_correct 53 1024 _ _ mode_NE a b).
  rewrite Rlt_bool_true by (by apply no_overflow). intros (H1 & H2 & _). unfold d_mul. rewrite H2, Ha, Hb. done.
Qed.
(** The largest double below 1 times 1e9 stays below 1e9. *)
Lemma frac_mul f : fmt f -> 0 <= f < 1 -> 0 <= rnd64 (f * 1000000000) < 1000000000.
Proof.
  intros Hf [H0 H1]. destruct rnd64_rounding as (Hm & Hz & _). split.
  { rewrite <- Hz. apply Hm. lra. }
  set (c := double_of_Z (2 ^ 53 - 1) (-53)). set (d := double_of_Z 1000000000 0).
  assert (Ec : B2R c = 1 - bpow radix2 (-53)).
  { replace c with (binary_normalize 53 1024 eq_refl eq_refl mode_NE (2 ^ 53 - 1) (-53) false) by reflexivity.
    vm_compute B2R. unfold F2R. simpl. lra. }
  assert (Ed : B2R d = 1000000000).
  { unfold d. vm_compute B2R. unfold F2R. simpl. lra. }
  assert (Hle : f <= B2R c).
  { rewrite Ec. change 1 with (bpow radix2 0). change (-53)%Z with (SpecFloat.fexp 53 1024 0).
    rewrite <- pred_bpow. apply pred_ge_gt; [apply fexp_valid|done| |done].
    apply generic_format_bpow. unfold SpecFloat.fexp, SpecFloat.emin. lia. }
  assert (Hp : rnd64 (B2R c * B2R d) = 8388607999999999 * bpow radix2 (-23)).
  { destruct (mul_ok c d) as [_ <-]; [reflexivity|reflexivity| |].
    - rewrite Ec, Ed, Rabs_pos_eq.
      + apply Rle_trans with (bpow radix2 30); [|apply bpow_le; lia]. simpl. lra.
      + simpl. lra.
    - unfold c, d. vm_compute B2R. unfold F2R. simpl. lra. }
  apply Rle_lt_trans with (rnd64 (B2R c * B2R d)).
  - apply Hm. rewrite Ed. lra.
  - rewrite Hp. simpl. lra.
Qed.
(** Rounding does not cross integers below 2^53. *)
Lemma rnd_between y : 0 <= y < 1000000000 -> (Zfloor y <= Zfloor (rnd64 y) <= Zfloor y + 1)%Z.
Proof.
  intros [H0 H1]. destruct rnd64_rounding as (Hm & Hz & _).
  pose proof (Zfloor_lb y) as Hl. pose proof (Zfloor_ub y) as Hu.
  assert (Hf : (0 <= Zfloor y < 1000000000)%Z).
  { split; [apply Zfloor_lub; simpl; lra|apply lt_IZR; simpl; lra]. }
  split.
  - apply Zfloor_lub. rewrite <- (rnd_int (Zfloor y)) by lia. apply Hm. done.
  - assert (rnd64 y <= IZR (Zfloor y + 1)).
    { rewrite <- (rnd_int (Zfloor y + 1)) by lia. apply Hm. rewrite plus_IZR. lra. }
    rewrite <- (Zfloor_IZR (Zfloor y + 1)). apply Zfloor_le. done.
Qed.
Lemma int64_some (x : double) z : is_finite x = true -> Ztrunc (B2R x) = z -> (- 2 ^ 63 <= z < 2 ^ 63)%Z ->
  double_to_int64 x = Some z.
Proof.
  intros Hx Hz Hr. unfold double_to_int64. rewrite Hx, Btrunc_Ztrunc, Hz.
  destruct (Z.leb_spec (- 2 ^ 63) z); [|lia]. destruct (Z.ltb_spec z (2 ^ 63)); [done|lia].
Qed.

Lemma timespec_nonneg (x : double) : is_finite x = true -> 0 <= B2R x < IZR (2 ^ 63) ->
  exists s n, ts_timespec (Timestamp x) = Ret (s, n) /\ s = Zfloor (B2R x) /\ (0 <= n < 1000000000)%Z /\
    Rabs (IZR n - (B2R x - IZR s) * 1000000000) <= 1.
Proof.
  intros Hx [H0 H1]. pose proof (generic_format_B2R 53 1024 x) as Hfx.
  set (s := Zfloor (B2R x)).
  pose proof (Zfloor_lb (B2R x)) as Hl. pose proof (Zfloor_ub (B2R x)) as Hu. fold s in Hl, Hu.
  assert (Hs0 : (0 <= s)%Z) by (apply Zfloor_lub; simpl; lra).
  assert (Hs1 : (s < 2 ^ 63)%Z) by (apply lt_IZR; lra).
  assert (Hfs : fmt (IZR s)) by (by apply fmt_floor).
  destruct (of_Z_correct' s ltac:(lia)) as [Fs Es].
  assert (Es' : B2R (double_of_Z s 0) = IZR s).
  { rewrite Es. apply round_generic; [apply valid_rnd_N|done]. }
  assert (Hb63 : bpow radix2 0 <= bpow radix2 63) by (apply bpow_le; lia). simpl (bpow radix2 0) in Hb63.
  destruct (sub_ok x (double_of_Z s 0) Hx Fs) as [Fd Ed].
  { rewrite Es', Rabs_pos_eq by lra. lra. }
  assert (Hff : fmt (B2R x - IZR s)) by (by apply fmt_frac).
  assert (Ed' : B2R (d_sub x (double_of_Z s 0)) = B2R x - IZR s).
  { rewrite Ed, Es'. apply round_generic; [apply valid_rnd_N|done]. }
  set (d := double_of_Z 1000000000 0).
  assert (Edd : B2R d = 1000000000).
  { unfold d. vm_compute B2R. unfold F2R. simpl. lra. }
  assert (Hb30 : 1000000000 <= bpow radix2 63).
  { apply Rle_trans with (bpow radix2 30); [simpl; lra|apply bpow_le; lia]. }
  destruct (mul_ok (d_sub x (double_of_Z s 0)) d Fd eq_refl) as [Fm Em].
  { rewrite Ed', Edd, Rabs_pos_eq by lra. lra. }
  rewrite Ed', Edd in Em. set (f := B2R x - IZR s) in *.
  destruct (frac_mul f Hff ltac:(unfold f; lra)) as [Hr0 Hr1].
  set (n := Zfloor (rnd64 (f * 1000000000))).
  exists s, n. split; [|split; [done|split]].
  - unfold ts_timespec. cbn [ts_seconds]. rewrite (int64_some x s Hx); [| |lia].
    2: { rewrite Ztrunc_floor by done. done. }
    fold d. rewrite (int64_some _ n Fm); [done| |].
    + rewrite Em, Ztrunc_floor by done. done.
    + assert (0 <= n)%Z by (apply Zfloor_lub; simpl; lra). assert (n < 1000000000)%Z; [|lia].
      apply lt_IZR. pose proof (Zfloor_lb (rnd64 (f * 1000000000))). unfold n. lra.
  - split; [apply Zfloor_lub; simpl; lra|]. apply lt_IZR.
    pose proof (Zfloor_lb (rnd64 (f * 1000000000))). unfold n. lra.
  - destruct (rnd_between (f * 1000000000) ltac:(unfold f; lra)) as [B1 B2]. fold n in B1, B2.
    pose proof (Zfloor_lb (f * 1000000000)). pose proof (Zfloor_ub (f * 1000000000)).
    apply IZR_le in B1, B2. rewrite plus_IZR in B2. apply Rabs_le. fold f. lra.
Qed.
