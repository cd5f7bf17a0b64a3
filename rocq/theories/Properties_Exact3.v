(** Exact behaviour of the conversion of a Timestamp to timespec (C68): negative times and undefined ones. *)
From stdpp Require Import prelude.
From Coq Require Import Reals Lra Psatz ZArith.
From Flocq Require Import Core BinarySingleNaN.
From Verif Require Import Base GridModel Spec_Grid GridDoubleProofs RandomizerDoubleProofs TimestampModel TimestampProofs.
Local Open Scope R_scope.
Local Notation fmt := (generic_format radix2 (SpecFloat.fexp 53 1024)).

Local Lemma rnd64_opp x : rnd64 (- x) = - rnd64 x.
Proof. apply round_NE_opp. Qed.

(** Both parts are truncated towards zero: for a negative time the seconds are rounded up and the nanoseconds are not positive; together
    they are still within a nanosecond. *)
Theorem timespec_negative t :
  is_finite (ts_seconds t) = true -> - IZR (2 ^ 63) <= B2R (ts_seconds t) < 0 ->
  exists s n, ts_timespec t = Ret (s, n) /\ IZR s - 1 < B2R (ts_seconds t) <= IZR s /\ (-1000000000 < n <= 0)%Z /\
    Rabs (IZR s + IZR n / 1000000000 - B2R (ts_seconds t)) <= 1 / 1000000000.
Proof.
  destruct t as [x]. cbn [ts_seconds]. intros Hx [H1 H0]. pose proof (generic_format_B2R 53 1024 x) as Hfx.
  set (y := - B2R x). assert (Hfy : fmt y) by (by apply generic_format_opp).
  set (s := Zfloor y).
  pose proof (Zfloor_lb y) as Hl. pose proof (Zfloor_ub y) as Hu. fold s in Hl, Hu.
  assert (Hy0 : 0 < y) by (unfold y; lra). assert (Hy1 : y <= IZR (2 ^ 63)) by (unfold y; lra).
  assert (Hs0 : (0 <= s)%Z) by (apply Zfloor_lub; simpl; lra).
  assert (Hs1 : (s <= 2 ^ 63)%Z) by (apply le_IZR; lra).
  assert (Hfs : fmt (IZR s)) by (apply fmt_floor; [done|lra]).
  destruct (of_Z_correct' (- s) ltac:(lia)) as [Fs Es].
  assert (Es' : B2R (double_of_Z (- s) 0) = - IZR s).
  { rewrite Es, opp_IZR, rnd64_opp. f_equal. apply round_generic; [apply valid_rnd_N|done]. }
  assert (Hb63 : bpow radix2 0 <= bpow radix2 63) by (apply bpow_le; lia). simpl (bpow radix2 0) in Hb63.
  destruct (sub_ok x (double_of_Z (- s) 0) Hx Fs) as [Fd Ed].
  { rewrite Es'. replace (B2R x - - IZR s) with (- (y - IZR s)) by (unfold y; ring). rewrite Rabs_Ropp, Rabs_pos_eq by lra. lra. }
  assert (Hff : fmt (y - IZR s)) by (apply fmt_frac; [done|lra]).
  assert (Ed' : B2R (d_sub x (double_of_Z (- s) 0)) = - (y - IZR s)).
  { rewrite Ed, Es'. replace (B2R x - - IZR s) with (- (y - IZR s)) by (unfold y; ring). rewrite rnd64_opp. f_equal.
    apply round_generic; [apply valid_rnd_N|done]. }
  set (d := double_of_Z 1000000000 0).
  assert (Edd : B2R d = 1000000000).
  { unfold d. vm_compute B2R. unfold F2R. simpl. lra. }
  assert (Hb30 : 1000000000 <= bpow radix2 63).
  { apply Rle_trans with (bpow radix2 30); [simpl; lra|apply bpow_le; lia]. }
  set (f := y - IZR s) in *.
  assert (Hf01 : 0 <= f < 1) by (unfold f; lra).
  destruct (mul_ok (d_sub x (double_of_Z (- s) 0)) d Fd eq_refl) as [Fm Em].
  { rewrite Ed', Edd. replace (- f * 1000000000) with (- (f * 1000000000)) by ring. rewrite Rabs_Ropp, Rabs_pos_eq by lra. lra. }
  rewrite Ed', Edd in Em. replace (- f * 1000000000) with (- (f * 1000000000)) in Em by ring. rewrite rnd64_opp in Em.
  destruct (frac_mul f Hff Hf01) as [Hr0 Hr1].
  set (n := Zfloor (rnd64 (f * 1000000000))).
  assert (Hn0 : (0 <= n)%Z) by (apply Zfloor_lub; simpl; lra).
  assert (Hn1 : (n < 1000000000)%Z).
  { apply lt_IZR. pose proof (Zfloor_lb (rnd64 (f * 1000000000))). unfold n. lra. }
  exists (- s)%Z, (- n)%Z. split; [|split; [|split]].
  - unfold ts_timespec. cbn [ts_seconds]. rewrite (int64_some x (- s) Hx); [| |lia].
    2: { replace (B2R x) with (- y) by (unfold y; ring). rewrite Ztrunc_opp, Ztrunc_floor by lra. done. }
    fold d. rewrite (int64_some _ (- n) Fm); [done| |lia].
    rewrite Em, Ztrunc_opp, Ztrunc_floor by done. done.
  - rewrite opp_IZR. unfold y in *. lra.
  - lia.
  - destruct (rnd_between (f * 1000000000) ltac:(lra)) as [B1 B2]. fold n in B1, B2.
    pose proof (Zfloor_lb (f * 1000000000)). pose proof (Zfloor_ub (f * 1000000000)).
    apply IZR_le in B1, B2. rewrite plus_IZR in B2. rewrite !opp_IZR. apply Rabs_le. unfold f, y in *. lra.
Qed.
(** The conversion is undefined exactly for NaN, infinities and times out of the range of 64-bit seconds. *)
Theorem timespec_undefined t :
  ts_timespec t = UB <-> is_finite (ts_seconds t) = false \/ IZR (2 ^ 63) <= B2R (ts_seconds t) \/ B2R (ts_seconds t) < - IZR (2 ^ 63).
Proof.
  destruct t as [x]. cbn [ts_seconds]. split.
  - intros E. destruct (is_finite x) eqn:Hx; [|by left]. right.
    destruct (Rle_lt_dec (IZR (2 ^ 63)) (B2R x)) as [|Hlt]; [by left|]. right.
    destruct (Rlt_le_dec (B2R x) (- IZR (2 ^ 63))) as [|Hge]; [done|]. exfalso.
    destruct (Rle_lt_dec 0 (B2R x)) as [Hp|Hn].
    + destruct (timespec_nonneg x Hx (conj Hp Hlt)) as (s & n & E' & _). congruence.
    + destruct (timespec_negative (Timestamp x) Hx (conj Hge Hn)) as (s & n & E' & _). congruence.
  - intros H. unfold ts_timespec. cbn [ts_seconds].
    assert (double_to_int64 x = None) as ->; [|done].
    unfold double_to_int64. destruct (is_finite x) eqn:Hx; [|done]. destruct H as [|[H|H]]; [done| |].
    + rewrite Btrunc_Ztrunc. assert (2 ^ 63 <= Ztrunc (B2R x))%Z.
      { rewrite Ztrunc_floor by (eapply Rle_trans; [|exact H]; apply IZR_le; lia). by apply Zfloor_lub. }
      destruct (Z.ltb_spec (Ztrunc (B2R x)) (2 ^ 63)); [lia|]. by rewrite andb_false_r.
    + rewrite Btrunc_Ztrunc.
      assert (Hi : IZR (Zfloor (- B2R x)) = - B2R x).
      { apply fmt_big; [apply generic_format_opp, generic_format_B2R|].
        apply Rle_trans with (bpow radix2 63); [apply bpow_le; lia|]. change (bpow radix2 63) with (IZR (2 ^ 63)). lra. }
      assert (Ztrunc (B2R x) < - 2 ^ 63)%Z.
      { replace (B2R x) with (- - B2R x) by ring. rewrite <- Hi, <- opp_IZR, Ztrunc_IZR. apply lt_IZR. rewrite !opp_IZR, Hi. lra. }
      destruct (Z.leb_spec (- 2 ^ 63) (Ztrunc (B2R x))); [lia|done].
Qed.
Example timespec_negative_example : ts_timespec (Timestamp (double_of_Z (-5) (-1))) = Ret (-2, -500000000)%Z.
Proof. vm_compute. reflexivity. Qed.
