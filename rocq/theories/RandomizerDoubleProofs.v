From stdpp Require Import prelude list.
From Coq Require Import Reals Lra Psatz ZArith.
From Flocq Require Import Core BinarySingleNaN.
From Verif Require Import Base GridModel Spec_Grid GridProofs GridCoordProofs GridDoubleProofs RandomizerModel.
Local Open Scope R_scope.

Lemma of_Z_correct z : (Z.abs z <= 2 ^ 31)%Z ->
  is_finite (double_of_Z z 0) = true /\ B2R (double_of_Z z 0) = rnd64 (IZR z).
Proof.
  intros Hz. unfold double_of_Z.
  generalize (binary_normalize_correct 53 1024 eq_refl eq_refl mode_NE z 0 false). cbv zeta.
  assert (E : F2R (Float radix2 z 0) = IZR z) by (unfold F2R; simpl; lra). rewrite E.
  change (round radix2 (SpecFloat.fexp 53 1024) (round_mode mode_NE) (IZR z)) with (rnd64 (IZR z)).
  rewrite Rlt_bool_true; [intros (H1 & H2 & _); done|].
  apply Rle_lt_trans with (bpow radix2 31); [|apply bpow_lt; lia].
  assert (Hb : rnd64 (bpow radix2 31) = bpow radix2 31).
  { apply round_generic; [apply valid_rnd_N|]. apply generic_format_bpow. unfold SpecFloat.fexp, SpecFloat.emin. lia. }
  assert (HR : Rabs (IZR z) <= bpow radix2 31).
  { rewrite <- abs_IZR. change (bpow radix2 31) with (IZR (2 ^ 31)). by apply IZR_le. }
  destruct rnd64_rounding as (Hm & _ & _). apply Rabs_le_inv in HR as [H1 H2]. apply Rabs_le. split.
  - rewrite <- Hb at 1. unfold rnd64. rewrite <- round_NE_opp. apply Hm. done.
  - rewrite <- Hb. apply Hm. done.
Qed.
Lemma add_finite (a x : double) : is_finite a = true -> is_finite x = true -> is_finite (d_add a x) = true ->
  B2R (d_add a x) = rnd64 (B2R a + B2R x).
Proof.
  intros Ha Hx H. generalize (Bplus_correct 53 1024 _ _ mode_NE a x Ha Hx).
  destruct (Rlt_bool _ _); [by intros [? _]|].
  intros [E _]. exfalso. unfold d_add in H. destruct (Bplus mode_NE a x); simpl in *; done.
Qed.
Lemma rnd64_id (x : double) : rnd64 (B2R x) = B2R x.
Proof. apply round_generic; [apply valid_rnd_N|]. apply generic_format_B2R. Qed.
Lemma rnd64_IZR_pos z : (0 < z)%Z -> 0 < rnd64 (IZR z).
Proof.
  intros Hz. destruct rnd64_rounding as (Hm & _ & H1). apply Rlt_le_trans with 1; [lra|]. rewrite <- H1 at 1.
  apply Hm. change 1 with (IZR 1). apply IZR_le. lia.
Qed.

(** The scaled random number. *)
Lemma unit_double r RM : (0 < RM <= 2 ^ 31)%Z -> (0 <= r <= RM)%Z ->
  let q := d_div (double_of_Z r 0) (double_of_Z RM 0) in
  is_finite q = true /\ 0 <= B2R q <= 1.
Proof.
  intros HRM Hr q. destruct rnd64_rounding as (Hm & H0 & H1).
  destruct (of_Z_correct r ltac:(lia)) as [Fr Er]. destruct (of_Z_correct RM ltac:(lia)) as [FR ER].
  pose proof (rnd64_IZR_pos RM ltac:(lia)) as HRp.
  assert (0 <= rnd64 (IZR r)) by (rewrite <- H0; apply Hm; apply IZR_le; lia).
  assert (rnd64 (IZR r) <= rnd64 (IZR RM)) by (apply Hm; apply IZR_le; lia).
  assert (Hq : 0 <= rnd64 (rnd64 (IZR r) / rnd64 (IZR RM)) <= 1).
  { assert (0 < / rnd64 (IZR RM)) by by apply Rinv_0_lt_compat. split.
    - rewrite <- H0 at 1. apply Hm. apply Rmult_le_pos; lra.
    - rewrite <- H1. apply Hm. apply Rmult_le_reg_r with (rnd64 (IZR RM)); [done|].
      unfold Rdiv. rewrite Rmult_assoc, Rinv_l by lra. lra. }
  generalize (Bdiv_correct 53 1024 _ _ mode_NE (double_of_Z r 0) (double_of_Z RM 0) ltac:(rewrite ER; lra)).
  rewrite Rlt_bool_true.
  - intros (E1 & E2 & _). unfold q, d_div. split; [by rewrite E2|]. rewrite E1, Er, ER. exact Hq.
  - rewrite Er, ER. change (round _ _ _ ?x) with (rnd64 x). rewrite Rabs_pos_eq by lra.
    apply Rle_lt_trans with 1; [lra|]. change 1 with (bpow radix2 0). apply bpow_lt. lia.
Qed.
Lemma mul_unit (q d : double) : is_finite q = true -> is_finite d = true -> 0 <= B2R q <= 1 -> 0 <= B2R d ->
  is_finite (d_mul q d) = true /\ 0 <= B2R (d_mul q d) <= B2R d.
Proof.
  intros Fq Fd Hq Hd. destruct rnd64_rounding as (Hm & H0 & _).
  assert (Hr : 0 <= rnd64 (B2R q * B2R d) <= B2R d).
  { split; [rewrite <- H0 at 1|rewrite <- (rnd64_id d)]; apply Hm; [apply Rmult_le_pos; lra|].
    rewrite rnd64_id. rewrite <- (Rmult_1_l (B2R d)) at 2. apply Rmult_le_compat_r; lra. }
  generalize (Bmult_correct 53 1024 _ _ mode_NE q d).
  rewrite Rlt_bool_true.
  - intros (E1 & E2 & _). unfold d_mul. rewrite E2, Fq, Fd. split; [done|]. rewrite E1. exact Hr.
  - change (round _ _ _ ?x) with (rnd64 x). rewrite Rabs_pos_eq by lra. eapply Rle_lt_trans; [apply Hr|].
    eapply Rle_lt_trans; [apply Rle_abs|]. apply (abs_B2R_lt_emax 53 1024).
Qed.
