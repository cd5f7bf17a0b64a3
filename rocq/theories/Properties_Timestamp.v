(** C54, C68: Timestamp. *)
From stdpp Require Import prelude.
From Coq Require Import Reals Lra Psatz ZArith.
From Flocq Require Import Core BinarySingleNaN.
From Verif Require Import Base GridModel Spec_Grid GridDoubleProofs RandomizerDoubleProofs TimestampModel TimestampProofs.
Local Open Scope R_scope.

Definition not_nan (t : timestamp) : Prop := is_nan (ts_seconds t) = false.

Lemma cmp_some (a b : double) : is_nan a = false -> is_nan b = false ->
  exists c, Bcompare a b = Some c /\ Bcompare b a = Some (CompOpp c).
Proof.
  intros Ha Hb. destruct (Bcompare a b) as [c|] eqn:E.
  - exists c. split; [done|]. by rewrite Bcompare_swap, E.
  - exfalso. destruct a as [s|s| |s m e H], b as [s'|s'| |s' m' e' H']; try done; destruct s; try destruct s'; done.
Qed.
(** Value of a double as an extended real, to state what the operators compare. *)
Inductive ereal := ENeg | EFin (x : R) | EPos.
Definition evalue (a : double) : ereal :=
  match a with B754_infinity true => ENeg | B754_infinity false => EPos | _ => EFin (B2R a) end.
Definition elt (x y : ereal) : Prop :=
  match x, y with
  | ENeg, ENeg => False | ENeg, _ => True | EFin _, ENeg => False | EFin a, EFin b => a < b | EFin _, EPos => True
  | EPos, _ => False
  end.
Lemma cmp_value (a b : double) : is_nan a = false -> is_nan b = false ->
  match Bcompare a b with
  | Some Lt => elt (evalue a) (evalue b) | Some Gt => elt (evalue b) (evalue a) | Some Eq => evalue a = evalue b
  | None => False end.
Proof.
  intros Ha Hb. destruct (is_finite a) eqn:Fa, (is_finite b) eqn:Fb.
  - rewrite Bcompare_correct by done.
    assert (forall x : double, is_finite x = true -> evalue x = EFin (B2R x)) as HE by (intros [s|s| |s m e H] F; done).
    rewrite !HE by done. destruct (Rcompare_spec (B2R a) (B2R b)) as [H|H|H]; simpl; [done|by rewrite H|done].
  - destruct b as [s|[]| |s m e H]; try done; destruct a as [s'|[]| |[] m e H]; done.
  - destruct a as [s|[]| |s m e H]; try done; destruct b as [s'|[]| |[] m e H]; done.
  - destruct a as [s|[]| |s m e H], b as [s'|[]| |s' m' e' H']; done.
Qed.

(** The comparison operators decide the order of the values (infinities included); [-0] and [0] are equal. *)
Theorem timestamp_compare a b : not_nan a -> not_nan b ->
  let x := evalue (ts_seconds a) in let y := evalue (ts_seconds b) in
  (ts_lt a b = true <-> elt x y) /\ (ts_gt a b = true <-> elt y x) /\
  (ts_le a b = true <-> elt x y \/ x = y) /\ (ts_ge a b = true <-> elt y x \/ x = y) /\
  (ts_eq a b = true <-> x = y) /\ (ts_ne a b = true <-> x <> y).
Proof.
  intros Ha Hb x y. pose proof (cmp_value _ _ Ha Hb) as H. pose proof (cmp_value _ _ Hb Ha) as H'.
  unfold ts_lt, ts_gt, ts_le, ts_ge, ts_eq, ts_ne.
  assert (HL : forall u v : double, Bltb u v = match Bcompare u v with Some Lt => true | _ => false end) by done.
  assert (HE : forall u v : double, Beqb u v = match Bcompare u v with Some Eq => true | _ => false end) by done.
  assert (HB : forall u v : double, Bleb u v = match Bcompare u v with Some Lt | Some Eq => true | _ => false end).
  { intros u v. unfold Bleb, SpecFloat.SFleb, Bcompare. done. }
  rewrite !HL, !HE, !HB.
  destruct (cmp_some _ _ Ha Hb) as (c & E & E'). rewrite E in H. rewrite E' in H'. rewrite E, E'.
  fold x in H, H'. fold y in H, H'. clear E E' HL HE HB. clearbody x y. clear Ha Hb.
  assert (Hirr : ~ elt x x) by (destruct x; simpl; [tauto|lra|tauto]).
  assert (Hasym : elt x y -> elt y x -> False) by (destruct x, y; simpl; try tauto; lra).
  destruct c; simpl in *.
  - subst y. naive_solver.
  - assert (x <> y) by (intros ->; done). assert (~ elt y x) by eauto. naive_solver.
  - assert (x <> y) by (intros ->; done). assert (~ elt x y) by eauto. naive_solver.
Qed.
(** Hence a total order; the operators taking a double agree with those taking a timestamp. *)
Theorem timestamp_order a b c : not_nan a -> not_nan b -> not_nan c ->
  (ts_lt a b = true \/ ts_eq a b = true \/ ts_gt a b = true) /\
  ts_lt a a = false /\ ts_eq a a = true /\
  (ts_lt a b = true -> ts_lt b c = true -> ts_lt a c = true) /\
  (ts_le a b = true -> ts_le b c = true -> ts_le a c = true) /\
  (ts_le a b = true -> ts_le b a = true -> ts_eq a b = true) /\
  ts_gt a b = ts_lt b a /\ ts_ge a b = negb (ts_lt a b) /\ ts_le a b = negb (ts_gt a b) /\ ts_ne a b = negb (ts_eq a b).
Proof.
  intros Ha Hb Hc.
  pose proof (timestamp_compare a b Ha Hb) as Hab. pose proof (timestamp_compare b a Hb Ha) as Hba.
  pose proof (timestamp_compare b c Hb Hc) as Hbc. pose proof (timestamp_compare a c Ha Hc) as Hac.
  pose proof (timestamp_compare a a Ha Ha) as Haa. cbv zeta in *.
  set (x := evalue (ts_seconds a)) in *. set (y := evalue (ts_seconds b)) in *. set (z := evalue (ts_seconds c)) in *.
  clearbody x y z.
  assert (Htot : elt x y \/ x = y \/ elt y x).
  { clear. destruct x as [|x|], y as [|y|]; simpl; try tauto. destruct (Rtotal_order x y) as [|[->|]]; tauto. }
  assert (Hirr : ~ elt x x) by (clear; destruct x; simpl; [tauto|lra|tauto]).
  assert (Hasym : elt x y -> elt y x -> False) by (clear; destruct x, y; simpl; try tauto; lra).
  assert (Htr : elt x y -> elt y z -> elt x z) by (clear; destruct x, y, z; simpl; try tauto; lra).
  destruct Hab as (L & G & LE & GE & EQ & NE), Hba as (L' & G' & LE' & GE' & EQ' & NE'),
    Hbc as (L1 & G1 & LE1 & GE1 & EQ1 & NE1), Hac as (L2 & G2 & LE2 & GE2 & EQ2 & NE2),
    Haa as (L3 & G3 & LE3 & GE3 & EQ3 & NE3).
  split. { rewrite L, EQ, G. exact Htot. }
  split. { destruct (ts_lt a a); [|done]. exfalso. by apply Hirr, L3. }
  split. { by apply EQ3. }
  split. { rewrite L, L1, L2. exact Htr. }
  split. { rewrite LE, LE1, LE2. clear - Htr. intros [?| ->] [?| ->]; tauto. }
  split. { rewrite LE, LE', EQ. clear - Hasym. intros [?|?] [?|?]; try tauto; by symmetry. }
  split; [done|].
  split.
  { clear - GE L Hasym Htot Hirr. destruct (ts_ge a b), (ts_lt a b); simpl; try done; exfalso.
    - destruct (proj1 GE eq_refl) as [H | ->]; [by apply Hasym, H; apply L|by apply Hirr, L].
    - destruct Htot as [H|[->|H]]; [by apply L in H|by assert (false = true) by (by apply GE; right)|].
      by assert (false = true) by (by apply GE; left). }
  split.
  { clear - LE G Hasym Htot Hirr. destruct (ts_le a b), (ts_gt a b); simpl; try done; exfalso.
    - destruct (proj1 LE eq_refl) as [H | ->]; [by apply (Hasym H), G|by apply Hirr, G].
    - destruct Htot as [H|[->|H]]; [by assert (false = true) by (by apply LE; left)|
        by assert (false = true) by (by apply LE; right)|by apply G in H]. }
  done.
Qed.
Theorem timestamp_compare_double a s :
  ts_ltd a s = ts_lt a (Timestamp s) /\ ts_gtd a s = ts_gt a (Timestamp s) /\ ts_led a s = ts_le a (Timestamp s) /\
  ts_ged a s = ts_ge a (Timestamp s) /\ ts_eqd a s = ts_eq a (Timestamp s) /\ ts_ned a s = ts_ne a (Timestamp s).
Proof. done. Qed.
(** A NaN compares false with everything, itself included. *)
Theorem timestamp_nan_refuted a : let n := Timestamp B754_nan in
  ts_lt n a = false /\ ts_le n a = false /\ ts_gt n a = false /\ ts_ge n a = false /\ ts_eq n a = false /\ ts_eq n n = false.
Proof. destruct a as [[s|s| |s m e H]]; done. Qed.

(** The arithmetic operators: sums and differences of the seconds, correctly rounded; += and -= store the same. *)
Theorem timestamp_arithmetic t u s :
  ts_seconds (ts_add_assign t s) = ts_plus t s /\ ts_seconds (ts_sub_assign t s) = ts_minus t s /\
  ts_plus_ts t u = ts_plus t (ts_double u) /\ ts_minus_ts t u = ts_minus t (ts_double u) /\
  (is_finite (ts_double t) = true -> is_finite s = true ->
   (Rabs (rnd64 (B2R (ts_double t) + B2R s)) < bpow radix2 1024 -> B2R (ts_plus t s) = rnd64 (B2R (ts_double t) + B2R s)) /\
   (Rabs (rnd64 (B2R (ts_double t) - B2R s)) < bpow radix2 1024 -> B2R (ts_minus t s) = rnd64 (B2R (ts_double t) - B2R s))).
Proof.
  split; [done|]. split; [done|]. split; [done|]. split; [done|]. intros Ft Fs. split; intros Hlt; apply Rlt_bool_true in Hlt.
  - generalize (Bplus_correct 53 1024 _ _ mode_NE (ts_double t) s Ft Fs). change (round _ _ _ ?x) with (rnd64 x).
    rewrite Hlt. by intros [E _].
  - generalize (Bminus_correct 53 1024 _ _ mode_NE (ts_double t) s Ft Fs). change (round _ _ _ ?x) with (rnd64 x).
    rewrite Hlt. by intros [E _].
Qed.
(** Adding a non-negative duration never moves back in time, and undoing an exact addition gives the time back. *)
Theorem timestamp_add_monotone t d : is_finite (ts_seconds t) = true -> is_finite d = true -> 0 <= B2R d ->
  ts_ge (ts_add_assign t d) t = true.
Proof.
  intros Ft Fd Hd. destruct t as [x]. unfold ts_ge, ts_add_assign. cbn [ts_seconds] in *.
  generalize (Bplus_correct 53 1024 _ _ mode_NE x d Ft Fd). fold (d_add x d).
  destruct (Rlt_bool _ _) eqn:E.
  - intros (E1 & E2 & _). rewrite Bleb_correct by (done || by rewrite E2).
    apply Rle_bool_true. rewrite E1. change (round _ _ _ ?x) with (rnd64 x). rewrite <- (rnd64_id x) at 1.
    apply rnd64_rounding. lra.
  - intros [E1 Es].
    destruct (Bsign x) eqn:Sx.
    + (* a negative finite number plus a non-negative one does not overflow *)
      exfalso.
      assert (Hx : B2R x <= 0).
      { destruct x as [s|s| |s m e H]; simpl in *; try done; [lra|]. subst s. apply F2R_le_0. simpl. lia. }
      assert (Hlt : Rabs (rnd64 (B2R x + B2R d)) < bpow radix2 1024).
      { destruct rnd64_rounding as (Hm & _ & _). pose proof (abs_B2R_lt_emax 53 1024 x) as Bx.
        pose proof (abs_B2R_lt_emax 53 1024 d) as Bd. apply Rabs_lt_inv in Bx, Bd. apply Rabs_lt. split.
        - apply Rlt_le_trans with (B2R x); [lra|]. rewrite <- (rnd64_id x) at 1. apply Hm. lra.
        - apply Rle_lt_trans with (B2R d); [|lra]. rewrite <- (rnd64_id d) at 2. apply Hm. lra. }
      apply Rlt_bool_true in Hlt. change (round _ _ _ ?x) with (rnd64 x) in E. congruence.
    + assert (d_add x d = B754_infinity false) as ->.
      { unfold d_add in *. apply B2SF_inj. rewrite E1. done. }
      destruct x as [s|s| |s m e H]; try done; by destruct s.
Qed.
Theorem timestamp_add_sub_exact t d :
  let s := ts_add_assign t d in
  is_finite (ts_seconds t) = true -> is_finite d = true -> is_finite (ts_seconds s) = true ->
  B2R (ts_seconds s) = B2R (ts_seconds t) + B2R d ->
  ts_eq (ts_sub_assign s d) t = true.
Proof.
  destruct t as [x]. intros s. unfold s, ts_eq, ts_sub_assign, ts_add_assign. cbn [ts_seconds]. intros Fx Fd Fs E.
  generalize (Bminus_correct 53 1024 _ _ mode_NE (d_add x d) d Fs Fd). rewrite E.
  replace (B2R x + B2R d - B2R d) with (B2R x) by ring.
  change (round _ _ _ ?x) with (rnd64 x). rewrite rnd64_id.
  rewrite Rlt_bool_true by apply abs_B2R_lt_emax. intros (E1 & E2 & _).
  unfold d_sub. rewrite Beqb_correct by done. rewrite E1. by apply Req_bool_true.
Qed.
Theorem timestamp_add_sub_refuted :
  let t := Timestamp (double_of_Z 1 53) in let d := double_of_Z 1 0 in
  ts_eq (ts_sub_assign (ts_add_assign t d) d) t = false.
Proof. vm_compute. reflexivity. Qed.

(** C68: conversion to timespec: whole seconds and a normalised nanosecond part within one nanosecond of the value ... *)
Theorem timespec_nonnegative t :
  is_finite (ts_seconds t) = true -> 0 <= B2R (ts_seconds t) < IZR (2 ^ 63) ->
  exists s n, ts_timespec t = Ret (s, n) /\ IZR s <= B2R (ts_seconds t) < IZR s + 1 /\ (0 <= n < 1000000000)%Z /\
    Rabs (IZR s + IZR n / 1000000000 - B2R (ts_seconds t)) <= 1 / 1000000000.
Proof.
  destruct t as [x]. cbn [ts_seconds]. intros Fx Hx. destruct (timespec_nonneg x Fx Hx) as (s & n & E & Hs & Hn & Ha).
  exists s, n. split; [done|]. subst s. split; [split; [apply Zfloor_lb|apply Zfloor_ub]|]. split; [done|].
  apply Rabs_le_inv in Ha. apply Rabs_le. lra.
Qed.
(** ... but negative times give a negative nanosecond part, and NaN, infinities and huge values are undefined. *)
Theorem timespec_refuted :
  ts_timespec (Timestamp (double_of_Z (-1) (-1))) = Ret (0, -500000000)%Z /\
  ts_timespec (Timestamp B754_nan) = UB /\ ts_timespec (Timestamp (B754_infinity false)) = UB /\
  ts_timespec (Timestamp (double_of_Z 1 63)) = UB.
Proof. split; [|split; [|split]]; vm_compute; reflexivity. Qed.
Example timespec_example : ts_timespec (Timestamp (double_of_Z 5 (-1))) = Ret (2, 500000000)%Z.
Proof. vm_compute. reflexivity. Qed.
