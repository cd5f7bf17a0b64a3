(** C37 and C38: uniform distributions. *)
From stdpp Require Import prelude list.
From Coq Require Import Reals Lra Psatz ZArith.
From Coquelicot Require Coquelicot.
From Flocq Require Import Core.
From Verif Require Import Base Spec_Normal NormalProofs UniformModel UniformProofs.
Local Open Scope R_scope.
Local Notation RInt := (@RInt.RInt Hierarchy.R_CompleteNormedModule).

(** ** C37, one dimension *)

(** Real supports: what every reachable distribution looks like, and the exact effect of the setters. *)
Theorem uniform_support_real d :
  unif_reach ureal d ->
  un_min d < un_max d /\ un_area d = un_max d - un_min d /\
  (forall a b, b <= a -> setSupport ureal d a b = (d, Throw BadArgument)) /\
  (forall a b, a < b -> exists d', setSupport ureal d a b = (d', Ret tt) /\ un_min d' = a /\ un_max d' = b) /\
  (forall a, setMinSupport ureal d a = setSupport ureal d a (un_max d)) /\
  (forall b, setMaxSupport ureal d b = setSupport ureal d (un_min d) b).
Proof.
  intros H. apply unif_reach_real in H as [H1 H2]. split; [done|]. split; [done|].
  split; [intros; by apply setSupport_real_bad|]. split; [|done].
  intros a b Hab. rewrite setSupport_real_good by done. by eexists.
Qed.

(** The density: constant on the support, zero outside, total mass one. *)
Theorem uniform_density_real d :
  unif_reach ureal d ->
  (forall x, un_min d <= x <= un_max d -> updf ureal d x = / (un_max d - un_min d)) /\
  (forall x, x < un_min d \/ un_max d < x -> updf ureal d x = 0) /\
  (forall a b, a <= un_min d -> un_max d <= b -> RInt (updf ureal d) a b = 1).
Proof.
  intros H. apply unif_reach_real in H as [H1 H2].
  assert (Hin : forall x, un_min d <= x <= un_max d -> updf ureal d x = / (un_max d - un_min d)).
  { intros x Hx. rewrite updf_real_in by done. by rewrite H2. }
  assert (Hout : forall x, x < un_min d \/ un_max d < x -> updf ureal d x = 0) by (intros; by apply updf_real_out).
  split; [done|]. split; [done|]. intros a b Ha Hb.
  by apply (RInt_box (updf ureal d) (un_min d) (un_max d)).
Qed.

(** Integral supports without overflow: the probabilities of any interval of integers that covers the support
    add up to one. *)
Theorem uniform_mass_int w d :
  unif_reach (uint w) d ->
  (un_min d < un_max d)%Z /\ un_area d = (un_max d - un_min d + 1)%Z /\
  (forall x, (un_min d <= x <= un_max d)%Z -> upmf (uint w) d x = / IZR (un_max d - un_min d + 1)) /\
  (forall x, (x < un_min d \/ un_max d < x)%Z -> upmf (uint w) d x = 0) /\
  (forall lo n, (lo <= un_min d)%Z -> (un_max d < lo + Z.of_nat n)%Z ->
     Rsum (map (fun k => upmf (uint w) d (lo + Z.of_nat k)%Z) (seq 0 n)) = 1).
Proof.
  intros H. apply unif_reach_int in H as [H1 H2].
  assert (Hin : forall x, (un_min d <= x <= un_max d)%Z -> upmf (uint w) d x = / IZR (un_max d - un_min d + 1)).
  { intros x Hx. unfold upmf, updf; simpl. destruct (Z.leb_spec (un_min d) x); [|lia].
    destruct (Z.leb_spec x (un_max d)); [|lia]. simpl. rewrite H2. unfold Rdiv. lra. }
  assert (Hout : forall x, (x < un_min d \/ un_max d < x)%Z -> upmf (uint w) d x = 0).
  { intros x Hx. unfold upmf, updf; simpl. destruct (Z.leb_spec (un_min d) x); [|done].
    destruct (Z.leb_spec x (un_max d)); [lia|done]. }
  split; [done|]. split; [done|]. split; [done|]. split; [done|].
  intros lo n Hlo Hn. apply (mass_box (un_min d) (un_max d)); done.
Qed.

(** Integral supports: exactly when the setter throws, succeeds, and overflows. *)
Theorem uniform_support_int w d a b :
  (1 <= w)%Z ->
  ((b <= a)%Z -> setSupport (uint w) d a b = (d, Throw BadArgument)) /\
  ((a < b)%Z -> (b - a + 1 < 2 ^ (w - 1))%Z -> setSupport (uint w) d a b = (Unif a b (b - a + 1)%Z, Ret tt)) /\
  ((a < b)%Z -> (2 ^ (w - 1) <= b - a + 1)%Z -> snd (setSupport (uint w) d a b) = UB).
Proof.
  intros Hw. pose proof (Z.pow_pos_nonneg 2 (w - 1) ltac:(lia) ltac:(lia)) as Hp.
  unfold setSupport; simpl. unfold irange. split; [|split].
  - intros H. destruct (Z.leb_spec b a); [done|lia].
  - intros H H'. destruct (Z.leb_spec b a); [lia|].
    rewrite (proj2 (andb_true_iff _ _)) by (split; [apply Z.leb_le|apply Z.ltb_lt]; lia).
    rewrite (proj2 (andb_true_iff _ _)) by (split; [apply Z.leb_le|apply Z.ltb_lt]; lia). done.
  - intros H H'. destruct (Z.leb_spec b a); [lia|].
    destruct (Z.leb_spec (- 2 ^ (w - 1)) (b - a)), (Z.ltb_spec (b - a) (2 ^ (w - 1))); simpl; try done.
    destruct (Z.leb_spec (- 2 ^ (w - 1)) (b - a + 1)), (Z.ltb_spec (b - a + 1) (2 ^ (w - 1))); simpl; try done. lia.
Qed.

(** [getMean] and [getMedian] are half the width, hence the midpoint exactly for supports that start at zero ... *)
Theorem uniform_mean_midpoint_iff d :
  unif_reach ureal d ->
  exists m, ugetMean ureal d = Ret m /\ ugetMedian ureal d = Ret m /\
    m = (un_max d - un_min d) / 2 /\ (m = (un_min d + un_max d) / 2 <-> un_min d = 0).
Proof.
  intros _. exists (/ 2 * (un_max d - un_min d)). split; [done|]. split; [done|]. split; [lra|]. split; lra.
Qed.
(** ... and may lie outside the support otherwise. *)
Theorem uniform_mean_refuted :
  exists d m, unif_reach ureal d /\ ugetMean ureal d = Ret m /\ ugetMedian ureal d = Ret m /\
    m < un_min d /\ m <> (un_min d + un_max d) / 2.
Proof.
  exists (Unif 10 12 2), 1. split.
  { apply (ur_new _ (Unif 0 0 0) 10 12). unfold unif_new. rewrite setSupport_real_good by lra.
    do 2 f_equal. lra. }
  split; [unfold ugetMean; simpl; f_equal; lra|]. split; [unfold ugetMedian; simpl; f_equal; lra|]. simpl. lra.
Qed.
(** The mode is never defined. *)
Theorem uniform_mode {X} (d : @unif X) : ugetMode d = Throw InvalidOperation.
Proof. done. Qed.

(** [getVariance] is the variance (second central moment about the true midpoint). *)
Theorem uniform_variance_real d :
  unif_reach ureal d ->
  let m := (un_min d + un_max d) / 2 in
  exists v, ugetVariance ureal d = Ret v /\
    v = RInt (fun x => (x - m) * (x - m) * updf ureal d x) (un_min d) (un_max d).
Proof.
  intros H. apply unif_reach_real in H as [H1 H2]. cbn zeta.
  eexists. split; [done|]. simpl. symmetry. apply var_box; done.
Qed.
Theorem uniform_variance_int w d :
  unif_reach (uint w) d ->
  let n := Z.to_nat (un_max d - un_min d + 1) in
  let m := IZR (un_min d + un_max d) / 2 in
  exists v, ugetVariance (uint w) d = Ret v /\
    v = Rsum (map (fun k => let x := (un_min d + Z.of_nat k)%Z in (IZR x - m) * (IZR x - m) * upmf (uint w) d x)
                (seq 0 n)).
Proof.
  intros H. pose proof (unif_reach_int_area w d H) as Ha. apply unif_reach_int in H as [H1 H2]. cbn zeta.
  unfold ugetVariance. change (u_area (uint w) (un_min d) (un_max d)) with
    (match irange w (un_max d - un_min d) with Some d0 => irange w (d0 + 1) | None => None end).
  simpl in Ha. rewrite Ha. eexists. split; [done|]. apply var_int; done.
Qed.

(** ** C38 and the rest of C37: several dimensions, real supports *)

Theorem uniformM_support_real d :
  unifM_reach ureal d ->
  length (um_min d) = length (um_max d) /\ Forall2 Rlt (um_min d) (um_max d) /\
  um_area d = fold_right Rmult 1 (zip_with (fun a b => b - a) (um_min d) (um_max d)) /\
  (forall a b, length a = length b ->
     (~ Forall2 Rlt a b -> setSupportM ureal d a b = (d, Throw BadArgument)) /\
     (Forall2 Rlt a b -> exists d', setSupportM ureal d a b = (d', Ret tt) /\ um_min d' = a /\ um_max d' = b)).
Proof.
  intros H. apply unifM_reach_real in H as [H1 H2].
  split; [by eapply Forall2_length|]. split; [done|]. split; [done|].
  intros a b Hl. destruct (setSupportM_real d a b Hl) as [Hx Hy]. split; [done|].
  intros HF. eexists. split; [by apply Hy|]. done.
Qed.

(** The density is constant on the box and zero outside. *)
Theorem uniformM_density_real d x :
  unifM_reach ureal d -> length x = length (um_min d) ->
  (Forall2 Rle (um_min d) x /\ Forall2 Rle x (um_max d) ->
     updfM ureal d x = / fold_right Rmult 1 (zip_with (fun a b => b - a) (um_min d) (um_max d))) /\
  (~ (Forall2 Rle (um_min d) x /\ Forall2 Rle x (um_max d)) -> updfM ureal d x = 0).
Proof.
  intros H Hx. apply unifM_reach_real in H as [H1 H2]. pose proof (Forall2_length _ _ _ H1) as Hl.
  unfold updfM.
  assert (HA : forallb (fun p => u_le ureal (fst p) (snd p)) (zip x (um_max d)) = true <-> Forall2 Rle x (um_max d)).
  { apply forallb_zip_le. congruence. }
  assert (HB : forallb (fun p => u_le ureal (snd p) (fst p)) (zip x (um_min d)) = true <-> Forall2 Rle (um_min d) x).
  { apply forallb_zip_ge. congruence. }
  split.
  - intros [Ha Hb]. rewrite (proj2 HA Hb), (proj2 HB Ha). simpl. rewrite H2. unfold Rdiv. lra.
  - intros Hn. destruct (forallb _ (zip x (um_max d))) eqn:E1; [|done].
    destruct (forallb _ (zip x (um_min d))) eqn:E2; [|done]. exfalso. apply Hn. split; [by apply HB|by apply HA].
Qed.

(** Each entry of [getCovariance] against the covariance of the box, diag(w_i^2 / 12): off the diagonal it is
    right; on the diagonal it is right exactly where w_i^2 = (prod w)^2, in particular in one dimension. *)
Theorem uniformM_covariance_iff d :
  unifM_reach ureal d ->
  exists c, ugetCovarianceM ureal d = Ret c /\
  let w := zip_with (fun a b => b - a) (um_min d) (um_max d) in
  (forall i j, i <> j -> c i j = 0) /\
  (forall i wi, w !! i = Some wi ->
     (c i i = wi * wi / 12 <-> wi * wi = fold_right Rmult 1 w * fold_right Rmult 1 w)) /\
  (length (um_min d) = 1%nat -> forall wi, w !! 0%nat = Some wi -> c 0%nat 0%nat = wi * wi / 12).
Proof.
  intros H. apply unifM_reach_real in H as [H1 H2]. pose proof (Forall2_length _ _ _ H1) as Hl.
  unfold ugetCovarianceM. rewrite areaM_real by done. eexists. split; [done|]. cbn zeta.
  set (w := zip_with _ _ _). set (p := fold_right Rmult 1 w).
  assert (Hd : forall i, (u_var ureal (u_R ureal p) * (if Nat.eqb i i then 1 else 0)) = p * p / 12).
  { intros i. rewrite Nat.eqb_refl. simpl. lra. }
  split; [|split].
  - intros i j Hij. destruct (Nat.eqb_spec i j); [done|]. lra.
  - intros i wi Hi. rewrite Hd. split; intros; lra.
  - intros H1' wi Hi. rewrite Hd. unfold p, w in *.
    destruct (um_min d) as [|a [|]]; simpl in H1'; try lia. destruct (um_max d) as [|b [|]]; simpl in Hl; try lia.
    simpl in *. injection Hi as <-. f_equal. ring.
Qed.

Theorem uniformM_covariance_refuted :
  exists d c, unifM_reach ureal d /\ um_min d = [0; 0] /\ um_max d = [1; 2] /\
    ugetCovarianceM ureal d = Ret c /\ c 0%nat 0%nat <> 1 * 1 / 12.
Proof.
  set (d := UnifM [0; 0] [1; 2] 2).
  assert (HF : Forall2 Rlt [0; 0] [1; 2]) by (repeat constructor; lra).
  assert (Hd : unifM_reach ureal d).
  { apply (umr_new _ (UnifM [] [] 0) [0; 0] [1; 2]). unfold unifM_new.
    rewrite (proj2 (setSupportM_real (UnifM [] [] 0) [0; 0] [1; 2] eq_refl) HF).
    f_equal. unfold d. f_equal. simpl. lra. }
  eexists d, _. split; [done|]. split; [done|]. split; [done|].
  split; [unfold ugetCovarianceM; rewrite areaM_real by done; reflexivity|]. simpl. lra.
Qed.

(** The mean is half the width in every coordinate, hence right exactly in the coordinates whose support starts at zero. *)
Theorem uniformM_mean_midpoint_iff d :
  unifM_reach ureal d ->
  exists m, ugetMeanM ureal d = Ret m /\ length m = length (um_min d) /\
  forall i a b mi, um_min d !! i = Some a -> um_max d !! i = Some b -> m !! i = Some mi ->
    mi = (b - a) / 2 /\ (mi = (a + b) / 2 <-> a = 0).
Proof.
  intros H. apply unifM_reach_real in H as [H1 H2]. pose proof (Forall2_length _ _ _ H1) as Hl.
  exists (map (fun w => / 2 * w) (zip_with (fun a b => b - a) (um_min d) (um_max d))).
  split; [by apply ugetMeanM_real|].
  split; [rewrite map_length, zip_with_length; lia|].
  intros i a b mi Ha Hb Hm.
  change (map ?f ?l) with (f <$> l) in Hm. rewrite list_lookup_fmap, lookup_zip_with, Ha in Hm. simpl in Hm.
  rewrite Hb in Hm. simpl in Hm. injection Hm as <-. split; [lra|]. split; lra.
Qed.

(** Non-vacuous. *)
Example uniform_example : unif_reach ureal (Unif 1 3 2) /\ unif_reach (uint 32) (Unif 1 6 6)%Z.
Proof.
  split.
  - apply (ur_new _ (Unif 0 0 0) 1 3). unfold unif_new. rewrite setSupport_real_good by lra. do 2 f_equal. lra.
  - by apply (ur_new _ (Unif 0 0 0)%Z 1%Z 6%Z).
Qed.
