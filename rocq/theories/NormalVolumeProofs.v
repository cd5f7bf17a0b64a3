(** The area of the parts of the unit square that the polar method maps above a bound. *)
From stdpp Require Import prelude list.
From Coq Require Import Reals Lra Psatz.
From Coquelicot Require Import Coquelicot.
From Verif Require Import Spec_Normal Spec_Volume VolumeProofs GaussIntegral NormalLawProofs.
Local Open Scope R_scope.

(** The squared radius and the value of one attempt with the random numbers [a] and [b]. *)
Definition rad2 (a b : R) : R := (2 * a - 1) * (2 * a - 1) + (2 * b - 1) * (2 * b - 1).
Definition polar (u S : R) : R := u * sqrt (- 2 * ln S / S).

Lemma polar_sq u S : 0 < S < 1 -> polar u S * polar u S = u * u / S * (- 2 * ln S).
Proof.
  intros HS. unfold polar. assert (Hl : ln S < 0) by (rewrite <- ln_1; apply ln_increasing; lra).
  assert (0 <= - 2 * ln S / S). { apply Rmult_le_pos; [lra|]. left. apply Rinv_0_lt_compat. lra. }
  replace (u * sqrt (-2 * ln S / S) * (u * sqrt (-2 * ln S / S))) with
    (u * u * (sqrt (-2 * ln S / S) * sqrt (-2 * ln S / S))) by ring.
  rewrite sqrt_sqrt by done. field. lra.
Qed.
Lemma polar_root_pos S : 0 < S < 1 -> 0 < sqrt (- 2 * ln S / S).
Proof.
  intros HS. assert (Hl : ln S < 0) by (rewrite <- ln_1; apply ln_increasing; lra).
  apply sqrt_lt_R0. apply Rdiv_lt_0_compat; lra.
Qed.

Lemma above s (Hs : 0 < s) u v : Rabs v < w s Hs u -> 0 < u * u + v * v < 1 /\ s < polar u (u * u + v * v).
Proof.
  intros Hv. pose proof (Rabs_pos v) as Hv0.
  assert (Hu : 0 < u). { destruct (Rlt_dec 0 u) as [|Hn]; [done|]. rewrite w_neg in Hv by lra. lra. }
  assert (Hu0 : u < U s 0). { destruct (Rlt_dec u (U s 0)) as [|Hn]; [done|]. rewrite w_top in Hv by lra. lra. }
  destruct (Y_spec s Hs u Hu Hu0) as [Hy HUy]. set (y := Y s Hs u) in *.
  assert (Ew : w s Hs u = V s y) by (rewrite <- HUy; by apply w_U). rewrite Ew in Hv.
  pose proof (UV_sq s Hs y) as E1. pose proof (U_sq s Hs y) as E2. rewrite HUy in E1, E2.
  pose proof (rr_pos s Hs y) as Hr. set (r := rr s y) in *. set (e := exp (- r / 2)) in *.
  assert (He1 : e < 1). { assert (X : exp (- r / 2) < exp 0) by (apply exp_increasing; lra). rewrite exp_0 in X. done. }
  assert (Hvv : v * v < V s y * V s y).
  { rewrite <- (Rabs_pos_eq (v * v)) by nra. rewrite Rabs_mult. nra. }
  set (S := u * u + v * v). assert (HS : 0 < S) by (unfold S; nra). assert (HSe : S < e) by (unfold S; lra).
  split; [lra|].
  assert (Hln : r < - 2 * ln S).
  { assert (ln S < ln e) by (by apply ln_increasing). unfold e in *. rewrite ln_exp in *. lra. }
  assert (Hq : s * s < polar u S * polar u S).
  { rewrite polar_sq by lra.
    assert (Es : s * s = u * u / e * r). { rewrite E2. field. split; (lra || apply Rgt_not_eq, exp_pos). }
    rewrite Es. assert (0 < e) by apply exp_pos.
    assert (u * u / e < u * u / S). { apply Rmult_lt_compat_l; [nra|]. apply Rinv_lt_contravar; [|done]. by apply Rmult_lt_0_compat. }
    assert (0 < u * u / e) by (apply Rdiv_lt_0_compat; [nra|done]).
    apply Rmult_gt_0_lt_compat; lra. }
  assert (0 < polar u S). { apply Rmult_lt_0_compat; [done|]. apply polar_root_pos. lra. }
  nra.
Qed.
Lemma below s (Hs : 0 < s) u v : w s Hs u < Rabs v -> 0 < u * u + v * v < 1 -> polar u (u * u + v * v) < s.
Proof.
  intros Hv HS. set (S := u * u + v * v) in *. pose proof (polar_root_pos S HS) as Hq0.
  destruct (Rle_or_lt u 0) as [Hu|Hu].
  { unfold polar. nra. }
  assert (Hl : ln S < 0) by (rewrite <- ln_1; apply ln_increasing; lra).
  assert (Hkey : exists e r, 0 < e /\ 0 < r /\ e < S /\ - 2 * ln e = r /\ u * u / S * r <= s * s).
  { destruct (Rlt_dec u (U s 0)) as [Hu0|Hu0].
    - destruct (Y_spec s Hs u Hu Hu0) as [Hy HUy]. set (y := Y s Hs u) in *.
      assert (Ew : w s Hs u = V s y) by (rewrite <- HUy; by apply w_U). rewrite Ew in Hv.
      pose proof (UV_sq s Hs y) as E1. pose proof (U_sq s Hs y) as E2. rewrite HUy in E1, E2.
      pose proof (rr_pos s Hs y) as Hr. set (r := rr s y) in *. set (e := exp (- r / 2)) in *.
      pose proof (V_nonneg s Hs y Hy) as HV. pose proof (exp_pos (- r / 2)) as He. fold e in He.
      assert (Hvv : V s y * V s y < v * v).
      { rewrite <- (Rabs_pos_eq (v * v)) by nra. rewrite Rabs_mult. nra. }
      exists e, r. assert (HSe : e < S) by (unfold S; lra). split; [done|]. split; [done|]. split; [done|].
      split. { unfold e. rewrite ln_exp. field. }
      assert (Es : s * s = u * u / e * r). { rewrite E2. field. split; [lra|lra]. }
      rewrite Es. apply Rmult_le_compat_r; [lra|]. apply Rmult_le_compat_l; [nra|]. apply Rinv_le_contravar; lra.
    - rewrite w_top in Hv by lra. assert (Hvv : 0 < v * v).
      { rewrite <- (Rabs_pos_eq (v * v)) by nra. rewrite Rabs_mult. nra. }
      rewrite U_0 in Hu0 by done. exists (exp (- (s * s) / 2)), (s * s).
      assert (Ee : exp (- (s * s) / 2) = exp (- (s * s) / 4) * exp (- (s * s) / 4)) by (rewrite <- exp_plus; f_equal; field).
      pose proof (exp_pos (- (s * s) / 4)). split; [apply exp_pos|]. split; [nra|]. split; [rewrite Ee; unfold S; nra|].
      split; [rewrite ln_exp; field|].
      assert (u * u / S <= 1). { apply Rmult_le_reg_r with S; [lra|]. unfold Rdiv. rewrite Rmult_assoc, Rinv_l by lra. unfold S. lra. }
      nra. }
  destruct Hkey as (e & r & He & Hr & HeS & Er & Hle).
  assert (Hln : - 2 * ln S < r). { assert (ln e < ln S) by (by apply ln_increasing). lra. }
  pose proof (polar_sq u S HS) as E. assert (0 < u * u / S) by (apply Rdiv_lt_0_compat; [nra|lra]).
  assert (polar u S * polar u S < s * s). { rewrite E. eapply Rlt_le_trans; [|exact Hle]. by apply Rmult_lt_compat_l. }
  nra.
Qed.

(** A region with symmetric slices. *)
Lemma has_volume_slices (P : list R -> Prop) (h : R -> R) v :
  (forall u, 0 <= h u <= 1) -> is_RInt h (-1) 1 (2 * v) ->
  (forall a b, 0 <= a <= 1 -> 0 <= b <= 1 -> Rabs (2 * b - 1) < h (2 * a - 1) -> P (a :: b :: nil)) ->
  (forall a b, 0 <= a <= 1 -> 0 <= b <= 1 -> h (2 * a - 1) < Rabs (2 * b - 1) -> ~ P (a :: b :: nil)) ->
  has_volume 2 P v.
Proof.
  intros Hh HI H1 H2. exists (fun a => h (2 * a - 1)). split.
  - intros a Ha. pose proof (Hh (2 * a - 1)) as Hr. set (k := h (2 * a - 1)) in *.
    replace k with ((1 + k) / 2 - (1 - k) / 2) by field. apply has_volume_interval; [lra|lra|].
    intros b Hb N1 N2. split.
    + intros HP. destruct (Rlt_or_le (Rabs (2 * b - 1)) k) as [Hlt|Hle].
      * apply Rabs_def2 in Hlt. lra.
      * destruct Hle as [Hlt|Heq]; [exfalso; by apply (H2 a b Ha Hb)|]. exfalso.
        unfold Rabs in Heq. destruct (Rcase_abs (2 * b - 1)); [apply N1|apply N2]; lra.
    + intros Hin. apply H1; [done|done|]. fold k. apply Rabs_def1; lra.
  - assert (HI' : is_RInt h (2 * 0 + -1) (2 * 1 + -1) (2 * v)).
    { replace (2 * 0 + -1) with (-1) by ring. by replace (2 * 1 + -1) with 1 by ring. }
    apply (is_RInt_comp_lin h 2 (-1) 0 1) in HI'. apply (is_RInt_scal _ _ _ (/ 2)) in HI'.
    replace v with (scal (/ 2) (2 * v)) by (unfold scal; simpl; unfold mult; simpl; field).
    eapply is_RInt_ext; [|exact HI']. intros x _. unfold scal; simpl; unfold mult; simpl.
    match goal with |- ?a = ?b => change (@eq R a b) end.
    replace (2 * x + -1) with (2 * x - 1) by ring. field.
Qed.
Lemma has_volume_diff n : forall (P Q : list R -> Prop) v z, has_volume n P v -> has_volume n Q z -> (forall l, P l -> Q l) ->
  has_volume n (fun l => Q l /\ ~ P l) (z - v).
Proof.
  induction n as [|n IH]; intros P Q v z HP HQ HPQ; simpl in *.
  - specialize (HPQ []). destruct HP as [[? ->]|[? ->]], HQ as [[? ->]|[? ->]].
    + right. split; [tauto|ring].
    + tauto.
    + left. split; [tauto|ring].
    + right. split; [tauto|ring].
  - destruct HP as (f & Hf & If), HQ as (g & Hg & Ig). exists (fun u => g u - f u). split.
    + intros u Hu. apply (IH (fun l => P (u :: l)) (fun l => Q (u :: l))); auto.
    + apply (is_RInt_minus g f 0 1 z v Ig If).
Qed.
(** Turning the square round. *)
Lemma has_volume_flip n : forall (P : list R -> Prop) v, has_volume (S n) P v ->
  has_volume (S n) (fun l => match l with a :: l' => P ((1 - a) :: l') | nil => P nil end) v.
Proof.
  intros P v (f & Hf & If). exists (fun a => f (1 - a)). split.
  - intros a Ha. exact (Hf (1 - a) ltac:(lra)).
  - assert (H : is_RInt f (-1 * 0 + 1) (-1 * 1 + 1) (- v)).
    { replace (-1 * 0 + 1) with 1 by ring. replace (-1 * 1 + 1) with 0 by ring. exact (is_RInt_swap f 1 0 v If). }
    apply (is_RInt_comp_lin f (-1) 1 0 1) in H. apply (is_RInt_scal _ _ _ (-1)) in H.
    replace v with (scal (-1) (- v)) by (unfold scal; simpl; unfold mult; simpl; ring).
    eapply is_RInt_ext; [|exact H]. intros x _. unfold scal; simpl; unfold mult; simpl.
    match goal with |- ?a = ?b => change (@eq R a b) end.
    replace (-1 * x + 1) with (1 - x) by ring. ring.
Qed.

(** ** The disc *)
Definition half (u : R) : R := sqrt (1 - u * u).
Lemma half_range u : 0 <= half u <= 1.
Proof.
  unfold half. split; [apply sqrt_pos|].
  destruct (Rle_or_lt 0 (1 - u * u)) as [H|H].
  - rewrite <- sqrt_1 at 2. apply sqrt_le_1; nra.
  - rewrite sqrt_neg_0; lra.
Qed.
Lemma half_cont u : continuous half u.
Proof.
  unfold half. apply (continuous_comp (fun u => 1 - u * u) sqrt).
  - apply (ex_derive_continuous (fun u => 1 - u * u)). auto_derive. done.
  - apply continuous_sqrt.
Qed.
Lemma half_from a : -(PI/2) <= a <= PI / 2 -> is_RInt half (sin a) 1 (PI / 4 - a / 2 - sin a * cos a / 2).
Proof.
  intros Ha.
  assert (H1 : is_RInt (fun y => scal (cos y) (half (sin y))) a (PI / 2) (RInt half (sin a) (sin (PI / 2)))).
  { apply (@is_RInt_comp R_CompleteNormedModule half sin cos); intros x _; [apply half_cont|].
    split; [apply is_derive_sin|]. apply (ex_derive_continuous cos). eexists. apply is_derive_cos. }
  rewrite sin_PI2 in H1. set (K := fun y => y / 2 + sin y * cos y / 2).
  assert (H2 : is_RInt (fun y => cos y * cos y) a (PI / 2) (K (PI / 2) - K a)).
  { apply (is_RInt_derive K).
    - intros y _. unfold K. auto_derive; [done|]. pose proof (sin2_cos2 y) as E. unfold Rsqr in E.
      replace (1 * / 2 + (1 * cos y * cos y + sin y * (1 * - sin y)) * / 2) with
        (cos y * cos y + (1 - (sin y * sin y + cos y * cos y)) / 2) by field. rewrite E. field.
    - intros y _. apply (ex_derive_continuous (fun y => cos y * cos y)). auto_derive. done. }
  assert (H3 : is_RInt (fun y => cos y * cos y) a (PI / 2) (RInt half (sin a) 1)).
  { eapply is_RInt_ext; [|exact H1]. intros y Hy. rewrite Rmin_left, Rmax_right in Hy by lra.
    unfold scal; simpl; unfold mult; simpl. unfold half. pose proof (sin2_cos2 y) as E. unfold Rsqr in E.
    replace (1 - sin y * sin y) with (cos y * cos y) by lra. rewrite sqrt_square; [done|]. apply cos_ge_0; lra. }
  assert (E : RInt half (sin a) 1 = K (PI / 2) - K a).
  { rewrite <- (is_RInt_unique _ _ _ _ H3). by apply is_RInt_unique. }
  replace (PI / 4 - a / 2 - sin a * cos a / 2) with (K (PI / 2) - K a).
  2:{ unfold K. rewrite cos_PI2. field. }
  rewrite <- E. apply (@RInt_correct R_CompleteNormedModule). apply (@ex_RInt_continuous R_CompleteNormedModule). intros; apply half_cont.
Qed.
Definition acc (l : list R) : Prop := match l with a :: b :: _ => 0 < rad2 a b < 1 | _ => False end.
Lemma half_spec u v : -1 <= u <= 1 -> (Rabs v < half u -> u * u + v * v < 1) /\ (half u < Rabs v -> 1 < u * u + v * v).
Proof.
  intros Hu. pose proof (half_range u) as Hr. pose proof (Rabs_pos v). assert (E : half u * half u = 1 - u * u) by (apply sqrt_sqrt; nra).
  assert (Ev : v * v = Rabs v * Rabs v) by (rewrite <- Rabs_mult; symmetry; apply Rabs_pos_eq; nra). rewrite Ev.
  split; intros; nra.
Qed.
Lemma centre_volume : has_volume 2 (fun l => match l with a :: b :: _ => rad2 a b = 0 | _ => False end) 0.
Proof.
  apply (has_volume_slices _ (fun _ => 0)).
  - intros; lra.
  - replace (2 * 0) with ((1 - -1) * 0) by ring. apply const_RInt.
  - intros a b _ _ H. pose proof (Rabs_pos (2 * b - 1)). lra.
  - intros a b _ _ H E. unfold rad2 in E. assert (0 < (2 * b - 1) * (2 * b - 1)).
    { replace ((2 * b - 1) * (2 * b - 1)) with (Rabs (2 * b - 1) * Rabs (2 * b - 1)); [nra|].
      rewrite <- Rabs_mult. apply Rabs_pos_eq. apply Rle_0_sqr. } pose proof (Rle_0_sqr (2 * a - 1)) as Q. unfold Rsqr in Q. lra.
Qed.
Lemma rad2_nonneg a b : 0 <= rad2 a b. Proof. unfold rad2. pose proof (Rle_0_sqr (2 * a - 1)) as A. pose proof (Rle_0_sqr (2 * b - 1)) as B. unfold Rsqr in *. lra. Qed.
Lemma acc_volume : has_volume 2 acc (PI / 4).
Proof.
  set (Q := fun l : list R => match l with a :: b :: _ => rad2 a b < 1 | _ => False end).
  assert (HQ : has_volume 2 Q (PI / 4)).
  { apply (has_volume_slices _ half).
    - apply half_range.
    - pose proof PI_RGT_0. pose proof (half_from (- (PI / 2)) ltac:(lra)) as H9. rewrite sin_neg, sin_PI2, cos_neg, cos_PI2 in H9.
      replace (2 * (PI / 4)) with (PI / 4 - - (PI / 2) / 2 - - (1) * 0 / 2) by field. exact H9.
    - intros a b Ha Hb H. apply (half_spec (2 * a - 1) (2 * b - 1)); lra.
    - intros a b Ha Hb H Hlt. apply (half_spec (2 * a - 1) (2 * b - 1)) in H; [|lra]. unfold Q, rad2 in Hlt. lra. }
  replace (PI / 4) with (PI / 4 - 0) by ring.
  eapply has_volume_ext; [|apply (has_volume_diff 2 _ _ _ _ centre_volume HQ)].
  - intros [|a [|b l]] _ _; simpl; [tauto|tauto|]. pose proof (rad2_nonneg a b). lra.
  - intros [|a [|b l]]; unfold Q; [done|done|]. lra.
Qed.

(** ** The value of the area *)
Lemma W_value s (Hs : 0 < s) : W s Hs = / 2 * sqrt PI * (sqrt PI / 2 - GaussIntegral.F (p s)).
Proof.
  set (B := / 2 * sqrt PI * (sqrt PI / 2 - GaussIntegral.F (p s))).
  pose proof PI_RGT_0. assert (Hpi : 0 < sqrt PI) by (by apply sqrt_lt_R0).
  assert (H2 : 0 < sqrt 2) by (apply sqrt_lt_R0; lra).
  set (k := 4 + sqrt 2).
  assert (Hall : forall t, 1 <= t -> s <= t -> Rabs (W s Hs - B) <= k / t).
  { intros t Ht Hst. assert (Ht0 : 0 < t) by lra. pose proof (W_diff s t Hs Ht0 Hst) as E.
    assert (HW : 0 <= W t Ht0 <= 4 / t).
    { split; [apply RInt_ge_0; [lra|apply w_int|]; intros x _; apply w_range|].
      assert (He : exp (- (t * t) / 4) <= 4 / t).
      { replace (- (t * t) / 4) with (- (t * t / 4)) by field. rewrite exp_Ropp. pose proof (exp_ineq1 (t * t / 4) ltac:(nra)).
        replace (4 / t) with (/ (t / 4)) by (field; lra). apply Rinv_le_contravar; [lra|]. nra. }
      eapply Rle_trans; [|exact He].
      replace (exp (- (t * t) / 4)) with (RInt (fun _ => exp (- (t * t) / 4)) 0 1).
      2:{ apply is_RInt_unique. pose proof (const_RInt 0 1 (exp (- (t * t) / 4))) as X.
          by replace ((1 - 0) * exp (- (t * t) / 4)) with (exp (- (t * t) / 4)) in X by ring. }
      apply RInt_le; [lra|apply w_int|eexists; apply const_RInt|]. intros x _. unfold w.
      destruct (Rlt_dec 0 x); [|left; apply exp_pos]. pose proof (Y_nonneg t Ht0 x) as Hy.
      eapply Rle_trans; [by apply V_le_exp|]. assert (Hr : t * t <= rr t (Y t Ht0 x)) by (unfold rr; nra).
      destruct Hr as [Hr|Hr]; [left; apply exp_increasing; lra|right; by rewrite Hr]. }
    assert (Hpt : 0 < p t) by (by apply Rdiv_lt_0_compat). pose proof (F_close (p t) Hpt) as [F1 F2].
    assert (F3 : / 2 * sqrt PI * (2 / (sqrt PI * p t)) = sqrt 2 / t) by (unfold p; field; lra).
    assert (F4 : 0 <= / 2 * sqrt PI * (sqrt PI / 2 - GaussIntegral.F (p t)) <= sqrt 2 / t).
    { rewrite <- F3. split; [apply Rmult_le_pos; lra|apply Rmult_le_compat_l; lra]. }
    set (z := / 2 * sqrt PI * (sqrt PI / 2 - GaussIntegral.F (p t))) in *.
    assert (Ez : W s Hs - B = W t Ht0 - z) by (unfold B, z; lra). rewrite Ez.
    replace (k / t) with (4 / t + sqrt 2 / t) by (unfold k; field; lra). apply Rabs_le. lra. }
  destruct (Req_dec (W s Hs - B) 0) as [E|E]; [lra|]. exfalso.
  apply Rabs_pos_lt in E. set (e := Rabs (W s Hs - B)) in *.
  set (N := Rmax (Rmax 1 s) (2 * k / e)). assert (HN1 : 1 <= N /\ s <= N).
  { split; (eapply Rle_trans; [|apply Rmax_l]); [apply Rmax_l|apply Rmax_r]. } destruct HN1 as [HN1 HN2].
  specialize (Hall N HN1 HN2). assert (HN : 2 * k / e <= N) by apply Rmax_r.
  apply (Rmult_le_compat_r e) in HN; [|lra]. replace (2 * k / e * e) with (2 * k) in HN by (field; lra).
  apply (Rmult_le_compat_r N) in Hall; [|lra]. replace (k / N * N) with k in Hall by (field; lra). unfold k in *. lra.
Qed.

(** ** The tails *)
Definition val (l : list R) : R := match l with a :: b :: _ => polar (2 * a - 1) (rad2 a b) | _ => 0 end.
Definition tail (s : R) : R := PI / 4 * (/ 2 - GaussIntegral.F (s / sqrt 2) / sqrt PI).
Lemma tail_W s (Hs : 0 < s) : W s Hs / 2 = tail s.
Proof.
  rewrite W_value. unfold tail. fold (p s). pose proof PI_RGT_0. assert (Hpi : 0 < sqrt PI) by (by apply sqrt_lt_R0).
  pose proof (sqrt_sqrt PI ltac:(lra)) as E. set (r := sqrt PI) in *. rewrite <- E. field. lra.
Qed.
Lemma tail_pos (closed : bool) s : 0 < s ->
  has_volume 2 (fun l => acc l /\ (if closed then s <= val l else s < val l)) (tail s).
Proof.
  intros Hs. rewrite <- (tail_W s Hs). apply (has_volume_slices _ (w s Hs)).
  - intros u. pose proof (w_range s Hs u). lra.
  - replace (2 * (W s Hs / 2)) with ((0 - -1) * 0 + W s Hs) by field. apply (@is_RInt_Chasles R_NormedModule) with 0.
    + eapply is_RInt_ext; [|apply const_RInt]. intros x Hx. rewrite Rmin_left, Rmax_right in Hx by lra. rewrite w_neg; [done|lra].
    + apply (@RInt_correct R_CompleteNormedModule), w_int.
  - intros a b _ _ H. destruct (above s Hs _ _ H) as [H1 H2]. split; [exact H1|]. unfold val, rad2. destruct closed; lra.
  - intros a b _ _ H [H1 H2]. pose proof (below s Hs _ _ H H1) as H3. unfold val, rad2 in H2. destruct closed; lra.
Qed.
Lemma tail_0 : tail 0 = PI / 8.
Proof. unfold tail, GaussIntegral.F. replace (0 / sqrt 2) with 0 by (unfold Rdiv; ring). rewrite RInt_point. unfold zero; simpl. unfold Rdiv. field. apply Rgt_not_eq, sqrt_lt_R0, PI_RGT_0. Qed.
Lemma val_sign a b : acc (a :: b :: nil) -> (0 < val (a :: b :: nil) <-> 0 < 2 * a - 1).
Proof. intros H. pose proof (polar_root_pos _ H) as Hp. unfold val, polar. split; intros; nra. Qed.
Lemma tail_zero : has_volume 2 (fun l => acc l /\ 0 < val l) (tail 0).
Proof.
  rewrite tail_0. apply (has_volume_slices _ (fun u => if Rlt_dec 0 u then half u else 0)).
  - intros u. destruct (Rlt_dec 0 u); [apply half_range|lra].
  - replace (2 * (PI / 8)) with ((0 - -1) * 0 + PI / 4) by field. apply (@is_RInt_Chasles R_NormedModule) with 0.
    + eapply is_RInt_ext; [|apply const_RInt]. intros x Hx. rewrite Rmin_left, Rmax_right in Hx by lra.
      destruct (Rlt_dec 0 x); [lra|done].
    + pose proof PI_RGT_0. pose proof (half_from 0 ltac:(lra)) as H0. rewrite sin_0 in H0.
      replace (PI / 4) with (PI / 4 - 0 / 2 - 0 * cos 0 / 2) by field.
      eapply is_RInt_ext; [|exact H0]. intros x Hx. rewrite Rmin_left, Rmax_right in Hx by lra.
      destruct (Rlt_dec 0 x); [done|lra].
  - intros a b Ha Hb H. pose proof (Rabs_pos (2 * b - 1)). destruct (Rlt_dec 0 (2 * a - 1)) as [Hu|]; [|lra].
    apply (half_spec (2 * a - 1) (2 * b - 1)) in H; [|lra].
    assert (Hacc : acc (a :: b :: nil)) .
    { unfold acc, rad2. pose proof (Rle_0_sqr (2 * b - 1)) as B. unfold Rsqr in B.
      assert (0 < (2 * a - 1) * (2 * a - 1)) by (by apply Rmult_lt_0_compat). lra. }
    split; [done|]. by apply val_sign.
  - intros a b Ha Hb H [Hacc Hv]. apply val_sign in Hv; [|done]. destruct (Rlt_dec 0 (2 * a - 1)) as [Hu|]; [|lra].
    apply (half_spec (2 * a - 1) (2 * b - 1)) in H; [|lra]. unfold acc, rad2 in Hacc. lra.
Qed.
Lemma tail_flip s : tail (- s) = PI / 4 - tail s.
Proof.
  unfold tail. replace (- s / sqrt 2) with (- (s / sqrt 2)) by (unfold Rdiv; ring).
  pose proof (NormalErfProofs.erf_odd (s / sqrt 2)) as E. rewrite !erf_F in E. pose proof NormalErfProofs.sqrt_PI_pos.
  assert (E' : GaussIntegral.F (- (s / sqrt 2)) = - GaussIntegral.F (s / sqrt 2)).
  { apply Rmult_eq_reg_l with (2 / sqrt PI); [lra|]. apply Rgt_not_eq, Rdiv_lt_0_compat; lra. }
  rewrite E'. field. lra.
Qed.
Lemma tail_volume s : has_volume 2 (fun l => acc l /\ s < val l) (tail s).
Proof.
  destruct (Rtotal_order s 0) as [Hs|[->|Hs]]; [|apply tail_zero|by apply (tail_pos false)].
  pose proof (tail_pos true (- s) ltac:(lra)) as H. apply has_volume_flip in H.
  replace (tail s) with (PI / 4 - tail (- s)) by (rewrite tail_flip; ring).
  assert (Hflip : forall a b, rad2 (1 - a) b = rad2 a b) by (intros; unfold rad2; ring).
  assert (Hval : forall a b, val ((1 - a) :: b :: nil) = - val (a :: b :: nil)).
  { intros. unfold val. rewrite Hflip. unfold polar. ring. }
  eapply has_volume_ext; [|apply (has_volume_diff 2 _ _ _ _ H acc_volume)].
  - intros [|a [|b [|c l]]] Hl _; simpl in Hl; try lia. cbv beta iota. rewrite Hval.
    unfold acc. rewrite Hflip. split; [intros [A B]|intros [A B]; split; [done|lra]]. split; [done|].
    destruct (Rlt_or_le s (val (a :: b :: nil))) as [|Hle]; [done|]. exfalso. apply B. split; [done|lra].
  - intros [|a [|b l]]; cbv beta iota; [tauto|unfold acc; tauto|]. unfold acc. rewrite Hflip. tauto.
Qed.

(** ** Attempts, one after the other *)
Lemma has_volume_seq n m : forall (P Q T : list R -> Prop) p q r,
  has_volume n P p -> has_volume n Q q -> (forall l, P l -> ~ Q l) -> has_volume m T r ->
  has_volume (n + m) (fun l => P (take n l) \/ (Q (take n l) /\ T (drop n l))) (p + q * r).
Proof.
  induction n as [|n IH]; intros P Q T p q r HP HQ Hd HT.
  - specialize (Hd []). simpl in HP, HQ. simpl. destruct HP as [[A ->]|[A ->]].
    + destruct HQ as [[B ->]|[B ->]]; [tauto|]. replace (1 + 0 * r) with 1 by ring. apply has_volume_true. intros; by left.
    + destruct HQ as [[B ->]|[B ->]].
      * replace (0 + 1 * r) with r by ring. eapply has_volume_ext; [|exact HT]. intros l _ _. change (drop 0 l) with l. tauto.
      * replace (0 + 0 * r) with 0 by ring. apply has_volume_false. intros; tauto.
  - destruct HP as (f & Hf & If), HQ as (g & Hg & Ig). exists (fun u => f u + g u * r). split.
    + intros u Hu. apply (IH (fun l => P (u :: l)) (fun l => Q (u :: l)) T); [by apply Hf|by apply Hg| |done]. intros l; apply Hd.
    + apply (is_RInt_plus f (fun u => g u * r) 0 1 p (q * r) If).
      apply (is_RInt_scal g 0 1 r q) in Ig. rewrite Rmult_comm. eapply is_RInt_ext; [|exact Ig].
      intros x _. unfold scal; simpl; unfold mult; simpl. apply Rmult_comm.
Qed.
Lemma acc_compl : has_volume 2 (fun l => ~ acc l) (1 - PI / 4).
Proof.
  eapply has_volume_ext; [|apply (has_volume_diff 2 _ (fun _ => True) _ _ acc_volume)].
  - intros l _ _. tauto.
  - by apply has_volume_true.
  - done.
Qed.
(** The first [n] attempts give a value in [good]. *)
Fixpoint attempts (good : R -> Prop) (n : nat) (l : list R) : Prop :=
  match n with
  | O => False
  | S n' => (acc (take 2 l) /\ good (val (take 2 l))) \/ (~ acc (take 2 l) /\ attempts good n' (drop 2 l))
  end.
Lemma attempts_volume (good : R -> Prop) v n : has_volume 2 (fun l => acc l /\ good (val l)) (PI / 4 * v) ->
  has_volume (2 * n) (attempts good n) (v * (1 - (1 - PI / 4) ^ n)).
Proof.
  intros H. induction n as [|n IH].
  - replace (v * (1 - (1 - PI / 4) ^ 0)) with 0 by (simpl; ring). apply has_volume_false. intros l _ _ [].
  - replace (2 * S n)%nat with (2 + 2 * n)%nat by lia.
    replace (v * (1 - (1 - PI / 4) ^ S n)) with (PI / 4 * v + (1 - PI / 4) * (v * (1 - (1 - PI / 4) ^ n))) by (simpl; ring).
    apply (has_volume_seq 2 (2 * n) _ _ _ _ _ _ H acc_compl); [|exact IH]. intros l [? ?]; tauto.
Qed.
Lemma between_volume s t : s <= t -> has_volume 2 (fun l => acc l /\ (s < val l <= t)) (tail s - tail t).
Proof.
  intros Hst. eapply has_volume_ext; [|apply (has_volume_diff 2 _ _ _ _ (tail_volume t) (tail_volume s))].
  - intros l _ _. split.
    + intros [[A B] C]. split; [done|]. split; [done|]. destruct (Rle_or_lt (val l) t) as [|Hlt]; [done|]. tauto.
    + intros [A [B C]]. split; [done|]. intros [_ D]. lra.
  - intros l [A B]. split; [done|lra].
Qed.
