(** C35, continued: the parameters of [NormalDistribution<1>] are the mean and the variance of its density, and [KLDivergence] is the
    integral that defines it. *)
From stdpp Require Import prelude list.
From Coq Require Import Reals Lra Psatz ZArith.
From Coquelicot Require Import Coquelicot.
From Verif Require Import Base NormalModel Spec_Normal NormalProofs NormalErfProofs GaussIntegral Properties_Normal.
Local Open Scope R_scope.
Local Notation RO := real_sops.

(** The integral of [f] over the whole line is [l]: it comes arbitrarily close on every long enough interval. *)
Definition line_integral (f : R -> R) (l : R) : Prop :=
  forall eps, 0 < eps -> exists B, 0 < B /\ forall a b, a < - B -> B < b -> ex_RInt f a b /\ Rabs (RInt f a b - l) < eps.

Lemma line_integral_ext f g l l' : (forall x, f x = g x) -> l = l' -> line_integral f l -> line_integral g l'.
Proof.
  intros E <- H eps He. destruct (H eps He) as (B & HB & HH). exists B. split; [done|]. intros a b Ha Hb. destruct (HH a b Ha Hb) as [X Y].
  split; [eapply ex_RInt_ext; [|exact X]; intros; apply E|].
  rewrite <- (RInt_ext f g); [exact Y|intros; apply E].
Qed.
Lemma gauss_tail m v x : 0 < v -> 1 <= Rabs (x - m) ->
  gauss m v x <= 2 * v / sqrt (2 * PI * v) / Rabs (x - m) /\ Rabs (x - m) * gauss m v x <= 2 * v / sqrt (2 * PI * v) / Rabs (x - m).
Proof.
  intros Hv Hz. pose proof (sqrt_lt_R0 _ (two_pi_pos v Hv)) as Hq. unfold gauss. set (q := sqrt (2 * PI * v)) in *. set (z := Rabs (x - m)) in *.
  assert (Ez : (x - m) * (x - m) = z * z) by (unfold z; rewrite <- Rabs_mult, Rabs_right; [reflexivity|apply Rle_ge, Rle_0_sqr]).
  rewrite Ez. assert (He : exp (- (z * z) / (2 * v)) <= 2 * v / (z * z)).
  { replace (- (z * z) / (2 * v)) with (- (z * z / (2 * v))) by (field; lra). rewrite exp_Ropp.
    replace (2 * v / (z * z)) with (/ (z * z / (2 * v))) by (field; split; lra).
    assert (0 < z * z / (2 * v)) by (apply Rdiv_lt_0_compat; nra).
    apply Rinv_le_contravar; [done|]. pose proof (exp_ineq1 (z * z / (2 * v))). lra. }
  assert (E0 : / q * exp (- (z * z) / (2 * v)) <= / q * (2 * v / (z * z))).
  { apply Rmult_le_compat_l; [left; by apply Rinv_0_lt_compat|done]. }
  assert (E1 : z * (/ q * exp (- (z * z) / (2 * v))) <= 2 * v / q / z).
  { replace (2 * v / q / z) with (z * (/ q * (2 * v / (z * z)))) by (field; split; lra). apply Rmult_le_compat_l; [lra|done]. }
  split; [|exact E1]. pose proof (Rinv_0_lt_compat _ Hq). pose proof (exp_pos (- (z * z) / (2 * v))) as Hp.
  assert (0 <= / q * exp (- (z * z) / (2 * v))) by (apply Rmult_le_pos; lra). nra.
Qed.
Lemma gauss_derive m v x : 0 < v -> is_derive (gauss m v) x (- ((x - m) / v) * gauss m v x).
Proof. intros Hv. unfold gauss. auto_derive; [done|]. replace (- ((x + - m) * (x + - m)) * / (2 * v)) with (- ((x - m) * (x - m)) / (2 * v)) by (unfold Rminus, Rdiv; reflexivity).
  set (e := exp _). set (q := / sqrt _). field. lra. Qed.

(** Expectation of a quadratic function. *)
Lemma quadratic_expectation d a b c : normal1_reach RO d ->
  line_integral (fun x => (a + b * (x - n1_mean d) + c * ((x - n1_mean d) * (x - n1_mean d))) * pdf RO d x) (a + c * n1_var d).
Proof.
  intros Hr. destruct (normal1_cdf d Hr) as (_ & _ & _ & HR & HL & _). apply n1_reach_ok in Hr as Hd. pose proof (proj1 Hd) as Hv. set (m := n1_mean d). set (v := n1_var d) in *.
  assert (Hp : forall x, pdf RO d x = gauss m v x) by (intros; by apply pdf_gauss).
  set (F := fun x => (a + c * v) * cdf RO d x - b * v * gauss m v x - c * v * ((x - m) * gauss m v x)).
  assert (HF : forall x, is_derive F x ((a + b * (x - m) + c * ((x - m) * (x - m))) * pdf RO d x)).
  { intros x. pose proof (cdf_derive d x Hd) as HC. pose proof (gauss_derive m v x Hv) as HG. rewrite Hp in *. unfold F. evar_last.
    - apply (is_derive_minus (V := R_NormedModule)); [apply (is_derive_minus (V := R_NormedModule))|].
      + apply (is_derive_scal _ _ _ _ HC).
      + apply (is_derive_scal _ _ _ _ HG).
      + apply is_derive_scal. apply (is_derive_mult (fun x => x - m) (gauss m v) x 1 (- ((x - m) / v) * gauss m v x)); [auto_derive; [done|ring]|exact HG|apply Rmult_comm].
    - unfold minus, plus, opp, scal, mult. simpl. unfold mult. simpl. field. lra. }
  assert (HI : forall s t, is_RInt (fun x => (a + b * (x - m) + c * ((x - m) * (x - m))) * pdf RO d x) s t (F t - F s)).
  { intros s t. apply (@is_RInt_derive R_CompleteNormedModule F); [intros; apply HF|].
    intros x _. apply (@ex_derive_continuous R_AbsRing R_NormedModule).
    apply (ex_derive_ext (fun x => (a + b * (x - m) + c * ((x - m) * (x - m))) * gauss m v x)); [intros; by rewrite Hp|].
    unfold gauss. auto_derive. done. }
  set (q := 2 * v / sqrt (2 * PI * v)). assert (Hq : 0 < q) by (apply Rdiv_lt_0_compat; [lra|apply sqrt_lt_R0, two_pi_pos, Hv]).
  set (K := Rabs (a + c * v) + Rabs (b * v) * q + Rabs (c * v) * q + 1).
  assert (HK : 0 < K) by (unfold K; pose proof (Rabs_pos (a + c * v)); pose proof (Rabs_pos (b * v)); pose proof (Rabs_pos (c * v)); nra).
  intros eps He. set (e := eps / (4 * K)). assert (He' : 0 < e) by (apply Rdiv_lt_0_compat; lra).
  destruct (HL e He') as (B & HB). exists (Rmax B 0 + Rabs m + 1 + / e).
  pose proof (Rmax_l B 0) as M1. pose proof (Rmax_r B 0) as M2. pose proof (Rle_abs m) as M3. pose proof (Rle_abs (- m)) as M4. rewrite Rabs_Ropp in M4.
  pose proof (Rabs_pos m) as M5. pose proof (Rinv_0_lt_compat _ He') as M6.
  split; [lra|]. intros s t Hs Ht. split; [eexists; apply HI|]. rewrite (is_RInt_unique _ _ _ _ (HI s t)).
  assert (T : forall x, 1 <= Rabs (x - m) -> / e <= Rabs (x - m) -> gauss m v x <= q * e /\ Rabs ((x - m) * gauss m v x) <= q * e).
  { intros x X1 X2. destruct (gauss_tail m v x Hv X1) as [T1 T2]. fold q in T1, T2. assert (q / Rabs (x - m) <= q * e).
    { unfold Rdiv. apply Rmult_le_compat_l; [lra|]. rewrite <- (Rinv_inv e). apply Rinv_le_contravar; done. }
    split; [lra|]. rewrite Rabs_mult, (Rabs_right (gauss m v x)); [lra|]. left. by apply gauss_pos. }
  assert (Xt : Rabs (t - m) = t - m) by (apply Rabs_right; lra). assert (Xs : Rabs (s - m) = - (s - m)) by (apply Rabs_left; lra).
  destruct (T t ltac:(rewrite Xt; lra) ltac:(rewrite Xt; lra)) as [Gt Gt']. destruct (T s ltac:(rewrite Xs; lra) ltac:(rewrite Xs; lra)) as [Gs Gs'].
  destruct (HB t ltac:(lra)) as [Ct _]. destruct (HB (- s) ltac:(lra)) as [_ Cs]. rewrite Ropp_involutive in Cs.
  destruct (HR t) as [Rt1 Rt2]. destruct (HR s) as [Rs1 Rs2].
  pose proof (gauss_pos m v t Hv) as Pt. pose proof (gauss_pos m v s Hv) as Ps.
  unfold F. set (gt := gauss m v t) in *. set (gs := gauss m v s) in *. set (ut := (t - m) * gt) in *. set (us := (s - m) * gs) in *.
  set (ct := cdf RO d t) in *. set (cs := cdf RO d s) in *.
  replace (_ - (a + c * v)) with ((a + c * v) * (ct - 1 - cs) + (- (b * v) * (gt - gs) + - (c * v) * (ut - us))) by ring.
  assert (A1 : Rabs ((a + c * v) * (ct - 1 - cs)) <= Rabs (a + c * v) * (2 * e)).
  { rewrite Rabs_mult. apply Rmult_le_compat_l; [apply Rabs_pos|]. apply Rabs_le. lra. }
  assert (A2 : Rabs (- (b * v) * (gt - gs)) <= Rabs (b * v) * (2 * (q * e))).
  { rewrite Rabs_mult, Rabs_Ropp. apply Rmult_le_compat_l; [apply Rabs_pos|]. apply Rabs_le. lra. }
  assert (A3 : Rabs (- (c * v) * (ut - us)) <= Rabs (c * v) * (2 * (q * e))).
  { rewrite Rabs_mult, Rabs_Ropp. apply Rmult_le_compat_l; [apply Rabs_pos|]. apply Rabs_le_between in Gt'. apply Rabs_le_between in Gs'. apply Rabs_le. lra. }
  eapply Rle_lt_trans; [apply Rabs_triang|]. pose proof (Rabs_triang (- (b * v) * (gt - gs)) (- (c * v) * (ut - us))) as A4.
  apply Rle_lt_trans with (2 * e * (Rabs (a + c * v) + Rabs (b * v) * q + Rabs (c * v) * q)); [lra|].
  apply Rlt_le_trans with (2 * e * K); [apply Rmult_lt_compat_l; [lra|unfold K; lra]|].
  unfold e. replace (2 * (eps / (4 * K)) * K) with (eps / 2) by (field; lra). lra.
Qed.

(** The density has mass 1, and the parameters that [getMean] and [getVariance] return are its mean and its variance. *)
Theorem normal1_moments d : normal1_reach RO d ->
  line_integral (pdf RO d) 1 /\
  line_integral (fun x => x * pdf RO d x) (getMean d) /\
  line_integral (fun x => (x - getMean d) * (x - getMean d) * pdf RO d x) (getVariance d).
Proof.
  intros H. apply n1_reach_ok in H as Hd. unfold getMean, getVariance. split; [|split].
  - eapply line_integral_ext; [..|apply (quadratic_expectation d 1 0 0 H)]; [intros x; cbv beta; ring|ring].
  - eapply line_integral_ext; [..|apply (quadratic_expectation d (n1_mean d) 1 0 H)]; [intros x; cbv beta; ring|ring].
  - eapply line_integral_ext; [..|apply (quadratic_expectation d 0 0 1 H)]; [intros x; cbv beta; ring|ring].
Qed.

(** [KLDivergence] is the expected difference of the logarithms of the densities. *)
Theorem normal1_KL_integral d d' : normal1_reach RO d -> normal1_reach RO d' ->
  line_integral (fun x => pdf RO d x * (logpdf RO d x - logpdf RO d' x)) (KLDivergence RO d d').
Proof.
  intros H H'. destruct (normal1_KL d d' H H') as (-> & _). apply n1_reach_ok in H as Hd. apply n1_reach_ok in H' as Hd'.
  pose proof (proj1 Hd) as Hv. pose proof (proj1 Hd') as Hv'. unfold getMean, getVariance.
  set (m := n1_mean d). set (v := n1_var d) in *. set (m' := n1_mean d'). set (v' := n1_var d') in *.
  assert (L : forall e x, n1_ok e -> logpdf RO e x = - / 2 * ((x - n1_mean e) * (x - n1_mean e) / n1_var e) - / 2 * ln (2 * PI * n1_var e)).
  { intros e x (A & B & C & D). unfold logpdf, mahalanobisDistance. rewrite half_real. simpl. rewrite B, D. field. lra. }
  eapply line_integral_ext; [..|apply (quadratic_expectation d (/ 2 * ln (v' / v) + / 2 * ((m - m') * (m - m') / v')) ((m - m') / v') (/ 2 * (/ v' - / v)) H)].
  - intros x. cbv beta. rewrite (L d), (L d') by done. fold m v m' v'. rewrite !ln_mult, ln_div by (pose proof PI_RGT_0; nra || lra). field. split; lra.
  - unfold gauss_KL. fold v. field. split; lra.
Qed.
(** Hypotheses met: a distribution with mean 2 and variance 3. *)
Example normal1_moments_ex : exists d, normal1_reach RO d /\ getMean d = 2 /\ getVariance d = 3.
Proof.
  destruct (normal1_new RO 0 2 3) as [d| | |] eqn:E.
  - exists d. split; [econstructor; exact E|]. revert E. unfold normal1_new. rewrite setVariance_good by lra. intros E. injection E as <-. done.
  - revert E. unfold normal1_new. by rewrite setVariance_good by lra.
  - revert E. unfold normal1_new. by rewrite setVariance_good by lra.
  - revert E. unfold normal1_new. by rewrite setVariance_good by lra.
Qed.
Print Assumptions normal1_moments.
Print Assumptions normal1_KL_integral.
