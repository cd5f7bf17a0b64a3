From stdpp Require Import prelude list.
From Coq Require Import Reals Lra Psatz.
From Coquelicot Require Import Coquelicot.
From Verif Require Import Base GridModel NormalModel Spec_Normal NormalProofs.
Local Open Scope R_scope.

(** ** The error function *)
Lemma gexp_cont x : continuous (fun t => exp (- (t * t))) x.
Proof. apply (@ex_derive_continuous R_AbsRing R_NormedModule). auto_derive. done. Qed.
Lemma gexp_ex a b : ex_RInt (fun t => exp (- (t * t))) a b.
Proof. apply (@ex_RInt_continuous R_CompleteNormedModule). intros; apply gexp_cont. Qed.

Lemma erf_derive x : is_derive erf x (2 / sqrt PI * exp (- (x * x))).
Proof.
  unfold erf. apply (is_derive_scal (fun x => RInt (fun t => exp (- (t * t))) 0 x)).
  apply (is_derive_RInt (fun t => exp (- (t * t))) (fun x => RInt (fun t => exp (- (t * t))) 0 x) 0 x).
  - apply filter_forall. intros y. apply (@RInt_correct R_CompleteNormedModule), gexp_ex.
  - apply gexp_cont.
Qed.
Lemma erf_0 : erf 0 = 0.
Proof. unfold erf. rewrite RInt_point. unfold zero; simpl. lra. Qed.

Lemma sqrt_PI_pos : 0 < sqrt PI. Proof. apply sqrt_lt_R0, PI_RGT_0. Qed.

Lemma erf_incr x y : x < y -> erf x < erf y.
Proof.
  intros H. destruct (MVT_gen erf x y (fun x => 2 / sqrt PI * exp (- (x * x)))) as (c & Hc & E).
  - intros. apply erf_derive.
  - intros. apply continuity_pt_filterlim.
    apply (@ex_derive_continuous R_AbsRing R_NormedModule). eexists; apply erf_derive.
  - rewrite Rmin_left, Rmax_right in Hc by lra.
    pose proof (exp_pos (- (c * c))). pose proof sqrt_PI_pos.
    assert (H2 : 0 < 2 / sqrt PI) by (apply Rdiv_lt_0_compat; lra).
    assert (0 < 2 / sqrt PI * exp (- (c * c)) * (y - x)); [|lra].
    apply Rmult_lt_0_compat; [apply Rmult_lt_0_compat; done|lra].
Qed.

Lemma erf_odd x : erf (- x) = - erf x.
Proof.
  unfold erf. enough (RInt (fun t => exp (- (t * t))) 0 (- x) = - RInt (fun t => exp (- (t * t))) 0 x) as ->
    by lra.
  pose proof (RInt_comp_lin (fun t => exp (- (t * t))) (-1) 0 0 x) as H.
  rewrite !Rmult_0_r, !Rplus_0_r in H. replace (-1 * x) with (- x) in H by lra.
  rewrite <- H; [|apply gexp_ex].
  rewrite (RInt_ext _ (fun t => opp (exp (- (t * t))))).
  - rewrite (@RInt_opp R_CompleteNormedModule); [done|apply gexp_ex].
  - intros t _. unfold scal; simpl; unfold mult; simpl. 
    replace ((-1 * t + 0) * (-1 * t + 0)) with (t * t) by ring. unfold opp; simpl. ring.
Qed.

Lemma cdf_at d x : n1_ok d -> cdf RO d x = / 2 * (1 + erf ((x - n1_mean d) / sqrt (2 * n1_var d))).
Proof. intros _. unfold cdf. rewrite half_real. done. Qed.

Lemma cdf_derive d x : n1_ok d -> is_derive (cdf RO d) x (pdf RO d x).
Proof.
  intros Hd. rewrite pdf_gauss by done. destruct Hd as (Hv & Hp & Hs & Hn).
  assert (Hw : 0 < sqrt (2 * n1_var d)) by (apply sqrt_lt_R0; lra).
  apply (is_derive_ext (fun x => / 2 * (1 + erf ((x - n1_mean d) / sqrt (2 * n1_var d))))).
  { intros t. unfold cdf. rewrite half_real. done. }
  evar_last.
  - apply is_derive_scal. apply (is_derive_plus (fun _ => 1)); [apply is_derive_const|].
    apply (is_derive_comp erf (fun x => (x - n1_mean d) / sqrt (2 * n1_var d))); [apply erf_derive|].
    auto_derive; [done|reflexivity].
  - unfold gauss, getMean, getVariance, scal, plus, zero; simpl; unfold mult; simpl.
    set (w := sqrt (2 * n1_var d)) in *.
    assert (E2 : w * w = 2 * n1_var d) by (apply sqrt_sqrt; lra).
    assert (Es : sqrt (2 * PI * n1_var d) = sqrt PI * w).
    { unfold w. rewrite <- sqrt_mult; [f_equal; ring|pose proof PI_RGT_0; lra|lra]. }
    rewrite Es. pose proof sqrt_PI_pos.
    replace (- ((x - n1_mean d) / w * ((x - n1_mean d) / w)))
      with (- ((x - n1_mean d) * (x - n1_mean d)) / (2 * n1_var d)).
    + field. lra.
    + rewrite <- E2. field. lra.
Qed.


Lemma pdf_RInt d a b : n1_ok d ->
  RInt (pdf RO d) a b = cdf RO d b - cdf RO d a.
Proof.
  intros Hd. apply is_RInt_unique.
  apply (@is_RInt_derive R_CompleteNormedModule (cdf RO d) (pdf RO d)); [intros; by apply cdf_derive|].
  intros x _. apply (@ex_derive_continuous R_AbsRing R_NormedModule).
  apply (ex_derive_ext (fun x => gauss (getMean d) (getVariance d) x)).
  - intros t. by rewrite pdf_gauss.
  - unfold gauss. unfold getVariance. destruct Hd. auto_derive. lra.
Qed.
