(** The Gaussian integral: the error function tends to 1 at infinity. *)
From stdpp Require Import prelude list.
From Coq Require Import Reals Lra Psatz.
From Coquelicot Require Import Coquelicot.
From Verif Require Import Base GridModel NormalModel Spec_Normal NormalProofs NormalErfProofs.
Local Open Scope R_scope.

Local Definition F (x : R) : R := RInt (fun t => exp (- (t * t))) 0 x.
Local Definition g (x t : R) : R := exp (- (x * x) * (1 + t * t)) / (1 + t * t).
Local Definition G (x : R) : R := RInt (fun t => g x t) 0 1.
Local Definition dg (x t : R) : R := - 2 * x * exp (- (x * x) * (1 + t * t)).

Lemma one_sq_pos t : 0 < 1 + t * t. Proof. pose proof (Rle_0_sqr t). unfold Rsqr in *. lra. Qed.

Lemma F_derive x : is_derive F x (exp (- (x * x))).
Proof.
  unfold F. apply (is_derive_RInt (fun t => exp (- (t * t))) (fun x => RInt (fun t => exp (- (t * t))) 0 x) 0 x).
  - apply filter_forall. intros y. apply (@RInt_correct R_CompleteNormedModule), gexp_ex.
  - apply gexp_cont.
Qed.
Lemma g_derive x t : is_derive (fun u => g u t) x (dg x t).
Proof.
  unfold g, dg. pose proof (one_sq_pos t). auto_derive; [lra|]. field. lra.
Qed.
Lemma g_cont x t : continuous (fun t => g x t) t.
Proof.
  apply (@ex_derive_continuous R_AbsRing R_NormedModule). unfold g.
  pose proof (one_sq_pos t). auto_derive. lra.
Qed.
Lemma g_ex x : ex_RInt (fun t => g x t) 0 1.
Proof. apply (@ex_RInt_continuous R_CompleteNormedModule). intros; apply g_cont. Qed.

Lemma dg_cont2 x t : continuity_2d_pt dg x t.
Proof.
  apply continuity_2d_pt_filterlim. unfold dg.
  apply (continuous_mult (fun z : R * R => - 2 * fst z) (fun z => exp (- (fst z * fst z) * (1 + snd z * snd z)))).
  - apply (continuous_mult (fun _ : R * R => -2) (fun z => fst z)); [apply continuous_const|apply continuous_fst].
  - apply (continuous_comp (fun z : R * R => - (fst z * fst z) * (1 + snd z * snd z)) exp).
    + apply (continuous_mult (fun z : R * R => - (fst z * fst z)) (fun z => 1 + snd z * snd z)).
      * apply (continuous_opp (fun z : R * R => fst z * fst z)).
        apply (continuous_mult (fun z : R * R => fst z) (fun z => fst z)); apply continuous_fst.
      * apply (continuous_plus (fun _ : R * R => 1) (fun z => snd z * snd z)); [apply continuous_const|].
        apply (continuous_mult (fun z : R * R => snd z) (fun z => snd z)); apply continuous_snd.
    + apply (@ex_derive_continuous R_AbsRing R_NormedModule). auto_derive. done.
Qed.

Lemma G_derive x : is_derive G x (- 2 * exp (- (x * x)) * F x).
Proof.
  assert (HD : forall u t, Derive (fun z => g z t) u = dg u t) by (intros; apply is_derive_unique, g_derive).
  evar_last.
  - apply (is_derive_RInt_param g 0 1 x).
    + apply filter_forall. intros y t _. eexists. apply g_derive.
    + intros t _. apply (continuity_2d_pt_ext dg); [intros; symmetry; apply HD|apply dg_cont2].
    + apply filter_forall. intros y. apply g_ex.
  - assert (E2 : RInt (fun t => x * exp (- ((x * t + 0) * (x * t + 0)))) 0 1 =
                 RInt (fun t => exp (- (t * t))) (x * 0 + 0) (x * 1 + 0)).
    { exact (RInt_comp_lin (fun t => exp (- (t * t))) x 0 0 1 (gexp_ex _ _)). }
    rewrite Rmult_0_r, Rmult_1_r, !Rplus_0_r in E2.
    assert (E1 : RInt (fun t => (-2 * exp (- (x * x))) * (x * exp (- ((x * t + 0) * (x * t + 0))))) 0 1 =
                 (-2 * exp (- (x * x))) * RInt (fun t => x * exp (- ((x * t + 0) * (x * t + 0)))) 0 1).
    { apply (@RInt_scal R_CompleteNormedModule (fun t => x * exp (- ((x * t + 0) * (x * t + 0))))).
      apply (@ex_RInt_continuous R_CompleteNormedModule). intros.
      apply (@ex_derive_continuous R_AbsRing R_NormedModule). auto_derive. done. }
    unfold F. rewrite <- E2, <- E1. apply RInt_ext. intros t _. rewrite HD. unfold dg.
    replace (- (x * x) * (1 + t * t)) with (- (x * x) + - ((x * t + 0) * (x * t + 0))) by ring.
    rewrite exp_plus. match goal with |- ?a = ?b => change (@eq R a b) end. ring.
Qed.

Lemma FG_derive y : is_derive (fun x => F x * F x + G x) y 0.
Proof.
  pose proof (F_derive y) as H1. pose proof (G_derive y) as H2.
  pose proof (is_derive_mult F F y _ _ H1 H1 Rmult_comm) as H3.
  pose proof (is_derive_plus _ G y _ _ H3 H2) as H4.
  unfold plus, mult in H4; simpl in H4.
  match type of H4 with is_derive _ _ ?d => replace 0 with d; [exact H4|] end.
  match goal with |- ?a = ?b => change (@eq R a b) end. unfold plus, mult; simpl. ring.
Qed.

Lemma FG_const x : F x * F x + G x = PI / 4.
Proof.
  assert (H0 : F 0 * F 0 + G 0 = PI / 4).
  { unfold F. rewrite RInt_point. unfold zero; simpl. rewrite Rmult_0_l, Rplus_0_l.
    unfold G. rewrite (RInt_ext _ (fun t => / (1 + t²))).
    - apply is_RInt_unique. replace (PI / 4) with (minus (atan 1) (atan 0)).
      + apply (@is_RInt_derive R_CompleteNormedModule).
        * intros t _. replace (/ (1 + t²)) with (/ (1 + t ^ 2)) by (unfold Rsqr; f_equal; ring).
          apply is_derive_Reals, derivable_pt_lim_atan.
        * intros t _. apply (@ex_derive_continuous R_AbsRing R_NormedModule).
          unfold Rsqr. pose proof (one_sq_pos t). auto_derive. lra.
      + rewrite atan_1, atan_0. unfold minus, plus, opp; simpl. lra.
    - intros t _. unfold g, Rsqr. replace (- (0 * 0) * (1 + t * t)) with 0 by ring. rewrite exp_0. unfold Rdiv. lra. }
  rewrite <- H0.
  destruct (MVT_gen (fun x => F x * F x + G x) 0 x (fun _ => 0)) as (c & _ & E).
  - intros y _. apply FG_derive.
  - intros y _. apply continuity_pt_filterlim.
    apply (@ex_derive_continuous R_AbsRing R_NormedModule (fun x => F x * F x + G x)).
    eexists. apply FG_derive.
  - simpl in E. lra.
Qed.

Lemma G_pos x : 0 < G x.
Proof.
  apply RInt_gt_0; [lra| |intros; apply g_cont].
  intros t _. apply Rdiv_lt_0_compat; [apply exp_pos|apply one_sq_pos].
Qed.
Lemma G_le x : G x <= exp (- (x * x)).
Proof.
  replace (exp (- (x * x))) with (RInt (fun _ => exp (- (x * x))) 0 1).
  2:{ rewrite RInt_const. unfold scal; simpl; unfold mult; simpl. lra. }
  apply RInt_le; [lra|apply g_ex|apply ex_RInt_const|].
  intros t _. unfold g. pose proof (one_sq_pos t) as Ht.
  pose proof (Rle_0_sqr t) as Hs. unfold Rsqr in Hs. pose proof (Rle_0_sqr x) as Hx. unfold Rsqr in Hx.
  apply (Rmult_le_reg_r (1 + t * t)); [done|]. unfold Rdiv. rewrite Rmult_assoc, Rinv_l by lra.
  rewrite Rmult_1_r.
  apply Rle_trans with (exp (- (x * x))).
  - destruct (Req_dec (x * x * (t * t)) 0) as [E|E].
    + right. f_equal. nra.
    + left. apply exp_increasing. assert (0 <= x * x * (t * t)) by (apply Rmult_le_pos; done). nra.
  - pose proof (exp_pos (- (x * x))). nra.
Qed.

Lemma erf_F x : erf x = 2 / sqrt PI * F x. Proof. done. Qed.
Lemma erf_sq x : erf x * erf x = 1 - 4 / PI * G x.
Proof.
  rewrite erf_F. pose proof (FG_const x) as H. pose proof PI_RGT_0 as HP. pose proof sqrt_PI_pos as Hs.
  assert (E : sqrt PI * sqrt PI = PI) by (apply sqrt_sqrt; lra).
  replace (2 / sqrt PI * F x * (2 / sqrt PI * F x)) with (4 / (sqrt PI * sqrt PI) * (F x * F x)) by (field; lra).
  rewrite E. replace (F x * F x) with (PI / 4 - G x) by lra. field. lra.
Qed.
Lemma erf_bound x : -1 < erf x < 1.
Proof.
  pose proof (erf_sq x) as H. pose proof (G_pos x). pose proof PI_RGT_0.
  assert (0 < 4 / PI) by (apply Rdiv_lt_0_compat; lra).
  assert (0 < 4 / PI * G x) by (apply Rmult_lt_0_compat; lra).
  assert (erf x * erf x < 1) by lra. nra.
Qed.
Lemma exp_neg_sq_small x : 0 < x -> exp (- (x * x)) < / x.
Proof.
  intros H. rewrite exp_Ropp. apply Rinv_lt_contravar; [apply Rmult_lt_0_compat; [done|apply exp_pos]|].
  apply Rle_lt_trans with (1 + x * x); [nra|]. apply exp_ineq1. nra.
Qed.
(** Quantitative: [1 - erf x <= 4 / (PI x)] for [x >= 0]. *)
Lemma erf_tail x : 0 < x -> 1 - 4 / PI * / x < erf x.
Proof.
  intros H. pose proof (erf_sq x) as E. pose proof (G_le x) as HG. pose proof (exp_neg_sq_small x H) as Hx.
  pose proof PI_RGT_0. assert (H4 : 0 < 4 / PI) by (apply Rdiv_lt_0_compat; lra).
  assert (He0 : 0 <= erf x) by (rewrite <- erf_0; left; apply erf_incr; done).
  pose proof (erf_bound x).
  assert (4 / PI * G x < 4 / PI * / x) by (apply Rmult_lt_compat_l; lra). nra.
Qed.
Lemma erf_lim : is_lim erf p_infty 1.
Proof.
  apply is_lim_spec. intros eps. simpl.
  exists (4 / PI * / eps). intros x Hx. pose proof (cond_pos eps) as He. pose proof PI_RGT_0.
  assert (H4 : 0 < 4 / PI) by (apply Rdiv_lt_0_compat; lra).
  assert (0 < 4 / PI * / eps) by (apply Rmult_lt_0_compat; [done|by apply Rinv_0_lt_compat]).
  assert (Hx0 : 0 < x) by lra.
  pose proof (erf_tail x Hx0) as Ht. pose proof (erf_bound x).
  assert (4 / PI * / x < eps).
  { apply (Rmult_lt_reg_r x); [done|]. rewrite Rmult_assoc, Rinv_l, Rmult_1_r by lra.
    apply (Rmult_lt_compat_l eps) in Hx; [|done].
    replace (eps * (4 / PI * / eps)) with (4 / PI) in Hx by (field; split; lra). done. }
  rewrite Rabs_left1; lra.
Qed.
