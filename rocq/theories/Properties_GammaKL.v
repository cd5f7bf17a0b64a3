(** C39, continued: the textbook divergence of two gamma distributions is the integral that defines it, and when KLDivergence is that integral. *)
From stdpp Require Import prelude list.
From Coq Require Import Reals Lra Psatz.
From Coquelicot Require Import Coquelicot.
From Verif Require Import Base FunctionsModel GammaModel Spec_Gamma GammaProofs Properties_Gamma.
Local Open Scope R_scope.

(** The integral of [f] over the positive half line is [l]: it comes arbitrarily close on every long enough interval. *)
Definition half_line_integral (f : R -> R) (l : R) : Prop :=
  forall eps, 0 < eps -> exists s B, 0 < s /\ s < B /\ forall u v, 0 < u -> u < s -> B < v ->
    ex_RInt f u v /\ Rabs (integral f u v - l) < eps.
(** What boost provides at [a]: the logarithm of Euler's integral and its logarithmic derivative, the mean of the logarithm. *)
Definition special_functions_at (lgamma psi : R -> R) (a : R) : Prop :=
  half_line_integral (euler a) (exp (lgamma a)) /\ half_line_integral (fun t => ln t * euler a t) (psi a * exp (lgamma a)).

Lemma half_line_unique f l l' : half_line_integral f l -> half_line_integral f l' -> l = l'.
Proof.
  intros H H'. destruct (Req_dec l l') as [|N]; [done|]. exfalso. set (e := Rabs (l - l') / 2).
  assert (He : 0 < e) by (apply Rdiv_lt_0_compat; [apply Rabs_pos_lt; lra|lra]).
  destruct (H e He) as (s & B & Hs & HsB & HH). destruct (H' e He) as (s' & B' & Hs' & HsB' & HH').
  set (u := Rmin s s' / 2). set (v := Rmax B B' + 1).
  assert (0 < Rmin s s') by (by apply Rmin_glb_lt). pose proof (Rmin_l s s'). pose proof (Rmin_r s s'). pose proof (Rmax_l B B'). pose proof (Rmax_r B B').
  destruct (HH u v ltac:(unfold u; lra) ltac:(unfold u; lra) ltac:(unfold v; lra)) as [_ X].
  destruct (HH' u v ltac:(unfold u; lra) ltac:(unfold u; lra) ltac:(unfold v; lra)) as [_ X'].
  pose proof (Rabs_triang (l - integral f u v) (integral f u v - l')) as T. replace (l - integral f u v + (integral f u v - l')) with (l - l') in T by ring.
  rewrite Rabs_minus_sym in X. unfold e in *. lra.
Qed.
Lemma half_line_lin f g l m a b h : half_line_integral f l -> half_line_integral g m -> (forall x, 0 < x -> h x = a * f x + b * g x) ->
  half_line_integral h (a * l + b * m).
Proof.
  intros Hf Hg Hh eps He. set (K := Rabs a + Rabs b + 1). assert (HK : 0 < K) by (unfold K; pose proof (Rabs_pos a); pose proof (Rabs_pos b); lra).
  set (e := eps / K). assert (He' : 0 < e) by (apply Rdiv_lt_0_compat; lra).
  destruct (Hf e He') as (s & B & Hs & HsB & HH). destruct (Hg e He') as (s' & B' & Hs' & HsB' & HH').
  exists (Rmin s s'), (Rmax B B'). assert (0 < Rmin s s') by (by apply Rmin_glb_lt).
  pose proof (Rmin_l s s'). pose proof (Rmin_r s s'). pose proof (Rmax_l B B'). pose proof (Rmax_r B B'). split; [done|]. split; [lra|].
  intros u v Hu Hus Hv. destruct (HH u v ltac:(lra) ltac:(lra) ltac:(lra)) as [E X]. destruct (HH' u v ltac:(lra) ltac:(lra) ltac:(lra)) as [E' X'].
  assert (I : is_RInt h u v (a * integral f u v + b * integral g u v)).
  { apply (is_RInt_ext (fun x => plus (scal a (f x)) (scal b (g x)))).
    - intros x [Hx _]. rewrite Rmin_left in Hx by lra. rewrite Hh by lra. reflexivity.
    - apply (is_RInt_plus (V := R_NormedModule)); apply (is_RInt_scal (V := R_NormedModule)); apply (@RInt_correct R_CompleteNormedModule); done. }
  split; [eexists; exact I|]. unfold integral at 1. rewrite (is_RInt_unique _ _ _ _ I).
  replace (a * integral f u v + b * integral g u v - (a * l + b * m)) with (a * (integral f u v - l) + b * (integral g u v - m)) by ring.
  eapply Rle_lt_trans; [apply Rabs_triang|]. rewrite !Rabs_mult.
  apply Rle_lt_trans with ((Rabs a + Rabs b) * e).
  - pose proof (Rabs_pos a). pose proof (Rabs_pos b). nra.
  - replace eps with (K * e) by (unfold e; field; lra). apply Rmult_lt_compat_r; [done|]. unfold K. lra.
Qed.
Lemma half_line_ext f g l l' : half_line_integral f l -> (forall x, 0 < x -> g x = f x) -> l' = l -> half_line_integral g l'.
Proof.
  intros H E ->. replace l with (1 * l + 0 * l) by ring. eapply half_line_lin; [exact H|exact H|]. intros x Hx. rewrite E by done. ring.
Qed.
(** Substitution t = b x. *)
Lemma half_line_scale f l b : 0 < b -> half_line_integral f l -> half_line_integral (fun x => b * f (b * x)) l.
Proof.
  intros Hb H eps He. destruct (H eps He) as (s & B & Hs & HsB & HH). exists (s / b), (B / b).
  assert (Hdiv : forall x y, x < y -> x / b < y / b) by (intros; apply Rmult_lt_compat_r; [by apply Rinv_0_lt_compat|done]).
  assert (Hmul : forall x y, x < y / b -> b * x < y) by (intros x y Hxy; apply (Rmult_lt_compat_l b) in Hxy; [|done]; replace (b * (y / b)) with y in Hxy by (field; lra); done).
  assert (Hmul' : forall x y, y / b < x -> y < b * x) by (intros x y Hxy; apply (Rmult_lt_compat_l b) in Hxy; [|done]; replace (b * (y / b)) with y in Hxy by (field; lra); done).
  split; [by apply Rdiv_lt_0_compat|]. split; [by apply Hdiv|]. intros u v Hu Hus Hv.
  destruct (HH (b * u) (b * v) ltac:(nra) ltac:(by apply Hmul) ltac:(by apply Hmul')) as [E X].
  assert (I : is_RInt (fun x => b * f (b * x)) u v (integral f (b * u) (b * v))).
  { apply (is_RInt_ext (fun x => scal b (f (b * x + 0)))); [intros; rewrite Rplus_0_r; reflexivity|].
    apply (is_RInt_comp_lin (V := R_NormedModule)). rewrite !Rplus_0_r. apply (@RInt_correct R_CompleteNormedModule). exact E. }
  split; [eexists; exact I|]. unfold integral at 1. rewrite (is_RInt_unique _ _ _ _ I). exact X.
Qed.

(** ** The mean: integration by parts *)
Lemma ln_sqrt_bound v : 0 < v -> ln v <= 2 * sqrt v.
Proof.
  intros H. pose proof (sqrt_lt_R0 v H) as Hs. rewrite <- (sqrt_sqrt v) at 1 by lra. rewrite ln_mult by done.
  assert (ln (sqrt v) <= sqrt v); [|lra]. left. apply exp_lt_inv. rewrite exp_ln by done. pose proof (exp_ineq1 (sqrt v)). lra.
Qed.
Lemma power_exp_bound a v : 0 < a -> 16 * (a * a) <= v -> Rpower v a * exp (- v) <= 2 / v.
Proof.
  intros Ha Hv. assert (V : 0 < v) by nra. pose proof (sqrt_lt_R0 v V) as Hs. pose proof (sqrt_sqrt v (Rlt_le _ _ V)) as HS.
  unfold Rpower. rewrite <- exp_plus. pose proof (ln_sqrt_bound v V) as HL.
  assert (4 * a <= sqrt v). { apply Rnot_lt_le. intros N. nra. }
  assert (a * ln v + - v <= - (v / 2)) by nra.
  apply Rle_trans with (exp (- (v / 2))); [destruct (Req_dec (a * ln v + - v) (- (v / 2))) as [->|]; [lra|left; apply exp_increasing; lra]|].
  rewrite exp_Ropp. replace (2 / v) with (/ (v / 2)) by (field; lra). apply Rinv_le_contravar; [lra|]. pose proof (exp_ineq1 (v / 2)). lra.
Qed.
Lemma euler_mean a G : 0 < a -> half_line_integral (euler a) G -> half_line_integral (fun t => t * euler a t) (a * G).
Proof.
  intros Ha H.
  assert (B0 : half_line_integral (fun t => a * euler a t - t * euler a t) 0).
  { intros eps He. set (e := eps / 2). assert (He' : 0 < e) by (unfold e; lra).
    set (s := Rpower e (/ a)). assert (Hs : 0 < s) by apply exp_pos.
    exists (Rmin s 1), (Rmax 1 (Rmax (16 * (a * a)) (2 / e)) + 1). assert (0 < Rmin s 1) by (apply Rmin_glb_lt; lra).
    pose proof (Rmin_l s 1). pose proof (Rmin_r s 1). pose proof (Rmax_l 1 (Rmax (16 * (a * a)) (2 / e))). pose proof (Rmax_r 1 (Rmax (16 * (a * a)) (2 / e))).
    pose proof (Rmax_l (16 * (a * a)) (2 / e)). pose proof (Rmax_r (16 * (a * a)) (2 / e)).
    split; [done|]. split; [lra|]. intros u v Hu Hus Hv.
    set (F := fun t => Rpower t a * exp (- t)).
    assert (I : is_RInt (fun t => a * euler a t - t * euler a t) u v (F v - F u)).
    { apply (@is_RInt_derive R_CompleteNormedModule F).
      - intros x [Hx _]. rewrite Rmin_left in Hx by lra. unfold F, euler, Rpower. auto_derive; [lra|].
        replace (exp ((a - 1) * ln x)) with (exp (a * ln x) * / x).
        2: { replace ((a - 1) * ln x) with (a * ln x + - ln x) by ring. rewrite exp_plus, exp_Ropp, exp_ln by lra. reflexivity. }
        field. lra.
      - intros x [Hx _]. rewrite Rmin_left in Hx by lra. apply (@ex_derive_continuous R_AbsRing R_NormedModule). unfold euler, Rpower. auto_derive. lra. }
    split; [eexists; exact I|]. unfold integral. rewrite (is_RInt_unique _ _ _ _ I). rewrite Rminus_0_r.
    assert (Fu : 0 < F u < e).
    { unfold F. pose proof (exp_pos (a * ln u)) as P1. pose proof (exp_pos (- u)) as P2. change (exp (a * ln u)) with (Rpower u a) in P1. split; [by apply Rmult_lt_0_compat|].
      assert (Rpower u a < e).
      { replace e with (Rpower s a). 2: { unfold s. rewrite Rpower_mult, Rinv_l, Rpower_1 by lra. reflexivity. }
        unfold Rpower. apply exp_increasing, Rmult_lt_compat_l; [done|]. apply ln_increasing; lra. }
      assert (exp (- u) < 1) by (rewrite <- exp_0; apply exp_increasing; lra). nra. }
    assert (Fv : 0 < F v <= e).
    { unfold F. split; [apply Rmult_lt_0_compat; apply exp_pos|]. eapply Rle_trans; [apply power_exp_bound; lra|].
      assert (2 / e < v) as Hev by lra. apply (Rmult_le_reg_r v); [lra|]. replace (2 / v * v) with 2 by (field; lra).
      apply (Rmult_lt_compat_l e) in Hev; [|done]. replace (e * (2 / e)) with 2 in Hev by (field; lra). lra. }
    apply Rabs_def1; unfold e in *; lra. }
  eapply half_line_ext; [apply (half_line_lin _ _ _ _ a (- 1) _ H B0 (fun x _ => eq_refl))| |ring].
  intros x _. cbv beta. ring.
Qed.

(** ** The divergence *)
Section KL.
  Context (lgamma psi : R -> R).
  Local Notation o := (greal lgamma psi).
  (** The densities of the two distributions, as returned by operator(), and the integral of p ln(p/q). *)
  Theorem gamma_KL_integral p q : gamma_reach o p -> gamma_reach o q -> special_functions_at lgamma psi (g_shape p) ->
    exists fp fq, (forall x, 0 < x -> gpdf o p x = Fin (fp x) /\ gpdf o q x = Fin (fq x) /\ 0 < fp x /\ 0 < fq x) /\
      half_line_integral fp 1 /\ half_line_integral (fun x => x * fp x) (ggetMean o p) /\
      half_line_integral (fun x => fp x * ln (fp x / fq x)) (gamma_KL lgamma psi (g_shape p) (g_inv p) (g_shape q) (g_inv q)).
  Proof.
    intros Hp Hq [H0 H1].
    destruct (gamma_parameters_real lgamma psi p Hp) as (Pa & Pb & _). destruct (gamma_parameters_real lgamma psi q Hq) as (Qa & Qb & _).
    destruct (gamma_density_real lgamma psi p Hp) as (_ & Dp & _). destruct (gamma_density_real lgamma psi q Hq) as (_ & Dq & _).
    set (a := g_shape p) in *. set (b := g_inv p) in *. set (a' := g_shape q) in *. set (b' := g_inv q) in *.
    assert (Pos : forall G c d x, 0 < gamma_density (exp G) c d x).
    { intros G c d x. unfold gamma_density, Rpower, Rdiv. repeat apply Rmult_lt_0_compat; try apply exp_pos. apply Rinv_0_lt_compat, exp_pos. }
    assert (Ln : forall G c d x, ln (gamma_density (exp G) c d x) = c * ln d + (c - 1) * ln x - d * x - G).
    { intros G c d x. unfold gamma_density, Rpower, Rdiv. rewrite <- exp_Ropp, <- !exp_plus, ln_exp. ring. }
    assert (Ef : forall x, 0 < x -> gamma_density (exp (lgamma a)) a b x = b * (/ exp (lgamma a) * euler a (b * x))).
    { intros x Hx. unfold gamma_density, euler. rewrite <- (Rpower_mult_distr b x) by done.
      replace (Rpower b a) with (b * Rpower b (a - 1)).
      2: { rewrite <- (Rpower_1 b) at 1 by done. rewrite <- Rpower_plus. f_equal. ring. }
      unfold Rdiv. ring. }
    assert (HG : exp (lgamma a) <> 0) by (apply Rgt_not_eq, exp_pos).
    pose proof (euler_mean a _ Pa H0) as H2.
    exists (gamma_density (exp (lgamma a)) a b), (gamma_density (exp (lgamma a')) a' b'). split.
    { intros x Hx. split; [by apply Dp|]. split; [by apply Dq|]. split; apply Pos. }
    split; [|split].
    - eapply half_line_ext; [apply (half_line_scale (fun t => / exp (lgamma a) * euler a t) 1 b Pb)|exact Ef|reflexivity].
      eapply half_line_ext; [apply (half_line_lin _ _ _ _ (/ exp (lgamma a)) 0 _ H0 H0 (fun x _ => eq_refl))|intros; cbv beta; ring|field; done].
    - eapply half_line_ext; [apply (half_line_scale (fun t => / b * (/ exp (lgamma a) * (t * euler a t))) (a / b) b Pb)| |unfold ggetMean; reflexivity].
      + eapply half_line_ext; [apply (half_line_lin _ _ _ _ (/ b * / exp (lgamma a)) 0 _ H2 H2 (fun x _ => eq_refl))|intros; cbv beta; ring|field; split; first [exact HG|lra]].
      + intros x Hx. rewrite Ef by done. field. split; first [exact HG|lra].
    - set (C := a' * (ln b - ln b') - lgamma a + lgamma a').
      assert (HC : half_line_integral (fun t => / exp (lgamma a) * (C * euler a t + (a - a') * (ln t * euler a t) + (b' - b) / b * (t * euler a t)))
                     (C + (a - a') * psi a + (b' - b) / b * a)).
      { assert (X : half_line_integral (fun t => C * euler a t + (a - a') * (ln t * euler a t)) (C * exp (lgamma a) + (a - a') * (psi a * exp (lgamma a))))
          by (apply (half_line_lin _ _ _ _ C (a - a') _ H0 H1 (fun x _ => eq_refl))).
        eapply half_line_ext; [apply (half_line_lin _ _ _ _ (/ exp (lgamma a)) (/ exp (lgamma a) * ((b' - b) / b)) _ X H2 (fun x _ => eq_refl))|intros; cbv beta; ring|].
        field. split; first [exact HG|lra]. }
      eapply half_line_ext; [apply (half_line_scale _ _ b Pb HC)| |unfold gamma_KL, C; field; lra].
      intros x Hx. cbv beta. rewrite ln_div by apply Pos. rewrite !Ln, Ef, ln_mult by done. unfold C. field. split; first [exact HG|lra].
  Qed.
  (** KLDivergence returns that integral exactly in these cases (the shapes agree, or the second is 1). *)
  Theorem gamma_KLDivergence_exactly p q fp fq : gamma_reach o p -> gamma_reach o q -> special_functions_at lgamma psi (g_shape p) ->
    (forall x, 0 < x -> gpdf o p x = Fin (fp x) /\ gpdf o q x = Fin (fq x)) ->
    half_line_integral (fun x => fp x * ln (fp x / fq x)) (gKL o p q) <-> g_shape q = 1 \/ psi (g_shape q) = psi (g_shape p).
  Proof.
    intros Hp Hq HS Hf. destruct (gamma_KL_integral p q Hp Hq HS) as (fp' & fq' & E & _ & _ & HI).
    assert (HI' : half_line_integral (fun x => fp x * ln (fp x / fq x)) (gamma_KL lgamma psi (g_shape p) (g_inv p) (g_shape q) (g_inv q))).
    { eapply half_line_ext; [exact HI| |reflexivity]. intros x Hx. destruct (E x Hx) as (E1 & E2 & _). destruct (Hf x Hx) as [F1 F2]. congruence. }
    destruct (gamma_KL_agreement lgamma psi p q Hp Hq) as [_ A]. split.
    - intros H. rewrite (half_line_unique _ _ _ H HI') in A. destruct A as [A _]. specialize (A eq_refl). apply Rmult_integral in A. lra.
    - intros H. replace (gKL o p q) with (gamma_KL lgamma psi (g_shape p) (g_inv p) (g_shape q) (g_inv q)); [exact HI'|]. symmetry. apply A. destruct H as [H|H]; rewrite H; ring.
  Qed.
End KL.

(** ** The hypotheses can be met: shape 1, with the mean of the logarithm that the exponential distribution has *)
Lemma monotone_limit (g : R -> R) c M : (forall x y, c <= x -> x <= y -> g x <= g y) -> (forall x, c <= x -> g x <= M) ->
  exists l, forall eps, 0 < eps -> exists B, c < B /\ forall v, B < v -> Rabs (g v - l) < eps.
Proof.
  intros Hm Hb. destruct (completeness (fun y => exists x, c <= x /\ y = g x)) as [l [U L]].
  - exists M. intros y (x & Hx & ->). by apply Hb.
  - exists (g c), c. split; [lra|done].
  - exists l. intros eps He. destruct (Classical_Prop.classic (exists x, c <= x /\ l - eps < g x)) as [(x & Hx & HX)|N].
    + exists (x + 1). split; [lra|]. intros v Hv. pose proof (Hm x v Hx ltac:(lra)). pose proof (U (g v) (ex_intro _ v (conj (ltac:(lra) : c <= v) eq_refl))).
      apply Rabs_def1; lra.
    + exfalso. assert (l <= l - eps); [|lra]. apply L. intros y (x & Hx & ->). apply Rnot_lt_le. intros HX. apply N. by exists x.
Qed.
Lemma euler1 t : euler 1 t = exp (- t).
Proof. unfold euler. rewrite Rminus_eq_0. unfold Rpower. rewrite Rmult_0_l, exp_0. ring. Qed.
Local Notation le t := (ln t * exp (- t)).
Lemma le_ex u v : 0 < u -> 0 < v -> ex_RInt (fun t => le t) u v.
Proof.
  intros Hu Hv. apply (@ex_RInt_continuous R_CompleteNormedModule). intros x [Hx _]. assert (0 < x) by (eapply Rlt_le_trans; [|exact Hx]; by apply Rmin_glb_lt).
  apply (@ex_derive_continuous R_AbsRing R_NormedModule). auto_derive. lra.
Qed.
Lemma le_chasles u v w : 0 < u -> 0 < v -> 0 < w -> RInt (fun t => le t) u v + RInt (fun t => le t) v w = RInt (fun t => le t) u w.
Proof. intros. apply (RInt_Chasles (V := R_CompleteNormedModule)); by apply le_ex. Qed.
Lemma ln_nonneg t : 1 <= t -> 0 <= ln t.
Proof. intros [H| <-]; [left; rewrite <- ln_1; apply ln_increasing; lra|rewrite ln_1; lra]. Qed.
Lemma ln_nonpos t : 0 < t -> t <= 1 -> ln t <= 0.
Proof. intros H0 [H| ->]; [left; rewrite <- ln_1; apply ln_increasing; lra|rewrite ln_1; lra]. Qed.
Lemma le_right u v : 1 <= u -> u <= v -> 0 <= RInt (fun t => le t) u v.
Proof.
  intros Hu Hv. apply RInt_ge_0; [done|apply le_ex; lra|]. intros x Hx. apply Rmult_le_pos; [apply ln_nonneg; lra|left; apply exp_pos].
Qed.
Lemma le_right_bound v : 1 <= v -> RInt (fun t => le t) 1 v <= 2.
Proof.
  intros Hv. assert (I : is_RInt (fun t => t * exp (- t)) 1 v (- (v + 1) * exp (- v) - - (1 + 1) * exp (- 1))).
  { apply (@is_RInt_derive R_CompleteNormedModule (fun t => - (t + 1) * exp (- t))).
    - intros x _. auto_derive; [done|]. ring.
    - intros x _. apply (@ex_derive_continuous R_AbsRing R_NormedModule). auto_derive. done. }
  apply Rle_trans with (RInt (fun t => t * exp (- t)) 1 v).
  - apply RInt_le; [done|apply le_ex; lra|eexists; exact I|]. intros x Hx. apply Rmult_le_compat_r; [left; apply exp_pos|].
    left. apply exp_lt_inv. rewrite exp_ln by lra. pose proof (exp_ineq1 x). lra.
  - rewrite (is_RInt_unique _ _ _ _ I). pose proof (exp_pos (- v)). assert (exp (- 1) <= 1) by (rewrite <- exp_0; left; apply exp_increasing; lra). nra.
Qed.
Lemma le_left u v : 0 < u -> u <= v -> v <= 1 -> RInt (fun t => le t) u v <= 0.
Proof.
  intros Hu Hv H1. assert (0 <= RInt (fun t => - (le t)) u v).
  { apply RInt_ge_0; [done|apply (@ex_RInt_opp R_NormedModule); apply le_ex; lra|]. intros x Hx. pose proof (ln_nonpos x ltac:(lra) ltac:(lra)). pose proof (exp_pos (- x)). nra. }
  rewrite (RInt_opp (V := R_CompleteNormedModule) (fun t => le t)) in H by (apply le_ex; lra). unfold opp in H. simpl in H. lra.
Qed.
Lemma le_left_bound u : 0 < u -> u <= 1 -> - 1 <= RInt (fun t => le t) u 1.
Proof.
  intros Hu H1. assert (I : is_RInt (fun t => ln t) u 1 ((1 * ln 1 - 1) - (u * ln u - u))).
  { apply (@is_RInt_derive R_CompleteNormedModule (fun t => t * ln t - t)).
    - intros x [Hx _]. rewrite Rmin_left in Hx by done. auto_derive; [lra|]. field. lra.
    - intros x [Hx _]. rewrite Rmin_left in Hx by done. apply (@ex_derive_continuous R_AbsRing R_NormedModule). auto_derive. lra. }
  apply Rle_trans with (RInt (fun t => ln t) u 1).
  - rewrite (is_RInt_unique _ _ _ _ I), ln_1. pose proof (ln_nonpos u Hu H1). nra.
  - apply RInt_le; [done|eexists; exact I|apply le_ex; lra|]. intros x Hx. pose proof (ln_nonpos x ltac:(lra) ltac:(lra)).
    assert (exp (- x) <= 1) by (rewrite <- exp_0; left; apply exp_increasing; lra). pose proof (exp_pos (- x)). nra.
Qed.
Lemma log_mean_exists : exists L, half_line_integral (fun t => ln t * euler 1 t) L.
Proof.
  destruct (monotone_limit (fun v => RInt (fun t => le t) 1 v) 1 2) as (l & Hl).
  { intros x y Hx Hy. rewrite <- (le_chasles 1 x y) by lra. pose proof (le_right x y Hx Hy). lra. }
  { apply le_right_bound. }
  destruct (monotone_limit (fun w => - RInt (fun t => le t) (/ w) 1) 1 1) as (k & Hk).
  { intros x y Hx Hy. assert (/ y <= / x) by (apply Rinv_le_contravar; lra). assert (0 < / y) by (apply Rinv_0_lt_compat; lra).
    rewrite <- (le_chasles (/ y) (/ x) 1) by lra. pose proof (le_left (/ y) (/ x) ltac:(done) ltac:(done)) as X. assert (/ x <= 1) by (rewrite <- Rinv_1; apply Rinv_le_contravar; lra). lra. }
  { intros x Hx. assert (0 < / x) by (apply Rinv_0_lt_compat; lra). assert (/ x <= 1) by (rewrite <- Rinv_1; apply Rinv_le_contravar; lra).
    pose proof (le_left_bound (/ x)). lra. }
  exists (l - k). intros eps He. destruct (Hl (eps / 2) ltac:(lra)) as (B & HB & HHl). destruct (Hk (eps / 2) ltac:(lra)) as (C & HC & HHk).
  assert (HC0 : 0 < / C) by (apply Rinv_0_lt_compat; lra). assert (/ C < 1) by (rewrite <- Rinv_1; apply Rinv_lt_contravar; lra).
  exists (/ C), B. split; [done|]. split; [lra|]. intros u v Hu HuC Hv.
  assert (E : forall x, le x = ln x * euler 1 x) by (intros; by rewrite euler1).
  split; [eapply ex_RInt_ext; [intros; apply E|apply le_ex; lra]|]. unfold integral. rewrite <- (RInt_ext (fun t => le t)) by (intros; apply E).
  rewrite <- (le_chasles u 1 v) by lra. specialize (HHl v Hv). assert (HuC' : C < / u). { rewrite <- (Rinv_inv C). apply Rinv_lt_contravar; [nra|done]. }
  specialize (HHk (/ u) HuC'). cbv beta in HHl, HHk. rewrite Rinv_inv in HHk. apply Rabs_def2 in HHl. apply Rabs_def2 in HHk. apply Rabs_def1; lra.
Qed.
(** A distribution with shape 1 and one with shape 2: every hypothesis of the two theorems holds, and KLDivergence differs from the integral. *)
Example gamma_KL_integral_ex : exists lgamma psi p q, let o := greal lgamma psi in
  special_functions_at lgamma psi (g_shape p) /\ gamma_reach o p /\ gamma_reach o q /\ g_shape p = 1 /\ g_shape q = 2 /\ psi (g_shape q) <> psi (g_shape p).
Proof.
  destruct log_mean_exists as [L HL]. set (psi := fun x => if Req_EM_T x 1 then L else L + 1).
  assert (HE : forall a, 0 < a -> exists d, gamma_reach (greal (fun _ => 0) psi) d /\ g_shape d = a).
  { intros a Ha. destruct (gamma_new (greal (fun _ => 0) psi) (Gamma 0 0 0) a 1) as [d| | |] eqn:E.
    - exists d. split; [by eapply gr_new|]. revert E. unfold gamma_new, setShape, setInvScale; simpl. destruct (Rle_dec a 0); [lra|]. simpl.
      destruct (Rle_dec 1 0); [lra|]. simpl. intros [= <-]. done.
    - exfalso. revert E. unfold gamma_new, setShape, setInvScale; simpl. destruct (Rle_dec a 0); [lra|]. simpl. destruct (Rle_dec 1 0); [lra|done].
    - exfalso. revert E. unfold gamma_new, setShape, setInvScale; simpl. destruct (Rle_dec a 0); [lra|]. simpl. destruct (Rle_dec 1 0); [lra|done].
    - exfalso. revert E. unfold gamma_new, setShape, setInvScale; simpl. destruct (Rle_dec a 0); [lra|]. simpl. destruct (Rle_dec 1 0); [lra|done]. }
  destruct (HE 1 ltac:(lra)) as (p & Hp & Ep). destruct (HE 2 ltac:(lra)) as (q & Hq & Eq).
  exists (fun _ => 0), psi, p, q. cbv zeta. rewrite Ep, Eq. split.
  { split.
    - rewrite exp_0. intros eps He. exists (Rmin (eps / 2) 1), (Rmax 2 (2 / eps)). pose proof (Rmin_l (eps / 2) 1). pose proof (Rmin_r (eps / 2) 1).
      pose proof (Rmax_l 2 (2 / eps)). pose proof (Rmax_r 2 (2 / eps)). split; [apply Rmin_glb_lt; lra|]. split; [lra|]. intros u v Hu Hus Hv.
      assert (I : is_RInt (euler 1) u v (- exp (- v) - - exp (- u))).
      { apply (is_RInt_ext (fun t => exp (- t))); [intros; by rewrite euler1|]. apply (@is_RInt_derive R_CompleteNormedModule (fun t => - exp (- t))).
        - intros x _. auto_derive; [done|]. ring.
        - intros x _. apply (@ex_derive_continuous R_AbsRing R_NormedModule). auto_derive. done. }
      split; [eexists; exact I|]. unfold integral. rewrite (is_RInt_unique _ _ _ _ I).
      assert (exp (- u) < 1) by (rewrite <- exp_0; apply exp_increasing; lra). pose proof (exp_ineq1 (- u)). pose proof (exp_pos (- v)).
      assert (exp (- v) < eps / 2).
      { rewrite exp_Ropp. replace (eps / 2) with (/ (2 / eps)) by (field; lra). assert (0 < 2 / eps) by (apply Rdiv_lt_0_compat; lra).
        apply Rinv_lt_contravar; [apply Rmult_lt_0_compat; [done|apply exp_pos]|]. pose proof (exp_ineq1 v). lra. }
      apply Rabs_def1; lra.
    - rewrite exp_0, Rmult_1_r. unfold psi. destruct (Req_EM_T 1 1); [exact HL|done]. }
  split; [done|]. split; [done|]. split; [done|]. split; [done|]. unfold psi. destruct (Req_EM_T 2 1); [lra|]. destruct (Req_EM_T 1 1); [lra|done].
Qed.
Print Assumptions gamma_KL_integral.
Print Assumptions gamma_KLDivergence_exactly.
