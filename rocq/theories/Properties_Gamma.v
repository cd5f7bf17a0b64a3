(** C39 and C42: gamma and chi-square distributions, log-factorial and log-gamma. *)
From stdpp Require Import prelude list.
From Coq Require Import Reals Lra Psatz.
From Coquelicot Require Coquelicot.
From Verif Require Import Base FunctionsModel GammaModel Spec_Gamma GammaAnalysis GammaProofs.
Local Open Scope R_scope.

(** ** C42 *)
Theorem log_factorial_correct n : logFactorial n = ln (INR (fact n)).
Proof. apply logFactorial_fact. Qed.

Theorem log_gamma_nat_correct n :
  (n = 0%nat -> logGammaNat n = Throw BadArgument) /\
  (n <> 0%nat -> logGammaNat n = Ret (ln (INR (fact (n - 1))))).
Proof.
  unfold logGammaNat. split; intros H; destruct (Nat.eqb_spec n 0); try done. by rewrite logFactorial_fact.
Qed.
(** The recurrence Gamma(n + 1) = n * Gamma(n). *)
Theorem log_gamma_nat_recurrence n : (1 <= n)%nat ->
  exists g h, logGammaNat n = Ret g /\ logGammaNat (n + 1) = Ret h /\ exp h = INR n * exp g.
Proof.
  intros H. exists (ln (INR (fact (n - 1)))), (ln (INR (fact n))).
  split; [by apply log_gamma_nat_correct; lia|].
  split; [rewrite (proj2 (log_gamma_nat_correct (n + 1))) by lia; do 4 f_equal; lia|].
  rewrite !exp_ln by apply fact_pos. rewrite <- mult_INR. f_equal.
  destruct n; [lia|]. simpl Nat.sub. rewrite Nat.sub_0_r. by rewrite fact_simpl.
Qed.
(** The multivariate log-gamma function: exp(value) = pi^(d(d-1)/4) * prod_(i<d) exp(lgamma(x - i/2)). *)
Theorem log_gamma_dim_correct lgamma d x :
  exp (logGammaDim lgamma d x) =
  Rpower PI (INR (d * (d - 1)) / 4) * fold_right Rmult 1 (map (fun i => exp (lgamma (x - INR i / 2))) (seq 0 d)).
Proof.
  unfold logGammaDim. rewrite exp_plus, Rmult_comm. f_equal.
  assert (G : forall l acc, exp (fold_left (fun sum i => sum + lgamma (x - / 2 * INR i)) l acc) =
     exp acc * fold_right Rmult 1 (map (fun i => exp (lgamma (x - INR i / 2))) l)).
  { induction l as [|i l IH]; intros acc; simpl; [lra|]. rewrite IH, exp_plus.
    replace (x - / 2 * INR i) with (x - INR i / 2) by lra. lra. }
  rewrite G, exp_0. lra.
Qed.

(** ** C39 *)

(** Parameters in every reachable state, and the exact effect of the setters; [T] is double or size_t. *)
Theorem gamma_parameters_real lgamma psi d :
  let o := greal lgamma psi in
  gamma_reach o d ->
  0 < g_shape d /\ 0 < g_inv d /\
  (forall a, a <= 0 -> setShape o d a = (d, Throw BadArgument)) /\
  (forall a, 0 < a -> exists d', setShape o d a = (d', Ret tt) /\ g_shape d' = a /\ g_inv d' = g_inv d) /\
  (forall b, b <= 0 -> setInvScale o d b = (d, Throw BadArgument)) /\
  (forall b, 0 < b -> exists d', setInvScale o d b = (d', Ret tt) /\ g_shape d' = g_shape d /\ g_inv d' = b).
Proof.
  intros o H. apply gamma_reach_good in H as (H1 & H2 & _).
  assert (0 < g_shape d). { revert H1; simpl. destruct (Rle_dec (g_shape d) 0); [done|lra]. }
  split; [done|]. split; [done|]. unfold setShape, setInvScale; simpl.
  split; [intros a Ha; destruct (Rle_dec a 0); [done|lra]|].
  split; [intros a Ha; destruct (Rle_dec a 0); [lra|by eexists]|].
  split; [intros b Hb; destruct (Rle_dec b 0); [done|lra]|].
  intros b Hb; destruct (Rle_dec b 0); [lra|by eexists].
Qed.
Theorem gamma_parameters_nat psi d :
  let o := gnat psi in
  gamma_reach o d ->
  (0 < g_shape d)%nat /\ 0 < g_inv d /\
  setShape o d 0%nat = (d, Throw BadArgument) /\
  (forall a, (0 < a)%nat -> exists d', setShape o d a = (d', Ret tt) /\ g_shape d' = a /\ g_inv d' = g_inv d) /\
  (forall b, b <= 0 -> setInvScale o d b = (d, Throw BadArgument)) /\
  (forall b, 0 < b -> exists d', setInvScale o d b = (d', Ret tt) /\ g_shape d' = g_shape d /\ g_inv d' = b).
Proof.
  intros o H. apply gamma_reach_good in H as (H1 & H2 & _).
  assert (0 < g_shape d)%nat. { revert H1; simpl. destruct (Nat.leb_spec (g_shape d) 0); [done|lia]. }
  split; [done|]. split; [done|]. unfold setShape, setInvScale; simpl.
  split; [done|].
  split; [intros a Ha; destruct (Nat.leb_spec a 0); [lia|by eexists]|].
  split; [intros b Hb; destruct (Rle_dec b 0); [done|lra]|].
  intros b Hb; destruct (Rle_dec b 0); [lra|by eexists].
Qed.

(** The density against the textbook formula, for real shapes; [exp (lgamma a)] is the gamma function at [a]. *)
Theorem gamma_density_real lgamma psi d :
  let o := greal lgamma psi in
  gamma_reach o d ->
  (forall x, x < 0 -> gpdf o d x = Fin 0) /\
  (forall x, 0 < x -> gpdf o d x = Fin (gamma_density (exp (lgamma (g_shape d))) (g_shape d) (g_inv d) x)) /\
  (1 < g_shape d -> gpdf o d 0 = Fin 0) /\
  (g_shape d = 1 -> gpdf o d 0 = Fin (g_inv d / exp (lgamma 1))) /\
  (g_shape d < 1 -> gpdf o d 0 = PInf).
Proof.
  intros o H. apply gamma_reach_good in H as (H1 & H2 & H3).
  assert (Hlg : forall a, t_lg o a = lgamma a).
  { intros a. simpl. unfold logGammaDim. simpl. rewrite Rmult_0_r, Rminus_0_r. lra. }
  rewrite Hlg in H3. simpl in H3.
  split; [|split; [|split; [|split]]].
  - intros x Hx. unfold gpdf. destruct (Rlt_dec x 0); [done|lra].
  - intros x Hx. unfold gpdf. destruct (Rlt_dec x 0); [lra|].
    unfold glogpdf. destruct (Req_EM_T x 0); [lra|]. simpl.
    destruct (Rlt_dec x 0); [lra|]. unfold mul_log. destruct (Rlt_dec 0 x); [|lra]. simpl. f_equal.
    rewrite H3. unfold gamma_density, Rpower, Rdiv. rewrite <- (exp_Ropp (lgamma _)), <- !exp_plus. f_equal. ring.
  - intros Ha. unfold gpdf. destruct (Rlt_dec 0 0); [lra|]. unfold glogpdf. destruct (Req_EM_T 0 0); [|lra]. simpl.
    destruct (Req_EM_T (g_shape d) 1); [lra|]. destruct (Rlt_dec 0 0); [lra|]. unfold mul_log.
    destruct (Rlt_dec 0 0); [lra|]. destruct (Rlt_dec 0 (g_shape d - 1)); [done|lra].
  - intros Ha. unfold gpdf. destruct (Rlt_dec 0 0); [lra|]. unfold glogpdf. destruct (Req_EM_T 0 0); [|lra]. simpl.
    destruct (Req_EM_T (g_shape d) 1); [|lra]. simpl. f_equal. rewrite H3, Ha.
    replace (- (lgamma 1 - 1 * ln (g_inv d))) with (ln (g_inv d) + - lgamma 1) by ring.
    rewrite exp_plus, exp_ln, exp_Ropp by done. done.
  - intros Ha. unfold gpdf. destruct (Rlt_dec 0 0); [lra|]. unfold glogpdf. destruct (Req_EM_T 0 0); [|lra]. simpl.
    destruct (Req_EM_T (g_shape d) 1); [lra|]. destruct (Rlt_dec 0 0); [lra|]. unfold mul_log.
    destruct (Rlt_dec 0 0); [lra|]. destruct (Rlt_dec 0 (g_shape d - 1)); [lra|].
    destruct (Rlt_dec (g_shape d - 1) 0); [done|lra].
Qed.

(** The probability of an interval is Euler's integral over the scaled interval divided by the gamma function; if
    boost's gamma_p is the regularised incomplete gamma function then [cdf] is the integral of the density. *)
Theorem gamma_mass_real lgamma psi gammaP d u v :
  let o := greal lgamma psi in
  let a := g_shape d in
  let b := g_inv d in
  gamma_reach o d -> 0 < u -> u <= v ->
  exists f, (forall x, 0 < x -> gpdf o d x = Fin (f x)) /\
  integral f u v = integral (euler a) (b * u) (b * v) / exp (lgamma a) /\
  ((forall s t, 0 < s -> s <= t -> gammaP a t - gammaP a s = integral (euler a) s t / exp (lgamma a)) ->
   gcdf o gammaP d v - gcdf o gammaP d u = integral f u v).
Proof.
  intros o a b H Hu Huv. destruct (gamma_density_real lgamma psi d H) as (_ & Hpos & _).
  apply gamma_reach_good in H as (H1 & H2 & H3).
  exists (gamma_density (exp (lgamma a)) a b). split; [done|].
  assert (E : integral (gamma_density (exp (lgamma a)) a b) u v = integral (euler a) (b * u) (b * v) / exp (lgamma a)).
  { by apply density_mass. }
  split; [done|]. intros HP. rewrite E. unfold gcdf.
  destruct (Rle_dec v 0); [lra|]. destruct (Rle_dec u 0); [lra|].
  change (t_R o (g_shape d)) with a. change (g_inv d) with b. rewrite (Rmult_comm v), (Rmult_comm u).
  apply HP; [apply Rmult_lt_0_compat; done|apply Rmult_le_compat_l; [apply Rlt_le; done|done]].
Qed.

(** Integer shapes, with the log-gamma function of this code base: total mass one, and [getMean] and [getVariance]
    are the first moment and the second central moment. *)
Theorem gamma_moments_nat psi d :
  let o := gnat psi in
  gamma_reach o d ->
  exists f, (forall x, 0 < x -> gpdf o d x = Fin (f x)) /\ (forall x, 0 < x -> 0 < f x) /\
    tends_to (fun v => integral f 0 v) 1 /\
    tends_to (fun v => integral (fun x => x * f x) 0 v) (ggetMean o d) /\
    tends_to (fun v => integral (fun x => (x - ggetMean o d) * (x - ggetMean o d) * f x) 0 v) (ggetVariance o d).
Proof.
  intros o H. apply gamma_reach_good in H as (H1 & H2 & H3).
  assert (Hs : (1 <= g_shape d)%nat). { revert H1; simpl. destruct (Nat.leb_spec (g_shape d) 0); [done|lia]. }
  set (b := g_inv d) in *. set (n := (g_shape d - 1)%nat).
  assert (Hn : g_shape d = Datatypes.S n) by (unfold n; lia).
  assert (Hnrm : g_nrm d = ln (INR (fact n)) - INR (Datatypes.S n) * ln b).
  { rewrite H3, Hn. unfold o; cbn [t_lg t_R gnat]. rewrite (proj2 (log_gamma_nat_correct _)) by lia. simpl Nat.sub. by rewrite Nat.sub_0_r. }
  assert (Hm : ggetMean o d = INR (Datatypes.S n) / b) by (unfold ggetMean; simpl t_R; by rewrite Hn).
  assert (Hv : ggetVariance o d = INR (Datatypes.S n) / (b * b)) by (unfold ggetVariance; simpl t_R; by rewrite Hn).
  exists (erl b n). split; [|split; [|split; [|split]]].
  - intros x Hx. unfold gpdf. destruct (Rlt_dec x 0); [lra|].
    unfold glogpdf. destruct (Req_EM_T x 0); [lra|]. cbn [andb].
    destruct (Rlt_dec x 0); [lra|]. unfold mul_log. destruct (Rlt_dec 0 x); [|lra]. cbn [ext_exp t_R o gnat]. f_equal.
    rewrite Hn, Hnrm. replace (INR (Datatypes.S n) - 1) with (INR n) by (rewrite S_INR; lra).
    unfold erl, term. replace (b * (_ * _)) with (exp (ln b) * ((b * x) ^ n / INR (fact n) * exp (- (b * x)))) by (by rewrite exp_ln).
    rewrite <- (exp_ln (INR (fact n))) at 2 by apply fact_pos.
    rewrite <- (Rpower_pow n (b * x)) by (apply Rmult_lt_0_compat; done). unfold Rpower, Rdiv.
    rewrite <- exp_Ropp, <- !exp_plus. f_equal. rewrite ln_mult, S_INR by done. fold b. ring.
  - intros x Hx. by apply erl_pos.
  - replace 1 with (0 + 0 + 1) by lra. apply (erl_comb_limit b n); [done|]. intros x. lra.
  - rewrite Hm. replace (INR (Datatypes.S n) / b) with (0 + INR (Datatypes.S n) / b + 0) by lra.
    apply (erl_comb_limit b n); [done|]. intros x. rewrite erl_shift by done. lra.
  - rewrite Hm, Hv. set (m := INR (Datatypes.S n)).
    replace (m / (b * b)) with (m / b * ((m + 1) / b) + - (2 * (m / b) * (m / b)) + m / b * (m / b)) by (field; lra).
    apply (erl_comb_limit b n); [done|]. intros x.
    replace ((x - m / b) * (x - m / b) * erl b n x) with
      (x * (x * erl b n x) - 2 * (m / b) * (x * erl b n x) + m / b * (m / b) * erl b n x) by ring.
    rewrite erl_shift by done. fold m.
    replace (x * (m / b * erl b (n + 1) x)) with (m / b * (x * erl b (n + 1) x)) by ring.
    rewrite (erl_shift b (n + 1)) by done. replace (n + 1 + 1)%nat with (n + 2)%nat by lia.
    replace (INR (Datatypes.S (n + 1))) with (m + 1) by (unfold m; rewrite <- S_INR; f_equal; lia). ring.
Qed.

(** The mode: refused below shape 1, otherwise the point of highest density. *)
Theorem gamma_mode_real lgamma psi d :
  let o := greal lgamma psi in
  gamma_reach o d ->
  (g_shape d < 1 -> ggetMode o d = Throw InvalidOperation) /\
  (1 <= g_shape d -> exists m fm, ggetMode o d = Ret m /\ 0 <= m /\ gpdf o d m = Fin fm /\
     forall x, exists fx, gpdf o d x = Fin fx /\ fx <= fm).
Proof.
  intros o H. destruct (gamma_density_real lgamma psi d H) as (Hneg & Hpos & Hz1 & Hz2 & _).
  apply gamma_reach_good in H as (H1 & H2 & H3). fold o in Hneg, Hpos, Hz1, Hz2.
  set (a := g_shape d) in *. set (b := g_inv d) in *. set (G := exp (lgamma a)) in *.
  assert (HG : 0 < / G) by (apply Rinv_0_lt_compat, exp_pos).
  unfold ggetMode; simpl t_ge1. fold a. split.
  { intros Ha. destruct (Rle_dec 1 a); [lra|done]. }
  intros Ha. destruct (Rle_dec 1 a); [|lra].
  assert (Hb' : 0 < / b) by (apply Rinv_0_lt_compat; done).
  assert (Hd0 : forall x, 0 <= gamma_density G a b x).
  { intros x. unfold gamma_density, Rpower. apply Rmult_le_pos; [|lra].
    repeat apply Rmult_le_pos; apply Rlt_le, exp_pos. }
  destruct (Req_dec a 1) as [Ha1|Ha1].
  - exists 0, (b / G). split; [f_equal; simpl t_R; fold a; rewrite Ha1; fold b; unfold Rdiv; ring|]. split; [lra|].
    split; [rewrite Hz2 by done; unfold G; by rewrite Ha1|].
    intros x. destruct (Rtotal_order x 0) as [Hx|[->|Hx]].
    + exists 0. split; [by apply Hneg|]. apply Rmult_le_pos; lra.
    + exists (b / G). split; [rewrite Hz2 by done; unfold G; by rewrite Ha1|lra].
    + eexists. split; [by apply Hpos|]. unfold gamma_density. rewrite Ha1.
      replace (1 - 1) with 0 by lra. rewrite Rpower_1, Rpower_O by done. unfold Rdiv.
      apply Rmult_le_compat_r; [lra|]. rewrite Rmult_1_r. apply Rle_trans with (b * 1); [|lra].
      apply Rmult_le_compat_l; [lra|]. rewrite <- exp_0. apply Rlt_le, exp_increasing.
      assert (0 < b * x) by (apply Rmult_lt_0_compat; done). lra.
  - set (m := (a - 1) / b). assert (Hm : 0 < m) by (apply Rmult_lt_0_compat; lra).
    exists m, (gamma_density G a b m). split; [done|]. split; [lra|]. split; [by apply Hpos|].
    intros x. destruct (Rtotal_order x 0) as [Hx|[->|Hx]].
    + exists 0. split; [by apply Hneg|done].
    + exists 0. split; [apply Hz1; lra|done].
    + eexists. split; [by apply Hpos|]. unfold gamma_density, Rdiv. apply Rmult_le_compat_r; [lra|].
      rewrite !Rmult_assoc. apply Rmult_le_compat_l; [apply Rlt_le, exp_pos|].
      unfold Rpower. rewrite <- !exp_plus.
      assert (E : (a - 1) * ln x + - (b * x) <= (a - 1) * ln m + - (b * m)).
      { assert (Hl : ln x - ln m <= x / m - 1).
        { assert (ln x - ln m = ln (x / m)) as -> by (unfold Rdiv; rewrite ln_mult, ln_Rinv; [lra|done|done|by apply Rinv_0_lt_compat]).
          pose proof (exp_ineq1_le (ln (x / m))) as E.
          rewrite exp_ln in E by (apply Rmult_lt_0_compat; [done|by apply Rinv_0_lt_compat]). lra. }
        assert (b * m = a - 1) as Hbm by (unfold m; field; lra).
        assert ((a - 1) * (ln x - ln m) <= (a - 1) * (x / m - 1)) by (apply Rmult_le_compat_l; lra).
        assert ((a - 1) * (x / m - 1) = b * x - b * m) by (rewrite <- Hbm; field; lra). lra. }
      destruct E as [E|E]; [left; by apply exp_increasing|right; by rewrite E].
Qed.

(** Kullback-Leibler divergence.  It is zero from a distribution to itself and agrees with the textbook formula
    exactly when (a_q - 1) * (psi(a_q) - psi(a_p)) = 0 ... *)
Theorem gamma_KL_agreement lgamma psi p q :
  let o := greal lgamma psi in
  gamma_reach o p -> gamma_reach o q ->
  gKL o p p = 0 /\
  (gKL o p q = gamma_KL lgamma psi (g_shape p) (g_inv p) (g_shape q) (g_inv q) <->
   (g_shape q - 1) * (psi (g_shape q) - psi (g_shape p)) = 0).
Proof.
  intros o Hp Hq. apply gamma_reach_good in Hp as (_ & Hp & _). apply gamma_reach_good in Hq as (_ & Hq & _).
  assert (Hlg : forall a, t_lg o a = lgamma a).
  { intros a. simpl. unfold logGammaDim. simpl. rewrite Rmult_0_r, Rminus_0_r. lra. }
  unfold gKL. rewrite !Hlg. simpl t_R. simpl t_psi. split; [field; lra|].
  unfold gamma_KL.
  assert (E : g_shape p * (1 / g_inv p - 1 / g_inv q) * g_inv q = g_shape p * (g_inv q - g_inv p) / g_inv p)
    by (field; lra).
  rewrite E. split; intros; lra.
Qed.
(** ... and for the real digamma function (psi(x+1) = psi(x) + 1/x, -1 < psi(1)) the result can even be negative. *)
Theorem gamma_KL_refuted lgamma psi :
  (forall x, 0 < x -> psi (x + 1) = psi x + 1 / x) -> -1 < psi 1 -> lgamma 1 = 0 -> lgamma 2 = 0 ->
  let o := greal lgamma psi in
  exists p q, gamma_reach o p /\ gamma_reach o q /\
    gKL o p q <> gamma_KL lgamma psi (g_shape p) (g_inv p) (g_shape q) (g_inv q) /\ gKL o p q < 0.
Proof.
  intros Hpsi H1 Hl1 Hl2 o.
  assert (Hnew : forall a, 0 < a -> exists d, gamma_reach o d /\ g_shape d = a /\ g_inv d = 1).
  { intros a Ha. destruct (gamma_new o (Gamma 0 0 0) a 1) as [d| | |] eqn:E.
    - exists d. split; [by eapply gr_new|]. revert E. unfold gamma_new, setShape; simpl.
      destruct (Rle_dec a 0); [done|]. unfold setInvScale. destruct (Rle_dec 1 0); [lra|]. intros [= <-]. done.
    - exfalso. revert E. unfold gamma_new, setShape; simpl. destruct (Rle_dec a 0); [lra|].
      unfold setInvScale. destruct (Rle_dec 1 0); [lra|done].
    - exfalso. revert E. unfold gamma_new, setShape; simpl. destruct (Rle_dec a 0); [lra|].
      unfold setInvScale. destruct (Rle_dec 1 0); [lra|done].
    - exfalso. revert E. unfold gamma_new, setShape; simpl. destruct (Rle_dec a 0); [lra|].
      unfold setInvScale. destruct (Rle_dec 1 0); [lra|done]. }
  destruct (Hnew 1 ltac:(lra)) as (p & Rp & Sp & Ip). destruct (Hnew 2 ltac:(lra)) as (q & Rq & Sq & Iq).
  assert (Hpsi2 : psi 2 = psi 1 + 1).
  { replace 2 with (1 + 1) by lra. rewrite Hpsi by lra. lra. }
  exists p, q. split; [done|]. split; [done|]. split.
  - intros E. apply gamma_KL_agreement in E; [|done|done]. rewrite Sp, Sq, Hpsi2 in E. lra.
  - assert (Hlg : forall a, t_lg o a = lgamma a).
    { intros a. simpl. unfold logGammaDim. simpl. rewrite Rmult_0_r, Rminus_0_r. lra. }
    unfold gKL. rewrite !Hlg, Sp, Sq, Ip, Iq. simpl. rewrite Hpsi2, Hl1, Hl2, ln_1. lra.
Qed.

(** Chi-square: construction, degrees of freedom, mean, variance, mode. *)
Theorem chi_square_degrees lgamma psi junk k :
  let o := greal lgamma psi in
  (k <= 0 -> chi_new lgamma psi junk k = Throw BadArgument) /\
  (0 < k -> exists d, chi_new lgamma psi junk k = Ret d /\ gamma_reach o d /\ getDegrees d = k /\
     ggetMean o d = k /\ ggetVariance o d = 2 * k /\
     (k < 2 -> ggetMode o d = Throw InvalidOperation) /\ (2 <= k -> ggetMode o d = Ret (k - 2))) /\
  (forall d k', gamma_reach o d -> 
     (k' <= 0 -> setDegrees lgamma psi d k' = (d, Throw BadArgument)) /\
     (0 < k' -> exists d', setDegrees lgamma psi d k' = (d', Ret tt) /\ getDegrees d' = k' /\ g_inv d' = g_inv d)).
Proof.
  intros o. split; [|split].
  - intros Hk. unfold chi_new, gamma_new, setShape; simpl. destruct (Rle_dec (/ 2 * k) 0); [done|lra].
  - intros Hk. destruct (chi_new lgamma psi junk k) as [d| | |] eqn:E.
    2-4: exfalso; revert E; unfold chi_new, gamma_new, setShape; simpl; destruct (Rle_dec (/ 2 * k) 0); [lra|];
      unfold setInvScale; destruct (Rle_dec (/ 2) 0); [lra|done].
    exists d. split; [done|]. split; [by eapply gr_new|].
    assert (Hd : g_shape d = / 2 * k /\ g_inv d = / 2).
    { revert E; unfold chi_new, gamma_new, setShape; simpl; destruct (Rle_dec (/ 2 * k) 0); [lra|];
        unfold setInvScale; destruct (Rle_dec (/ 2) 0); [lra|]. intros [= <-]. done. }
    destruct Hd as [Hs Hi]. unfold getDegrees, ggetMean, ggetVariance, ggetMode. simpl. rewrite Hs, Hi.
    split; [lra|]. split; [field|]. split; [field|].
    split; intros H; destruct (Rle_dec 1 (/ 2 * k)); try lra; [done|]. f_equal. field.
  - intros d k' Hd. destruct (gamma_parameters_real lgamma psi d Hd) as (_ & _ & Ha & Hb & _).
    unfold setDegrees. split; intros Hk.
    + apply Ha. lra.
    + destruct (Hb (k' * / 2) ltac:(lra)) as (d' & E & Hs & Hi). exists d'. split; [done|]. split; [|done].
      unfold getDegrees. rewrite Hs. lra.
Qed.
(** [getMedian] lies strictly between zero and the mean exactly above 2/9 degrees of freedom; below it is negative,
    outside the support. *)
Theorem chi_square_median lgamma psi d :
  let o := greal lgamma psi in
  gamma_reach o d -> g_inv d = / 2 ->
  chiMedian d < ggetMean o d /\ (0 < chiMedian d <-> 2 / 9 < getDegrees d).
Proof.
  intros o Hd Hi. destruct (gamma_parameters_real lgamma psi d Hd) as (Hs & _ & _).
  unfold chiMedian, ggetMean. simpl t_R. rewrite Hi. set (k := getDegrees d).
  assert (Hk : 0 < k) by (unfold k, getDegrees; lra).
  replace (g_shape d / / 2) with k by (unfold k, getDegrees; field).
  set (t := 2 / (9 * k)).
  assert (Ht : 0 < t) by (unfold t; apply Rdiv_lt_0_compat; lra).
  assert (Htk : t * k = 2 / 9) by (unfold t; field; lra).
  split.
  - assert ((1 - t) ^ 3 < 1).
    { destruct (Rle_or_lt (1 - t) 0) as [Hn|Hp].
      - assert ((1 - t) ^ 3 <= 0); [|lra]. replace ((1 - t) ^ 3) with ((1 - t) * (1 - t) ^ 2) by ring.
        assert (0 <= (1 - t) ^ 2) by apply pow2_ge_0. nra.
      - assert (0 < (1 - t) ^ 2) by (apply pow_lt; lra).
        assert ((1 - t) ^ 2 < 1) by (replace ((1 - t) ^ 2) with ((1 - t) * (1 - t)) by ring; nra).
        replace ((1 - t) ^ 3) with ((1 - t) * (1 - t) ^ 2) by ring. nra. }
    nra.
  - split; intros H.
    + destruct (Rlt_le_dec (2 / 9) k) as [|Hn]; [done|]. exfalso.
      assert (1 <= t). { destruct (Rle_or_lt 1 t); [done|]. exfalso. nra. }
      assert ((1 - t) ^ 3 <= 0).
      { replace ((1 - t) ^ 3) with ((1 - t) * (1 - t) ^ 2) by ring. assert (0 <= (1 - t) ^ 2) by apply pow2_ge_0. nra. }
      nra.
    + assert (t < 1). { destruct (Rlt_or_le t 1); [done|]. exfalso. nra. }
      apply Rmult_lt_0_compat; [done|]. apply pow_lt. lra.
Qed.

(** Non-vacuous: gamma distributions with real and integer shapes. *)
Example gamma_example lgamma psi psi' :
  (exists d, gamma_reach (greal lgamma psi) d /\ g_shape d = 3 / 2 /\ g_inv d = 2) /\
  (exists d, gamma_reach (gnat psi') d /\ g_shape d = 3%nat /\ g_inv d = 2).
Proof.
  split.
  - eexists. split.
    + eapply (gr_new _ (Gamma 0 0 0) (3 / 2) 2). unfold gamma_new, setShape; simpl.
      destruct (Rle_dec (3 / 2) 0); [lra|]. unfold setInvScale. destruct (Rle_dec 2 0); [lra|]. done.
    + done.
  - eexists. split.
    + eapply (gr_new _ (Gamma 0%nat 0 0) 3%nat 2). unfold gamma_new, setShape; simpl.
      unfold setInvScale. destruct (Rle_dec 2 0); [lra|]. done.
    + done.
Qed.
