(** C34, C35 (exact arithmetic) and C60 (IEEE doubles): [NormalDistribution<1>] and its ML estimator. *)
From stdpp Require Import prelude list.
From Coq Require Import Reals Lra Psatz ZArith.
From Coquelicot Require Coquelicot.
From Flocq Require Import Core BinarySingleNaN.
From Verif Require Import Base GridModel NormalModel Spec_Normal NormalProofs NormalErfProofs GaussIntegral.
Local Open Scope R_scope.

Local Notation is_derive := (@Derive.is_derive Hierarchy.R_AbsRing Hierarchy.R_NormedModule).
Local Notation RInt := (@RInt.RInt Hierarchy.R_CompleteNormedModule).

(** ** C35 *)

(** In every state a program can reach, all stored quantities belong to one positive variance. *)
Theorem normal1_cached_consistent d :
  normal1_reach real_sops d ->
  0 < getVariance d /\
  getPrecision d * getVariance d = 1 /\
  0 < getStandardDeviation d /\ getStandardDeviation d * getStandardDeviation d = getVariance d /\
  exp (getNormalizer d) = sqrt (2 * PI * getVariance d) /\
  getMedian d = getMean d /\ getMode d = getMean d.
Proof.
  intros H. apply n1_reach_ok in H as (Hv & Hp & Hs & Hn).
  unfold getVariance, getPrecision, getStandardDeviation, getNormalizer, getMedian, getMode, getMean.
  split; [done|]. split; [rewrite Hp; field; lra|].
  split; [rewrite Hs; by apply sqrt_lt_R0|]. split; [rewrite Hs; apply sqrt_sqrt; lra|].
  split; [|done].
  rewrite Hn, half_ln_sqrt by (by apply two_pi_pos). apply exp_ln, sqrt_lt_R0, two_pi_pos, Hv.
Qed.

(** The setters: exactly the non-positive variances are rejected, and a rejected call changes nothing. *)
Theorem normal1_setters d :
  normal1_reach real_sops d ->
  (forall m, getMean (setMean d m) = m /\ getVariance (setMean d m) = getVariance d) /\
  (forall v, v <= 0 -> setVariance real_sops d v = (d, Throw BadArgument)) /\
  (forall v, 0 < v -> exists d', setVariance real_sops d v = (d', Ret tt) /\
     normal1_reach real_sops d' /\ getVariance d' = v /\ getMean d' = getMean d) /\
  (forall junk m v, (v <= 0 -> normal1_new real_sops junk m v = Throw BadArgument) /\
     (0 < v -> exists d', normal1_new real_sops junk m v = Ret d' /\ getMean d' = m /\ getVariance d' = v)).
Proof.
  intros H. split; [done|]. split; [intros; by apply setVariance_bad|]. split.
  - intros v Hv. eexists. split; [by rewrite setVariance_good|]. split; [|done].
    replace (Normal1 _ _ _ _ _) with (fst (setVariance real_sops d v)); [by constructor|].
    rewrite setVariance_good; done.
  - intros junk m v. unfold normal1_new. split; intros Hv.
    + by rewrite setVariance_bad.
    + rewrite setVariance_good by done. eexists; done.
Qed.

(** The density is the normal density, [logpdf] its logarithm, and the mode its unique maximum. *)
Theorem normal1_density d x :
  normal1_reach real_sops d ->
  pdf real_sops d x = gauss (getMean d) (getVariance d) x /\
  0 < pdf real_sops d x /\ logpdf real_sops d x = ln (pdf real_sops d x) /\
  (x <> getMode d -> pdf real_sops d x < pdf real_sops d (getMode d)).
Proof.
  intros H. apply n1_reach_ok in H as Hok. split; [by apply pdf_gauss|].
  split; [rewrite pdf_gauss by done; apply gauss_pos, Hok|].
  split; [unfold pdf; simpl; by rewrite ln_exp|].
  intros Hx. rewrite !pdf_gauss by done. destruct Hok as (Hv & _).
  unfold gauss, getMode, getMean, getVariance in *.
  apply Rmult_lt_compat_l; [apply Rinv_0_lt_compat, sqrt_lt_R0, two_pi_pos, Hv|].
  apply exp_increasing. unfold Rdiv.
  apply Rmult_lt_compat_r; [apply Rinv_0_lt_compat; lra|].
  assert (0 < Rsqr (x - n1_mean d)) as Hs by (apply Rsqr_pos_lt; lra). unfold Rsqr in Hs. lra.
Qed.

(** The cdf is the distribution function of that density: it is its antiderivative, runs strictly increasing
    from 0 to 1 and takes the value 1/2 at the median. *)
Theorem normal1_cdf d :
  normal1_reach real_sops d ->
  (forall x, is_derive (cdf real_sops d) x (pdf real_sops d x)) /\
  (forall a b, RInt (pdf real_sops d) a b = cdf real_sops d b - cdf real_sops d a) /\
  (forall x y, x < y -> cdf real_sops d x < cdf real_sops d y) /\
  (forall x, 0 < cdf real_sops d x < 1) /\
  (forall eps, 0 < eps -> exists B, forall x, B < x ->
     1 - eps < cdf real_sops d x /\ cdf real_sops d (- x) < eps) /\
  cdf real_sops d (getMedian d) = / 2 /\
  (forall t, cdf real_sops d (getMean d + t) + cdf real_sops d (getMean d - t) = 1).
Proof.
  intros H. apply n1_reach_ok in H as Hok. pose proof (proj1 Hok) as Hv.
  set (w := sqrt (2 * n1_var d)).
  assert (Hw : 0 < w) by (apply sqrt_lt_R0; lra).
  assert (HD : forall x, is_derive (cdf real_sops d) x (pdf real_sops d x)) by (intros; by apply cdf_derive).
  assert (HC : forall x, cdf real_sops d x = / 2 * (1 + erf ((x - n1_mean d) / w))) by (intros; by apply cdf_at).
  split; [done|]. split.
  { intros a b. by apply pdf_RInt. }
  split.
  { intros x y Hxy. rewrite !HC. assert ((x - n1_mean d) / w < (y - n1_mean d) / w) as Hl.
    { unfold Rdiv. apply Rmult_lt_compat_r; [by apply Rinv_0_lt_compat|lra]. }
    apply erf_incr in Hl. lra. }
  split; [intros x; rewrite HC; pose proof (erf_bound ((x - n1_mean d) / w)); lra|].
  split.
  { intros eps He.
    set (T := 4 / PI * / eps). pose proof PI_RGT_0.
    assert (H4 : 0 < 4 / PI) by (apply Rdiv_lt_0_compat; lra).
    assert (HT : 0 < T) by (apply Rmult_lt_0_compat; [done|by apply Rinv_0_lt_compat]).
    assert (Htail : forall z, T < z -> 1 - eps < erf z).
    { intros z Hz. assert (0 < z) as Hz0 by lra. pose proof (erf_tail z Hz0) as Ht.
      assert (4 / PI * / z < eps); [|lra].
      apply (Rmult_lt_reg_r z); [done|]. rewrite Rmult_assoc, Rinv_l, Rmult_1_r by lra.
      apply (Rmult_lt_compat_l eps) in Hz; [|done].
      replace (eps * T) with (4 / PI) in Hz by (unfold T; field; split; lra). done. }
    exists (Rabs (n1_mean d) + T * w). intros x Hx. rewrite !HC.
    pose proof (Rle_abs (n1_mean d)). pose proof (Rle_abs (- n1_mean d)) as Hn. rewrite Rabs_Ropp in Hn.
    split.
    - assert (T < (x - n1_mean d) / w) as Hz.
      { apply (Rmult_lt_reg_r w); [done|]. unfold Rdiv. rewrite Rmult_assoc, Rinv_l by lra. lra. }
      apply Htail in Hz. lra.
    - replace ((- x - n1_mean d) / w) with (- ((x + n1_mean d) / w)) by (field; lra). rewrite erf_odd.
      assert (T < (x + n1_mean d) / w) as Hz.
      { apply (Rmult_lt_reg_r w); [done|]. unfold Rdiv. rewrite Rmult_assoc, Rinv_l by lra. lra. }
      apply Htail in Hz. lra. }
  unfold getMedian, getMean. split.
  - rewrite HC. unfold Rminus. rewrite Rplus_opp_r. unfold Rdiv. rewrite Rmult_0_l, erf_0. lra.
  - intros t. rewrite !HC. replace ((n1_mean d - t - n1_mean d) / w) with (- ((n1_mean d + t - n1_mean d) / w)) by (field; lra).
    rewrite erf_odd. lra.
Qed.

Lemma ln_le_sub x : 0 < x -> ln x <= x - 1.
Proof.
  intros H. destruct (Req_dec x 1) as [->|Hx]; [rewrite ln_1; lra|]. left.
  rewrite <- (ln_exp (x - 1)). apply ln_increasing; [done|].
  replace x with (1 + (x - 1)) at 1 by lra. apply exp_ineq1. lra.
Qed.
Lemma ln_lt_sub x : 0 < x -> x <> 1 -> ln x < x - 1.
Proof.
  intros H Hx. rewrite <- (ln_exp (x - 1)). apply ln_increasing; [done|].
  replace x with (1 + (x - 1)) at 1 by lra. apply exp_ineq1. lra.
Qed.

(** The divergence is the textbook one; it is never negative and vanishes exactly for equal distributions. *)
Theorem normal1_KL d d' :
  normal1_reach real_sops d -> normal1_reach real_sops d' ->
  KLDivergence real_sops d d' = gauss_KL (getMean d) (getVariance d) (getMean d') (getVariance d') /\
  0 <= KLDivergence real_sops d d' /\
  (KLDivergence real_sops d d' = 0 <-> getMean d = getMean d' /\ getVariance d = getVariance d').
Proof.
  intros H H'. apply n1_reach_ok in H as (Hv & Hp & _). apply n1_reach_ok in H' as (Hv' & Hp' & _).
  assert (E : KLDivergence real_sops d d' = gauss_KL (getMean d) (getVariance d) (getMean d') (getVariance d')).
  { unfold KLDivergence, gauss_KL, getMean, getVariance. rewrite half_real. simpl. rewrite Hp, Hp'.
    f_equal. unfold Rdiv. ring. }
  rewrite E. split; [done|]. unfold gauss_KL, getMean, getVariance. clear E.
  set (v := n1_var d) in *. set (v' := n1_var d') in *. set (m := n1_mean d). set (m' := n1_mean d').
  assert (Hr : 0 < v / v') by (apply Rdiv_lt_0_compat; done).
  assert (Hl : ln (v' / v) = - ln (v / v')).
  { rewrite <- ln_Rinv by done. f_equal. field. lra. }
  rewrite Hl. pose proof (ln_le_sub _ Hr) as Hle.
  assert (Hq : 0 <= (m' - m) * (m' - m) / v').
  { apply Rmult_le_pos; [apply Rle_0_sqr|left; by apply Rinv_0_lt_compat]. }
  split; [lra|]. split.
  - intros H0. assert (v / v' = 1) as Hvv.
    { destruct (Req_dec (v / v') 1) as [|Hne]; [done|]. pose proof (ln_lt_sub _ Hr Hne). lra. }
    assert ((m' - m) * (m' - m) / v' = 0) as Hmm by lra.
    split.
    + unfold Rdiv in Hmm. apply Rmult_integral in Hmm as [Hmm|Hmm].
      * apply Rmult_integral in Hmm as [?|?]; lra.
      * pose proof (Rinv_0_lt_compat _ Hv'). lra.
    + replace v with (v / v' * v') by (field; lra). rewrite Hvv. lra.
  - intros [-> ->]. unfold Rminus. rewrite Rplus_opp_r. unfold Rdiv. rewrite Rinv_r by lra. rewrite ln_1. lra.
Qed.

Theorem normal1_mahalanobis d x :
  normal1_reach real_sops d ->
  mahalanobisDistance real_sops d x =
    ((x - getMean d) / getStandardDeviation d) * ((x - getMean d) / getStandardDeviation d) /\
  0 <= mahalanobisDistance real_sops d x /\
  (mahalanobisDistance real_sops d x = 0 <-> x = getMean d).
Proof.
  intros H. apply n1_reach_ok in H as (Hv & Hp & Hs & _).
  unfold mahalanobisDistance, getMean, getStandardDeviation; simpl. rewrite Hp, Hs.
  pose proof (sqrt_lt_R0 _ Hv) as Hq.
  assert (Hss : sqrt (n1_var d) * sqrt (n1_var d) = n1_var d) by (apply sqrt_sqrt; lra).
  pose proof (Rinv_0_lt_compat _ Hv) as Hi.
  split; [rewrite <- Hss at 1; field; lra|]. split.
  - pose proof (Rle_0_sqr (x - n1_mean d)) as Hsq. unfold Rsqr in Hsq.
    replace ((x - n1_mean d) * / n1_var d * (x - n1_mean d))
      with (((x - n1_mean d) * (x - n1_mean d)) * / n1_var d) by ring. apply Rmult_le_pos; lra.
  - split.
    + intros E. apply Rmult_integral in E as [E|E]; [apply Rmult_integral in E as [E|E]|]; lra.
    + intros ->. unfold Rminus. rewrite Rplus_opp_r. ring.
Qed.

(** Non-vacuous: every mean and positive variance are reachable. *)
Example normal1_example : exists d, normal1_reach real_sops d /\ getMean d = 3 /\ getVariance d = 4.
Proof. apply n1_ok_reach. lra. Qed.

(** ** C34 *)

(** After a reset (or on a new estimator) and any points, fewer than 2^32 of them: the count, the mean and -
    when the estimate is flagged valid - the variance are those of the whole list; it is valid exactly when two
    different values were seen. *)
Theorem ml1_running_estimate e l :
  est1_reach real_sops e -> (Z.of_nat (length l) < 2 ^ 32)%Z ->
  let e' := addPoints real_sops (est_reset real_sops e) l in
  e_n e' = Z.of_nat (length l) /\
  (l <> [] -> getMean (e_dist e') = amean l) /\
  (e_valid e' = true <-> two_values l) /\
  (e_valid e' = true -> getVariance (e_dist e') = pvar l) /\
  normal1_reach real_sops (e_dist e').
Proof.
  intros He Hl. cbn zeta. destruct (after_reset e l Hl) as (Hn & _ & _ & Hm & Hv & Hi).
  set (e' := addPoints _ _ _) in *.
  split; [done|]. split; [exact Hm|].
  assert (HV : e_valid e' = true <-> two_values l).
  { split; [|intros; by apply Hv]. intros Ht. destruct (two_values_dec l) as [|H2]; [done|].
    destruct (Hi H2). congruence. }
  split; [done|]. split.
  - intros Ht. apply HV in Ht as H2. destruct (Hv H2) as [_ ->].
    rewrite setVariance_good; [done|]. apply pvar_pos_iff; [|done].
    intros ->. destruct H2 as (? & ? & Hx & _). by apply elem_of_nil in Hx.
  - assert (R1 : forall e, est1_reach real_sops e -> normal1_reach real_sops (e_dist e)).
    { assert (RT : forall d m v, normal1_reach real_sops d ->
        normal1_reach real_sops (fst (try_set real_sops d m v))).
      { intros d m v Hd. unfold try_set.
        assert (R := nr_var _ _ v (nr_mean _ _ m Hd)). destruct (setVariance _ _ v) as [d' []]; exact R. }
      induction 1 as [junk e0 H0|e0 _ IH|e0 x _ IH|e0 k _ IH|e0 k w _ IH]; simpl.
      - unfold est1_new in H0. destruct (normal1_new real_sops junk _ _) eqn:E; simpl in H0; try discriminate.
        injection H0 as <-. simpl. by eapply nr_new.
      - done.
      - apply RT, IH.
      - revert e0 IH. induction k as [|x k IHk]; intros e0 IH; [done|]. simpl. apply IHk. simpl. apply RT, IH.
      - unfold addPointsWeighted. destruct (negb _); [done|]. simpl. apply RT, IH. }
    apply R1. by constructor; constructor.
Qed.

(** Order and grouping do not matter: the whole state of the estimator is the same. *)
Theorem ml1_order_independent e l k :
  est1_reach real_sops e -> Permutation l k -> (Z.of_nat (length l) < 2 ^ 32)%Z ->
  addPoints real_sops (est_reset real_sops e) l = addPoints real_sops (est_reset real_sops e) k /\
  (forall l1 l2, l = l1 ++ l2 ->
     addPoints real_sops (est_reset real_sops e) l =
     addPoints real_sops (addPoints real_sops (est_reset real_sops e) l1) l2).
Proof.
  intros He Hp Hl. split.
  - apply (after_det (e_dist e) k).
    + eapply after_perm; [exact Hp|]. by apply after_reset.
    + apply after_reset. by rewrite <- (Permutation_length Hp).
  - intros l1 l2 ->. unfold addPoints. by rewrite fold_left_app.
Qed.

(** Reset forgets the past: once the estimate is valid again, it is the one a new estimator would give. *)
Theorem ml1_reset_forgets e junk e0 l :
  est1_reach real_sops e -> est1_new real_sops junk = Ret e0 -> two_values l ->
  (Z.of_nat (length l) < 2 ^ 32)%Z ->
  addPoints real_sops (est_reset real_sops e) l = addPoints real_sops e0 l.
Proof.
  intros He H0 H2 Hl.
  destruct (est1_new_real junk) as (e1 & E1 & _ & _ & _ & Er). rewrite E1 in H0. injection H0 as <-.
  rewrite <- Er. pose proof (after_reset e l Hl) as Ha. pose proof (after_reset e1 l Hl) as Hb.
  set (a := addPoints _ (est_reset real_sops e) l) in *. set (b := addPoints _ (est_reset real_sops e1) l) in *.
  assert (Hp : 0 < pvar l).
  { apply pvar_pos_iff; [|done]. intros ->. destruct H2 as (? & ? & Hx & _). by apply elem_of_nil in Hx. }
  destruct Ha as (Hn & Hs & Hq & _ & Hv & _), Hb as (Hn' & Hs' & Hq' & _ & Hv' & _).
  destruct (Hv H2) as [V1 D1], (Hv' H2) as [V2 D2].
  rewrite setVariance_good in D1, D2 by done. simpl in D1, D2.
  destruct a, b; simpl in *. congruence.
Qed.

(** ... but until then the variance of the past is still published (with the flag cleared). *)
Theorem ml1_reset_keeps_distribution e :
  e_dist (est_reset real_sops e) = e_dist e /\ e_valid (est_reset real_sops e) = false /\
  e_n (est_reset real_sops e) = 0%Z.
Proof. done. Qed.

(** Weighted points: non-negative weights, not all zero.  Counts and sums are not touched. *)
Theorem ml1_weighted e l w :
  est1_reach real_sops e -> length w = length l -> Forall (fun r => 0 <= r) w -> 0 < Rsum w ->
  let e' := addPointsWeighted real_sops e l w in
  getMean (e_dist e') = wmean (zip l w) /\
  (e_valid e' = true <-> two_weighted_values (zip l w)) /\
  (e_valid e' = true -> getVariance (e_dist e') = wvar (zip l w)) /\
  e_n e' = e_n e.
Proof.
  intros He Hl Hw Hs. cbn zeta.
  assert (Hs' : 0 < wsum (fun _ => 1) (zip l w)) by (by rewrite <- zip_snd_sum).
  rewrite weighted_step by done. cbn zeta. unfold getMean, getVariance. simpl.
  assert (Hw' : Forall (fun p : R * R => 0 <= snd p) (zip l w)).
  { clear -Hw Hl. revert l Hl. induction Hw as [|y w Hy Hw IH]; intros [|x l] Hl; simpl in *; try done.
    constructor; [done|]. apply IH. lia. }
  pose proof (wvar_pos_iff _ Hw' Hs') as Hiff. unfold try_set.
  destruct (Rle_or_lt (wvar (zip l w)) 0) as [Hv|Hv].
  - rewrite setVariance_bad by done. simpl. split; [done|]. split; [|done].
    split; [done|]. intros H2. apply Hiff in H2. lra.
  - rewrite setVariance_good by done. simpl. split; [done|]. split; [|done]. split; [|done].
    intros _. by apply Hiff.
Qed.

Theorem ml1_weighted_size_mismatch {A} (o : sops A) e l w :
  length w <> length l -> addPointsWeighted o e l w = e.
Proof.
  intros H. unfold addPointsWeighted. destruct (Nat.eqb_spec (length w) (length l)); done.
Qed.

(** Non-vacuous, and what a reset leaves behind: after points 0 and 2, a reset and the point 5 the published
    distribution has mean 5 and the old variance 1, flagged invalid. *)
Example ml1_example : exists e,
  est1_reach real_sops e /\ e_valid e = true /\ getMean (e_dist e) = 1 /\ getVariance (e_dist e) = 1 /\
  let e' := addPoints real_sops (est_reset real_sops e) [5] in
  e_valid e' = false /\ getMean (e_dist e') = 5 /\ getVariance (e_dist e') = 1.
Proof.
  destruct (est1_new_real 0) as (e0 & E0 & _ & _ & _ & Er).
  assert (H2 : two_values [0; 2]) by (exists 0, 2; split; [left|]; split; [right; left|lra]).
  pose proof (after_reset e0 [0; 2] ltac:(simpl; lia)) as (Hn & _ & _ & Hm & Hv & _).
  rewrite Er in *. assert (HR : est1_reach real_sops (addPoints real_sops e0 [0; 2])) by (apply er_range; by eapply er_new).
  remember (addPoints real_sops e0 [0; 2]) as ee eqn:Eee. clear Eee. exists ee.
  assert (Hp : pvar [0; 2] = 1) by (unfold pvar, amean, Rsum; simpl; lra).
  destruct (Hv H2) as [V D]. rewrite Hp, setVariance_good in D by lra. cbn [setMean n1_mean] in D.
  split; [exact HR|]. split; [done|].
  unfold getMean, getVariance. rewrite D. cbn [n1_mean n1_var]. split; [unfold amean, Rsum; simpl; lra|]. split; [done|].
  cbn zeta. remember (addPoints real_sops (est_reset real_sops ee) [5]) as e5 eqn:E5.
  pose proof (after_reset ee [5] ltac:(simpl; lia)) as (_ & _ & _ & _ & _ & Hi). rewrite <- E5 in Hi. clear E5.
  destruct Hi as [V' D'].
  { intros (x & y & Hx & Hy & Hxy). apply elem_of_list_singleton in Hx, Hy. congruence. }
  split; [done|]. rewrite D'. cbn [setMean n1_mean n1_var]. rewrite D. cbn [n1_var]. split; [unfold amean, Rsum; simpl; lra|done].
Qed.

(** ** C60: the same code on IEEE doubles *)

(** For every library functions and every double: an accepted variance is not <= 0, i.e. positive or NaN.
    (Missing for the expected property: NaN is not excluded, see the refutation.) *)
Theorem normal1_double_variance dl de df dpi d :
  normal1_reach (double_sops dl de df dpi) d ->
  Bleb (getVariance d) (B754_zero false) = false.
Proof.
  set (o := double_sops dl de df dpi).
  assert (HS : forall d v, Bleb (n1_var d) (B754_zero false) = false ->
     Bleb (n1_var (fst (setVariance o d v))) (B754_zero false) = false).
  { intros d0 v H0. unfold setVariance. change (s_Z o 0) with (B754_zero false : double).
    change (s_le o v (B754_zero false)) with (Bleb v (B754_zero false)).
    destruct (Bleb v (B754_zero false)) eqn:E; simpl; done. }
  induction 1 as [junk m v d H|d m H IH|d v H IH|d d' H IH H' IH']; unfold getVariance in *.
  - revert H. unfold normal1_new, setVariance. change (s_Z o 0) with (B754_zero false : double).
    change (s_le o v (B754_zero false)) with (Bleb v (B754_zero false)).
    destruct (Bleb v (B754_zero false)) eqn:E; [discriminate|]. intros [= <-]. done.
  - done.
  - apply HS, IH.
  - done.
Qed.

(** NaN is accepted as a variance: the expected property fails. *)
Theorem normal1_double_nan_variance_refuted dl de df dpi :
  let o := double_sops dl de df dpi in
  exists d, normal1_new o B754_nan B754_nan B754_nan = Ret d /\ normal1_reach o d /\
    getVariance d = B754_nan /\ getPrecision d = B754_nan.
Proof.
  cbn zeta. eexists. split; [reflexivity|]. split; [eapply (nr_new _ B754_nan B754_nan B754_nan); reflexivity|]. done.
Qed.

(** The weighted estimator fed with an empty range and no weights publishes a NaN estimate and flags it valid. *)
Theorem ml1_double_empty_range_valid_refuted dl de df dpi (e : @est1 double) :
  let e' := addPointsWeighted (double_sops dl de df dpi) e [] [] in
  e_valid e' = true /\ getMean (e_dist e') = B754_nan /\ getVariance (e_dist e') = B754_nan.
Proof. done. Qed.
