(** C117: [NormalDistribution<M>]: Mahalanobis distance, density, sampling, Kullback-Leibler divergence; the estimator's
    constructor and [reset]; the calls that cannot fail.  Over the reals, for every dimension. *)
From Coq Require Import Reals Lra Psatz ZArith Lia List.
From Verif Require Import Base GridModel NormalModel Spec_Normal NormalProofs NormalMvModel Properties_NormalMv Spec_NormalMv NormalMvProofs.
Local Open Scope R_scope.

(** What is assumed of Eigen on the matrix [c]: [llt] is the Cholesky factorisation, [inverse] the inverse, [determinant]
    the determinant (the square of the product of the factor's diagonal). *)
Definition eigen_contract (M : nat) (g : eigen R) (c : nat -> nat -> R) : Prop :=
  cholesky M c (eg_llt g c) /\ inverse_of M c (eg_inv g c) /\
  eg_det g c = prodn M (fun i => eg_llt g c i i * eg_llt g c i i).
(** Equal as vectors and matrices of size [M]. *)
Definition same_vec (M : nat) (a b : nat -> R) : Prop := forall i, (i < M)%nat -> a i = b i.
Definition same_mat (M : nat) (a b : nat -> nat -> R) : Prop := forall i j, (i < M)%nat -> (j < M)%nat -> a i j = b i j.

Lemma fold_left_app_end (f : nat -> R) l a : fold_left (fun acc i => acc + f i) l a = a + fold_left (fun acc i => acc + f i) l 0.
Proof.
  revert a. induction l as [|x l IH]; intros a; cbn; [ring|]. rewrite IH, (IH (0 + f x)). ring.
Qed.
Lemma vsum_sumn M f : vsum RO M f = sumn M f.
Proof.
  unfold vsum, idx. change (s_add RO) with Rplus. change (s_Z RO 0) with 0. induction M as [|M IH]; [reflexivity|].
  rewrite seq_S, fold_left_app. cbn. rewrite IH. reflexivity.
Qed.

(** The members after a successful construction. *)
Lemma normalM_new_inv g M junk m c d : normalM_new RO g M junk m c = Ret d ->
  nm_mean d = m /\ nm_cov d = c /\ nm_prec d = eg_inv g c /\ nm_det d = eg_det g c /\ nm_L d = eg_llt g c /\
  nm_norm d = / 2 * INR M * ln (2 * PI) + / 2 * ln (eg_det g c).
Proof.
  unfold normalM_new. destruct (normalM_accepted_covariance g M (setMeanM junk m) c) as [_ Hr].
  destruct (setCovariance RO g M (setMeanM junk m) c) as [d0 [[]|e| |]] eqn:E; try discriminate. intros [= <-].
  destruct (normalM_accepted_covariance g M (setMeanM junk m) c) as [Ha _].
  destruct (Classical_Prop.classic ((forall i j, (i < M)%nat -> (j < M)%nat -> c i j = c j i) /\ eg_isPositive g c = true /\
            (forall i, (i < M)%nat -> 0 <= c i i))) as [Hok|Hno].
  - destruct (Ha Hok) as (d' & E' & H). rewrite E in E'. injection E' as ->. exact H.
  - specialize (Hr Hno). discriminate.
Qed.

Lemma maha_formula M d x : mahalanobisM RO M d x =
  sumn M (fun j => sumn M (fun i => (x i - nm_mean d i) * nm_prec d i j) * (x j - nm_mean d j)).
Proof.
  unfold mahalanobisM, quad. rewrite vsum_sumn. apply sumn_ext. intros j _. rewrite vsum_sumn. reflexivity.
Qed.
Lemma sample_formula M d z i : getSampleM RO M d z i = nm_mean d i + lmul M (nm_L d) z i.
Proof. unfold getSampleM. rewrite vsum_sumn. reflexivity. Qed.

Section one.
  Context (g : eigen R) (M : nat) (junk : normalM) (m : nat -> R) (c : nat -> nat -> R) (d : normalM)
    (Hd : normalM_new RO g M junk m c = Ret d) (Hg : eigen_contract M g c).
  Lemma maha_whitened x y : (forall i, (i < M)%nat -> lmul M (eg_llt g c) y i = x i - m i) ->
    mahalanobisM RO M d x = sumn M (fun k => y k * y k).
  Proof using Hd Hg.
    intros Hy. destruct (normalM_new_inv _ _ _ _ _ _ Hd) as (Em & _ & Ep & _). destruct Hg as ((Ht & Hp & Hc) & Hi & _).
    rewrite maha_formula, Em, Ep. rewrite <- (inverse_form M (eg_llt g c) Ht Hp c (eg_inv g c) Hc Hi y y).
    apply sumn_ext. intros j Hj. rewrite Hy by exact Hj. f_equal. apply sumn_ext. intros i Hi'. rewrite Hy by exact Hi'. reflexivity.
  Qed.
  Lemma whiten x : exists y, forall i, (i < M)%nat -> lmul M (eg_llt g c) y i = x i - m i.
  Proof using Hg. destruct Hg as ((Ht & Hp & _) & _). exact (forward M (eg_llt g c) Ht Hp (fun i => x i - m i)). Qed.
  Lemma maha_zero x : mahalanobisM RO M d x = 0 <-> same_vec M x m.
  Proof using Hd Hg.
    destruct (whiten x) as [y Hy]. rewrite (maha_whitened x y Hy). destruct Hg as ((Ht & Hp & _) & _). split.
    - intros H i Hi. assert (Hz : forall k, (k < M)%nat -> y k = 0).
      { intros k Hk. assert (y k * y k = 0); [|nra]. apply (sumn_zero_inv M (fun k => y k * y k)); [intros; nra|exact H|exact Hk]. }
      specialize (Hy i Hi). unfold lmul in Hy. rewrite sumn_zero in Hy; [lra|]. intros k Hk. rewrite Hz by exact Hk. ring.
    - intros H. apply sumn_zero. intros k Hk. rewrite (forward_zero M (eg_llt g c) Ht Hp y M (le_n M)); [ring| |exact Hk].
      intros i Hi. rewrite Hy by exact Hi. rewrite H by exact Hi. ring.
  Qed.
  Lemma maha_nonneg x : 0 <= mahalanobisM RO M d x.
  Proof using Hd Hg. destruct (whiten x) as [y Hy]. rewrite (maha_whitened x y Hy). apply sumn_nonneg. intros. nra. Qed.
End one.

(** The Mahalanobis distance is the quadratic form of the inverse covariance at the deviation from the mean; it is never
    negative, zero exactly at the mean, and at a sample it is the sum of the squares of the standard normal numbers drawn;
    every point is the sample of some such numbers. *)
Theorem normalM_mahalanobis g M junk m c d :
  normalM_new RO g M junk m c = Ret d -> eigen_contract M g c ->
  (forall x, mahalanobisM RO M d x = sumn M (fun i => sumn M (fun j => (x i - m i) * eg_inv g c i j * (x j - m j)))) /\
  (forall x, 0 <= mahalanobisM RO M d x /\ (mahalanobisM RO M d x = 0 <-> same_vec M x m)) /\
  (forall z i, getSampleM RO M d z i = m i + sumn M (fun k => eg_llt g c i k * z k)) /\
  (forall z, mahalanobisM RO M d (getSampleM RO M d z) = sumn M (fun k => z k * z k)) /\
  (forall x, exists z, same_vec M (getSampleM RO M d z) x).
Proof.
  intros Hd Hg. destruct (normalM_new_inv _ _ _ _ _ _ Hd) as (Em & _ & Ep & _ & El & _). split; [|split; [|split; [|split]]].
  - intros x. rewrite maha_formula, Em, Ep. rewrite (sumn_ext M _ (fun j => sumn M (fun i => (x i - m i) * eg_inv g c i j * (x j - m j)))).
    + apply sumn_swap.
    + intros j _. symmetry. apply sumn_scal_r.
  - intros x. split; [eapply maha_nonneg; eassumption|eapply maha_zero; eassumption].
  - intros z i. rewrite sample_formula, Em, El. reflexivity.
  - intros z. apply (maha_whitened g M junk m c d Hd Hg). intros i Hi. rewrite sample_formula, Em, El. ring.
  - intros x. destruct (whiten g M m c Hg x) as [y Hy]. exists y. intros i Hi. rewrite sample_formula, Em, El, Hy by exact Hi. ring.
Qed.

Lemma prodn_ext n f h : (forall i, (i < n)%nat -> f i = h i) -> prodn n f = prodn n h.
Proof. induction n as [|n IH]; intros H; cbn; [reflexivity|]. rewrite IH, H by auto with arith. reflexivity. Qed.
Lemma prodn_sq n f : prodn n (fun i => f i * f i) = prodn n f * prodn n f.
Proof. induction n as [|n IH]; cbn; [ring|]. rewrite IH. ring. Qed.
Lemma sumn_const n a : sumn n (fun _ => a) = INR n * a.
Proof. induction n as [|n IH]; [cbn; ring|]. rewrite S_INR. cbn. rewrite IH. ring. Qed.
Lemma exp_sumn n f : exp (sumn n f) = prodn n (fun i => exp (f i)).
Proof. induction n as [|n IH]; cbn; [apply exp_0|]. rewrite exp_plus, IH. reflexivity. Qed.
Lemma prodn_mult n f h : prodn n (fun i => f i * h i) = prodn n f * prodn n h.
Proof. induction n as [|n IH]; cbn; [ring|]. rewrite IH. ring. Qed.
Lemma prodn_const n a : prodn n (fun _ => a) = a ^ n.
Proof. induction n as [|n IH]; cbn; [reflexivity|]. rewrite IH. ring. Qed.

Lemma det_pos M g c : eigen_contract M g c -> 0 < eg_det g c /\ 0 < prodn M (fun i => eg_llt g c i i) /\
  ln (eg_det g c) = 2 * sumn M (fun i => ln (eg_llt g c i i)).
Proof.
  intros ((_ & Hp & _) & _ & ->). destruct (ln_prodn M (fun i => eg_llt g c i i) Hp) as [H1 H2].
  rewrite prodn_sq. split; [nra|]. split; [exact H1|]. rewrite ln_mult by exact H1. rewrite H2. ring.
Qed.

(** The density: exp(-maha/2) / sqrt((2 pi)^M det); log-density its logarithm; at the sample of z the product of the
    standard normal densities of the z_k over the product of the factor's diagonal; largest at the mean and only there. *)
Theorem normalM_density g M junk m c d :
  normalM_new RO g M junk m c = Ret d -> eigen_contract M g c ->
  (forall x, pdfM RO M d x = exp (- mahalanobisM RO M d x / 2) / sqrt ((2 * PI) ^ M * eg_det g c)) /\
  (forall x, logpdfM RO M d x = ln (pdfM RO M d x)) /\
  (forall z, pdfM RO M d (getSampleM RO M d z) = prodn M (fun k => gauss 0 1 (z k)) / prodn M (fun k => eg_llt g c k k)) /\
  (forall x, 0 < pdfM RO M d x <= pdfM RO M d m /\ (pdfM RO M d x = pdfM RO M d m <-> same_vec M x m)).
Proof.
  intros Hd Hg. destruct (normalM_new_inv _ _ _ _ _ _ Hd) as (Em & _ & Ep & _ & El & En). destruct (det_pos M g c Hg) as (D0 & D1 & D2).
  assert (HPI : 0 < 2 * PI) by (pose proof PI_RGT_0; lra).
  assert (HPM : 0 < (2 * PI) ^ M) by (apply pow_lt; exact HPI).
  assert (Hlog : forall x, logpdfM RO M d x = - mahalanobisM RO M d x / 2 - / 2 * (INR M * ln (2 * PI) + ln (eg_det g c))).
  { intros x. unfold logpdfM. rewrite En, half_real. cbn [real_sops s_Z s_sub s_mul s_add s_div].
    set (q := mahalanobisM RO M d x). field. }
  assert (Hpdf : forall x, pdfM RO M d x = exp (- mahalanobisM RO M d x / 2) / sqrt ((2 * PI) ^ M * eg_det g c)).
  { intros x. unfold pdfM. change (s_exp RO) with exp. rewrite Hlog. unfold Rminus. rewrite exp_plus. unfold Rdiv at 2. f_equal.
    rewrite exp_Ropp. f_equal.
    rewrite <- (sqrt_square (exp (/ 2 * (INR M * ln (2 * PI) + ln (eg_det g c))))) by (left; apply exp_pos). f_equal.
    rewrite <- exp_plus. replace (/ 2 * (INR M * ln (2 * PI) + ln (eg_det g c)) + / 2 * (INR M * ln (2 * PI) + ln (eg_det g c)))
      with (INR M * ln (2 * PI) + ln (eg_det g c)) by field. rewrite exp_plus, exp_ln by exact D0. f_equal.
    rewrite <- (ln_pow (2 * PI) HPI M). apply exp_ln, HPM. }
  split; [exact Hpdf|]. split; [|split].
  - intros x. unfold pdfM. change (s_exp RO) with exp. rewrite ln_exp. reflexivity.
  - intros z. rewrite Hpdf. destruct (normalM_mahalanobis g M junk m c d Hd Hg) as (_ & _ & _ & Hs & _). rewrite Hs.
    rewrite (prodn_ext M (fun k => gauss 0 1 (z k)) (fun k => exp (- (z k * z k) / 2) * / sqrt (2 * PI))).
    2:{ intros k _. unfold gauss. rewrite Rmult_comm. f_equal; [f_equal; field|]. rewrite Rmult_1_r. reflexivity. }
    rewrite prodn_mult, prodn_const, <- exp_sumn.
    replace (sumn M (fun i => - (z i * z i) / 2)) with (- sumn M (fun k => z k * z k) / 2).
    2:{ rewrite (sumn_ext M (fun i => - (z i * z i) / 2) (fun i => (- / 2) * (z i * z i))) by (intros; field). rewrite sumn_scal_l. field. }
    destruct Hg as (_ & _ & ->). rewrite prodn_sq. rewrite sqrt_mult by nra. rewrite sqrt_square by lra.
    assert (Hs' : sqrt ((2 * PI) ^ M) = sqrt (2 * PI) ^ M).
    { clear -HPI. induction M as [|n IH]; [apply sqrt_1|]. cbn. rewrite sqrt_mult by (try lra; left; apply pow_lt; exact HPI). rewrite IH. reflexivity. }
    rewrite Hs'. rewrite pow_inv. pose proof (sqrt_lt_R0 _ HPI). assert (0 < sqrt (2 * PI) ^ M) by (apply pow_lt; assumption). field. split; lra.
  - intros x. destruct (normalM_mahalanobis g M junk m c d Hd Hg) as (_ & Hq & _). destruct (Hq x) as [Q0 Q1]. destruct (Hq m) as [_ Qm].
    assert (Em0 : mahalanobisM RO M d m = 0) by (apply Qm; intros i _; reflexivity).
    assert (HS : 0 < sqrt ((2 * PI) ^ M * eg_det g c)) by (apply sqrt_lt_R0; nra).
    rewrite !Hpdf, Em0. assert (HE := exp_pos (- mahalanobisM RO M d x / 2)). split; [split|split].
    + apply Rdiv_lt_0_compat; assumption.
    + apply Rmult_le_compat_r; [left; apply Rinv_0_lt_compat, HS|]. destruct (Req_dec (mahalanobisM RO M d x) 0) as [->|Hn]; [right; reflexivity|].
      left. apply exp_increasing. lra.
    + intros H. apply Q1. apply Rmult_eq_reg_r in H; [|apply Rinv_neq_0_compat; lra]. apply exp_inv in H. lra.
    + intros H. apply Q1 in H. rewrite H. reflexivity.
Qed.

Lemma finite_choice (n : nat) (Q : nat -> (nat -> R) -> Prop) :
  (forall k, (k < n)%nat -> exists y, Q k y) -> exists Y, forall k, (k < n)%nat -> Q k (Y k).
Proof.
  induction n as [|n IH]; intros H; [exists (fun _ _ => 0); intros; lia|]. destruct IH as [Y HY]; [auto with arith|].
  destruct (H n ltac:(lia)) as [y Hy]. exists (fun k => if Nat.eqb k n then y else Y k). intros k Hk.
  destruct (Nat.eqb_spec k n) as [->|]; [exact Hy|apply HY; lia].
Qed.
Lemma ln_le_minus1 t : 0 < t -> 0 <= t - 1 - ln t /\ (t - 1 - ln t = 0 -> t = 1).
Proof.
  intros Ht. assert (E : t = exp (ln t)) by (symmetry; apply exp_ln, Ht). pose proof (exp_ineq1_le (ln t)). split; [lra|].
  intros H0. destruct (Req_dec (ln t) 0) as [H1|H1]; [rewrite E, H1; apply exp_0|]. pose proof (exp_ineq1 (ln t) H1). lra.
Qed.
Lemma kl_formula M d1 d2 : KLDivergenceM RO M d1 d2 =
  / 2 * (ln (nm_det d2 / nm_det d1) + sumn M (fun i => sumn M (fun k => nm_prec d2 i k * nm_cov d1 k i)) - INR M +
    sumn M (fun j => sumn M (fun i => (nm_mean d1 i - nm_mean d2 i) * nm_prec d2 i j) * (nm_mean d1 j - nm_mean d2 j))).
Proof.
  unfold KLDivergenceM, quad. rewrite half_real. rewrite !vsum_sumn. cbn [real_sops s_Z s_sub s_mul s_add s_div s_log].
  rewrite INR_IZR_INZ. do 2 f_equal; [do 2 f_equal|]; apply sumn_ext; intros i _; rewrite vsum_sumn; reflexivity.
Qed.

Section two.
  Context (g : eigen R) (M : nat).
  Context (j1 : normalM) (m1 : nat -> R) (c1 : nat -> nat -> R) (d1 : normalM) (H1 : normalM_new RO g M j1 m1 c1 = Ret d1) (G1 : eigen_contract M g c1).
  Context (j2 : normalM) (m2 : nat -> R) (c2 : nat -> nat -> R) (d2 : normalM) (H2 : normalM_new RO g M j2 m2 c2 = Ret d2) (G2 : eigen_contract M g c2).
  (** The divergence as a sum of non-negative terms: B = L2^-1 L1 and y = L2^-1 (m1 - m2). *)
  Lemma kl_decomposed : exists (B : nat -> nat -> R) (y : nat -> R),
    (forall j, (j < M)%nat -> forall i, (i < M)%nat -> lmul M (eg_llt g c2) (B j) i = eg_llt g c1 i j) /\
    (forall i, (i < M)%nat -> lmul M (eg_llt g c2) y i = m1 i - m2 i) /\
    (forall j, (j < M)%nat -> 0 < B j j) /\
    KLDivergenceM RO M d1 d2 = / 2 * (sumn M (fun j => (B j j * B j j - 1 - ln (B j j * B j j)) +
      sumn M (fun k => if Nat.eqb k j then 0 else B j k * B j k)) + sumn M (fun k => y k * y k)).
  Proof using All.
    destruct (normalM_new_inv _ _ _ _ _ _ H1) as (Em1 & Ec1 & _ & Ed1 & _). destruct (normalM_new_inv _ _ _ _ _ _ H2) as (Em2 & _ & Ep2 & Ed2 & _).
    destruct (det_pos M g c1 G1) as (D1 & _ & L1). destruct (det_pos M g c2 G2) as (D2 & _ & L2).
    destruct G1 as ((T1 & P1 & C1) & _ & _). destruct G2 as ((T2 & P2 & C2) & I2 & _).
    destruct (finite_choice M (fun j y => forall i, (i < M)%nat -> lmul M (eg_llt g c2) y i = eg_llt g c1 i j)) as [B HB].
    { intros j _. apply (forward M (eg_llt g c2) T2 P2 (fun i => eg_llt g c1 i j)). }
    destruct (forward M (eg_llt g c2) T2 P2 (fun i => m1 i - m2 i)) as [y Hy]. exists B, y. split; [exact HB|]. split; [exact Hy|].
    assert (HBd : forall j, (j < M)%nat -> eg_llt g c1 j j = eg_llt g c2 j j * B j j).
    { intros j Hj. rewrite <- (HB j Hj j Hj). apply (forward_first M (eg_llt g c2) T2 P2); [exact Hj|]. intros i Hi. rewrite HB by lia. apply T1. exact Hi. }
    assert (HBp : forall j, (j < M)%nat -> 0 < B j j).
    { intros j Hj. pose proof (P1 j Hj) as A1. pose proof (P2 j Hj) as A2. rewrite (HBd j Hj) in A1. nra. }
    split; [exact HBp|]. rewrite kl_formula, Em1, Em2, Ec1, Ep2, Ed1, Ed2. f_equal.
    assert (Ey : sumn M (fun j => sumn M (fun i => (m1 i - m2 i) * eg_inv g c2 i j) * (m1 j - m2 j)) = sumn M (fun k => y k * y k)).
    { rewrite <- (inverse_form M (eg_llt g c2) T2 P2 c2 (eg_inv g c2) C2 I2 y y). apply sumn_ext. intros j Hj. rewrite Hy by exact Hj. f_equal.
      apply sumn_ext. intros i Hi. rewrite Hy by exact Hi. reflexivity. }
    assert (Et : sumn M (fun i => sumn M (fun k => eg_inv g c2 i k * c1 k i)) = sumn M (fun j => sumn M (fun k => B j k * B j k))).
    { transitivity (sumn M (fun j => sumn M (fun k => sumn M (fun i => eg_llt g c1 i j * eg_inv g c2 i k) * eg_llt g c1 k j))).
      - transitivity (sumn M (fun i => sumn M (fun k => sumn M (fun j => eg_llt g c1 i j * eg_inv g c2 i k * eg_llt g c1 k j)))).
        + apply sumn_ext. intros i Hi. apply sumn_ext. intros k Hk. rewrite (C1 k i Hk Hi), <- sumn_scal_l. apply sumn_ext. intros j _. ring.
        + transitivity (sumn M (fun i => sumn M (fun j => sumn M (fun k => eg_llt g c1 i j * eg_inv g c2 i k * eg_llt g c1 k j)))).
          { apply sumn_ext. intros i _. apply sumn_swap. }
          rewrite sumn_swap. apply sumn_ext. intros j _. rewrite sumn_swap. apply sumn_ext. intros k _. apply sumn_scal_r.
      - apply sumn_ext. intros j Hj. rewrite <- (inverse_form M (eg_llt g c2) T2 P2 c2 (eg_inv g c2) C2 I2 (B j) (B j)).
        apply sumn_ext. intros k Hk. rewrite (HB j Hj k Hk). f_equal. apply sumn_ext. intros i Hi. rewrite (HB j Hj i Hi). reflexivity. }
    assert (El : ln (eg_det g c2 / eg_det g c1) = - sumn M (fun j => ln (B j j * B j j))).
    { unfold Rdiv. rewrite ln_mult by (try assumption; apply Rinv_0_lt_compat; assumption). rewrite ln_Rinv by exact D1. rewrite L1, L2.
      rewrite (sumn_ext M (fun i => ln (eg_llt g c1 i i)) (fun i => ln (eg_llt g c2 i i) + / 2 * ln (B i i * B i i))).
      - rewrite sumn_plus, sumn_scal_l. field.
      - intros i Hi. rewrite (HBd i Hi). pose proof (HBp i Hi). pose proof (P2 i Hi). rewrite !ln_mult by assumption. field. }
    rewrite Ey, Et, El. f_equal. rewrite sumn_plus. unfold Rminus. rewrite !sumn_plus.
    rewrite (sumn_ext M (fun j => sumn M (fun k => B j k * B j k)) (fun j => B j j * B j j + sumn M (fun k => if Nat.eqb k j then 0 else B j k * B j k))).
    - rewrite sumn_plus, sumn_const. rewrite (sumn_ext M (fun i => - ln (B i i * B i i)) (fun i => (-1) * ln (B i i * B i i))) by (intros; ring).
      rewrite sumn_scal_l. ring.
    - intros j Hj. rewrite <- (sumn_delta M j (fun k => B j k * B j k) Hj), <- sumn_plus. apply sumn_ext. intros k _. unfold delta.
      rewrite (Nat.eqb_sym j k). destruct (Nat.eqb_spec k j); ring.
  Qed.
  Lemma kl_nonneg : 0 <= KLDivergenceM RO M d1 d2.
  Proof using All.
    destruct kl_decomposed as (B & y & _ & _ & HB & ->). apply Rmult_le_pos; [lra|]. apply Rplus_le_le_0_compat.
    - apply sumn_nonneg. intros j Hj. apply Rplus_le_le_0_compat.
      + apply ln_le_minus1. pose proof (HB j Hj). nra.
      + apply sumn_nonneg. intros k _. destruct (Nat.eqb k j); nra.
    - apply sumn_nonneg. intros. nra.
  Qed.
  Lemma kl_zero : KLDivergenceM RO M d1 d2 = 0 -> same_vec M m1 m2 /\ same_mat M c1 c2.
  Proof using All.
    destruct kl_decomposed as (B & y & HBe & Hy & HB & E). intros E0. rewrite E in E0.
    assert (Hj : forall j, (j < M)%nat -> 0 <= B j j * B j j - 1 - ln (B j j * B j j)).
    { intros j Hj. apply ln_le_minus1. pose proof (HB j Hj). nra. }
    assert (Ho : forall j, 0 <= sumn M (fun k => if Nat.eqb k j then 0 else B j k * B j k)).
    { intros j. apply sumn_nonneg. intros k _. destruct (Nat.eqb k j); nra. }
    set (S1 := sumn M (fun j => B j j * B j j - 1 - ln (B j j * B j j) + sumn M (fun k => if Nat.eqb k j then 0 else B j k * B j k))) in *.
    set (S2 := sumn M (fun k => y k * y k)) in *.
    assert (A1 : 0 <= S1). { apply sumn_nonneg. intros j Hj'. specialize (Hj j Hj'). specialize (Ho j). lra. }
    assert (A2 : 0 <= S2). { apply sumn_nonneg. intros. nra. }
    assert (Z1 : S1 = 0) by lra. assert (Z2 : S2 = 0) by lra.
    assert (Yz : forall k, (k < M)%nat -> y k = 0).
    { intros k Hk. assert (y k * y k = 0); [|nra]. apply (sumn_zero_inv M (fun k => y k * y k)); [intros; nra|exact Z2|exact Hk]. }
    assert (Bz : forall j k, (j < M)%nat -> (k < M)%nat -> B j k = delta j k).
    { intros j k Hj' Hk. assert (T : B j j * B j j - 1 - ln (B j j * B j j) + sumn M (fun k => if Nat.eqb k j then 0 else B j k * B j k) = 0).
      { refine (sumn_zero_inv M (fun j => B j j * B j j - 1 - ln (B j j * B j j) + sumn M (fun k => if Nat.eqb k j then 0 else B j k * B j k)) _ Z1 j Hj').
        intros i Hi. specialize (Hj i Hi). specialize (Ho i). cbn beta. lra. }
      specialize (Hj j Hj'). pose proof (Ho j) as Ho'. unfold delta. destruct (Nat.eqb_spec j k) as [<-|Hn].
      - assert (T1 : B j j * B j j = 1). { apply ln_le_minus1; [pose proof (HB j Hj'); nra|]. lra. } pose proof (HB j Hj'). nra.
      - assert (T2 : sumn M (fun k => if Nat.eqb k j then 0 else B j k * B j k) = 0) by lra.
        assert (T3 : (if Nat.eqb k j then 0 else B j k * B j k) = 0).
        { apply (sumn_zero_inv M (fun k => if Nat.eqb k j then 0 else B j k * B j k)); [|exact T2|exact Hk]. intros i _. cbn beta. destruct (Nat.eqb i j); nra. }
        destruct (Nat.eqb_spec k j); [congruence|]. nra. }
    split.
    - intros i Hi. specialize (Hy i Hi). unfold lmul in Hy. rewrite sumn_zero in Hy; [lra|]. intros k Hk. rewrite Yz by exact Hk. ring.
    - assert (EL : forall i j, (i < M)%nat -> (j < M)%nat -> eg_llt g c1 i j = eg_llt g c2 i j).
      { intros i j Hi Hj'. rewrite <- (HBe j Hj' i Hi). unfold lmul. rewrite (sumn_ext M _ (fun k => delta j k * eg_llt g c2 i k)).
        - apply sumn_delta. exact Hj'.
        - intros k Hk. rewrite Bz by assumption. ring. }
      destruct G1 as ((_ & _ & C1) & _). destruct G2 as ((_ & _ & C2) & _).
      intros i j Hi Hj'. rewrite C1, C2 by assumption. apply sumn_ext. intros k Hk. rewrite !EL by assumption. reflexivity.
  Qed.
End two.

(** The Kullback-Leibler divergence: closed form; never negative; zero exactly for equal means and covariances. *)
Theorem normalM_KL g M j1 m1 c1 d1 j2 m2 c2 d2 :
  normalM_new RO g M j1 m1 c1 = Ret d1 -> eigen_contract M g c1 ->
  normalM_new RO g M j2 m2 c2 = Ret d2 -> eigen_contract M g c2 ->
  KLDivergenceM RO M d1 d2 = / 2 * (ln (eg_det g c2 / eg_det g c1) +
    sumn M (fun i => sumn M (fun k => eg_inv g c2 i k * c1 k i)) - INR M +
    sumn M (fun i => sumn M (fun j => (m1 i - m2 i) * eg_inv g c2 i j * (m1 j - m2 j)))) /\
  0 <= KLDivergenceM RO M d1 d2 /\
  (KLDivergenceM RO M d1 d2 = 0 <-> same_vec M m1 m2 /\ same_mat M c1 c2).
Proof.
  intros H1 G1 H2 G2.
  destruct (normalM_new_inv _ _ _ _ _ _ H1) as (Em1 & Ec1 & Ep1 & Ed1 & _). destruct (normalM_new_inv _ _ _ _ _ _ H2) as (Em2 & Ec2 & Ep2 & Ed2 & _).
  split; [|split; [|split]].
  - rewrite kl_formula, Em1, Em2, Ec1, Ep2, Ed1, Ed2. f_equal. f_equal. rewrite sumn_swap. apply sumn_ext. intros j _. symmetry. apply sumn_scal_r.
  - exact (kl_nonneg g M j1 m1 c1 d1 H1 G1 j2 m2 c2 d2 H2 G2).
  - exact (kl_zero g M j1 m1 c1 d1 H1 G1 j2 m2 c2 d2 H2 G2).
  - intros [Hm Hc].
    pose proof (kl_nonneg g M j1 m1 c1 d1 H1 G1 j2 m2 c2 d2 H2 G2) as A. pose proof (kl_nonneg g M j2 m2 c2 d2 H2 G2 j1 m1 c1 d1 H1 G1) as B.
    destruct (det_pos M g c1 G1) as (D1 & _). destruct (det_pos M g c2 G2) as (D2 & _).
    assert (F : forall (ca cb P : nat -> nat -> R), inverse_of M cb P -> same_mat M ca cb -> sumn M (fun i => sumn M (fun k => P i k * ca k i)) = INR M).
    { intros ca cb P [_ HP] He. rewrite <- (Rmult_1_r (INR M)), <- sumn_const. apply sumn_ext. intros i Hi.
      replace 1 with (delta i i) by (unfold delta; rewrite Nat.eqb_refl; reflexivity). rewrite <- (HP i i Hi Hi). apply sumn_ext. intros k Hk. rewrite He by assumption. reflexivity. }
    assert (Z : forall (a b : nat -> R) (P : nat -> nat -> R), same_vec M a b -> sumn M (fun j => sumn M (fun i => (a i - b i) * P i j) * (a j - b j)) = 0).
    { intros a b P He. apply sumn_zero. intros j Hj. rewrite (He j Hj). ring. }
    rewrite kl_formula in *. rewrite Em1, Em2, Ec1, Ec2, Ep1, Ep2, Ed1, Ed2 in *.
    rewrite (F c1 c2) in * by (try exact Hc; apply G2). rewrite (F c2 c1) in B by (try apply G1; intros i j Hi Hj; symmetry; apply Hc; assumption).
    rewrite (Z m1 m2) in * by exact Hm. rewrite (Z m2 m1) in B by (intros i Hi; symmetry; apply Hm; exact Hi).
    unfold Rdiv in *. rewrite ln_mult in * by (try assumption; apply Rinv_0_lt_compat; assumption). rewrite ln_Rinv in * by assumption. lra.
Qed.

(** The estimator's constructor and [reset]; [setMean] and assignment always succeed and do what they say. *)
Theorem normalM_estimator_states g M :
  (forall jd jv jm e, estM_new RO g M jd jv jm = Ret e ->
     em_n e = 0%Z /\ em_valid e = false /\ nm_mean (em_dist e) = (fun _ => 0) /\ nm_cov (em_dist e) = delta) /\
  (forall e : @estM R, em_n (estM_reset e) = 0%Z /\ em_valid (estM_reset e) = false /\ em_dist (estM_reset e) = em_dist e) /\
  (forall d m, mstep RO g M d (MSetMean m) = (setMeanM d m, Ret tt) /\ nm_mean (setMeanM d m) = m /\ nm_cov (setMeanM d m) = nm_cov d) /\
  (forall d o, mstep RO g M d (MAssign o) = (o, Ret tt)).
Proof.
  split; [|split; [|split]]; [|intros e; split; [|split]; reflexivity|intros d m; split; [|split]; reflexivity|intros d o; reflexivity].
  intros jd jv jm e. unfold estM_new. destruct (normalM_new RO g M jd _ _) as [d| | |] eqn:E; cbn; try discriminate. intros [= <-]. cbn.
  destruct (normalM_new_inv _ _ _ _ _ _ E) as (Em & Ec & _). split; [reflexivity|]. split; [reflexivity|]. split; [exact Em|]. rewrite Ec. reflexivity.
Qed.

(** Hypotheses met: dimension two, covariance [[4,2],[2,5]] = L L^T with L = [[2,0],[1,2]]; mean (1,-1); the distance
    of (3,2), which is the sample of z = (1,1), is 2. *)
Definition ex_L (i j : nat) : R := match i, j with O, O => 2 | S O, O => 1 | S O, S O => 2 | _, _ => 0 end.
Definition ex_c (i j : nat) : R := match i, j with O, O => 4 | O, S O => 2 | S O, O => 2 | S O, S O => 5 | _, _ => 0 end.
Definition ex_P (i j : nat) : R := match i, j with O, O => 5 / 16 | O, S O => - (2 / 16) | S O, O => - (2 / 16) | S O, S O => 4 / 16 | _, _ => 0 end.
Definition ex_g : eigen R := Eigen (fun _ => ex_L) (fun _ => true) (fun _ => ex_P) (fun _ => 16).
Example normalM_example : eigen_contract 2 ex_g ex_c /\
  exists d, normalM_new RO ex_g 2 (NormalM (fun _ => 0) ex_c ex_c 0 0 ex_c) (fun i => match i with O => 1 | _ => -1 end) ex_c = Ret d /\
    mahalanobisM RO 2 d (fun i => match i with O => 3 | _ => 2 end) = 2.
Proof.
  split.
  - split; [|split].
    + split; [|split].
      * intros [|[|i]] [|[|j]] H; try lia; reflexivity.
      * intros [|[|i]] H; try lia; cbn; lra.
      * intros [|[|i]] [|[|j]] H H'; try lia; cbn; lra.
    + split; intros [|[|i]] [|[|j]] H H'; try lia; unfold delta; cbn; lra.
    + cbn. lra.
  - destruct (normalM_accepted_covariance ex_g 2 (setMeanM (NormalM (fun _ => 0) ex_c ex_c 0 0 ex_c) (fun i => match i with O => 1 | _ => -1 end)) ex_c) as [Ha _].
    destruct Ha as (d & E & Em & _ & Ep & _).
    { split; [|split]; [|reflexivity|]. { intros [|[|i]] [|[|j]] H H'; try lia; reflexivity. } intros [|[|i]] H; try lia; cbn; lra. }
    exists d. split; [unfold normalM_new; rewrite E; reflexivity|]. rewrite maha_formula, Em, Ep. cbn. lra.
Qed.
