From Coq Require Import Reals Lra Psatz Lia.
From Coquelicot Require Import Coquelicot.
From Verif Require Import Spec_Gamma.
Local Open Scope R_scope.

Definition term (x : R) (k : nat) : R := x ^ k / INR (fact k).
Definition S (n : nat) (x : R) : R := sum_f_R0 (term x) n.

Lemma fact_pos n : 0 < INR (fact n). Proof. apply INR_fact_lt_0. Qed.
Lemma term_derive k x : is_derive (fun x => term x (Datatypes.S k)) x (term x k).
Proof.
  apply (is_derive_ext (fun y => / INR (fact (Datatypes.S k)) * y ^ Datatypes.S k)).
  { intros t. unfold term, Rdiv. apply Rmult_comm. }
  evar_last.
  - apply (is_derive_scal (fun y => y ^ Datatypes.S k)).
    apply (is_derive_pow (fun y => y) (Datatypes.S k) x 1). apply (@is_derive_id R_AbsRing).
  - simpl Nat.pred. unfold term. rewrite fact_simpl, mult_INR.
    match goal with |- ?a = ?b => change (@eq R a b) end.
    field. split; [apply INR_fact_neq_0|]. apply not_0_INR. lia.
Qed.
Lemma S_derive n x : is_derive (S (Datatypes.S n)) x (S n x).
Proof.
  induction n as [|n IH].
  - unfold S; simpl. apply (is_derive_ext (fun y => 1 + y)).
    + intros t. unfold term; simpl. field.
    + auto_derive; [exact I|]. unfold term; simpl. field.
  - apply (is_derive_ext (fun y => S (Datatypes.S n) y + term y (Datatypes.S (Datatypes.S n)))); [reflexivity|].
    replace (S (Datatypes.S n) x) with (S n x + term x (Datatypes.S n)) by reflexivity.
    apply (@is_derive_plus R_AbsRing R_NormedModule); [exact IH|]. apply term_derive.
Qed.
(** Erlang cdf and density. *)
Definition Fn (n : nat) (x : R) : R := 1 - exp (- x) * S n x.
Lemma Fn_derive n x : is_derive (Fn n) x (term x n * exp (- x)).
Proof.
  destruct n as [|n].
  - apply (is_derive_ext (fun x => 1 - exp (- x))).
    + intros t. unfold Fn, S, term; simpl. field.
    + auto_derive; [exact I|]. unfold term; simpl. field.
  - unfold Fn. evar_last.
    + apply (@is_derive_minus R_AbsRing R_NormedModule); [apply is_derive_const|].
      apply (is_derive_mult (fun x => exp (- x)) (S (Datatypes.S n))).
      * instantiate (1 := - exp (- x)). auto_derive; [exact I|]. ring.
      * apply S_derive.
      * intros; apply Rmult_comm.
    + unfold minus, plus, opp, zero, mult; simpl.
      replace (S (Datatypes.S n) x) with (S n x + term x (Datatypes.S n)) by reflexivity. ring.
Qed.
Lemma term_cont n x : continuous (fun x => term x n * exp (- x)) x.
Proof. apply (@ex_derive_continuous R_AbsRing R_NormedModule). unfold term. auto_derive. exact I. Qed.

Lemma erlang_mass n b v : integral (fun x => b * (term (b * x) n * exp (- (b * x)))) 0 v = Fn n (b * v).
Proof.
  unfold integral. apply (@is_RInt_unique R_CompleteNormedModule).
  replace (Fn n (b * v)) with (minus (Fn n (b * v)) (Fn n (b * 0))).
  - apply (@is_RInt_derive R_CompleteNormedModule (fun x => Fn n (b * x))).
    + intros x _. evar_last.
      * apply (@is_derive_comp R_AbsRing R_NormedModule (Fn n) (fun x => b * x)); [apply Fn_derive|].
        instantiate (1 := b). auto_derive; [exact I|ring].
      * reflexivity.
    + intros x _. apply (@ex_derive_continuous R_AbsRing R_NormedModule). unfold term. auto_derive. exact I.
  - unfold minus, plus, opp; simpl. rewrite Rmult_0_r. unfold Fn at 2. rewrite Ropp_0, exp_0.
    assert (S n 0 = 1) as ->; [|ring].
    unfold S. clear. induction n as [|n IH]; [unfold term; simpl; field|]. simpl. rewrite IH.
    unfold term. rewrite pow_ne_zero by lia. unfold Rdiv. ring.
Qed.

Lemma term_nonneg k x : 0 <= x -> 0 <= term x k.
Proof. intros Hx. unfold term. apply Rmult_le_pos; [apply pow_le, Hx|left; apply Rinv_0_lt_compat, fact_pos]. Qed.
Lemma S_bound n x : 0 < x -> S n x <= INR (Datatypes.S n) / x * (S (Datatypes.S n) x).
Proof.
  intros Hx.
  assert (G : forall m, (m <= n)%nat -> S m x <= INR (Datatypes.S n) / x * (S (Datatypes.S m) x - 1)).
  { induction m as [|m IH]; intros Hm.
    - unfold S; simpl sum_f_R0. unfold term. simpl pow. simpl fact.
      replace (INR (Datatypes.S n) / x * (1 / INR 1 + x * 1 / INR 1 - 1)) with (INR (Datatypes.S n)) by (simpl; field; lra).
      change (INR 1) with 1. rewrite S_INR. pose proof (pos_INR n). lra.
    - replace (S (Datatypes.S m) x) with (S m x + term x (Datatypes.S m)) at 1 by reflexivity.
      replace (S (Datatypes.S (Datatypes.S m)) x) with (S (Datatypes.S m) x + term x (Datatypes.S (Datatypes.S m))) by reflexivity.
      specialize (IH ltac:(lia)).
      assert (H : term x (Datatypes.S m) <= INR (Datatypes.S n) / x * term x (Datatypes.S (Datatypes.S m))).
      { unfold term. rewrite (fact_simpl (Datatypes.S m)), mult_INR.
        replace (INR (Datatypes.S n) / x * (x ^ Datatypes.S (Datatypes.S m) / (INR (Datatypes.S (Datatypes.S m)) * INR (fact (Datatypes.S m)))))
          with (INR (Datatypes.S n) / INR (Datatypes.S (Datatypes.S m)) * (x ^ Datatypes.S m / INR (fact (Datatypes.S m)))).
        - rewrite <- (Rmult_1_l (x ^ Datatypes.S m / _)) at 1. apply Rmult_le_compat_r; [apply term_nonneg; lra|].
          apply Rmult_le_reg_r with (INR (Datatypes.S (Datatypes.S m))); [apply lt_0_INR; lia|].
          unfold Rdiv. rewrite Rmult_assoc, Rinv_l, Rmult_1_l, Rmult_1_r; [|apply not_0_INR; lia].
          apply le_INR. lia.
        - simpl pow. field. repeat split; try lra; try apply INR_fact_neq_0; apply not_0_INR; lia. }
      lra. }
  specialize (G n (le_n n)).
  assert (0 <= INR (Datatypes.S n) / x).
  { apply Rmult_le_pos; [apply pos_INR|left; apply Rinv_0_lt_compat; lra]. }
  lra.
Qed.
Lemma S_le_exp n x : 0 <= x -> S n x <= exp x.
Proof. intros Hx. apply (exp_ge_taylor x n Hx). Qed.
Lemma Fn_limit n b : 0 < b -> tends_to (fun v => Fn n (b * v)) 1.
Proof.
  intros Hb eps He. set (c := INR (Datatypes.S n)).
  assert (Hc : 0 < c) by (apply lt_0_INR; lia).
  exists (c / (b * eps) + 1). intros v Hv.
  assert (H0 : 0 < c / (b * eps)) by (apply Rdiv_lt_0_compat; nra).
  assert (Hv0 : 0 < v) by lra. assert (Hbv : 0 < b * v) by nra.
  unfold Fn. replace (1 - exp (- (b * v)) * S n (b * v) - 1) with (- (exp (- (b * v)) * S n (b * v))) by ring.
  rewrite Rabs_Ropp. pose proof (exp_pos (- (b * v))) as Hep.
  assert (HS0 : 0 <= S n (b * v)) by (apply cond_pos_sum; intros k; apply term_nonneg; lra).
  rewrite Rabs_pos_eq by (apply Rmult_le_pos; lra).
  apply Rle_lt_trans with (c / (b * v)).
  - apply Rle_trans with (exp (- (b * v)) * (c / (b * v) * exp (b * v))).
    + apply Rmult_le_compat_l; [lra|]. eapply Rle_trans; [apply S_bound; lra|].
      apply Rmult_le_compat_l; [apply Rlt_le, Rdiv_lt_0_compat; lra|]. apply S_le_exp; lra.
    + rewrite exp_Ropp. right. field. pose proof (exp_pos (b * v)). repeat split; lra.
  - apply Rmult_lt_reg_r with (b * v); [lra|]. unfold Rdiv. rewrite Rmult_assoc, Rinv_l, Rmult_1_r by lra.
    assert (c = c / (b * eps) * (b * eps)) as Hce by (field; lra).
    assert (0 < b * eps) by nra.
    rewrite Hce. apply Rlt_le_trans with (v * (b * eps)); [|right; ring].
    apply Rmult_lt_compat_r; lra.
Qed.

(** Real shapes: change of variables. *)
Lemma euler_scaled (a b u v : R) : 0 < b -> 0 < u -> u <= v ->
  integral (fun x => Rpower b a * Rpower x (a - 1) * exp (- (b * x))) u v = integral (euler a) (b * u) (b * v).
Proof.
  intros Hb Hu Huv. unfold integral.
  replace (b * u) with (b * u + 0) by ring. replace (b * v) with (b * v + 0) by ring.
  assert (Hex : ex_RInt (euler a) (b * u + 0) (b * v + 0)).
  { apply (@ex_RInt_continuous R_CompleteNormedModule). intros z Hz.
    assert (0 < z).
    { rewrite Rmin_left in Hz; [nra|]. nra. }
    apply (@ex_derive_continuous R_AbsRing R_NormedModule). unfold euler, Rpower. auto_derive. intuition lra. }
  rewrite <- (@RInt_comp_lin R_CompleteNormedModule (euler a) b 0 u v Hex).
  apply (@RInt_ext R_CompleteNormedModule). intros x Hx. rewrite Rmin_left in Hx by lra.
  unfold scal; simpl; unfold mult; simpl. unfold euler. rewrite Rplus_0_r.
  replace (Rpower b a) with (b * Rpower b (a - 1)).
  - rewrite <- (Rpower_mult_distr b x (a - 1)); [ring|lra|lra].
  - rewrite <- (Rpower_1 b) at 1 by lra. rewrite <- Rpower_plus. f_equal. ring.
Qed.

Lemma euler_ex (a u v : R) : 0 < u -> u <= v -> ex_RInt (euler a) u v.
Proof.
  intros Hu Huv. apply (@ex_RInt_continuous R_CompleteNormedModule). intros z Hz. rewrite Rmin_left in Hz by lra.
  apply (@ex_derive_continuous R_AbsRing R_NormedModule). unfold euler, Rpower. auto_derive. intuition lra.
Qed.
Lemma density_mass (G a b u v : R) : 0 < b -> 0 < u -> u <= v ->
  integral (gamma_density G a b) u v = integral (euler a) (b * u) (b * v) / G.
Proof.
  intros Hb Hu Huv. rewrite <- (euler_scaled a b u v Hb Hu Huv). unfold integral, gamma_density, Rdiv.
  rewrite (Rmult_comm (RInt _ u v)). apply (@is_RInt_unique R_CompleteNormedModule).
  apply (@is_RInt_ext R_NormedModule (fun x => / G * (Rpower b a * Rpower x (a - 1) * exp (- (b * x))))).
  { intros x _. apply Rmult_comm. }
  apply (@is_RInt_scal R_NormedModule (fun x => Rpower b a * Rpower x (a - 1) * exp (- (b * x))) u v (/ G)).
  apply (@RInt_correct R_CompleteNormedModule).
  apply (@ex_RInt_continuous R_CompleteNormedModule). intros z Hz. rewrite Rmin_left in Hz by lra.
  apply (@ex_derive_continuous R_AbsRing R_NormedModule). unfold Rpower. auto_derive. intuition lra.
Qed.

(** The Erlang density with shape n + 1. *)
Definition erl (b : R) (n : nat) (x : R) : R := b * (term (b * x) n * exp (- (b * x))).
Lemma erl_cont b n x : continuous (erl b n) x.
Proof. apply (@ex_derive_continuous R_AbsRing R_NormedModule). unfold erl, term. auto_derive. exact I. Qed.
Lemma erl_ex b n u v : ex_RInt (erl b n) u v.
Proof. apply (@ex_RInt_continuous R_CompleteNormedModule). intros z _. apply erl_cont. Qed.
Lemma erl_comb b n p q r v :
  integral (fun x => p * erl b (n + 2) x + q * erl b (n + 1) x + r * erl b n x) 0 v =
  p * Fn (n + 2) (b * v) + q * Fn (n + 1) (b * v) + r * Fn n (b * v).
Proof.
  unfold integral. apply (@is_RInt_unique R_CompleteNormedModule).
  assert (H : forall k c, is_RInt (fun x => c * erl b k x) 0 v (c * Fn k (b * v))).
  { intros k c. apply (@is_RInt_scal R_NormedModule (erl b k) 0 v c).
    rewrite <- (erlang_mass k b v). apply (@RInt_correct R_CompleteNormedModule). apply erl_ex. }
  apply (@is_RInt_plus R_NormedModule (fun x => p * erl b (n + 2) x + q * erl b (n + 1) x) (fun x => r * erl b n x)).
  - apply (@is_RInt_plus R_NormedModule (fun x => p * erl b (n + 2) x) (fun x => q * erl b (n + 1) x)); apply H.
  - apply H.
Qed.
Lemma tends_plus f g k l : tends_to f k -> tends_to g l -> tends_to (fun v => f v + g v) (k + l).
Proof.
  intros Hf Hg eps He. destruct (Hf (eps / 2) ltac:(lra)) as [B HB]. destruct (Hg (eps / 2) ltac:(lra)) as [C HC].
  exists (Rmax B C). intros b Hb. pose proof (Rmax_l B C). pose proof (Rmax_r B C).
  specialize (HB b ltac:(lra)). specialize (HC b ltac:(lra)).
  replace (f b + g b - (k + l)) with ((f b - k) + (g b - l)) by ring.
  eapply Rle_lt_trans; [apply Rabs_triang|]. lra.
Qed.
Lemma tends_scal f c l : tends_to f l -> tends_to (fun v => c * f v) (c * l).
Proof.
  intros Hf eps He. destruct (Hf (eps / (Rabs c + 1))) as [B HB].
  { apply Rdiv_lt_0_compat; [lra|]. pose proof (Rabs_pos c). lra. }
  exists B. intros b Hb. specialize (HB b Hb). replace (c * f b - c * l) with (c * (f b - l)) by ring.
  rewrite Rabs_mult. pose proof (Rabs_pos c).
  apply Rle_lt_trans with ((Rabs c) * (eps / (Rabs c + 1))); [apply Rmult_le_compat_l; lra|].
  apply Rmult_lt_reg_r with (Rabs c + 1); [lra|]. unfold Rdiv.
  replace (Rabs c * (eps * / (Rabs c + 1)) * (Rabs c + 1)) with (Rabs c * eps) by (field; lra). lra.
Qed.
Lemma tends_ext f g l : (forall v, f v = g v) -> tends_to f l -> tends_to g l.
Proof. intros He Hf eps H. destruct (Hf eps H) as [B HB]. exists B. intros b Hb. rewrite <- He. auto. Qed.
Lemma erl_comb_limit b n p q r h : 0 < b ->
  (forall x, h x = p * erl b (n + 2) x + q * erl b (n + 1) x + r * erl b n x) ->
  tends_to (fun v => integral h 0 v) (p + q + r).
Proof.
  intros Hb Hh. apply (tends_ext (fun v => p * Fn (n + 2) (b * v) + q * Fn (n + 1) (b * v) + r * Fn n (b * v))).
  - intros v. rewrite <- erl_comb. unfold integral. apply (@RInt_ext R_CompleteNormedModule). intros x _. symmetry. apply Hh.
  - replace (p + q + r) with (p * 1 + q * 1 + r * 1) by ring.
    repeat apply tends_plus; apply tends_scal, Fn_limit, Hb.
Qed.
Lemma erl_shift b n x : 0 < b -> x * erl b n x = INR (Datatypes.S n) / b * erl b (n + 1) x.
Proof.
  intros Hb. unfold erl, term. replace (n + 1)%nat with (Datatypes.S n) by lia.
  rewrite fact_simpl, mult_INR. simpl pow. field.
  repeat split; try lra; try apply INR_fact_neq_0. apply not_0_INR. lia.
Qed.
Lemma erl_pos b n x : 0 < b -> 0 < x -> 0 < erl b n x.
Proof.
  intros Hb Hx. unfold erl, term. apply Rmult_lt_0_compat; [lra|]. apply Rmult_lt_0_compat; [|apply exp_pos].
  apply Rdiv_lt_0_compat; [|apply fact_pos]. apply pow_lt. nra.
Qed.
