(** The functions behind the law of sampleGamma for all shapes. *)
From stdpp Require Import prelude list.
From Coq Require Import Reals Lra Psatz.
From Coquelicot Require Import Coquelicot.
From Verif Require Import Spec_Gamma Spec_Volume VolumeProofs Properties_GammaLaw.
Local Open Scope R_scope.

(** ** The integrand of Euler's integral, continued by zero *)
Definition ee (b x : R) : R := if Rlt_dec 0 x then Rpower x b * exp (- x) else 0.
Lemma ee_pos b x : 0 < x -> ee b x = Rpower x b * exp (- x).
Proof. intros H. unfold ee. destruct (Rlt_dec 0 x); [done|lra]. Qed.
Lemma ee_neg b x : x <= 0 -> ee b x = 0.
Proof. intros H. unfold ee. destruct (Rlt_dec 0 x); [lra|done]. Qed.
Lemma ee_nonneg b x : 0 <= ee b x.
Proof. unfold ee. destruct (Rlt_dec 0 x); [|lra]. left. apply Rmult_lt_0_compat; apply exp_pos. Qed.
Lemma ee_derive b x : 0 < x -> is_derive (ee b) x (b * ee (b - 1) x - ee b x).
Proof.
  intros Hx. apply (is_derive_ext_loc (fun t => exp (b * ln t) * exp (- t))).
  - exists (mkposreal x Hx). intros y Hy. apply Rabs_def2 in Hy. simpl in Hy. unfold minus, plus, opp in Hy; simpl in Hy.
    rewrite ee_pos; [done|lra].
  - rewrite !ee_pos by done. unfold Rpower. auto_derive; [done|].
    replace ((b - 1) * ln x) with (b * ln x + - ln x) by ring. rewrite exp_plus, (exp_Ropp (ln x)), exp_ln by done. field. lra.
Qed.
Lemma ee_small b x d : 0 < b -> 0 < d -> 0 < x -> x < Rpower d (/ b) -> ee b x < d.
Proof.
  intros Hb Hd Hx H. rewrite ee_pos by done.
  assert (H1 : Rpower x b < d).
  { assert (E : Rpower (Rpower d (/ b)) b = d) by (rewrite Rpower_mult, Rinv_l by lra; by apply Rpower_1).
    rewrite <- E. by apply Rpower_lt_base. }
  assert (exp (- x) < 1). { assert (X : exp (- x) < exp 0) by (apply exp_increasing; lra). rewrite exp_0 in X. done. }
  pose proof (exp_pos (- x)). pose proof (Rpower_pos x b). nra.
Qed.
Lemma ee_cont b x : 0 < b -> continuous (ee b) x.
Proof.
  intros Hb. destruct (Rtotal_order x 0) as [Hx|[Hx|Hx]].
  - apply continuous_ext_loc with (fun _ => 0); [|apply continuous_const].
    exists (mkposreal (- x) ltac:(lra)). intros y Hy. apply Rabs_def2 in Hy. simpl in Hy. unfold minus, plus, opp in Hy; simpl in Hy.
    rewrite ee_neg; [done|lra].
  - subst x. apply continuity_pt_filterlim. intros eps He. exists (Rpower eps (/ b)). split; [apply Rpower_pos|].
    intros y [_ Hy]. simpl in *. unfold R_dist in *. rewrite (ee_neg b 0) by lra. rewrite Rminus_0_r in *.
    apply Rabs_def2 in Hy. rewrite Rabs_pos_eq by apply ee_nonneg. destruct (Rlt_dec 0 y) as [Hp|Hn].
    + apply ee_small; lra.
    + rewrite ee_neg; lra.
  - apply (ex_derive_continuous (ee b)). eexists. by apply ee_derive.
Qed.
Lemma ee_int b u v : 0 < b -> ex_RInt (ee b) u v.
Proof. intros Hb. apply (@ex_RInt_continuous R_CompleteNormedModule). intros z _. by apply ee_cont. Qed.
Definition AA (b x : R) : R := RInt (ee b) 0 x.
Lemma AA_derive b x : 0 < b -> is_derive (AA b) x (ee b x).
Proof.
  intros Hb. apply (is_derive_RInt (ee b) (AA b) 0 x); [|by apply ee_cont].
  apply filter_forall. intros y. apply (@RInt_correct R_CompleteNormedModule). by apply ee_int.
Qed.
Lemma AA_0 b : AA b 0 = 0. Proof. unfold AA. by rewrite RInt_point. Qed.
Lemma AA_neg b x : x <= 0 -> AA b x = 0.
Proof.
  intros Hx. unfold AA. assert (H : is_RInt (ee b) x 0 ((0 - x) * 0)).
  { eapply is_RInt_ext; [|apply const_RInt]. intros y Hy. rewrite Rmin_left, Rmax_right in Hy by lra. rewrite ee_neg; [done|lra]. }
  apply (is_RInt_swap (ee b) 0 x) in H. rewrite (is_RInt_unique _ _ _ _ H). unfold opp; simpl. ring.
Qed.
Lemma AA_cont b x : 0 < b -> continuous (AA b) x.
Proof. intros Hb. apply (ex_derive_continuous (AA b)). eexists. by apply AA_derive. Qed.
(** The recurrence of the gamma function, up to a bound. *)
Lemma AA_rec b x : 0 < b -> (b + 1) * AA b x = AA (b + 1) x + ee (b + 1) x.
Proof.
  intros Hb. destruct (Rle_or_lt x 0) as [Hx|Hx].
  { rewrite !AA_neg, ee_neg by done. ring. }
  set (D := fun x => AA (b + 1) x + ee (b + 1) x - (b + 1) * AA b x).
  assert (HD : forall y, 0 < y -> is_derive D y 0).
  { intros y Hy. evar_last.
    - apply (is_derive_minus (fun x => AA (b + 1) x + ee (b + 1) x) (fun x => (b + 1) * AA b x)).
      + apply (is_derive_plus (AA (b + 1)) (ee (b + 1))); [apply AA_derive; lra|by apply ee_derive].
      + apply (is_derive_scal (AA b)). by apply AA_derive.
    - unfold minus, plus, opp, scal, mult; simpl. replace (b + 1 - 1) with b by ring. 
      match goal with |- ?a = ?b => change (@eq R a b) end. ring. }
  assert (HC : forall y, continuous D y).
  { intros y. apply (continuous_minus (fun x => AA (b + 1) x + ee (b + 1) x) (fun x => (b + 1) * AA b x)).
    - apply (continuous_plus (AA (b + 1)) (ee (b + 1))); [apply AA_cont; lra|apply ee_cont; lra].
    - apply (continuous_scal_r (b + 1) (AA b)). by apply AA_cont. }
  destruct (MVT_gen D 0 x (fun _ => 0)) as (c & _ & E).
  - intros y Hy. rewrite Rmin_left in Hy by lra. apply HD. lra.
  - intros y _. apply continuity_pt_filterlim, HC.
  - assert (D 0 = 0) as E0. { unfold D. rewrite !AA_0, ee_neg by lra. ring. }
    rewrite E0 in E. unfold D in E. lra.
Qed.
(** It vanishes at infinity. *)
Lemma ee_top b d : 0 < b -> 0 < d -> exists B, 0 < B /\ forall x, B <= x -> ee b x < d.
Proof.
  intros Hb Hd. set (k := 2 * b + 2).
  (* x^b e^-x = (x/k)^b k^b e^-x, and ln (x/k) <= x/k *)
  exists (Rmax 1 (2 * (b * ln k + Rabs (ln d)) + 1)). split; [apply Rlt_le_trans with 1; [lra|apply Rmax_l]|].
  intros x Hx. assert (H1 : 1 <= x) by (eapply Rle_trans; [apply Rmax_l|exact Hx]).
  assert (H2 : 2 * (b * ln k + Rabs (ln d)) + 1 <= x) by (eapply Rle_trans; [apply Rmax_r|exact Hx]).
  rewrite ee_pos by lra. unfold Rpower. rewrite <- exp_plus. rewrite <- (exp_ln d) by done. apply exp_increasing.
  assert (Hk : 2 < k) by (unfold k; lra).
  assert (Hl : ln x <= x / k + ln k).
  { replace x with (x / k * k) at 1 by (field; lra). rewrite ln_mult by (try apply Rdiv_lt_0_compat; lra).
    apply Rplus_le_compat_r. assert (Hxk : 0 < x / k) by (apply Rdiv_lt_0_compat; lra).
    rewrite <- (ln_exp (x / k)) at 2. left. apply ln_increasing; [done|]. pose proof (exp_ineq1 (x / k) ltac:(lra)). lra. }
  assert (Hbk : b * (x / k) <= x / 2).
  { apply Rmult_le_reg_r with (2 * k); [lra|]. replace (b * (x / k) * (2 * k)) with (2 * b * x) by (field; lra).
    replace (x / 2 * (2 * k)) with (x * k) by field. unfold k. nra. }
  assert (b * ln x <= b * (x / k) + b * ln k) by nra.
  pose proof (Rle_abs (- ln d)) as Ha. rewrite Rabs_Ropp in Ha. lra.
Qed.

Section law.
  Context (f : R) (Hf : 0 < f < 1).
  Local Notation b := (gb f).
  (** [dd n] is the factor of the n-th integrand, [VV n t] the part of the cube with a sum of at most [t]. *)
  Fixpoint dd (n : nat) : R := match n with O => f / b | S n' => dd n' / (f + INR n') end.
  Definition VV (n : nat) (x : R) : R :=
    match n with O => (ee f x + AA f x) / b | S n' => dd (S n') * AA (f + INR n') x end.
  Lemma b_pos : 0 < b. Proof. pose proof (gb_gt f Hf). lra. Qed.
  Lemma fn_pos n : 0 < f + INR n. Proof. pose proof (pos_INR n). lra. Qed.
  Lemma dd_pos n : 0 < dd n.
  Proof.
    induction n as [|n IH]; simpl dd; [apply Rdiv_lt_0_compat; [lra|apply b_pos]|]. apply Rdiv_lt_0_compat; [done|apply fn_pos].
  Qed.
  Lemma VV_neg n x : x <= 0 -> VV n x = 0.
  Proof. intros H. destruct n; simpl VV; [rewrite ee_neg, AA_neg by done; unfold Rdiv; ring|rewrite AA_neg by done; ring]. Qed.
  Lemma VV_cont n x : continuous (VV n) x.
  Proof.
    destruct n as [|n]; simpl.
    - apply (continuous_ext (fun x => scal (/ b) (ee f x + AA f x))).
      + intros y. unfold scal; simpl; unfold mult; simpl. unfold Rdiv. ring.
      + apply (continuous_scal_r (/ b) (fun x => ee f x + AA f x)). apply (continuous_plus (ee f) (AA f)); [apply ee_cont; lra|apply AA_cont; lra].
    - apply (continuous_scal_r (dd n / (f + INR n)) (AA (f + INR n))). apply AA_cont, fn_pos.
  Qed.
  Lemma VV_derive n x : 0 < x -> is_derive (VV n) x (dd n * ee (f + INR n - 1) x).
  Proof.
    intros Hx. pose proof b_pos. destruct n as [|n].
    - apply (is_derive_ext (fun x => / b * (ee f x + AA f x))); [intros; simpl; unfold Rdiv; ring|]. evar_last.
      + apply (is_derive_scal (fun x => ee f x + AA f x)). apply (is_derive_plus (ee f) (AA f)); [by apply ee_derive|apply AA_derive; lra].
      + unfold plus, scal, mult; simpl. match goal with |- ?a = ?b => change (@eq R a b) end.
        replace (f + 0 - 1) with (f - 1) by ring. field. lra.
    - rewrite S_INR. replace (f + (INR n + 1) - 1) with (f + INR n) by ring.
      apply (is_derive_scal (AA (f + INR n))). apply AA_derive, fn_pos.
  Qed.
  Lemma VV_S_derive n x : is_derive (VV (S n)) x (dd (S n) * ee (f + INR n) x).
  Proof. apply (is_derive_scal (AA (f + INR n))). apply AA_derive, fn_pos. Qed.
  Lemma VV_rec n x : VV n x = VV (S n) x + dd (S n) * ee (f + INR n) x.
  Proof.
    pose proof b_pos. destruct n as [|n].
    - simpl. rewrite Rplus_0_r. field. split; lra.
    - pose proof (AA_rec (f + INR n) x (fn_pos n)) as E. pose proof (fn_pos n). pose proof (fn_pos (S n)) as H2. rewrite S_INR in H2.
      cbn [VV dd]. rewrite !S_INR. replace (f + (INR n + 1)) with (f + INR n + 1) by ring.
      replace (AA (f + INR n + 1) x) with ((f + INR n + 1) * AA (f + INR n) x - ee (f + INR n + 1) x) by lra.
      field. lra.
  Qed.
  (** Summing up one more exponential number. *)
  Lemma VV_step n t : is_RInt (fun u => VV n (t + ln u)) 0 1 (VV (S n) t).
  Proof.
    destruct (Rle_or_lt t 0) as [Ht|Ht].
    - rewrite VV_neg by done. replace 0 with ((1 - 0) * 0) at 2 by ring.
      eapply is_RInt_ext; [|apply const_RInt]. intros u Hu. rewrite Rmin_left, Rmax_right in Hu by lra. symmetry. apply VV_neg.
      assert (ln u < 0) by (rewrite <- ln_1; apply ln_increasing; lra). lra.
    - set (m := exp (- t)). assert (Hm : 0 < m) by apply exp_pos.
      assert (Hm1 : m < 1). { assert (X : exp (- t) < exp 0) by (apply exp_increasing; lra). rewrite exp_0 in X. done. }
      replace (VV (S n) t) with ((m - 0) * 0 + (1 * VV (S n) (t + ln 1) - m * VV (S n) (t + ln m))).
      2:{ unfold m. rewrite ln_exp, ln_1. replace (t + - t) with 0 by ring. rewrite (VV_neg _ 0), Rplus_0_r by lra. ring. }
      apply (@is_RInt_Chasles R_NormedModule) with m.
      + eapply is_RInt_ext; [|apply const_RInt]. intros u Hu. rewrite Rmin_left, Rmax_right in Hu by lra. symmetry. apply VV_neg.
        assert (X : ln u < ln m) by (apply ln_increasing; lra). unfold m in X. rewrite ln_exp in X. lra.
      + apply (is_RInt_derive (fun u => u * VV (S n) (t + ln u))).
        * intros u Hu. rewrite Rmin_left, Rmax_right in Hu by lra. assert (Hu0 : 0 < u) by lra. evar_last.
          -- apply (is_derive_mult (fun u => u) (fun u => VV (S n) (t + ln u)) u 1 (/ u * (dd (S n) * ee (f + INR n) (t + ln u)))).
             ++ apply (@is_derive_id R_AbsRing).
             ++ apply (is_derive_comp (VV (S n)) (fun u => t + ln u) u); [apply VV_S_derive|]. auto_derive; [done|]. field. lra.
             ++ intros; apply Rmult_comm.
          -- rewrite (VV_rec n). unfold plus, scal, mult; simpl. match goal with |- ?a = ?b => change (@eq R a b) end. 
             unfold mult; simpl. field. split; [pose proof (fn_pos n); lra|lra].
        * intros u Hu. rewrite Rmin_left, Rmax_right in Hu by lra.
          apply (continuous_comp (fun u => t + ln u) (VV n)); [|apply VV_cont].
          apply (ex_derive_continuous (fun u => t + ln u)). auto_derive. lra.
  Qed.
  Lemma VV_le n x y : x <= y -> VV n x <= VV n y.
  Proof.
    intros Hxy. destruct (Rle_or_lt y 0) as [Hy|Hy]; [rewrite !VV_neg by lra; lra|].
    set (z := Rmax 0 x). assert (Ez : VV n x = VV n z).
    { unfold z, Rmax. destruct (Rle_dec 0 x); [done|]. rewrite !VV_neg by lra. done. }
    assert (Hz : 0 <= z <= y) by (unfold z, Rmax; destruct (Rle_dec 0 x); lra). rewrite Ez.
    destruct (MVT_gen (VV n) z y (fun t => dd n * ee (f + INR n - 1) t)) as (c & Hc & E).
    - intros t Ht. rewrite Rmin_left in Ht by lra. apply VV_derive. lra.
    - intros t _. apply continuity_pt_filterlim, VV_cont.
    - pose proof (dd_pos n). pose proof (ee_nonneg (f + INR n - 1) c). assert (0 <= dd n * ee (f + INR n - 1) c) by nra. nra.
  Qed.
End law.
