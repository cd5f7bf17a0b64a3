(** C122: [EstimatorML<NormalDistribution<1>>] in IEEE binary64 (the model of NormalModel.v with [double_sops]). *)
From stdpp Require Import prelude list.
From Coq Require Import Reals Lra Psatz ZArith.
From Flocq Require Import Core BinarySingleNaN Relative.
From Verif Require Import Base GridModel GridDoubleProofs RandomizerDoubleProofs TimestampProofs NormalModel.
Local Open Scope R_scope.

(** ** Specification *)
(** A whole number as a double, and what it means that a double is (exactly) a real number. *)
Definition whole (z : Z) : double := double_of_Z z 0.
Definition is_real_number (d : double) (r : R) : Prop := is_finite d = true /\ B2R d = r.
Definition Zsum (l : list Z) : Z := foldr Z.add 0%Z l.
Definition Zsquares (l : list Z) : Z := Zsum (map (fun z => z * z)%Z l).
(** Mean, mean square and variance of whole numbers. *)
Definition meanZ (l : list Z) : R := IZR (Zsum l) / INR (length l).
Definition mean_square (l : list Z) : R := IZR (Zsquares l) / INR (length l).
Definition varianceZ (l : list Z) : R := mean_square l - meanZ l * meanZ l.

(** ** Rounding *)
Lemma rnd_le a b : a <= b -> rnd64 a <= rnd64 b. Proof. apply rnd64_rounding. Qed.
Lemma rnd_bound x : Rabs x <= bpow radix2 1000 -> Rabs (rnd64 x) < bpow radix2 1024.
Proof.
  intros H. apply Rle_lt_trans with (bpow radix2 1000); [|apply bpow_lt; lia].
  assert (Hb : rnd64 (bpow radix2 1000) = bpow radix2 1000).
  { apply round_generic; [apply valid_rnd_N|]. apply generic_format_bpow. unfold SpecFloat.fexp, SpecFloat.emin. lia. }
  apply Rabs_le_inv in H as [H1 H2]. apply Rabs_le. split.
  - rewrite <- Hb at 1. unfold rnd64. rewrite <- round_NE_opp. apply rnd_le. done.
  - rewrite <- Hb. apply rnd_le. done.
Qed.
Lemma add_real a b x y : is_real_number a x -> is_real_number b y -> Rabs (x + y) <= bpow radix2 1000 -> is_real_number (d_add a b) (rnd64 (x + y)).
Proof.
  intros [Fa <-] [Fb <-] H. generalize (Bplus_correct 53 1024 _ _ mode_NE a b Fa Fb). rewrite Rlt_bool_true by by apply rnd_bound.
  intros (E & F & _). split; [exact F|exact E].
Qed.
Lemma sub_real a b x y : is_real_number a x -> is_real_number b y -> Rabs (x - y) <= bpow radix2 1000 -> is_real_number (d_sub a b) (rnd64 (x - y)).
Proof.
  intros [Fa <-] [Fb <-] H. generalize (Bminus_correct 53 1024 _ _ mode_NE a b Fa Fb). rewrite Rlt_bool_true by by apply rnd_bound.
  intros (E & F & _). split; [exact F|exact E].
Qed.
Lemma mul_real a b x y : is_real_number a x -> is_real_number b y -> Rabs (x * y) <= bpow radix2 1000 -> is_real_number (d_mul a b) (rnd64 (x * y)).
Proof.
  intros [Fa <-] [Fb <-] H. generalize (Bmult_correct 53 1024 _ _ mode_NE a b). rewrite Rlt_bool_true by by apply rnd_bound.
  intros (E & F & _). split; [unfold d_mul; rewrite F, Fa, Fb; done|exact E].
Qed.
Lemma div_real a b x y : is_real_number a x -> is_real_number b y -> y <> 0 -> Rabs (x / y) <= bpow radix2 1000 -> is_real_number (d_div a b) (rnd64 (x / y)).
Proof.
  intros [Fa <-] [Fb <-] H0 H. generalize (Bdiv_correct 53 1024 _ _ mode_NE a b H0). rewrite Rlt_bool_true by by apply rnd_bound.
  intros (E & F & _). split; [unfold d_div; rewrite F, Fa; done|exact E].
Qed.
Lemma whole_real z : (Z.abs z <= 2 ^ 53)%Z -> is_real_number (whole z) (IZR z).
Proof. intros H. destruct (of_Z_correct' z ltac:(lia)) as [F E]. split; [done|]. unfold whole. rewrite E. by apply rnd_int. Qed.
Lemma whole_sign z : (Z.abs z <= 2 ^ 53)%Z -> Bsign (whole z) = (z <? 0)%Z.
Proof.
  intros H. generalize (binary_normalize_correct 53 1024 eq_refl eq_refl mode_NE z 0 false). cbv zeta.
  assert (E : F2R (Float radix2 z 0) = IZR z) by (unfold F2R; simpl; lra). rewrite E. rewrite Rlt_bool_true.
  - intros (_ & _ & S). unfold whole, double_of_Z. rewrite S. destruct (Rcompare_spec (IZR z) 0) as [C|C|C].
    + apply (lt_IZR z 0) in C. symmetry. by apply Z.ltb_lt.
    + apply (eq_IZR z 0) in C. subst. done.
    + apply (lt_IZR 0 z) in C. symmetry. apply Z.ltb_ge. lia.
  - apply rnd_bound. rewrite <- abs_IZR. apply Rle_trans with (IZR (2 ^ 53)); [by apply IZR_le|]. change (IZR (2 ^ 53)) with (bpow radix2 53). apply bpow_le. lia.
Qed.
Lemma whole_unique d z : (Z.abs z <= 2 ^ 53)%Z -> is_real_number d (IZR z) -> (z = 0%Z -> Bsign d = false) -> d = whole z.
Proof.
  intros H [F E] S. destruct (whole_real z H) as [F' E']. apply B2R_Bsign_inj; [done|done|congruence|].
  rewrite whole_sign by done. destruct (Z.eq_dec z 0) as [-> |Hz]; [by apply S|].
  assert (HR : B2R d <> 0) by (rewrite E; intros C; apply (eq_IZR z 0) in C; done).
  destruct d as [s|s| |s m e He]; try (cbn in HR; done). cbn [Bsign].
  change (B2R (B754_finite s m e He)) with (F2R (Float radix2 (SpecFloat.cond_Zopp s (Zpos m)) e)) in E.
  destruct s; cbn [SpecFloat.cond_Zopp] in E.
  - symmetry. apply Z.ltb_lt. apply lt_IZR. rewrite <- E. by apply F2R_lt_0.
  - symmetry. apply Z.ltb_ge. apply le_IZR. rewrite <- E. apply Rlt_le. by apply F2R_gt_0.
Qed.
Lemma IZR_bound z : (Z.abs z <= 2 ^ 106)%Z -> Rabs (IZR z) <= bpow radix2 1000.
Proof. intros H. rewrite <- abs_IZR. apply Rle_trans with (IZR (2 ^ 106)); [by apply IZR_le|]. change (IZR (2 ^ 106)) with (bpow radix2 106). apply bpow_le. lia. Qed.
Lemma whole_add a b : (Z.abs a <= 2 ^ 53)%Z -> (Z.abs b <= 2 ^ 53)%Z -> (Z.abs (a + b) <= 2 ^ 53)%Z -> d_add (whole a) (whole b) = whole (a + b).
Proof.
  intros Ha Hb Hab. destruct (whole_real a Ha) as [Fa Ea], (whole_real b Hb) as [Fb Eb].
  apply whole_unique; [done| |].
  - rewrite <- (rnd_int (a + b)) by done. rewrite plus_IZR. apply add_real; try (by apply whole_real). rewrite <- plus_IZR. apply IZR_bound. lia.
  - intros E. generalize (Bplus_correct 53 1024 _ _ mode_NE (whole a) (whole b) Fa Fb). rewrite Rlt_bool_true.
    + intros (_ & _ & S). unfold d_add. rewrite S, Ea, Eb, <- plus_IZR, E, Rcompare_Eq by done. rewrite !whole_sign by done.
      destruct (Z.ltb_spec a 0), (Z.ltb_spec b 0); try done; lia.
    + apply rnd_bound. rewrite Ea, Eb, <- plus_IZR. apply IZR_bound. lia.
Qed.
Lemma whole_square a : (Z.abs (a * a) <= 2 ^ 53)%Z -> d_mul (whole a) (whole a) = whole (a * a).
Proof.
  intros H. assert (Ha : (Z.abs a <= 2 ^ 53)%Z) by nia. destruct (whole_real a Ha) as [Fa Ea].
  apply whole_unique; [done| |].
  - rewrite <- (rnd_int (a * a)) by done. rewrite mult_IZR. apply mul_real; try (by apply whole_real). rewrite <- mult_IZR. apply IZR_bound. lia.
  - intros E. assert (a = 0)%Z as -> by nia. vm_compute. done.
Qed.

(** ** Sums of whole numbers *)
Lemma Zsum_snoc l x : Zsum (l ++ [x]) = (Zsum l + x)%Z.
Proof. unfold Zsum. induction l as [|a l IH]; cbn in *; lia. Qed.
Lemma Zsquares_snoc l x : Zsquares (l ++ [x]) = (Zsquares l + x * x)%Z.
Proof. unfold Zsquares. rewrite map_app. apply Zsum_snoc. Qed.
Lemma Zsquares_pos l : (0 <= Zsquares l)%Z.
Proof. unfold Zsquares, Zsum. induction l as [|a l IH]; cbn in *; nia. Qed.
Lemma Zsum_squares l : (Z.abs (Zsum l) <= Zsquares l)%Z.
Proof. unfold Zsquares, Zsum. induction l as [|a l IH]; cbn in *; nia. Qed.
Lemma cauchy l : (Zsum l * Zsum l <= Z.of_nat (length l) * Zsquares l)%Z.
Proof.
  unfold Zsquares, Zsum. induction l as [|a l IH]; [cbn; lia|]. cbn [foldr map length]. rewrite Nat2Z.inj_succ.
  set (s := foldr Z.add 0%Z l) in *. set (q := foldr Z.add 0%Z (map (fun z => z * z)%Z l)) in *.
  assert (H : (2 * a * s <= Z.of_nat (length l) * a * a + q)%Z); [|nia].
  subst s q. clear IH. induction l as [|b l IH]; [cbn; lia|]. cbn [foldr map length]. rewrite Nat2Z.inj_succ.
  assert (H : (0 <= (a - b) * (a - b))%Z) by apply Z.square_nonneg.
  set (s := foldr Z.add 0%Z l) in *. set (q := foldr Z.add 0%Z (map (fun z => z * z)%Z l)) in *. set (n := Z.of_nat (length l)) in *. clearbody s q n. nia.
Qed.

Lemma centred l c d : Zsum (map (fun x => (c * x - d) * (c * x - d))%Z l) = (c * c * Zsquares l - 2 * c * d * Zsum l + Z.of_nat (length l) * d * d)%Z.
Proof.
  unfold Zsquares, Zsum. induction l as [|a l IH]; [cbn; ring|]. cbn [foldr map length]. rewrite Nat2Z.inj_succ, IH. ring.
Qed.
Lemma centred_zero (l : list Z) (f : Z -> Z) x : (forall y, 0 <= f y)%Z -> Zsum (map f l) = 0%Z -> In x l -> f x = 0%Z.
Proof.
  intros Hf. unfold Zsum. assert (P : forall k, (0 <= foldr Z.add 0 (map f k))%Z).
  { induction k as [|b k IH]; cbn; [lia|]. specialize (Hf b). lia. }
  induction l as [|a l IH]; [done|]. cbn. pose proof (Hf a). pose proof (P l). intros E [-> |Hx]; [lia|]. apply IH; [lia|done].
Qed.
(** Strict: two different numbers. *)
Lemma cauchy_strict (l : list Z) a b : In a l -> In b l -> a <> b -> (Zsum l * Zsum l < Z.of_nat (length l) * Zsquares l)%Z.
Proof.
  intros Ha Hb Hab. pose proof (cauchy l) as Hc. apply Z.le_neq. split; [done|]. intros E. apply Hab.
  set (n := Z.of_nat (length l)) in *. set (s := Zsum l) in *.
  assert (Hn : (0 < n)%Z) by (unfold n; destruct l; [done|cbn; lia]).
  assert (Z0 : Zsum (map (fun x => (n * x - s) * (n * x - s))%Z l) = 0%Z) by (rewrite centred; fold n s; nia).
  assert (Ea := centred_zero l (fun x => (n * x - s) * (n * x - s))%Z a ltac:(intros; apply Z.square_nonneg) Z0 Ha).
  assert (Eb := centred_zero l (fun x => (n * x - s) * (n * x - s))%Z b ltac:(intros; apply Z.square_nonneg) Z0 Hb).
  cbn beta in Ea, Eb. apply Z.mul_eq_0 in Ea, Eb. assert (n * a = n * b)%Z by lia. apply (Z.mul_reg_l a b n); lia.
Qed.
Lemma Zsum_replicate k x : Zsum (replicate k x) = (Z.of_nat k * x)%Z /\ Zsquares (replicate k x) = (Z.of_nat k * (x * x))%Z.
Proof. unfold Zsquares, Zsum. induction k as [|k [I1 I2]]; [done|]. cbn [replicate foldr map]. rewrite I1, I2. lia. Qed.
Lemma whole_sub a b : (Z.abs a <= 2 ^ 53)%Z -> (Z.abs b <= 2 ^ 53)%Z -> (Z.abs (a - b) <= 2 ^ 53)%Z -> (a = b -> 0 <= a)%Z -> d_sub (whole a) (whole b) = whole (a - b).
Proof.
  intros Ha Hb Hab Hz. destruct (whole_real a Ha) as [Fa Ea], (whole_real b Hb) as [Fb Eb].
  apply whole_unique; [done| |].
  - rewrite <- (rnd_int (a - b)) by done. rewrite minus_IZR. apply sub_real; try (by apply whole_real). rewrite <- minus_IZR. apply IZR_bound. lia.
  - intros E. generalize (Bminus_correct 53 1024 _ _ mode_NE (whole a) (whole b) Fa Fb). rewrite Rlt_bool_true.
    + intros (_ & _ & S). unfold d_sub. rewrite S, Ea, Eb, <- minus_IZR, E, Rcompare_Eq by done. rewrite !whole_sign by done.
      destruct (Z.ltb_spec a 0), (Z.ltb_spec b 0); try done; lia.
    + apply rnd_bound. rewrite Ea, Eb, <- minus_IZR. apply IZR_bound. lia.
Qed.
Lemma whole_div a b : (Z.abs (a * b) <= 2 ^ 53)%Z -> (Z.abs b <= 2 ^ 53)%Z -> (0 < b)%Z -> d_div (whole (a * b)) (whole b) = whole a.
Proof.
  intros Ha Hb Hp. assert (Ha' : (Z.abs a <= 2 ^ 53)%Z) by nia. destruct (whole_real (a * b) Ha) as [Fa Ea], (whole_real b Hb) as [Fb Eb].
  assert (Hb0 : IZR b <> 0) by (intros C; apply (eq_IZR b 0) in C; lia).
  assert (Ed : IZR (a * b) / IZR b = IZR a) by (rewrite mult_IZR; field; done).
  apply whole_unique; [done| |].
  - rewrite <- (rnd_int a) by done. rewrite <- Ed. apply div_real; try done. rewrite Ed. apply IZR_bound. lia.
  - intros ->. generalize (Bdiv_correct 53 1024 _ _ mode_NE (whole (0 * b)) (whole b) ltac:(by rewrite Eb)). rewrite Rlt_bool_true.
    + intros (_ & F & S). unfold d_div. rewrite S. { rewrite !whole_sign by done. destruct (Z.ltb_spec b 0); [lia|done]. }
      assert (is_finite (Bdiv mode_NE (whole (0 * b)) (whole b)) = true) as X by (rewrite F; done). by destruct (Bdiv _ _ _).
    + apply rnd_bound. rewrite Ea, Eb, Ed. apply IZR_bound. lia.
Qed.
Lemma whole_mul a b : (Z.abs (a * b) <= 2 ^ 53)%Z -> (0 <= a)%Z -> (0 < b <= 2 ^ 53)%Z -> d_mul (whole a) (whole b) = whole (a * b).
Proof.
  intros H Ha Hb. assert (Ha' : (Z.abs a <= 2 ^ 53)%Z) by nia. destruct (whole_real a Ha') as [Fa Ea], (whole_real b ltac:(lia)) as [Fb Eb].
  apply whole_unique; [done| |].
  - rewrite <- (rnd_int (a * b)) by done. rewrite mult_IZR. apply mul_real; try done. rewrite <- mult_IZR. apply IZR_bound. lia.
  - intros E. assert (a = 0)%Z as -> by nia. generalize (Bmult_correct 53 1024 _ _ mode_NE (whole 0) (whole b)). rewrite Rlt_bool_true.
    + intros (_ & F & S). unfold d_mul. rewrite S. { rewrite !whole_sign by lia. destruct (Z.ltb_spec b 0); [lia|done]. }
      assert (is_finite (Bmult mode_NE (whole 0) (whole b)) = true) as X by (rewrite F, Fb; done). by destruct (Bmult _ _ _).
    + apply rnd_bound. rewrite Eb. change (B2R (whole 0)) with 0. rewrite Rmult_0_l, Rabs_R0. apply bpow_ge_0.
Qed.

(** ** Rounding errors *)
(** The unit roundoff 2^-53. *)
Definition u53 : R := / 9007199254740992.
Lemma rnd_err x K Q : / 67108864 <= Q -> Rabs x <= K -> Rabs (rnd64 x - x) <= u53 * K + u53 * Q / 1000.
Proof.
  intros HQ HK. destruct (error_N_FLT radix2 (-1074) 53 eq_refl (fun z => negb (Z.even z)) x) as (eps & eta & H1 & H2 & _ & E).
  assert (Er : rnd64 x = x * (1 + eps) + eta) by exact E. rewrite Er.
  replace (x * (1 + eps) + eta - x) with (x * eps + eta) by ring.
  assert (H1' : Rabs eps <= u53).
  { eapply Rle_trans; [exact H1|]. change (bpow radix2 (- (53) + 1)) with (/ 4503599627370496). unfold u53. lra. }
  assert (H2' : Rabs eta <= u53 * Q / 1000).
  { eapply Rle_trans; [exact H2|]. apply Rle_trans with (bpow radix2 (-100)).
    - apply Rle_trans with (bpow radix2 (-1074)); [pose proof (bpow_gt_0 radix2 (-1074)); lra|apply bpow_le; lia].
    - assert (bpow radix2 (-100) <= u53 * / 67108864 / 1000); [|unfold u53 in *; lra]. unfold u53. change (bpow radix2 (-100)) with (/ 1267650600228229401496703205376). lra. }
  eapply Rle_trans; [apply Rabs_triang|]. apply Rplus_le_compat; [|done]. rewrite Rabs_mult, Rmult_comm.
  apply Rmult_le_compat; try done; apply Rabs_pos.
Qed.
Lemma variance_err N Q m : 1 <= N -> / 67108864 <= Q -> m * m <= Q -> (m = 0 \/ / 67108864 <= Rabs m) ->
  let A := rnd64 Q in let B := rnd64 (rnd64 (rnd64 (N * m * (N * m)) * 2) / (N * N)) in let M := rnd64 m in
  Rabs (rnd64 (rnd64 (A - B) + rnd64 (M * M)) - (Q - m * m)) <= 16 * u53 * Q.
Proof.
  intros HN HQ Hm Hm0 A B M. assert (Hu : 0 < u53 < / 1000000) by (unfold u53; lra).
  set (E := u53 * Q). assert (HE : 0 < E < Q / 1000000) by (unfold E; nra).
  assert (rnd_lin : forall x k, Rabs x <= k * Q -> - (k + / 1000) * E <= rnd64 x - x <= (k + / 1000) * E).
  { intros x k Hx. pose proof (rnd_err x (k * Q) Q HQ Hx) as H. replace (u53 * (k * Q) + u53 * Q / 1000) with ((k + / 1000) * E) in H by (unfold E; field).
    apply Rabs_le_inv in H. rewrite Ropp_mult_distr_l in H. exact H. }
  assert (Hmm : 0 <= m * m) by nra.
  (* A *)
  assert (HA := rnd_lin Q 1). rewrite Rabs_pos_eq in HA by lra. specialize (HA ltac:(lra)). fold A in HA.
  (* B *)
  assert (HT : 1 <= N * N) by nra. set (T := N * N) in *.
  assert (HTQ : / 67108864 <= T * Q) by nra.
  assert (HB : - 6.1 * E <= B - 2 * (m * m) <= 6.1 * E).
  { set (P1 := rnd64 (N * m * (N * m))) in *. set (P2 := rnd64 (P1 * 2)) in *.
    assert (X1 : N * m * (N * m) = T * (m * m)) by (unfold T; ring).
    assert (H1 : Rabs (P1 - T * (m * m)) <= u53 * (T * Q) + u53 * (T * Q) / 1000).
    { unfold P1. rewrite X1. apply rnd_err; [done|]. rewrite Rabs_pos_eq by nra. nra. }
    assert (ET : u53 * (T * Q) = T * E) by (unfold E; ring). rewrite ET in H1. apply Rabs_le_inv in H1.
    assert (TE : 0 < T * E) by nra. assert (TEQ : T * E < T * Q / 1000000) by nra. assert (TM : 0 <= T * (m * m) <= T * Q) by nra.
    assert (H2 : Rabs (P2 - P1 * 2) <= u53 * (2.01 * (T * Q)) + u53 * (T * Q) / 1000).
    { apply rnd_err; [done|]. apply Rabs_le. lra. }
    replace (u53 * (2.01 * (T * Q))) with (2.01 * (T * E)) in H2 by (unfold E; ring). rewrite ET in H2. apply Rabs_le_inv in H2.
    assert (H3 : - 4.02 * E <= P2 / T - 2 * (m * m) <= 4.02 * E).
    { assert (P2 / T * T = P2) by (field; lra). set (p := P2 / T) in *. clearbody p. split; apply (Rmult_le_reg_r T); nra. }
    assert (H4 := rnd_lin (P2 / T) 2.01). fold B in H4. specialize (H4 ltac:(apply Rabs_le; lra)). lra. }
  (* C *)
  assert (HM : - 2.01 * E <= M * M - m * m <= 2.01 * E).
  { destruct Hm0 as [-> |Hm0].
    - unfold M. assert (rnd64 0 = 0) as -> by apply rnd64_rounding. lra.
    - pose proof (rnd_err m (Rabs m) (Rabs m) Hm0 ltac:(lra)) as H. fold M in H.
      assert (Hd : Rabs (M - m) <= 1.001 * (u53 * Rabs m)) by lra. clear H.
      assert (Hp : Rabs (M + m) <= 2.001 * Rabs m).
      { replace (M + m) with ((M - m) + 2 * m) by ring. eapply Rle_trans; [apply Rabs_triang|]. rewrite (Rabs_mult 2), (Rabs_pos_eq 2) by lra.
        assert (u53 * Rabs m <= Rabs m / 1000000) by nra. lra. }
      replace (M * M - m * m) with ((M - m) * (M + m)) by ring.
      assert (HH : Rabs ((M - m) * (M + m)) <= 2.01 * E).
      { rewrite Rabs_mult. eapply Rle_trans; [apply Rmult_le_compat; [apply Rabs_pos..|exact Hd|exact Hp]|].
        replace (1.001 * (u53 * Rabs m) * (2.001 * Rabs m)) with (1.001 * 2.001 * (u53 * (Rabs m * Rabs m))) by (unfold Rdiv; ring).
        rewrite <- Rabs_mult, Rabs_pos_eq by done. assert (0 <= u53 * (m * m) <= E) by (unfold E; split; nra). lra. }
      apply Rabs_le_inv in HH. lra. }
  assert (HC := rnd_lin (M * M) 1.01). specialize (HC ltac:(apply Rabs_le; lra)).
  set (C := rnd64 (M * M)) in *.
  assert (HD := rnd_lin (A - B) 1.01). specialize (HD ltac:(apply Rabs_le; lra)). set (D := rnd64 (A - B)) in *.
  assert (HV := rnd_lin (D + C) 1.01). specialize (HV ltac:(apply Rabs_le; lra)). set (V := rnd64 (D + C)) in *.
  replace (16 * u53 * Q) with (16 * E) by (unfold E; ring). apply Rabs_le. lra.
Qed.

Section est.
  Context (dl de df : double -> double) (dpi : double).
  Local Notation DO := (double_sops dl de df dpi).
  Local Notation after e l := (addPoints DO (est_reset DO e) (map whole l)).

  (** What the estimator computes from count and sums. *)
  Definition double_mean (n : Z) (s : double) : double := d_div s (whole n).
  Definition double_variance (n : Z) (s q : double) : double :=
    d_add (d_sub (d_div q (whole n)) (d_div (d_mul (d_mul s s) (whole 2)) (whole ((n * n) mod 2 ^ 64)))) (d_mul (double_mean n s) (double_mean n s)).
  Local Lemma add_eq e x : let n := ((e_n e + 1) mod 2 ^ 64)%Z in let s := d_add (e_sum e) x in let q := d_add (e_sq e) (d_mul x x) in
    let r := try_set DO (e_dist e) (double_mean n s) (double_variance n s q) in
    addPoint DO e x = Est1 (fst r) n (snd r) s q.
  Proof. reflexivity. Qed.
  Local Lemma try_set_cases d m v :
    (Bleb v (whole 0) = true /\ try_set DO d m v = (setMean d m, false)) \/
    (Bleb v (whole 0) = false /\ n1_mean (fst (try_set DO d m v)) = m /\ n1_var (fst (try_set DO d m v)) = v /\ snd (try_set DO d m v) = true /\
     forall d', try_set DO d' m v = try_set DO d m v).
  Proof.
    unfold try_set, setVariance. change (s_le DO v (s_Z DO 0)) with (Bleb v (whole 0)). destruct (Bleb v (whole 0)) eqn:E; [by left|].
    right. split_and!; try done. 
  Qed.

  (** The running sums of whole numbers are exact as long as the sum of squares is at most 2^53. *)
  Theorem est_double_sums e l : (Zsquares l <= 2 ^ 53)%Z ->
    e_n (after e l) = (Z.of_nat (length l) mod 2 ^ 64)%Z /\ e_sum (after e l) = whole (Zsum l) /\ e_sq (after e l) = whole (Zsquares l).
  Proof.
    induction l as [|x l IH] using rev_ind; intros H; [done|].
    rewrite Zsquares_snoc in *. pose proof (Zsquares_pos l) as Hp. pose proof (Zsum_squares l) as Hs.
    destruct IH as (I1 & I2 & I3); [nia|]. rewrite map_app. unfold addPoints in *. rewrite fold_left_app. cbn [fold_left map].
    rewrite add_eq. cbn [e_n e_sum e_sq]. rewrite I1, I2, I3, Zsum_snoc, app_length. split_and!.
    - rewrite Z.add_mod_idemp_l by done. f_equal. cbn. lia.
    - apply whole_add; nia.
    - rewrite whole_square by nia. apply whole_add; nia.
  Qed.
  (** So the state after a non-empty list, as a function of count and sums. *)
  Local Lemma est_state e l : l <> [] -> (Zsquares l <= 2 ^ 53)%Z ->
    let n := (Z.of_nat (length l) mod 2 ^ 64)%Z in
    exists d, after e l = let r := try_set DO d (double_mean n (whole (Zsum l))) (double_variance n (whole (Zsum l)) (whole (Zsquares l))) in
      Est1 (fst r) n (snd r) (whole (Zsum l)) (whole (Zsquares l)).
  Proof.
    intros Hl H n. destruct (est_double_sums e l H) as (E1 & E2 & E3). fold n in E1. revert E1 E2 E3.
    destruct l as [|x l _] using rev_ind; [done|]. rewrite map_app. unfold addPoints. rewrite fold_left_app. cbn [fold_left map].
    set (e1 := fold_left _ _ _). rewrite add_eq. cbn [e_n e_sum e_sq]. intros -> -> ->. exists (e_dist e1). done.
  Qed.
  (** The order of the points does not matter. *)
  Theorem est_double_order e l l' : Permutation l l' -> (Zsquares l <= 2 ^ 53)%Z ->
    e_n (after e l) = e_n (after e l') /\ e_sum (after e l) = e_sum (after e l') /\ e_sq (after e l) = e_sq (after e l') /\
    e_valid (after e l) = e_valid (after e l') /\ n1_mean (e_dist (after e l)) = n1_mean (e_dist (after e l')) /\
    (e_valid (after e l) = true -> after e l = after e l').
  Proof.
    intros HP H.
    assert (ES : Zsum l = Zsum l') by (unfold Zsum; clear H; induction HP; cbn in *; lia).
    assert (EQ : Zsquares l = Zsquares l') by (unfold Zsquares, Zsum; clear H ES; induction HP; cbn in *; lia).
    assert (EN : length l = length l') by by apply Permutation_length.
    destruct (decide (l = [])) as [-> |Hl]; [destruct l'; [done|done]|].
    assert (Hl' : l' <> []) by (intros ->; by destruct l).
    destruct (est_state e l Hl H) as [d E]. destruct (est_state e l' Hl' ltac:(congruence)) as [d' E'].
    rewrite <- ES, <- EQ, <- EN in E'. rewrite E, E'. cbn zeta. cbn [e_n e_sum e_sq e_valid e_dist].
    set (m := double_mean _ _). set (v := double_variance _ _ _).
    destruct (try_set_cases d m v) as [[Hv ->]|(Hv & Hm & Hvv & Hval & Hd)].
    - destruct (try_set_cases d' m v) as [[_ ->]|(Hv' & _)]; [|congruence]. split_and!; done.
    - rewrite <- (Hd d'). split_and!; done.
  Qed.

  (** Mean: the exact mean, rounded once.  Variance: its error is at most 16 half-units of the mean square (not of the variance itself). *)
  Theorem est_double_variance e l : l <> [] -> (Z.of_nat (length l) <= 2 ^ 26)%Z -> (Zsquares l <= 2 ^ 53)%Z ->
    is_real_number (n1_mean (e_dist (after e l))) (rnd64 (meanZ l)) /\
    exists V, Rabs (V - varianceZ l) <= 16 * u53 * mean_square l /\ (e_valid (after e l) = true <-> 0 < V) /\
      (e_valid (after e l) = true -> is_real_number (n1_var (e_dist (after e l))) V).
  Proof.
    intros Hl HL HQ. destruct (est_state e l Hl HQ) as [d E].
    assert (HLp : (1 <= Z.of_nat (length l))%Z) by (destruct l; [done|cbn [length]; lia]).
    rewrite (Z.mod_small (Z.of_nat (length l))) in E by lia.
    unfold varianceZ, meanZ, mean_square. rewrite INR_IZR_INZ.
    pose proof (Zsum_squares l) as HS. pose proof (cauchy l) as HC. pose proof (Zsquares_pos l) as Hp.
    set (n := Z.of_nat (length l)) in *. set (s := Zsum l) in *. set (q := Zsquares l) in *. clearbody n s q.
    assert (HN : 1 <= IZR n <= 67108864) by (split; [apply (IZR_le 1)|apply (IZR_le n 67108864)]; lia).
    assert (Hq : 0 <= IZR q <= IZR (2 ^ 53)) by (split; [apply (IZR_le 0)|apply IZR_le]; lia).
    assert (Hs : Rabs (IZR s) <= IZR (2 ^ 53)) by (rewrite <- abs_IZR; apply IZR_le; lia).
    change (IZR (2 ^ 53)) with (bpow radix2 53) in *.
    assert (HNi : 0 < / IZR n <= 1) by (split; [apply Rinv_0_lt_compat; lra|rewrite <- Rinv_1; apply Rinv_le_contravar; lra]).
    assert (rp : forall k x, (0 <= k <= 1000)%Z -> Rabs x <= bpow radix2 k -> Rabs (rnd64 x) <= bpow radix2 k).
    { intros k x Hk H. assert (Hb : rnd64 (bpow radix2 k) = bpow radix2 k).
      { apply round_generic; [apply valid_rnd_N|]. apply generic_format_bpow. unfold SpecFloat.fexp, SpecFloat.emin. lia. }
      apply Rabs_le_inv in H as [H1 H2]. apply Rabs_le. split.
      - rewrite <- Hb at 1. unfold rnd64. rewrite <- round_NE_opp. apply rnd_le. done.
      - rewrite <- Hb. apply rnd_le. done. }
    assert (shrink : forall x k y, 1 <= y -> Rabs x <= bpow radix2 k -> Rabs (x / y) <= bpow radix2 k).
    { intros x k y Hy H. unfold Rdiv. rewrite Rabs_mult. rewrite <- (Rmult_1_r (bpow radix2 k)).
      apply Rmult_le_compat; [apply Rabs_pos..|done|]. rewrite Rabs_pos_eq; [|apply Rlt_le, Rinv_0_lt_compat; lra].
      rewrite <- Rinv_1. apply Rinv_le_contravar; lra. }
    assert (up : forall x k, (k <= 1000)%Z -> Rabs x <= bpow radix2 k -> Rabs x <= bpow radix2 1000).
    { intros x k Hk H. eapply Rle_trans; [exact H|]. by apply bpow_le. }
    assert (prod : forall x y j k, Rabs x <= bpow radix2 j -> Rabs y <= bpow radix2 k -> Rabs (x * y) <= bpow radix2 (j + k)).
    { intros x y j k H1 H2. rewrite Rabs_mult, bpow_plus. apply Rmult_le_compat; try done; apply Rabs_pos. }
    assert (plus : forall x y k, Rabs x <= bpow radix2 k -> Rabs y <= bpow radix2 k -> Rabs (x + y) <= bpow radix2 (k + 1)).
    { intros x y k H1 H2. eapply Rle_trans; [apply Rabs_triang|]. rewrite bpow_plus. change (bpow radix2 1) with 2. lra. }
    assert (Wn : is_real_number (whole n) (IZR n)) by (apply whole_real; lia).
    assert (Ws : is_real_number (whole s) (IZR s)) by (apply whole_real; lia).
    assert (Wq : is_real_number (whole q) (IZR q)) by (apply whole_real; lia).
    assert (Wnn : is_real_number (whole (n * n mod 2 ^ 64)) (IZR n * IZR n)).
    { rewrite <- mult_IZR, Z.mod_small by nia. apply whole_real. nia. }
    assert (B0 : Rabs (IZR q) <= bpow radix2 53) by (rewrite Rabs_pos_eq; lra).
    assert (RM : is_real_number (double_mean n (whole s)) (rnd64 (IZR s / IZR n))).
    { apply div_real; try done; [lra|]. apply (up _ 53%Z); [lia|]. apply shrink; [lra|done]. }
    assert (BM : Rabs (rnd64 (IZR s / IZR n)) <= bpow radix2 53) by (apply rp; [lia|]; apply shrink; [lra|done]).
    assert (BA : Rabs (rnd64 (IZR q / IZR n)) <= bpow radix2 53) by (apply rp; [lia|]; apply shrink; [lra|done]).
    assert (B1 : Rabs (rnd64 (IZR s * IZR s)) <= bpow radix2 106) by (apply rp; [lia|]; apply (prod _ _ 53%Z 53%Z); done).
    assert (B2 : Rabs (rnd64 (rnd64 (IZR s * IZR s) * 2)) <= bpow radix2 107).
    { apply rp; [lia|]. apply (prod _ _ 106%Z 1%Z); [done|]. change (bpow radix2 1) with 2. rewrite Rabs_pos_eq; lra. }
    assert (HNN : 1 <= IZR n * IZR n) by nra.
    assert (BB : Rabs (rnd64 (rnd64 (rnd64 (IZR s * IZR s) * 2) / (IZR n * IZR n))) <= bpow radix2 107) by (apply rp; [lia|]; apply shrink; done).
    assert (BAB : Rabs (rnd64 (IZR q / IZR n) - rnd64 (rnd64 (rnd64 (IZR s * IZR s) * 2) / (IZR n * IZR n))) <= bpow radix2 108).
    { apply (plus _ _ 107%Z); [eapply Rle_trans; [exact BA|apply bpow_le; lia]|]. by rewrite Rabs_Ropp. }
    assert (BC : Rabs (rnd64 (rnd64 (IZR s / IZR n) * rnd64 (IZR s / IZR n))) <= bpow radix2 106) by (apply rp; [lia|]; apply (prod _ _ 53%Z 53%Z); done).
    set (V := rnd64 (rnd64 (rnd64 (IZR q / IZR n) - rnd64 (rnd64 (rnd64 (IZR s * IZR s) * 2) / (IZR n * IZR n))) +
      rnd64 (rnd64 (IZR s / IZR n) * rnd64 (IZR s / IZR n)))).
    assert (RV : is_real_number (double_variance n (whole s) (whole q)) V).
    { unfold double_variance, V. apply add_real.
      - apply sub_real.
        + apply div_real; try done; [lra|]. apply (up _ 53%Z); [lia|]. apply shrink; [lra|done].
        + apply div_real; try done; [|lra|apply (up _ 107%Z); [lia|]; by apply shrink].
          apply mul_real; [apply mul_real; try done; apply (up _ 106%Z); [lia|]; by apply (prod _ _ 53%Z 53%Z)|by apply (whole_real 2)|].
          apply (up _ 107%Z); [lia|]. apply (prod _ _ 106%Z 1%Z); [done|]. change (bpow radix2 1) with 2. rewrite Rabs_pos_eq; lra.
        + apply (up _ 108%Z); [lia|done].
      - apply mul_real; try done. apply (up _ 106%Z); [lia|]. by apply (prod _ _ 53%Z 53%Z).
      - apply (up _ 109%Z); [lia|]. apply (plus _ _ 108%Z); [by apply rp|eapply Rle_trans; [exact BC|apply bpow_le; lia]]. }
    assert (HV : Rabs (V - (IZR q / IZR n - IZR s / IZR n * (IZR s / IZR n))) <= 16 * u53 * (IZR q / IZR n)).
    { destruct (Z.eq_dec q 0) as [Eq|Eq].
      - assert (s = 0)%Z as Es by lia. 
        assert (R0 : rnd64 0 = 0) by apply rnd64_rounding.
        assert (V = 0) as ->.
        { unfold V. rewrite Eq, Es. unfold Rdiv. repeat rewrite ?Rmult_0_l, ?R0, ?Rminus_0_r, ?Rplus_0_r. reflexivity. }
        rewrite Eq, Es. unfold Rdiv. rewrite !Rmult_0_l. rewrite !Rminus_0_r, Rabs_R0. lra.
      - assert (Hn26 : / 67108864 <= / IZR n) by (apply Rinv_le_contravar; lra).
        assert (Hq1 : 1 <= IZR q) by (apply (IZR_le 1); lia).
        unfold V. replace (IZR s * IZR s) with (IZR n * (IZR s / IZR n) * (IZR n * (IZR s / IZR n))) by (field; lra).
        apply (variance_err (IZR n) (IZR q / IZR n) (IZR s / IZR n)).
        + lra.
        + unfold Rdiv. nra.
        + apply IZR_le in HC. rewrite !mult_IZR in HC. apply (Rmult_le_reg_r (IZR n * IZR n)); [lra|].
          replace (IZR s / IZR n * (IZR s / IZR n) * (IZR n * IZR n)) with (IZR s * IZR s) by (field; lra).
          replace (IZR q / IZR n * (IZR n * IZR n)) with (IZR n * IZR q) by (field; lra). done.
        + destruct (Z.eq_dec s 0) as [-> |Es]; [left; unfold Rdiv; ring|right]. unfold Rdiv. rewrite Rabs_mult, (Rabs_pos_eq (/ IZR n)) by lra.
          assert (1 <= Rabs (IZR s)) by (rewrite <- abs_IZR; apply (IZR_le 1); lia). nra. }
    rewrite E. cbn zeta. cbn [e_dist e_valid].
    set (m := double_mean n (whole s)) in *. set (v := double_variance n (whole s) (whole q)) in *.
    assert (Hpos : Bleb v (whole 0) = true <-> V <= 0).
    { destruct RV as [Fv Ev]. rewrite (Bleb_correct 53 1024 v (whole 0) Fv eq_refl). rewrite Ev. change (B2R (whole 0)) with 0.
      destruct (Rle_bool_spec V 0); split; try done; lra. }
    destruct (try_set_cases d m v) as [[Hv ->]|(Hv & Hm & Hvv & Hval & _)].
    - apply Hpos in Hv. cbn [fst snd]. split; [done|]. exists V. split; [done|]. split; [split; [done|lra]|done].
    - rewrite Hm, Hvv, Hval. split; [done|]. exists V. split; [done|]. split; [|done].
      split; [|done]. intros _. destruct (Rle_dec V 0) as [C|]; [|lra]. apply Hpos in C. congruence.
  Qed.

  (** Equal points are always rejected in this range, and points with a variance that stands out of the mean square are accepted. *)
  Theorem est_double_constant e k x : (0 < k)%nat -> (Z.of_nat k <= 2 ^ 26)%Z -> ((Z.of_nat k * x) * (Z.of_nat k * x) <= 2 ^ 52)%Z ->
    e_valid (after e (replicate k x)) = false /\ n1_mean (e_dist (after e (replicate k x))) = whole x.
  Proof.
    intros Hk Hk' H. destruct (Zsum_replicate k x) as [ES EQ].
    assert (Hne : replicate k x <> []) by (destruct k; [lia|done]).
    assert (Hsq : (Zsquares (replicate k x) <= 2 ^ 53)%Z) by (rewrite EQ; nia).
    destruct (est_state e (replicate k x) Hne Hsq) as [d E]. rewrite E. rewrite ES, EQ, replicate_length in *.
    set (n := Z.of_nat k) in *. assert (Hn : (1 <= n)%Z) by lia. rewrite (Z.mod_small n) by lia. clearbody n.
    cbn zeta. cbn [e_valid e_dist].
    assert (Hx : (0 <= x * x)%Z) by nia.
    assert (Xs : (x * x <= 2 ^ 52)%Z) by nia. assert (Xa : (Z.abs x <= 2 ^ 53)%Z) by nia.
    assert (HM : double_mean n (whole (n * x)) = whole x).
    { unfold double_mean. rewrite (Z.mul_comm n x). apply whole_div; nia. }
    assert (HV : double_variance n (whole (n * x)) (whole (n * (x * x))) = whole 0).
    { unfold double_variance. rewrite HM. rewrite (Z.mul_comm n (x * x)), whole_div by nia.
      rewrite (whole_square (n * x)) by nia. rewrite (whole_mul (n * x * (n * x)) 2) by nia.
      rewrite (Z.mod_small (n * n)) by nia. replace (n * x * (n * x) * 2)%Z with (2 * (x * x) * (n * n))%Z by ring.
      rewrite (whole_div (2 * (x * x)) (n * n)) by nia. rewrite whole_square by nia. rewrite whole_sub by nia. rewrite whole_add by nia. f_equal. nia. }
    rewrite HM, HV. unfold try_set, setVariance. change (s_le DO (whole 0) (s_Z DO 0)) with true. done.
  Qed.
  Theorem est_double_accepts e l : l <> [] -> (Z.of_nat (length l) <= 2 ^ 26)%Z -> (Zsquares l <= 2 ^ 53)%Z ->
    16 * u53 * mean_square l < varianceZ l ->
    e_valid (after e l) = true /\ exists V, is_real_number (n1_var (e_dist (after e l))) V /\ Rabs (V - varianceZ l) <= 16 * u53 * mean_square l.
  Proof.
    intros H1 H2 H3 H. destruct (est_double_variance e l H1 H2 H3) as (_ & V & HV & Hval & Hr).
    assert (Ht : e_valid (after e l) = true) by (apply Hval; apply Rabs_le_inv in HV; lra). split; [done|]. exists V. split; [by apply Hr|done].
  Qed.
  (** When the number of points times the sum of squares stays below 2^49, the estimate is valid exactly if two points differ. *)
  Theorem est_double_valid_iff e l : (Z.of_nat (length l) * Zsquares l < 2 ^ 49)%Z -> (Z.of_nat (length l) <= 2 ^ 26)%Z ->
    e_valid (after e l) = true <-> exists a b, In a l /\ In b l /\ a <> b.
  Proof.
    intros H HL. destruct (decide (l = [])) as [-> |Hl]; [split; [done|by intros (? & _ & [] & _)]|].
    assert (Hn : (1 <= Z.of_nat (length l))%Z) by (destruct l; [done|cbn; lia]). pose proof (Zsquares_pos l) as Hp.
    split.
    - intros Hv. destruct l as [|x l]; [done|]. destruct (decide (Forall (fun y => y = x) l)) as [Hall|Hnot].
      + exfalso. assert (El : x :: l = replicate (S (length l)) x).
        { cbn. f_equal. clear -Hall. induction Hall as [|y l -> _ IH]; cbn; congruence. }
        destruct (Zsum_replicate (S (length l)) x) as [_ EQ]. rewrite El in *. rewrite replicate_length in *. rewrite EQ in *.
        destruct (est_double_constant e (S (length l)) x) as [C _]; [lia|lia|nia|congruence].
      + apply not_Forall_Exists in Hnot; [|apply _]. apply Exists_exists in Hnot as (y & Hy & Hyx).
        exists y, x. split_and!; [right; by apply elem_of_list_In|by left|done].
    - intros (a & b & Ha & Hb & Hab). pose proof (cauchy_strict l a b Ha Hb Hab) as Hc.
      apply est_double_accepts; [done|done|nia|]. unfold varianceZ, mean_square, meanZ. rewrite INR_IZR_INZ.
      set (n := Z.of_nat (length l)) in *. set (q := Zsquares l) in *. set (s := Zsum l) in *. clearbody n q s.
      assert (HnR : 1 <= IZR n) by (apply (IZR_le 1); lia).
      apply (Rmult_lt_reg_r (IZR n * IZR n)); [nra|].
      replace ((IZR q / IZR n - IZR s / IZR n * (IZR s / IZR n)) * (IZR n * IZR n)) with (IZR (n * q - s * s)) by (rewrite minus_IZR, !mult_IZR; field; lra).
      replace (16 * u53 * (IZR q / IZR n) * (IZR n * IZR n)) with (16 * u53 * IZR (n * q)) by (rewrite mult_IZR; field; lra).
      apply Rlt_le_trans with 1; [|apply (IZR_le 1); lia].
      assert (IZR (n * q) < 562949953421312) by (apply (IZR_lt _ 562949953421312); lia). unfold u53. lra.
  Qed.

  (** ** Not-a-number and infinite points *)
  Local Definition spoilt (e : est1 (A := double)) : Prop := (e_sq e = B754_nan \/ e_sq e = B754_infinity false) /\ is_finite (e_sum e) = false.
  Local Lemma spoilt_add e x : is_finite x = false \/ spoilt e -> spoilt (addPoint DO e x).
  Proof.
    intros H. rewrite add_eq. unfold spoilt. cbn [e_sq e_sum].
    destruct H as [H|[H1 H2]].
    - destruct x as [?|s| |? ? ? ?]; try done.
      + split; [|destruct (e_sum e) as [?|[]| |? ? ? ?], s; done]. replace (d_mul (B754_infinity s) (B754_infinity s)) with (B754_infinity false : double) by (destruct s; done).
        destruct (e_sq e) as [?|[]| |? ? ? ?]; cbn; auto.
      + split; [left; destruct (e_sq e); done|destruct (e_sum e); done].
    - split; [|destruct (e_sum e) as [?|[]| |? ? ? ?]; try done; destruct x as [?|[]| |? ? ? ?]; done].
      generalize (d_mul x x). intros y. destruct H1 as [-> | ->]; [left; by destruct y|]. destruct y as [?|[]| |? ? ? ?]; cbn; auto.
  Qed.
  Local Lemma whole_fin z : (0 <= z < 2 ^ 64)%Z -> is_finite (whole z) = true /\ Bsign (whole z) = false.
  Proof.
    intros H. generalize (binary_normalize_correct 53 1024 eq_refl eq_refl mode_NE z 0 false). cbv zeta.
    assert (E : F2R (Float radix2 z 0) = IZR z) by (unfold F2R; simpl; lra). rewrite E. rewrite Rlt_bool_true by (apply rnd_bound, IZR_bound; lia).
    intros (_ & F & S). split; [exact F|]. unfold whole, double_of_Z. rewrite S. destruct (Rcompare_spec (IZR z) 0) as [C|C|C]; [|done|done].
    apply (lt_IZR z 0) in C. lia.
  Qed.
  Local Lemma spoilt_variance e x : spoilt (addPoint DO e x) ->
    e_valid (addPoint DO e x) = true /\ n1_var (e_dist (addPoint DO e x)) = B754_nan /\ is_finite (n1_mean (e_dist (addPoint DO e x))) = false.
  Proof.
    rewrite add_eq. unfold spoilt. cbn [e_sq e_sum e_valid e_dist]. set (n := ((e_n e + 1) mod 2 ^ 64)%Z). set (s := d_add _ x). set (q := d_add (e_sq e) _).
    intros [Hq Hs].
    destruct (whole_fin n) as [F1 S1]; [apply Z.mod_pos_bound; lia|]. destruct (whole_fin ((n * n) mod 2 ^ 64)) as [F2 S2]; [apply Z.mod_pos_bound; lia|].
    assert (HV : double_variance n s q = B754_nan).
    { unfold double_variance. generalize (d_mul (double_mean n s) (double_mean n s)). intros y. generalize dependent (whole (n * n mod 2 ^ 64)). intros nn F2 S2.
      generalize dependent (whole n). intros n1 F1 S1.
      change (whole 2) with (double_of_Z 2 0). set (t := d_div (d_mul (d_mul s s) (double_of_Z 2 0)) nn).
      assert (Ht : t = B754_nan \/ t = B754_infinity false).
      { unfold t. destruct s as [?|[]| |? ? ? ?]; try done; destruct nn as [[]|?| |[] ? ? ?]; try done; cbn; auto. }
      assert (Hd : d_sub (d_div q n1) t = B754_nan).
      { destruct Hq as [-> | ->]; [by destruct n1, t|]. destruct n1 as [[]|?| |[] ? ? ?]; try done; destruct Ht as [-> | ->]; done. }
      rewrite Hd. by destruct y. }
    assert (HM : is_finite (double_mean n s) = false).
    { unfold double_mean. generalize dependent (whole n). intros n1 F1 S1. destruct s as [?|?| |? ? ? ?]; try done; by destruct n1. }
    rewrite HV. destruct (try_set_cases (e_dist e) (double_mean n s) B754_nan) as [[C _]|(_ & -> & -> & -> & _)]; [done|done].
  Qed.
  (** After one such point the estimator calls itself valid for ever, with a variance that is not a number. *)
  Theorem est_double_poisoned_refuted e x l : is_finite x = false ->
    let e' := addPoints DO (addPoint DO e x) l in
    e_valid e' = true /\ n1_var (e_dist e') = B754_nan /\ is_finite (n1_mean (e_dist e')) = false.
  Proof.
    intros Hx. cbn zeta. destruct l as [|y l _] using rev_ind.
    - apply spoilt_variance, spoilt_add. by left.
    - unfold addPoints. rewrite fold_left_app. cbn [fold_left]. apply spoilt_variance, spoilt_add. right.
      assert (Gen : forall k e0, spoilt e0 -> spoilt (fold_left (addPoint DO) k e0)).
      { induction k as [|z k IH]; intros e0 H0; [done|]. cbn. apply IH, spoilt_add. by right. }
      apply Gen, spoilt_add. by left.
  Qed.
  (** What a user would expect beyond the range above: different points are accepted, equal points are rejected, the order does not matter. *)
  Theorem est_double_distinct_refuted : e_valid (after (Est1 (Normal1 dpi dpi dpi dpi dpi) 0 false (whole 0) (whole 0)) [2 ^ 26; 2 ^ 26 + 1]%Z) = false.
  Proof. vm_compute. reflexivity. Qed.
  (** Three copies of the double nearest to 0.1. *)
  Theorem est_double_equal_refuted :
    let e := addPoints DO (est_reset DO (Est1 (Normal1 dpi dpi dpi dpi dpi) 0 false (whole 0) (whole 0))) (replicate 3 (double_of_Z 3602879701896397 (-55))) in
    e_valid e = true /\ 0 < B2R (n1_var (e_dist e)).
  Proof. cbn zeta. split; [vm_compute; reflexivity|]. vm_compute. lra. Qed.
  Theorem est_double_order_refuted :
    let e := Est1 (Normal1 dpi dpi dpi dpi dpi) 0 false (whole 0) (whole 0) in
    Permutation [2 ^ 53; 1; 1]%Z [1; 1; 2 ^ 53]%Z /\ n1_mean (e_dist (after e [2 ^ 53; 1; 1]%Z)) <> n1_mean (e_dist (after e [1; 1; 2 ^ 53]%Z)).
  Proof.
    intros e. split; [apply (Permutation_app_comm [2 ^ 53] [1; 1])%Z|]. intros H.
    assert (H1 : Bltb (n1_mean (e_dist (after e [2 ^ 53; 1; 1]%Z))) (n1_mean (e_dist (after e [1; 1; 2 ^ 53]%Z))) = true) by (vm_compute; reflexivity).
    rewrite H in H1. assert (H2 : Bltb (n1_mean (e_dist (after e [1; 1; 2 ^ 53]%Z))) (n1_mean (e_dist (after e [1; 1; 2 ^ 53]%Z))) = false) by (vm_compute; reflexivity).
    rewrite H2 in H1. discriminate H1.
  Qed.
End est.

(** Cases of the hypotheses. *)
Example est_double_cases :
  (Zsquares [3; 5; -7; 100000]%Z <= 2 ^ 53)%Z /\ (4 * Zsquares [3; 5; -7; 100000]%Z < 2 ^ 49)%Z /\ ((3 * 1000) * (3 * 1000) <= 2 ^ 52)%Z /\
  16 * u53 * mean_square [1; 3]%Z < varianceZ [1; 3]%Z.
Proof.
  split; [vm_compute; discriminate|]. split; [vm_compute; reflexivity|]. split; [lia|].
  unfold varianceZ, mean_square, meanZ, u53. change (Zsquares [1; 3]%Z) with 10%Z. change (Zsum [1; 3]%Z) with 4%Z. rewrite INR_IZR_INZ. change (Z.of_nat (length [1; 3]%Z)) with 2%Z. lra.
Qed.
Print Assumptions est_double_sums.
Print Assumptions est_double_order.
Print Assumptions est_double_variance.
Print Assumptions est_double_accepts.
Print Assumptions est_double_valid_iff.
Print Assumptions est_double_constant.
Print Assumptions est_double_poisoned_refuted.
Print Assumptions est_double_distinct_refuted.
Print Assumptions est_double_equal_refuted.
Print Assumptions est_double_order_refuted.
