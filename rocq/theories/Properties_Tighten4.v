(** Theorems written against mutants that survived: gamma distribution, random numbers, estimators of normal distributions, the
    spline of the ego calibrator, image frames, doubles. *)
From stdpp Require Import prelude list.
From Coq Require Import Reals Lra Psatz ZArith.
From Flocq Require Import Core BinarySingleNaN.
From Verif Require Import Base GridModel NormalModel Spec_Normal NormalProofs Properties_Normal.
From Verif Require Import FunctionsModel GammaModel.
From Verif Require Import UniformModel RandomizerModel Spec_Randomizer RandomizerProofs RandomizerDoubleProofs Properties_Tighten.
Local Open Scope R_scope.

(** ** Estimator of a normal distribution beyond 2^32 points *)
Lemma est1_sums l : forall e, (0 <= e_n e)%Z -> (e_n e + Z.of_nat (length l) < 2 ^ 64)%Z ->
  let e' := addPoints RO e l in
  e_n e' = (e_n e + Z.of_nat (length l))%Z /\ e_sum e' = e_sum e + Rsum l /\ e_sq e' = e_sq e + Rsum (map (fun x => x * x) l).
Proof.
  induction l as [|x l IH]; intros e H0 H; cbn zeta in *; [cbn; split_and!; [lia|lra|lra]|]. change (addPoints RO e (x :: l)) with (addPoints RO (addPoint RO e x) l).
  rewrite cons_length in H. assert (En : e_n (addPoint RO e x) = (e_n e + 1)%Z).
  { cbn. unfold size_t_mod. apply Z.mod_small. lia. }
  destruct (IH (addPoint RO e x)) as (I1 & I2 & I3); [lia|lia|]. rewrite I1, I2, I3, En. cbn [addPoint e_sum e_sq]. rewrite cons_length. cbn [map Rsum fold_right].
  change (s_add RO) with Rplus. change (s_mul RO) with Rmult. unfold Rsum. split_and!; [lia|lra|lra].
Qed.
(** With one point more than 2^32 the square of the count wraps: unless the mean is tiny compared with the spread, the estimate is
    declared invalid and the variance keeps its old value, whatever the points. *)
Theorem ml1_count_overflow_refuted e l :
  Z.of_nat (length l) = (2 ^ 32 + 1)%Z -> amean l <> 0 -> pvar l <= 2 ^ 30 * (amean l * amean l) ->
  e_valid (addPoints RO (est_reset RO e) l) = false.
Proof.
  intros HL Hm Hv.
  assert (Hne : l <> []) by (intros ->; cbn in HL; lia).
  destruct (exists_last Hne) as (k & x & El). rewrite El in *. rename l into l0.
  unfold addPoints. rewrite fold_left_app. cbn [fold_left]. fold (addPoints RO (est_reset RO e) k).
  rewrite app_length in HL. cbn [length] in HL.
  destruct (est1_sums k (est_reset RO e)) as (I1 & I2 & I3); [cbn; lia|cbn; lia|]. cbn zeta in *. set (e1 := addPoints RO (est_reset RO e) k) in *.
  cbn [est_reset e_n e_sum e_sq] in I1, I2, I3. change (s_Z RO 0) with 0 in *. rewrite Rplus_0_l in I2, I3.
  unfold addPoint. rewrite I1, I2, I3. cbn [e_valid]. unfold size_t_mod.
  replace (0 + Z.of_nat (length k) + 1)%Z with (2 ^ 32 + 1)%Z by lia.
  replace ((2 ^ 32 + 1) mod 2 ^ 64)%Z with (2 ^ 32 + 1)%Z by reflexivity.
  replace (((2 ^ 32 + 1) * (2 ^ 32 + 1)) mod 2 ^ 64)%Z with (2 ^ 33 + 1)%Z by reflexivity.
  cbn [real_sops s_add s_mul s_sub s_div s_Z].
  set (N := IZR (2 ^ 32 + 1)). assert (EN : INR (length (k ++ [x])) = N).
  { rewrite INR_IZR_INZ. unfold N. f_equal. rewrite app_length. cbn [length]. lia. }
  assert (HN : N = 4294967297) by (unfold N; reflexivity).
  pose proof (pvar_alt (k ++ [x]) ltac:(intros E; by destruct k)) as Hp. rewrite EN in Hp.
  assert (Es : Rsum k + x = N * amean (k ++ [x])).
  { unfold amean. rewrite EN. replace (Rsum (k ++ [x])) with (Rsum k + x); [field; lra|]. clear. induction k as [|a k IH]; cbn in *; [lra|]. unfold Rsum in IH. rewrite <- IH. lra. }
  assert (Eq : Rsum (map (fun x => x * x) k) + x * x = N * (pvar (k ++ [x]) + amean (k ++ [x]) * amean (k ++ [x]))).
  { rewrite Hp. rewrite map_app. cbn [map]. replace (Rsum (map (fun x => x * x) k ++ [x * x])) with (Rsum (map (fun x => x * x) k) + x * x); [field; lra|].
    clear. generalize (map (fun x => x * x) k) (x * x). intros m y. induction m as [|a m IH]; cbn in *; [lra|]. unfold Rsum in IH. rewrite <- IH. lra. }
  rewrite Es, Eq. set (m := amean (k ++ [x])) in *. set (p := pvar (k ++ [x])) in *. clearbody m p.
  unfold try_set. rewrite setVariance_bad; [reflexivity|]. change (IZR (2 ^ 33 + 1)) with 8589934593. rewrite HN.
  assert (0 < m * m) by (destruct (Rdichotomy m 0 Hm); nra).
  replace (4294967297 * (p + m * m) / 4294967297) with (p + m * m) by field.
  replace (4294967297 * m / 4294967297) with m by field.
  replace (4294967297 * m * (4294967297 * m) * 2 / 8589934593) with (m * m * (4294967297 * 4294967297 * 2 / 8589934593)) by field.
  assert (2 ^ 31 <= 4294967297 * 4294967297 * 2 / 8589934593) by (apply Rmult_le_reg_r with 8589934593; [lra|]; unfold Rdiv; rewrite Rmult_assoc, Rinv_l by lra; lra).
  nra.
Qed.

(** ** Doubles *)
(** An integer constant of the code, up to 2^53, is that integer as a double. *)
Theorem double_constants dl de df dpi z : (Z.abs z <= 2 ^ 31)%Z ->
  is_finite (s_Z (double_sops dl de df dpi) z) = true /\ B2R (s_Z (double_sops dl de df dpi) z) = IZR z.
Proof.
  intros Hz. destruct (of_Z_correct z Hz) as [F E]. cbn [double_sops s_Z]. split; [exact F|]. rewrite E. apply fmt_int. exact Hz.
Qed.
(** Such points exist: 2^32 ones and a two, which do have a positive variance. *)
Lemma sum_replicate n (f : R -> R) a : Rsum (map f (replicate n a)) = INR n * f a.
Proof. induction n as [|n IH]; [cbn; ring|]. rewrite S_INR. cbn. unfold Rsum in IH. rewrite IH. ring. Qed.
Example ml1_count_overflow_example : exists l,
  Z.of_nat (length l) = (2 ^ 32 + 1)%Z /\ amean l <> 0 /\ pvar l <= 2 ^ 30 * (amean l * amean l) /\ two_values l.
Proof.
  assert (Hn : exists n, Z.of_nat n = (2 ^ 32)%Z) by (exists (Z.to_nat (2 ^ 32)); apply Z2Nat.id; lia). destruct Hn as [n Hn].
  assert (En : INR n = 4294967296) by (rewrite INR_IZR_INZ, Hn; reflexivity).
  exists (2 :: replicate n 1).
  assert (EL : INR (length (2 :: replicate n 1)) = 4294967297) by (rewrite cons_length, replicate_length, S_INR, En; lra).
  assert (ES : Rsum (2 :: replicate n 1) = 4294967298).
  { change (Rsum (2 :: replicate n 1)) with (2 + Rsum (replicate n 1)). rewrite <- (map_id (replicate n 1)), sum_replicate, En. lra. }
  assert (EM : amean (2 :: replicate n 1) = 4294967298 / 4294967297) by (unfold amean; rewrite ES, EL; reflexivity).
  assert (H1 : 1 <= amean (2 :: replicate n 1)) by (rewrite EM; lra). split_and!.
  - rewrite cons_length, replicate_length. lia.
  - lra.
  - rewrite pvar_alt by done. change (map (fun x => x * x) (2 :: replicate n 1)) with (2 * 2 :: map (fun x => x * x) (replicate n 1)).
    change (Rsum (2 * 2 :: map (fun x => x * x) (replicate n 1))) with (2 * 2 + Rsum (map (fun x => x * x) (replicate n 1))).
    rewrite (sum_replicate n (fun x => x * x)), En, EL. assert (E : (2 * 2 + 4294967296 * (1 * 1)) / 4294967297 <= 2) by lra. nra.
  - exists 2, 1. split_and!; [left|right|lra]. apply elem_of_replicate. split; [done|]. lia.
Qed.

(** ** Gamma distribution: distribution function, quantile, integral shapes *)
Theorem gamma_cdf_quantile {T} (o : gops T) gammaP quantile d :
  (forall v, v <= 0 -> gcdf o gammaP d v = 0) /\
  (forall v, 0 < v -> gcdf o gammaP d v = gammaP (t_R o (g_shape d)) (g_inv d * v)) /\
  (forall p, ~ 0 <= p <= 1 -> ginvcdf o quantile d p = Throw BadArgument) /\
  (forall p, 0 <= p <= 1 -> ginvcdf o quantile d p = Ret (quantile (t_R o (g_shape d)) (/ g_inv d) p)).
Proof.
  split_and!; intros v H.
  - unfold gcdf. destruct (Rle_dec v 0); [done|lra].
  - unfold gcdf. destruct (Rle_dec v 0); [lra|]. f_equal. ring.
  - unfold ginvcdf. destruct (Rlt_dec v 0); [done|]. destruct (Rlt_dec 1 v); [done|lra].
  - unfold ginvcdf. destruct (Rlt_dec v 0); [lra|]. destruct (Rlt_dec 1 v); [lra|]. do 2 f_equal. unfold Rdiv. ring.
Qed.
(** Round trip through the distribution function: if [quantile a s] inverts x |-> P(a, x / s) then [cdf] undoes [invcdf]. *)
Theorem gamma_cdf_inverts {T} (o : gops T) gammaP quantile d p : 0 < g_inv d -> 0 < p <= 1 ->
  (forall a s q, 0 < s -> 0 < q <= 1 -> 0 < quantile a s q /\ gammaP a (quantile a s q / s) = q) ->
  exists x, ginvcdf o quantile d p = Ret x /\ gcdf o gammaP d x = p.
Proof.
  intros Hi Hp Hq. destruct (gamma_cdf_quantile o gammaP quantile d) as (_ & Hc & _ & Hv). eexists. split; [apply Hv; lra|].
  destruct (Hq (t_R o (g_shape d)) (/ g_inv d) p (Rinv_0_lt_compat _ Hi) Hp) as [Q1 Q2]. rewrite Hc by exact Q1.
  rewrite <- Q2 at 2. f_equal. field. lra.
Qed.
(** Integral shapes: 0 is rejected; the density at 0 is the inverse scale for shape 1, 0 beyond; the mode is (shape - 1) / inverse scale. *)
Theorem gamma_integral_shape psi d : gamma_reach (gnat psi) d ->
  (1 <= g_shape d)%nat /\ 0 < g_inv d /\
  setShape (gnat psi) d 0%nat = (d, Throw BadArgument) /\
  gpdf (gnat psi) d 0 = Fin (if Nat.eqb (g_shape d) 1 then g_inv d else 0) /\
  ggetMode (gnat psi) d = Ret (INR (g_shape d - 1) / g_inv d).
Proof.
  intros Hr. assert (H : (1 <= g_shape d)%nat /\ 0 < g_inv d /\ g_nrm d = t_lg (gnat psi) (g_shape d) - INR (g_shape d) * ln (g_inv d)).
  { induction Hr as [junk a b d H|d a _ IH|d b _ IH].
    - unfold gamma_new, setShape, setInvScale in H. cbn [gnat t_nonpos] in H. destruct (Nat.leb_spec a 0); [done|]. destruct (Rle_dec b 0); [done|].
      cbn in H. injection H as <-. cbn. split_and!; [lia|lra|done].
    - unfold setShape. cbn [gnat t_nonpos]. destruct (Nat.leb_spec a 0); [exact IH|]. destruct IH as (_ & I2 & _). cbn. split_and!; [lia|lra|done].
    - unfold setInvScale. destruct (Rle_dec b 0); [exact IH|]. destruct IH as (I1 & _ & _). cbn. split_and!; [lia|lra|done]. }
  destruct H as (H1 & H2 & H3). split_and!; [done|done|done| |].
  - unfold gpdf. destruct (Rlt_dec 0 0); [lra|]. unfold glogpdf. destruct (Req_EM_T 0 0); [|done]. cbn [gnat t_is1 t_R].
    destruct (Nat.eqb_spec (g_shape d) 1) as [E|E]; cbn [andb].
    + cbn [ext_exp]. f_equal. rewrite H3, E. cbn [gnat t_lg]. change (logGammaNat 1) with (@Ret R 0). cbv iota beta.
      replace (- (0 - INR 1 * ln (g_inv d))) with (ln (g_inv d)) by (cbn; ring). apply exp_ln, H2.
    + destruct (Rlt_dec 0 0); [lra|]. unfold mul_log. destruct (Rlt_dec 0 0); [lra|].
      assert (1 < INR (g_shape d)) by (apply (lt_INR 1); lia). destruct (Rlt_dec 0 (INR (g_shape d) - 1)); [done|lra].
  - unfold ggetMode. cbn [gnat t_ge1 t_R]. destruct (Nat.leb_spec 1 (g_shape d)); [|lia]. rewrite minus_INR by lia. done.
Qed.
Example gamma_integral_example psi : exists d, gamma_reach (gnat psi) d /\ g_shape d = 3%nat /\ g_inv d = 2.
Proof.
  exists (computeNormalizer (gnat psi) (Gamma 3%nat 2 (g_nrm (computeNormalizer (gnat psi) (Gamma 3%nat 1 1))))). split; [|split; reflexivity].
  apply (gr_new _ (Gamma 1%nat 1 1) 3%nat 2). unfold gamma_new, setShape, setInvScale. cbn [gnat t_nonpos Nat.leb]. destruct (Rle_dec 2 0); [lra|done].
Qed.

(** ** Random numbers *)
(** The gamma sample scales with the inverse scale. *)
Theorem gamma_sample_scales {G} (next : G -> Z * G) RM fuel shape inv g : 0 < inv ->
  sampleGamma next RM rreal fuel shape inv g =
  let (r, g') := sampleGamma next RM rreal fuel shape 1 g in
  (match r with Ret (Some x) => Ret (Some (x / inv)) | r => r end, g').
Proof.
  intros Hi. unfold sampleGamma. destruct (Rle_dec shape 0); [done|]. destruct (Rle_dec inv 0); [lra|]. destruct (Rle_dec 1 0); [lra|].
  destruct (to_size_t _) as [n'|]; [|done]. destruct (exp_sum _ _ _ _ _ _ _) as [[y g1]|]; [|done].
  destruct (Rlt_dec _ _).
  - destruct (gamma_loop _ _ _ _ _ _ _) as [[[z|] g2]|]; [|done..]. do 3 f_equal. field. lra.
  - do 3 f_equal. field. lra.
Qed.
(** Shapes below one.  A pair of uniform numbers (u, w) proposes the value [gamma_proposal] ([None]: infinite) and is accepted or not. *)
Definition gamma_proposal (shape u : R) : option R :=
  let b := (exp 1 + shape) / exp 1 in
  if Rlt_dec 1 (b * u) then (if Req_EM_T (b - b * u) 0 then None else Some (- ln ((b - b * u) / shape)))
  else Some (if Req_EM_T (b * u) 0 then 0 else exp (ln (b * u) / shape)).
Definition gamma_accepts (shape u w : R) : Prop :=
  let b := (exp 1 + shape) / exp 1 in
  if Rlt_dec 1 (b * u) then w <= match gamma_proposal shape u with None => 0 | Some z => exp ((shape - 1) * ln z) end
  else w <= match gamma_proposal shape u with None => 0 | Some z => exp (- z) end.
Lemma gamma_loop_first {G} (next : G -> Z * G) RM frac fuel : generator next RM -> forall g,
  let acc i := gamma_accepts frac (unit_number next RM g (2 * i)) (unit_number next RM g (2 * i + 1)) in
  match gamma_loop next RM rreal fuel frac ((exp 1 + frac) / exp 1) g with
  | Some (z, g') => exists i, (i < fuel)%nat /\ g' = advance next (2 * i + 2) g /\ z = gamma_proposal frac (unit_number next RM g (2 * i)) /\ acc i /\
      forall j, (j < i)%nat -> ~ acc j
  | None => forall i, (i < fuel)%nat -> ~ acc i
  end.
Proof.
  intros HG. induction fuel as [|fuel IH]; intros g acc; [cbn; lia|]. cbn [gamma_loop]. rewrite (unit_real next RM) by exact HG. cbn zeta iota beta.
  set (u := unit_number next RM g 0). set (b := (exp 1 + frac) / exp 1).
  assert (Hu : unit next RM rreal (advance next 1 g) = (unit_number next RM g 1, advance next 2 g)).
  { rewrite (unit_real next RM) by exact HG. rewrite (num_shift next RM g 1 0). rewrite <- (advance_add next 1 1 g). done. }
  set (w := unit_number next RM g 1) in *. rewrite Hu.
  assert (Hrec : ~ acc 0%nat -> match gamma_loop next RM rreal fuel frac b (advance next 2 g) with
    | Some (z, g') => exists i, (i < S fuel)%nat /\ g' = advance next (2 * i + 2) g /\ z = gamma_proposal frac (unit_number next RM g (2 * i)) /\ acc i /\
        forall j, (j < i)%nat -> ~ acc j
    | None => forall i, (i < S fuel)%nat -> ~ acc i end).
  { intros H0. specialize (IH (advance next 2 g)). cbn zeta in IH. fold b in IH.
    assert (Es : forall i, gamma_accepts frac (unit_number next RM (advance next 2 g) (2 * i)) (unit_number next RM (advance next 2 g) (2 * i + 1)) <-> acc (S i)).
    { intros i. unfold acc. rewrite !(num_shift next RM g). replace (2 + 2 * i)%nat with (2 * S i)%nat by lia. replace (2 + (2 * i + 1))%nat with (2 * S i + 1)%nat by lia. done. }
    destruct (gamma_loop next RM rreal fuel frac b (advance next 2 g)) as [[z g']|].
    - destruct IH as (i & I1 & I2 & I3 & I4 & I5). exists (S i). split_and!; [lia| | |by apply Es|].
      + rewrite I2, <- (advance_add next 2 (2 * i + 2) g). f_equal. lia.
      + rewrite I3, (num_shift next RM g). do 2 f_equal. lia.
      + intros [|j] Hj; [exact H0|]. rewrite <- Es. apply I5. lia.
    - intros [|i] Hi; [exact H0|]. rewrite <- Es. apply IH. lia. }
  assert (Hacc : acc 0%nat = gamma_accepts frac u w) by reflexivity.
  destruct (Rlt_dec 1 (b * u)) as [Hb|Hb].
  - assert (Ez : (if Req_EM_T (b - b * u) 0 then None else Some (- ln ((b - b * u) / frac))) = gamma_proposal frac u).
    { unfold gamma_proposal. fold b. destruct (Rlt_dec 1 (b * u)); [done|lra]. }
    rewrite Ez. assert (Ha : acc 0%nat <-> w <= match gamma_proposal frac u with None => 0 | Some z => Rpower z (frac - 1) end).
    { rewrite Hacc. unfold gamma_accepts. fold b. destruct (Rlt_dec 1 (b * u)); [|lra]. done. }
    destruct (Rlt_dec _ w) as [Hw|Hw].
    + apply Hrec. rewrite Ha. lra.
    + exists 0%nat. split_and!; [lia|done|done|apply Ha; lra|lia].
  - assert (Ez : Some (rpow0 (b * u) (1 / frac)) = gamma_proposal frac u).
    { unfold gamma_proposal, rpow0. fold b. destruct (Rlt_dec 1 (b * u)); [lra|]. f_equal. destruct (Req_EM_T (b * u) 0); [done|]. unfold Rpower, Rdiv. f_equal. ring. }
    assert (Ha : acc 0%nat <-> w <= exp (- rpow0 (b * u) (1 / frac))).
    { rewrite Hacc. unfold gamma_accepts. fold b. destruct (Rlt_dec 1 (b * u)); [lra|]. rewrite <- Ez. done. }
    destruct (Rlt_dec _ w) as [Hw|Hw].
    + apply Hrec. rewrite Ha. lra.
    + exists 0%nat. split_and!; [lia|done|exact Ez|apply Ha; lra|lia].
Qed.
(** The sample is the first accepted proposal, divided by the inverse scale. *)
Theorem gamma_sample_fraction {G} (next : G -> Z * G) RM fuel shape inv g :
  generator next RM -> / 2 ^ 52 < shape < 1 -> 0 < inv ->
  let acc i := gamma_accepts shape (unit_number next RM g (2 * i)) (unit_number next RM g (2 * i + 1)) in
  match sampleGamma next RM rreal fuel shape inv g with
  | (Ret r, g') => exists i, g' = advance next (2 * i + 2) g /\ acc i /\ (forall j, (j < i)%nat -> ~ acc j) /\
      r = (match gamma_proposal shape (unit_number next RM g (2 * i)) with Some z => Some (z / inv) | None => None end)
  | (Diverge, _) => forall i, (i < fuel)%nat -> ~ acc i
  | _ => False
  end.
Proof.
  intros HG Hs Hi acc. assert (0 < / 2 ^ 52) by (apply Rinv_0_lt_compat; lra). unfold sampleGamma.
  destruct (Rle_dec shape 0); [lra|]. destruct (Rle_dec inv 0); [lra|].
  assert (Ef : Zfloor shape = 0%Z) by (apply Zfloor_imp; change (IZR (0 + 1)) with 1; lra). rewrite Ef. unfold to_size_t.
  destruct (Rlt_dec 0 0); [lra|]. destruct (Rle_dec (IZR (2 ^ 64)) 0) as [H0|_]; [apply (le_IZR (2 ^ 64) 0) in H0; lia|].
  change (Zfloor 0) with (Zfloor (IZR 0)). rewrite Zfloor_IZR. change (Z.to_nat 0) with 0%nat. cbn [exp_sum INR]. rewrite Rminus_0_r.
  destruct (Rlt_dec (/ 2 ^ 52) (Rabs shape)) as [_|Hn]; [|rewrite Rabs_pos_eq in Hn; lra].
  pose proof (gamma_loop_first next RM shape fuel HG g) as L. cbn zeta in L.
  destruct (gamma_loop next RM rreal fuel shape ((exp 1 + shape) / exp 1) g) as [[[z|] g']|].
  - destruct L as (i & _ & L2 & L3 & L4 & L5). exists i. rewrite <- L3. split_and!; [done|done|done|]. rewrite Rplus_0_l. done.
  - destruct L as (i & _ & L2 & L3 & L4 & L5). exists i. rewrite <- L3. split_and!; done.
  - exact L.
Qed.

(** sampleUniform on doubles rejects an empty interval without drawing; the geometric sample is the rounded-down quotient if that fits size_t. *)
Theorem uniform_double_rejects {G} (next : G -> Z * G) RM a b g : is_finite a = true -> is_finite b = true -> B2R b <= B2R a ->
  sampleUniformD next RM a b g = (Throw BadArgument, g).
Proof.
  intros Fa Fb H. unfold sampleUniformD. rewrite (Bleb_correct 53 1024 b a Fb Fa), Rle_bool_true by exact H. reflexivity.
Qed.
Theorem geometric_double_range dlog p u z :
  let q := d_div (dlog u) (dlog (d_sub (double_of_Z 1 0) p)) in
  geometricD dlog p u = Some z <-> is_finite q = true /\ IZR z <= B2R q < IZR z + 1 /\ (0 <= z < 2 ^ 64)%Z.
Proof.
  intros q. unfold geometricD. fold q. destruct (is_finite q) eqn:F; [|split; [done|intros (? & _); done]]. split.
  - destruct ((0 <=? Zfloor (B2R q)) && (Zfloor (B2R q) <? 2 ^ 64))%Z eqn:E; [|done]. intros [= <-]. apply andb_true_iff in E as [E1 E2].
    split_and!; [done|apply Zfloor_lb|apply Zfloor_ub|lia|lia].
  - intros (_ & [H1 H2] & H3). assert (Ez : Zfloor (B2R q) = z). { apply Zfloor_imp. rewrite plus_IZR. lra. } rewrite Ez.
    destruct (Z.leb_spec 0 z); [|lia]. destruct (Z.ltb_spec z (2 ^ 64)); [done|lia].
Qed.
