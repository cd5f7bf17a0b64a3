(** C40, C41 and the related properties of random sampling. *)
From stdpp Require Import prelude list.
From Coq Require Import Reals Lra Psatz ZArith.
From Flocq Require Import Core BinarySingleNaN.
From Verif Require Import Base GridModel Spec_Grid GridDoubleProofs UniformModel UniformProofs RandomizerModel
  Spec_Randomizer RandomizerProofs RandomizerDoubleProofs.
Local Open Scope R_scope.

(** ** sampleUniform *)
Theorem uniform_sample_real {G} (next : G -> Z * G) RM a b g :
  generator next RM ->
  (b <= a -> sampleUniform next RM rreal a b g = (Throw BadArgument, g)) /\
  (a < b -> exists x, sampleUniform next RM rreal a b g = (Ret x, advance next 1 g) /\
     a <= x <= b /\ x = a + unit_number next RM g 0 * (b - a)).
Proof.
  intros HG. rewrite uniform_real. pose proof (num_range next RM HG g 0) as Hn. split; intros H.
  - destruct (Rle_dec b a); [done|lra].
  - destruct (Rle_dec b a); [lra|]. eexists. split; [done|]. split; [|done].
    assert (0 <= unit_number next RM g 0 * (b - a)) by (apply Rmult_le_pos; lra).
    assert (unit_number next RM g 0 * (b - a) <= 1 * (b - a)) by (apply Rmult_le_compat_r; lra). lra.
Qed.

(** Integral types: the result is in the support, and exactly which random numbers give which result. *)
Theorem uniform_sample_int {G} (next : G -> Z * G) RM w a b g :
  generator next RM -> (- 2 ^ (w - 1) <= a < 2 ^ (w - 1))%Z -> (- 2 ^ (w - 1) <= b < 2 ^ (w - 1))%Z ->
  ((b <= a)%Z -> sampleUniform next RM (rint w) a b g = (Throw BadArgument, g)) /\
  ((a < b)%Z -> (2 ^ (w - 1) <= b - a)%Z -> fst (sampleUniform next RM (rint w) a b g) = UB) /\
  ((a < b)%Z -> (b - a < 2 ^ (w - 1))%Z ->
     exists k, sampleUniform next RM (rint w) a b g = (Ret (a + k)%Z, advance next 1 g) /\ (0 <= k <= b - a)%Z /\
     forall j, k = j <-> ((2 * j - 1) * RM <= 2 * number next g 0 * (b - a) < (2 * j + 1) * RM)%Z).
Proof.
  intros HG Ha Hb. split; [|split].
  - intros H. unfold sampleUniform; simpl. destruct (Z.leb_spec b a); [done|lia].
  - intros H H'. destruct (uniform_int next RM HG w a b g) as [-> _]; [lia..|]. simpl.
    destruct (Z.ltb_spec (b - a) (2 ^ (w - 1))); [lia|done].
  - intros H H'. destruct (uniform_int next RM HG w a b g) as [-> Hk]; [lia..|].
    destruct (Z.ltb_spec (b - a) (2 ^ (w - 1))); [|lia].
    eexists. split; [done|]. split; [done|]. intros j. apply nearest_count; [done|lia].
Qed.
(** So the ends of the support are drawn only about half as often as the other values: with glibc's RAND_MAX and the
    support {0, 1, 2} the value 1 has 2^30 of the 2^31 generator outputs, 0 and 2 have 2^29 each. *)
Theorem uniform_sample_int_refuted {G} (next : G -> Z * G) g :
  generator next 2147483647 ->
  exists x, sampleUniform next 2147483647 (rint 32) 0%Z 2%Z g = (Ret x, advance next 1 g) /\
    (x = 0%Z <-> (number next g 0 < 536870912)%Z) /\
    (x = 1%Z <-> (536870912 <= number next g 0 < 1610612736)%Z) /\
    (x = 2%Z <-> (1610612736 <= number next g 0)%Z).
Proof.
  intros HG.
  destruct (uniform_sample_int next 2147483647 32 0 2 g HG ltac:(lia) ltac:(lia)) as (_ & _ & H).
  destruct (H ltac:(lia) ltac:(lia)) as (k & E & Hk & Hj). exists (0 + k)%Z. split; [done|].
  destruct HG as [_ HR]. specialize (HR g). unfold number in *. simpl advance in *.
  rewrite Z.add_0_l, (Hj 0%Z), (Hj 1%Z), (Hj 2%Z). lia.
Qed.

(** Doubles: never below the minimum, never above fl(min + fl(max - min)); in particular [sampleUniform()] is in [0, 1]. *)
Theorem uniform_sample_double_bounds {G} (next : G -> Z * G) RM a b g :
  generator next RM -> (RM <= 2 ^ 31)%Z ->
  is_finite a = true -> is_finite b = true -> B2R a < B2R b -> is_finite (d_sub b a) = true ->
  exists x, sampleUniformD next RM a b g = (Ret x, advance next 1 g) /\
    (is_finite x = true -> B2R a <= B2R x <= rnd64 (B2R a + rnd64 (B2R b - B2R a))).
Proof.
  intros [HR0 HR] HRM Fa Fb Hab Fd. unfold sampleUniformD.
  rewrite (Bleb_correct 53 1024 b a Fb Fa), Rle_bool_false by done.
  specialize (HR g). simpl advance. destruct (next g) as [r g']; simpl in HR; simpl snd.
  eexists. split; [done|]. intros Fx.
  destruct (unit_double r RM ltac:(lia) ltac:(lia)) as [Fq Hq]. set (q := d_div _ _) in *.
  destruct (sub_finite _ _ Fd) as (_ & _ & Ed). destruct rnd64_rounding as (Hm & H0 & _).
  assert (Hd : 0 <= B2R (d_sub b a)) by (rewrite Ed, <- H0; apply Hm; lra).
  destruct (mul_unit q (d_sub b a) Fq Fd Hq Hd) as [Fm Hmm].
  rewrite (add_finite _ _ Fa Fm Fx). split.
  - rewrite <- (rnd64_id a) at 1. apply Hm. lra.
  - apply Hm. rewrite <- Ed. lra.
Qed.
Lemma add_zero_finite (m : double) : is_finite m = true -> is_finite (d_add (double_of_Z 0 0) m) = true.
Proof.
  intros Fm. replace (double_of_Z 0 0) with (B754_zero false : double) by (vm_compute; reflexivity).
  destruct m as [s| | |s m e H]; try done; by destruct s.
Qed.
Theorem uniform_unit_double {G} (next : G -> Z * G) RM g :
  generator next RM -> (RM <= 2 ^ 31)%Z ->
  exists x, sampleUniformD next RM (double_of_Z 0 0) (double_of_Z 1 0) g = (Ret x, advance next 1 g) /\
    is_finite x = true /\ 0 <= B2R x <= 1.
Proof.
  intros HG HRM.
  assert (E0 : double_of_Z 0 0 = B754_zero false) by (vm_compute; reflexivity).
  assert (E1 : B2R (double_of_Z 1 0) = 1).
  { destruct (of_Z_correct 1 ltac:(lia)) as [_ ->]. apply rnd64_rounding. }
  assert (Fd : is_finite (d_sub (double_of_Z 1 0) (double_of_Z 0 0)) = true) by (vm_compute; reflexivity).
  destruct (uniform_sample_double_bounds next RM (double_of_Z 0 0) (double_of_Z 1 0) g HG HRM)
    as (x & E & Hx); [vm_compute; reflexivity|vm_compute; reflexivity|rewrite E0, E1; simpl; lra|done|].
  exists x. split; [done|].
  assert (Fx : is_finite x = true).
  { revert E. unfold sampleUniformD.
    assert (Bleb (double_of_Z 1 0) (double_of_Z 0 0) = false) as -> by (vm_compute; reflexivity).
    destruct HG as [HR0 HR]. specialize (HR g). destruct (next g) as [r g']. simpl in HR. intros [= <- _].
    destruct (unit_double r RM ltac:(lia) ltac:(lia)) as [Fq Hq]. set (q := d_div _ _) in *.
    destruct (sub_finite _ _ Fd) as (_ & _ & Ed).
    assert (Ed1 : B2R (d_sub (double_of_Z 1 0) (double_of_Z 0 0)) = 1).
    { rewrite Ed, E0, E1. simpl. rewrite Rminus_0_r. apply rnd64_rounding. }
    destruct (mul_unit q (d_sub (double_of_Z 1 0) (double_of_Z 0 0)) Fq Fd Hq ltac:(lra)) as [Fm Hmm].
    exact (add_zero_finite _ Fm). }
  split; [done|]. specialize (Hx Fx). rewrite E0, E1 in Hx. simpl B2R in Hx.
  rewrite Rminus_0_r, Rplus_0_l in Hx. destruct rnd64_rounding as (_ & _ & H1). rewrite !H1 in Hx. done.
Qed.
(** But the result can exceed the maximum: support [-2^-51, 1 - 2^-53], largest random number. *)
Theorem uniform_sample_double_refuted {G} (next : G -> Z * G) g :
  fst (next g) = 2147483647%Z ->
  let a := double_of_Z (-1) (-51) in
  let b := double_of_Z (2 ^ 53 - 1) (-53) in
  exists x, fst (sampleUniformD next 2147483647 a b g) = Ret x /\ Bltb b x = true /\ x = double_of_Z 1 0.
Proof.
  intros H a b. exists (double_of_Z 1 0). unfold sampleUniformD.
  assert (Bleb b a = false) as -> by (vm_compute; reflexivity).
  destruct (next g) as [r g']. simpl in H. subst r. cbn [fst].
  split; [|split]; [|vm_compute; reflexivity|reflexivity]. f_equal. apply (B2SF_inj 53 1024). vm_compute. reflexivity.
Qed.

(** getSample of a uniform distribution stays in its support (exact arithmetic). *)
Theorem uniform_getSample_real {G} (next : G -> Z * G) RM d g :
  generator next RM -> unif_reach ureal d ->
  exists x, uniform_getSample next RM rreal d g = (Ret x, advance next 1 g) /\ un_min d <= x <= un_max d.
Proof.
  intros HG Hd. apply unif_reach_real in Hd as [Hd _].
  destruct (uniform_sample_real next RM (un_min d) (un_max d) g HG) as [_ H].
  destruct (H Hd) as (x & E & Hx & _). by exists x.
Qed.

(** ** sampleNormal *)
(** [normal_pair g i] is the squared radius of the [i]-th pair of random numbers mapped to [-1, 1]^2. *)
Definition normal_pair {G} (next : G -> Z * G) RM (g : G) (i : nat) : R :=
  let u := 2 * unit_number next RM g (2 * i) - 1 in
  let v := 2 * unit_number next RM g (2 * i + 1) - 1 in u * u + v * v.

Theorem normal_sample_real {G} (next : G -> Z * G) RM fuel mean var g :
  generator next RM ->
  (var <= 0 -> sampleNormal next RM rreal fuel mean var g = (Throw BadArgument, g)) /\
  (0 < var ->
   match sampleNormal next RM rreal fuel mean var g with
   | (Ret x, g') => exists i, g' = advance next (2 * i + 2) g /\
       (let s := normal_pair next RM g i in
        0 < s < 1 /\ x = mean + sqrt var * (2 * unit_number next RM g (2 * i) - 1) * sqrt (- 2 * ln s / s)) /\
       (forall j, (j < i)%nat -> ~ 0 < normal_pair next RM g j < 1)
   | (Diverge, _) => forall i, (i < fuel)%nat -> ~ 0 < normal_pair next RM g i < 1
   | _ => False
   end).
Proof.
  intros HG. unfold sampleNormal; simpl r_R. split; intros H; destruct (Rle_dec var 0); try lra; [done|].
  pose proof (normal_loop_real next RM fuel g) as HL.
  destruct (normal_loop next RM rreal fuel g) as [[[u s] g']|].
  - destruct HL as (i & Hi & -> & -> & Hs & -> & Hj). simpl. exists i. done.
  - exact HL.
Qed.
(** It returns exactly for the streams that contain an acceptable pair. *)
Theorem normal_sample_terminates {G} (next : G -> Z * G) RM mean var g :
  generator next RM -> 0 < var ->
  ((exists fuel x g', sampleNormal next RM rreal fuel mean var g = (Ret x, g')) <->
   exists i, 0 < normal_pair next RM g i < 1).
Proof.
  intros HG Hv. split.
  - intros (fuel & x & g' & E). destruct (normal_sample_real next RM fuel mean var g HG) as [_ H].
    specialize (H Hv). rewrite E in H. destruct H as (i & _ & [Hs _] & _). by exists i.
  - intros [i Hi]. exists (S i). destruct (normal_sample_real next RM (S i) mean var g HG) as [_ H].
    specialize (H Hv). destruct (sampleNormal next RM rreal (S i) mean var g) as [[x| | |] g']; try done; [by eexists _, _|].
    exfalso. apply (H i); [lia|done].
Qed.
(** For an integral type it never returns, whatever the generator does. *)
Theorem normal_sample_int_refuted {G} (next : G -> Z * G) RM w fuel mean var g :
  generator next RM -> (2 <= w)%Z -> (0 < var)%Z ->
  fst (sampleNormal next RM (rint w) fuel mean var g) = Diverge.
Proof.
  intros HG Hw Hv. unfold sampleNormal; simpl r_R.
  destruct (Rle_dec (IZR var) 0) as [H|_]; [apply (le_IZR var 0) in H; lia|].
  by rewrite normal_loop_int.
Qed.

(** ** sampleCategorical *)
Definition valid_probabilities (p : list R) : Prop :=
  Rabs (fold_right Rplus 0 p - 1) <= 1 / 10 ^ 12 /\ Forall (fun x => 0 <= x) p.

Theorem categorical_sample {G} (next : G -> Z * G) RM p g :
  generator next RM ->
  (~ valid_probabilities p -> sampleCategorical next RM rreal p g = (Throw BadArgument, g)) /\
  (valid_probabilities p -> exists k, sampleCategorical next RM rreal p g = (Ret k, advance next 1 g) /\
     (k < length p)%nat /\
     let u := unit_number next RM g 0 in
     (forall j, (j < k)%nat -> sum_first p (S j) < u) /\
     ((k < length p - 1)%nat -> u <= sum_first p (S k))).
Proof.
  intros HG.
  assert (Hsum : fold_left Rplus p 0 = fold_right Rplus 0 p).
  { assert (Gen : forall l acc, fold_left Rplus l acc = acc + fold_right Rplus 0 l).
    { induction l as [|x l IH]; intros acc; simpl; [lra|]. rewrite IH. lra. }
    rewrite Gen. lra. }
  assert (Hneg : existsb (fun x => if Rlt_dec x 0 then true else false) p = false <-> Forall (fun x => 0 <= x) p).
  { clear. induction p as [|x p IH]; simpl; [done|]. rewrite Forall_cons. destruct (Rlt_dec x 0); simpl.
    - split; [done|lra].
    - rewrite IH. split; [split; [lra|done]|intros [_ ?]; done]. }
  unfold sampleCategorical. rewrite Hsum.
  set (c := _ || _). assert (Hc : c = false <-> valid_probabilities p).
  { unfold c, valid_probabilities. rewrite orb_false_iff, Hneg. destruct (Rlt_dec _ _); split; intros [? ?]; split; try done; lra. }
  destruct c.
  - split; [done|]. intros H. apply Hc in H. done.
  - split; [intros H; destruct H; by apply Hc|]. intros [Hs Hp].
    destruct p as [|p0 ps].
    { exfalso. simpl in Hs. rewrite Rminus_0_l, Rabs_Ropp, Rabs_R1 in Hs. lra. }
    rewrite unit_real. eexists. split; [done|].
    destruct (cat_loop_spec (unit_number next RM g 0) p0 1 ps ltac:(lia)) as (H1 & H2 & H3).
    set (k := cat_loop _ _ _ _) in *. simpl in H1. split; [simpl; lia|]. cbn zeta. split.
    + intros j Hj. specialize (H2 j ltac:(lia)). rewrite Nat.sub_0_r in H2. exact H2.
    + intros Hk. simpl in Hk. specialize (H3 ltac:(lia)). rewrite Nat.sub_0_r in H3. exact H3.
Qed.

(** C41: if the probabilities add up to exactly one and the random number is not 0, the category drawn has a positive
    probability ... *)
Lemma sum_first_S p k x : p !! k = Some x -> sum_first p (S k) = sum_first p k + x.
Proof.
  intros Hk. unfold sum_first. rewrite (take_S_r _ _ _ Hk), foldr_app. simpl.
  generalize (take k p). induction l as [|y l IH]; simpl; lra.
Qed.
Theorem categorical_positive {G} (next : G -> Z * G) RM p g k :
  generator next RM -> valid_probabilities p -> fold_right Rplus 0 p = 1 -> number next g 0 <> 0%Z ->
  fst (sampleCategorical next RM rreal p g) = Ret k -> exists x, p !! k = Some x /\ 0 < x.
Proof.
  intros HG Hv Hs Hn E. destruct (categorical_sample next RM p g HG) as [_ H].
  destruct (H Hv) as (k' & E' & Hk & H1 & H2). rewrite E' in E. injection E as ->.
  assert (Hu : 0 < unit_number next RM g 0 <= 1).
  { pose proof (num_range next RM HG g 0) as [Hr1 Hr2]. split; [|done].
    unfold unit_number. destruct HG as [HR HR']. apply Rmult_lt_0_compat; [|apply Rinv_0_lt_compat; by apply IZR_lt].
    apply IZR_lt. unfold number in *. specialize (HR' (advance next 0 g)). lia. }
  destruct (lookup_lt_is_Some_2 p k Hk) as [x Hx]. exists x. split; [done|].
  assert (Hlow : k <> 0%nat -> sum_first p k < unit_number next RM g 0).
  { intros Hk0. specialize (H1 (k - 1)%nat ltac:(lia)). by replace (S (k - 1)) with k in H1 by lia. }
  assert (Hlow' : sum_first p k < unit_number next RM g 0).
  { destruct (decide (k = 0%nat)) as [->|]; [|by apply Hlow]. unfold sum_first; simpl. lra. }
  destruct (decide (k < length p - 1)%nat) as [Hl|Hl].
  - specialize (H2 Hl). rewrite (sum_first_S _ _ _ Hx) in H2. lra.
  - assert (sum_first p (S k) = 1) as Ht.
    { unfold sum_first. rewrite take_ge by lia. done. }
    rewrite (sum_first_S _ _ _ Hx) in Ht. lra.
Qed.
(** ... but the random number 0 gives category 0 even if its probability is 0, and the tolerance on the sum lets the
    last category be drawn with probability 0. *)
Theorem categorical_zero_refuted {G} (next : G -> Z * G) RM g :
  generator next RM ->
  (number next g 0 = 0%Z -> valid_probabilities [0; 1] /\ fst (sampleCategorical next RM rreal [0; 1] g) = Ret 0%nat) /\
  (number next g 0 = RM -> let q := 1 - 1 / 10 ^ 12 in
     valid_probabilities [q; 0] /\ fst (sampleCategorical next RM rreal [q; 0] g) = Ret 1%nat).
Proof.
  intros HG. split; intros Hn.
  - assert (Hv : valid_probabilities [0; 1]).
    { split; [simpl; rewrite Rabs_pos_eq; lra|repeat constructor; lra]. }
    split; [done|]. destruct (categorical_sample next RM [0; 1] g HG) as [_ H].
    destruct (H Hv) as (k & -> & Hk & H1 & _). cbn [fst]. f_equal.
    destruct k as [|[|k]]; [done| |simpl in Hk; lia]. exfalso. specialize (H1 0%nat ltac:(lia)).
    unfold unit_number in H1. rewrite Hn in H1. unfold sum_first, Rdiv in H1. simpl in H1. lra.
  - intros q. assert (Hq : 0 < 1 / 10 ^ 12 < 1) by (simpl; lra).
    assert (Hv : valid_probabilities [q; 0]).
    { split; [simpl fold_right; unfold q; rewrite Rabs_left1; lra|repeat constructor; unfold q; lra]. }
    split; [done|]. destruct (categorical_sample next RM [q; 0] g HG) as [_ H].
    destruct (H Hv) as (k & -> & Hk & _ & H2). cbn [fst]. f_equal.
    destruct k as [|[|k]]; [|done|simpl in Hk; lia]. exfalso. specialize (H2 ltac:(simpl; lia)).
    unfold unit_number in H2. rewrite Hn in H2. destruct HG as [HR _]. apply IZR_lt in HR.
    unfold sum_first, Rdiv in H2. rewrite Rinv_r in H2 by lra. simpl in H2. unfold q in H2. lra.
Qed.

(** ** samplePoisson: the number of random numbers multiplied before the product drops to exp(-mean). *)
Theorem poisson_sample {G} (next : G -> Z * G) RM fuel mean g :
  generator next RM ->
  let pr := prod_first (unit_number next RM g) in
  (mean <= 0 -> samplePoisson next RM rreal fuel mean g = (Throw BadArgument, g)) /\
  (0 < mean ->
   match samplePoisson next RM rreal fuel mean g with
   | (Ret k, g') => g' = advance next (S k) g /\ exp (- mean) < pr k /\ pr (S k) <= exp (- mean)
   | (Diverge, _) => forall k, (k < fuel)%nat -> exp (- mean) < pr (S k)
   | _ => False
   end).
Proof.
  intros HG pr. unfold samplePoisson. split; intros H; destruct (Rle_dec mean 0); try lra; [done|].
  pose proof (poisson_real next RM fuel (exp (- mean)) 1 0 g) as HL.
  destruct (poisson_loop next RM rreal fuel (exp (- mean)) 1 0 g) as [[kk g']|].
  - destruct HL as (i & Hi & -> & -> & H1 & H2). replace (0 + S i - 1)%nat with i by lia. split; [done|].
    rewrite Rmult_1_l in H1. split; [|done].
    destruct i as [|i].
    + unfold pr; simpl. rewrite <- exp_0. apply exp_increasing. lra.
    + specialize (H2 i ltac:(lia)). rewrite Rmult_1_l in H2. done.
  - intros k Hk. specialize (HL k Hk). by rewrite Rmult_1_l in HL.
Qed.
(** The result is unique, and with a generator stuck at RAND_MAX the call never returns. *)
Theorem poisson_sample_unique {G} (next : G -> Z * G) RM f1 f2 mean g k1 k2 g1 g2 :
  generator next RM -> 0 < mean ->
  samplePoisson next RM rreal f1 mean g = (Ret k1, g1) -> samplePoisson next RM rreal f2 mean g = (Ret k2, g2) ->
  k1 = k2 /\ g1 = g2.
Proof.
  intros HG Hm E1 E2. set (pr := prod_first (unit_number next RM g)).
  assert (Hmono : forall n m, (n <= m)%nat -> pr m <= pr n).
  { assert (Hp : forall n, 0 <= pr n).
    { induction n as [|n IH]; unfold pr; simpl; [lra|]. apply Rmult_le_pos; [done|]. apply num_range; done. }
    intros n m Hnm. induction Hnm as [|m _ IH]; [lra|].
    pose proof (num_range next RM HG g m) as Hr. specialize (Hp m). unfold pr in *; simpl.
    assert (prod_first (unit_number next RM g) m * unit_number next RM g m <=
      prod_first (unit_number next RM g) m * 1) by (apply Rmult_le_compat_l; lra). lra. }
  destruct (poisson_sample next RM f1 mean g HG) as [_ H1]. specialize (H1 Hm). rewrite E1 in H1.
  destruct (poisson_sample next RM f2 mean g HG) as [_ H2]. specialize (H2 Hm). rewrite E2 in H2.
  destruct H1 as (-> & A1 & B1), H2 as (-> & A2 & B2). fold pr in A1, B1, A2, B2.
  assert (k1 = k2); [|by subst].
  destruct (Nat.lt_total k1 k2) as [H|[H|H]]; [|done|].
  - exfalso. specialize (Hmono (S k1) k2 ltac:(lia)). lra.
  - exfalso. specialize (Hmono (S k2) k1 ltac:(lia)). lra.
Qed.

(** ** sampleExponential and sampleGeometric: inverse transform of the first non-zero random number *)
Theorem exponential_sample {G} (next : G -> Z * G) RM fuel rate g :
  generator next RM ->
  (rate <= 0 -> sampleExponential next RM rreal fuel rate g = (Throw BadArgument, g)) /\
  (0 < rate ->
   match sampleExponential next RM rreal fuel rate g with
   | (Ret x, g') => exists i, g' = advance next (S i) g /\ (forall j, (j < i)%nat -> unit_number next RM g j = 0) /\
       let u := unit_number next RM g i in
       0 < u /\ 0 <= x /\ forall t, t < x <-> u < exp (- (rate * t))
   | (Diverge, _) => forall i, (i < fuel)%nat -> unit_number next RM g i = 0
   | _ => False
   end).
Proof.
  intros HG. unfold sampleExponential. split; intros H; destruct (Rle_dec rate 0); try lra; [done|].
  pose proof (nonzero_real next RM fuel g) as HL.
  destruct (nonzero_loop next RM rreal fuel g) as [[u g']|]; [|done].
  destruct HL as (i & Hi & -> & Hu & -> & Hj). exists i. split; [done|]. split; [done|]. cbn zeta.
  pose proof (num_range next RM HG g i) as Hr. set (u := unit_number next RM g i) in *.
  assert (Hu0 : 0 < u) by lra. split; [done|].
  assert (Hir : 0 < / rate) by by apply Rinv_0_lt_compat.
  assert (Hln : ln u <= 0).
  { rewrite <- ln_1. destruct (Req_dec u 1) as [->|]; [lra|]. left. apply ln_increasing; lra. }
  split; [apply Rmult_le_pos; lra|].
  intros t. split; intros Ht.
  - rewrite <- (exp_ln u) by done. apply exp_increasing.
    apply Rmult_lt_compat_l with (r := rate) in Ht; [|done].
    replace (rate * (- ln u / rate)) with (- ln u) in Ht by (field; lra). lra.
  - apply ln_increasing in Ht; [|done]. rewrite ln_exp in Ht.
    apply Rmult_lt_reg_l with rate; [done|]. replace (rate * (- ln u / rate)) with (- ln u) by (field; lra). lra.
Qed.

Theorem geometric_sample {G} (next : G -> Z * G) RM fuel p g :
  generator next RM ->
  (p <= 0 \/ 1 < p -> sampleGeometric next RM rreal fuel p g = (Throw BadArgument, g)) /\
  (0 < p <= 1 ->
   match sampleGeometric next RM rreal fuel p g with
   | (Ret k, g') => exists i, g' = advance next (S i) g /\ (forall j, (j < i)%nat -> unit_number next RM g j = 0) /\
       let u := unit_number next RM g i in
       0 < u /\ (p = 1 -> k = 0%nat) /\ (p < 1 -> forall j, (j <= k)%nat <-> u <= (1 - p) ^ j)
   | (UB, _) => exists i, let u := unit_number next RM g i in
       (forall j, (j < i)%nat -> unit_number next RM g j = 0) /\ p < 1 /\ 0 < u /\ u <= Rpower (1 - p) (IZR (2 ^ 64))
   | (Diverge, _) => forall i, (i < fuel)%nat -> unit_number next RM g i = 0
   | (Throw _, _) => False
   end).
Proof.
  intros HG. unfold sampleGeometric. split; intros H.
  { destruct (Rle_dec p 0); [done|]. destruct (Rlt_dec 1 p); [done|lra]. }
  destruct (Rle_dec p 0); [lra|]. destruct (Rlt_dec 1 p); [lra|]. cbn [orb].
  pose proof (nonzero_real next RM fuel g) as HL.
  destruct (nonzero_loop next RM rreal fuel g) as [[u g']|]; [|done].
  destruct HL as (i & Hi & -> & Hu & -> & Hj).
  pose proof (num_range next RM HG g i) as Hr.
  destruct (Req_EM_T p 1) as [Hp1|Hp1].
  { exists i. split; [done|]. split; [done|]. cbn zeta. split; [lra|]. split; [done|]. lra. }
  set (u := unit_number next RM g i) in *. assert (Hu0 : 0 < u) by lra.
  assert (Hl : ln (1 - p) < 0) by (rewrite <- ln_1; apply ln_increasing; lra).
  assert (Hln : ln u <= 0).
  { rewrite <- ln_1. destruct (Req_dec u 1) as [->|]; [lra|]. left. apply ln_increasing; lra. }
  set (q := ln u / ln (1 - p)).
  assert (Hq : q * ln (1 - p) = ln u) by (unfold q; field; lra).
  assert (Hq0 : 0 <= q).
  { destruct (Rle_or_lt 0 q) as [|Hn]; [done|]. exfalso. nra. }
  assert (Hiff : forall t, t <= q <-> u <= Rpower (1 - p) t).
  { intros t. unfold Rpower. split; intros Ht.
    - rewrite <- (exp_ln u) by done. assert (E : ln u <= t * ln (1 - p)) by (rewrite <- Hq; nra).
      destruct E as [E|E]; [left; by apply exp_increasing|right; by rewrite E].
    - rewrite <- (exp_ln u) in Ht by done.
      assert (E : ln u <= t * ln (1 - p)).
      { destruct (Rle_or_lt (ln u) (t * ln (1 - p))) as [|Hn]; [done|]. apply exp_increasing in Hn. lra. }
      rewrite <- Hq in E. nra. }
  assert (Hf0 : 0 <= IZR (Zfloor q)).
  { apply IZR_le. apply Zfloor_lub. exact Hq0. }
  unfold to_size_t. destruct (Rlt_dec (IZR (Zfloor q)) 0); [lra|].
  destruct (Rle_dec (IZR (2 ^ 64)) (IZR (Zfloor q))) as [Hb|Hb]; cbn [of_opt].
  - exists i. cbn zeta. fold u. split; [done|]. split; [lra|]. split; [done|]. apply Hiff.
    pose proof (Zfloor_lb q). lra.
  - exists i. split; [done|]. split; [done|]. cbn zeta. split; [done|]. split; [done|]. intros _ j.
    fold u. rewrite Zfloor_IZR. rewrite <- Rpower_pow by lra. rewrite <- Hiff. rewrite INR_IZR_INZ. split; intros Hj'.
    + apply Rle_trans with (IZR (Zfloor q)); [|apply Zfloor_lb]. apply IZR_le.
      assert (0 <= Zfloor q)%Z by (by apply le_IZR). lia.
    + apply Zfloor_lub in Hj'. lia.
Qed.
(** In doubles a small probability makes 1 - p round to 1 and the result undefined, whatever the random number. *)
Theorem geometric_double_refuted dlog u :
  dlog (double_of_Z 1 0) = B754_zero false -> geometricD dlog (double_of_Z 1 (-60)) u = None.
Proof.
  intros Hlog. unfold geometricD.
  assert (d_sub (double_of_Z 1 0) (double_of_Z 1 (-60)) = double_of_Z 1 0) as -> by (apply (B2SF_inj 53 1024); vm_compute; reflexivity).
  rewrite Hlog. destruct (dlog u) as [s|s| |s m e He]; done.
Qed.

(** ** sampleGamma: never negative; infinite only after RAND_MAX followed by 0. *)
Lemma exp_sum_ge {G} (next : G -> Z * G) RM fuel n y g y' g' :
  generator next RM -> exp_sum next RM rreal fuel n y g = Some (y', g') -> y <= y' /\ exists m, g' = advance next m g.
Proof.
  intros HG. revert y g. induction n as [|n IH]; intros y g; simpl.
  - intros [= <- <-]. split; [lra|]. by exists 0%nat.
  - destruct (exponential_sample next RM fuel 1 g HG) as [_ H]. specialize (H ltac:(lra)).
    destruct (sampleExponential next RM rreal fuel 1 g) as [[x| | |] g1]; try done.
    destruct H as (i & -> & _ & _ & Hx & _). intros E. apply IH in E as [E [m ->]]. split; [lra|].
    exists (S i + m)%nat. by rewrite advance_add.
Qed.
Lemma gamma_loop_range {G} (next : G -> Z * G) RM fuel frac b g z g' :
  generator next RM -> 0 < frac < 1 -> b = (exp 1 + frac) / exp 1 ->
  gamma_loop next RM rreal fuel frac b g = Some (z, g') ->
  (exists z', z = Some z' /\ 0 <= z') \/
  (z = None /\ exists i, unit_number next RM g i = 1 /\ unit_number next RM g (S i) = 0).
Proof.
  intros HG Hf Hb. revert g. induction fuel as [|fuel IH]; intros g; [done|]. cbn [gamma_loop].
  rewrite unit_real. rewrite unit_real. rewrite num_shift. change (1 + 0)%nat with 1%nat. rewrite <- advance_add.
  pose proof (num_range next RM HG g 0) as H0. pose proof (num_range next RM HG g 1) as H1.
  set (u := unit_number next RM g 0) in *. set (w := unit_number next RM g 1) in *.
  assert (He : 1 < exp 1) by (pose proof (exp_ineq1 1 ltac:(lra)); lra).
  assert (Hb1 : 1 < b).
  { rewrite Hb. apply Rmult_lt_reg_r with (exp 1); [lra|]. unfold Rdiv. rewrite Rmult_assoc, Rinv_l; lra. }
  assert (Hrec : gamma_loop next RM rreal fuel frac b (advance next 2 g) = Some (z, g') ->
    (exists z', z = Some z' /\ 0 <= z') \/
    (z = None /\ exists i, unit_number next RM g i = 1 /\ unit_number next RM g (S i) = 0)).
  { intros E. apply IH in E as [E|(-> & i & Hi & Hi')]; [by left|]. right. split; [done|].
    exists (2 + i)%nat. rewrite num_shift in Hi, Hi'. split; [done|]. by replace (S (2 + i)) with (2 + S i)%nat by lia. }
  destruct (Rlt_dec 1 (b * u)) as [Hp|Hp].
  - destruct (Req_EM_T (b - b * u) 0) as [Hz|Hz].
    + destruct (Rlt_dec 0 w) as [Hw|Hw]; [apply Hrec|]. intros [= <- <-]. right. split; [done|]. exists 0%nat.
      split; [|fold w; lra]. fold u. nra.
    + destruct (Rlt_dec _ w); [apply Hrec|]. intros [= <- <-]. left. eexists. split; [done|].
      assert (Hbu : 0 < b - b * u) by nra.
      assert (Hle : (b - b * u) / frac < 1).
      { apply Rmult_lt_reg_r with frac; [lra|]. unfold Rdiv. rewrite Rmult_assoc, Rinv_l, Rmult_1_r by lra.
        assert (b - 1 = frac / exp 1) by (rewrite Hb; field; lra).
        assert (frac / exp 1 < frac).
        { apply Rmult_lt_reg_r with (exp 1); [lra|]. unfold Rdiv. rewrite Rmult_assoc, Rinv_l by lra. nra. }
        lra. }
      assert (0 < (b - b * u) / frac) by (apply Rdiv_lt_0_compat; lra).
      assert (ln ((b - b * u) / frac) < 0) by (rewrite <- ln_1; apply ln_increasing; lra). lra.
  - destruct (Rlt_dec _ w); [apply Hrec|]. intros [= <- <-]. left. eexists. split; [done|].
    unfold rpow0. destruct (Req_EM_T (b * u) 0); [lra|]. apply Rlt_le, exp_pos.
Qed.
Theorem gamma_sample {G} (next : G -> Z * G) RM fuel shape inv g :
  generator next RM ->
  (shape <= 0 \/ inv <= 0 -> sampleGamma next RM rreal fuel shape inv g = (Throw BadArgument, g)) /\
  (0 < shape < IZR (2 ^ 64) -> 0 < inv ->
   match sampleGamma next RM rreal fuel shape inv g with
   | (Ret (Some x), _) => 0 <= x
   | (Ret None, _) => exists i, unit_number next RM g i = 1 /\ unit_number next RM g (S i) = 0
   | (Diverge, _) => True
   | _ => False
   end).
Proof.
  intros HG. unfold sampleGamma. split; [intros H|intros Hs Hi].
  { destruct (Rle_dec shape 0); [done|]. destruct (Rle_dec inv 0); [done|lra]. }
  destruct (Rle_dec shape 0) as [?|?Hsh]; [lra|]. destruct (Rle_dec inv 0) as [?|?Hiv]; [lra|].
  assert (Hf0 : (0 <= Zfloor shape)%Z) by (apply Zfloor_lub; simpl; lra).
  assert (Hfl : IZR (Zfloor shape) <= shape < IZR (Zfloor shape) + 1) by (split; [apply Zfloor_lb|apply Zfloor_ub]).
  unfold to_size_t. destruct (Rlt_dec (IZR (Zfloor shape)) 0) as [Hn|_]; [apply (lt_IZR _ 0) in Hn; lia|].
  destruct (Rle_dec (IZR (2 ^ 64)) (IZR (Zfloor shape))) as [?|_]; [lra|]. rewrite Zfloor_IZR.
  set (n := Z.to_nat (Zfloor shape)).
  assert (Hn : INR n = IZR (Zfloor shape)) by (rewrite INR_IZR_INZ; unfold n; f_equal; lia).
  destruct (exp_sum next RM rreal fuel n 0 g) as [[y g1]|] eqn:Ey; [|done].
  apply (exp_sum_ge _ _ _ _ _ _ _ _ HG) in Ey as [Hy [m ->]].
  assert (Hinv : 0 < / inv) by (by apply Rinv_0_lt_compat; lra).
  destruct (Rlt_dec (/ 2 ^ 52) (Rabs (shape - INR n))) as [Hfr|Hfr].
  - assert (0 < shape - INR n < 1).
    { rewrite Hn in *. rewrite Rabs_pos_eq in Hfr by lra.
      assert (0 < / 2 ^ 52) by (apply Rinv_0_lt_compat, pow_lt; lra). lra. }
    destruct (gamma_loop next RM rreal fuel (shape - INR n) ((exp 1 + (shape - INR n)) / exp 1) (advance next m g))
      as [[z g2]|] eqn:Ez; [|done].
    eapply gamma_loop_range in Ez; [|done|done|done].
    destruct Ez as [(z' & -> & Hz)|(-> & i & Hi1 & Hi2)].
    + apply Rmult_le_pos; lra.
    + exists (m + i)%nat. rewrite num_shift in Hi1, Hi2. split; [done|]. by replace (S (m + i)) with (m + S i)%nat by lia.
  - apply Rmult_le_pos; lra.
Qed.

(** ** getSamples: exactly the requested number of samples, those of successive calls, whatever was in the vector. *)
Fixpoint successive {G X} (f : G -> result X * G) (n : nat) (g : G) : list (result X) :=
  match n with O => [] | S n' => fst (f g) :: successive f n' (snd (f g)) end.
Theorem get_samples {G X} (getSample : G -> result X * G) old n g l r g' :
  getSamples getSample old n g = (l, r, g') ->
  (r = Ret tt -> length l = n /\ successive getSample n g = map Ret l) /\
  (r <> Ret tt -> (length l < n)%nat /\ take (length l) (successive getSample n g) = map Ret l).
Proof.
  unfold getSamples.
  assert (Gen : forall n acc g, push_samples getSample n acc g = (l, r, g') ->
     exists k, l = acc ++ k /\ (r = Ret tt -> length k = n /\ successive getSample n g = map Ret k) /\
       (r <> Ret tt -> (length k < n)%nat /\ take (length k) (successive getSample n g) = map Ret k)).
  { clear. induction n as [|n IH]; intros acc g; simpl.
    - intros [= -> <- ->]. exists []. rewrite app_nil_r. done.
    - destruct (getSample g) as [[x| | |] g1]; simpl.
      + intros E. apply IH in E as (k & -> & H1 & H2). exists (x :: k). rewrite <- app_assoc. split; [done|]. split.
        * intros Hr. destruct (H1 Hr) as [<- ->]. done.
        * intros Hr. destruct (H2 Hr) as [Hl Ht]. simpl. split; [lia|]. by rewrite Ht.
      + intros [= <- <- <-]. exists []. rewrite app_nil_r. split; [done|]. split; [done|]. simpl. split; [lia|done].
      + intros [= <- <- <-]. exists []. rewrite app_nil_r. split; [done|]. split; [done|]. simpl. split; [lia|done].
      + intros [= <- <- <-]. exists []. rewrite app_nil_r. split; [done|]. split; [done|]. simpl. split; [lia|done]. }
  intros E. apply Gen in E as (k & -> & H). exact H.
Qed.

(** ** Seeding *)
(** After setSeed the numbers drawn are a function of the seed, as long as no setSeed by another part and no first
    default construction of a Randomizer instantiation intervene. *)
Definition quiet (seeded : nat -> bool) (c : rcall) : Prop :=
  match c with RSetSeed _ => False | RDefault k _ => seeded k = true | _ => True end.
Theorem seed_reproducible {G} (next : G -> Z * G) srandom z s1 s2 calls :
  (forall k, p_seeded s1 k = p_seeded s2 k) -> Forall (quiet (p_seeded s1)) calls ->
  snd (rrun next srandom (setSeed srandom z s1) calls) = snd (rrun next srandom (setSeed srandom z s2) calls).
Proof.
  intros Hs HF.
  assert (Gen : forall calls t1 t2, p_gen t1 = p_gen t2 -> (forall k, p_seeded t1 k = p_seeded t2 k) ->
     Forall (quiet (p_seeded t1)) calls ->
     snd (rrun next srandom t1 calls) = snd (rrun next srandom t2 calls)).
  { clear. induction calls as [|c calls IH]; intros t1 t2 Hg Hs HF; [done|].
    apply Forall_cons in HF as [Hc HF]. destruct c as [z'|z'|k now|]; simpl in *; [done| | |].
    - unfold randomizer_new. specialize (IH t1 t2 Hg Hs HF).
      destruct (rrun next srandom t1 calls), (rrun next srandom t2 calls). done.
    - unfold randomizer_default, getSeed. rewrite <- (Hs k), Hc, <- Hg. destruct (next (p_gen t1)) as [r g']. simpl.
      set (a := PState _ _). set (b := PState _ _).
      assert (HI : snd (rrun next srandom a calls) = snd (rrun next srandom b calls)).
      { apply IH; [done| |].
        - intros j. simpl. destruct (Nat.eqb j k); [done|apply Hs].
        - eapply Forall_impl; [exact HF|]. intros [|?|k' ?|]; simpl; try done. intros ->. by destruct (Nat.eqb k' k). }
      destruct (rrun next srandom a calls), (rrun next srandom b calls). simpl in *. by rewrite HI.
    - rewrite <- Hg. destruct (next (p_gen t1)) as [r g']. simpl.
      set (a := PState _ _). set (b := PState _ _).
      assert (HI : snd (rrun next srandom a calls) = snd (rrun next srandom b calls)) by (apply IH; done).
      destruct (rrun next srandom a calls), (rrun next srandom b calls). simpl in *. by rewrite HI. }
  apply Gen; done.
Qed.
(** The seed given to a constructor has no effect, and the first default construction of an instantiation replaces the
    user's seed by one from the clock. *)
Theorem seed_refuted {G} (next : G -> Z * G) srandom z s k now1 now2 :
  p_seeded s k = false ->
  (forall z', randomizer_new z' s = s) /\
  (p_gen (randomizer_default next srandom k now1 (setSeed srandom z s)) = snd (next (srandom now1))) /\
  (fst (next (snd (next (srandom now1)))) <> fst (next (snd (next (srandom now2)))) ->
   snd (rrun next srandom (setSeed srandom z s) [RDefault k now1; RDraw]) <>
   snd (rrun next srandom (setSeed srandom z s) [RDefault k now2; RDraw])).
Proof.
  intros Hk. split; [done|]. split.
  - unfold randomizer_default, getSeed. simpl. rewrite Hk. by destruct (next (srandom now1)).
  - intros Hne. simpl. unfold randomizer_default, getSeed. simpl. rewrite Hk.
    destruct (next (srandom now1)) as [r1 g1], (next (srandom now2)) as [r2 g2]. simpl in *.
    destruct (next g1), (next g2). simpl in *. congruence.
Qed.

(** Non-vacuous: a generator that repeats a fixed list of numbers. *)
Definition cyclic (g : nat) : Z * nat := ((Z.of_nat g * 7) mod 11, S g)%Z.
Example randomizer_example : generator cyclic 10 /\
  (exists x g', sampleNormal cyclic 10 rreal 5 0 1 0%nat = (Ret x, g')).
Proof.
  split.
  - split; [lia|]. intros g. simpl. pose proof (Z.mod_pos_bound (Z.of_nat g * 7) 11). lia.
  - assert (HG : generator cyclic 10).
    { split; [lia|]. intros g. simpl. pose proof (Z.mod_pos_bound (Z.of_nat g * 7) 11). lia. }
    destruct (normal_sample_real cyclic 10 5 0 1 0%nat HG) as [_ H]. specialize (H ltac:(lra)).
    destruct (sampleNormal cyclic 10 rreal 5 0 1 0%nat) as [[x| | |] g']; try done; [by eexists _, _|].
    exfalso. apply (H 2%nat); [lia|]. unfold normal_pair, unit_number.
    replace (number cyclic 0%nat (2 * 2)) with 6%Z by reflexivity.
    replace (number cyclic 0%nat (2 * 2 + 1)) with 2%Z by reflexivity. lra.
Qed.
