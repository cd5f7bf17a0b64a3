(** C124: given independent uniform random numbers, the samples follow the distribution they are named after.  Each theorem says
    for which random numbers the sampler gives which result, and that the set of those random numbers, as a part of the unit cube,
    has as its volume the probability of that result. *)
From stdpp Require Import prelude list.
From Coq Require Import Reals Lra Psatz ZArith.
From Flocq Require Import Core.
From Coquelicot Require Import Coquelicot.
From Verif Require Import Base UniformModel RandomizerModel Spec_Randomizer Spec_Gamma Spec_Volume VolumeProofs
  RandomizerProofs Properties_Randomizer.
Local Open Scope R_scope.

Lemma draws_1 f : draws f 1 = f 0%nat :: nil.
Proof. done. Qed.

(** samplePoisson returns k with probability e^-mean mean^k / k!. *)
Theorem poisson_law mean k : 0 < mean ->
  exists region : list R -> Prop,
    (forall G (next : G -> Z * G) RM g fuel, generator next RM -> (k < fuel)%nat ->
       (fst (samplePoisson next RM rreal fuel mean g) = Ret k <-> region (draws (unit_number next RM g) (S k)))) /\
    has_volume (S k) region (exp (- mean) * mean ^ k / INR (fact k)).
Proof.
  intros Hm. exists (fun l => exp (- mean) < prod_list (take k l) /\ prod_list l <= exp (- mean)). split.
  - intros G next RM g fuel HG Hf. rewrite draws_take by lia. rewrite !prod_list_draws.
    destruct (poisson_sample next RM fuel mean g HG) as [_ H]. specialize (H Hm). cbv zeta in H.
    set (pr := prod_first (unit_number next RM g)) in *.
    assert (Hmono : forall n m, (n <= m)%nat -> pr m <= pr n).
    { assert (Hp : forall n, 0 <= pr n).
      { induction n as [|n IH]; unfold pr; simpl; [lra|]. apply Rmult_le_pos; [done|]. apply num_range; done. }
      intros n m Hnm. induction Hnm as [|m _ IH]; [lra|].
      pose proof (num_range next RM HG g m) as Hr. specialize (Hp m). unfold pr in *; simpl.
      assert (prod_first (unit_number next RM g) m * unit_number next RM g m <=
        prod_first (unit_number next RM g) m * 1) by (apply Rmult_le_compat_l; lra). lra. }
    destruct (samplePoisson next RM rreal fuel mean g) as [[j|e| |] g'].
    + destruct H as (-> & A & B). cbn [fst]. split.
      * intros [= ->]. done.
      * intros [A' B']. f_equal. destruct (Nat.lt_total j k) as [Hl|[Hl|Hl]]; [|done|].
        -- specialize (Hmono (S j) k ltac:(lia)). lra.
        -- specialize (Hmono (S k) j ltac:(lia)). lra.
    + done.
    + done.
    + cbn [fst]. split; [done|]. intros [_ B]. specialize (H k Hf). lra.
  - eapply has_volume_ext; [|apply (eq_ind _ (fun v => has_volume (S k) _ v) (poisson_volume (exp (- mean)) k 1 (exp_pos _) ltac:(lra)))].
    + intros l _ _. cbv beta. by rewrite !Rmult_1_l.
    + assert (exp (- mean) < 1) by (rewrite <- exp_0; apply exp_increasing; lra).
      unfold VP. destruct (Rle_dec 1 (exp (- mean))); [lra|].
      assert (E : 1 / exp (- mean) = exp mean).
      { rewrite exp_Ropp. unfold Rdiv. rewrite Rinv_inv. ring. }
      rewrite E, ln_exp. pose proof (INR_fact_neq_0 k). field. done.
Qed.

(** sampleExponential: a sample is at most [t] with the probability the density gives to [0, t].  A random number 0 is rejected. *)
Theorem exponential_law rate t : 0 < rate -> 0 <= t ->
  exists region : list R -> Prop,
    (forall G (next : G -> Z * G) RM g fuel, generator next RM -> (0 < fuel)%nat -> unit_number next RM g 0 <> 0 ->
       exists x, sampleExponential next RM rreal fuel rate g = (Ret x, advance next 1 g) /\
         (x <= t <-> region (draws (unit_number next RM g) 1))) /\
    has_volume 1 region (1 - exp (- (rate * t))) /\
    is_RInt (fun x => rate * exp (- (rate * x))) 0 t (1 - exp (- (rate * t))).
Proof.
  intros Hr Ht. exists (fun l => match l with u :: _ => exp (- (rate * t)) <= u | _ => False end). split; [|split].
  - intros G next RM g fuel HG Hf H0.
    destruct (exponential_sample next RM fuel rate g HG) as [_ H]. specialize (H Hr).
    destruct (sampleExponential next RM rreal fuel rate g) as [[x|e| |] g']; [|done|done|].
    + destruct H as (i & -> & Hi & Hu & Hx & HI). destruct i as [|i]; [|exfalso; apply H0, Hi; lia].
      exists x. split; [done|]. simpl. specialize (HI t). split; intros Hc.
      * destruct (Rle_or_lt (exp (- (rate * t))) (unit_number next RM g 0)) as [|Hlt]; [done|].
        apply HI in Hlt. lra.
      * destruct (Rle_or_lt x t) as [|Hlt]; [done|]. apply HI in Hlt. lra.
    + exfalso. apply H0, H. lia.
  - assert (0 < exp (- (rate * t))) by apply exp_pos.
    assert (exp (- (rate * t)) <= 1).
    { rewrite <- exp_0. destruct (Req_dec t 0) as [->|]; [right; f_equal; ring|]. left. apply exp_increasing. nra. }
    apply has_volume_interval; [lra|lra|]. intros u Hu H1 H2. split; intros; [lra|lra].
  - set (F := fun x => - exp (- (rate * x))).
    replace (1 - exp (- (rate * t))) with (F t - F 0).
    2:{ unfold F. rewrite Rmult_0_r, Ropp_0, exp_0. ring. }
    apply (is_RInt_derive F).
    + intros x _. unfold F. auto_derive; [done|]. ring.
    + intros x _. apply (ex_derive_continuous (fun x => rate * exp (- (rate * x)))). auto_derive. done.
Qed.

(** sampleGeometric returns k, the number of failures before the first success, with probability p (1-p)^k. *)
Theorem geometric_law p k : 0 < p <= 1 -> (Z.of_nat k < 2 ^ 64)%Z ->
  exists region : list R -> Prop,
    (forall G (next : G -> Z * G) RM g fuel, generator next RM -> (0 < fuel)%nat -> unit_number next RM g 0 <> 0 ->
       (fst (sampleGeometric next RM rreal fuel p g) = Ret k <-> region (draws (unit_number next RM g) 1))) /\
    has_volume 1 region (p * (1 - p) ^ k).
Proof.
  intros Hp Hk. exists (fun l => match l with u :: _ => (1 - p) ^ S k < u <= (1 - p) ^ k | _ => False end). split.
  - intros G next RM g fuel HG Hf H0.
    destruct (geometric_sample next RM fuel p g HG) as [_ H]. specialize (H Hp).
    pose proof (num_range next RM HG g 0) as Hn. rewrite draws_1. cbv iota beta.
    destruct (sampleGeometric next RM rreal fuel p g) as [[j|e| |] g']; [|done| |].
    + destruct H as (i & -> & Hi & Hu & H1 & HI). destruct i as [|i]; [|exfalso; apply H0, Hi; lia]. cbn [fst].
      destruct (Req_dec p 1) as [->|Hp1].
      * rewrite (H1 eq_refl). replace (1 - 1) with 0 by ring. rewrite (pow_i (S k)) by lia. destruct k as [|k].
        -- rewrite pow_O. split; [intros _; lra|done].
        -- rewrite pow_i by lia. split; [done|lra].
      * specialize (HI ltac:(lra)). split.
        -- intros [= ->]. split; [|by apply HI]. destruct (Rle_or_lt (unit_number next RM g 0) ((1 - p) ^ S k)) as [Hle|]; [|done].
           apply HI in Hle. lia.
        -- intros [Ha Hb]. f_equal. apply HI in Hb. destruct (Nat.eq_dec j k) as [|Hne]; [done|].
           assert (S k <= j)%nat as Hs by lia. apply HI in Hs. lra.
    + destruct H as (i & Hi & Hp1 & Hu & Hr). destruct i as [|i]; [|exfalso; apply H0, Hi; lia]. cbn [fst].
      split; [done|]. intros [Ha _]. exfalso.
      assert (Rpower (1 - p) (IZR (2 ^ 64)) <= (1 - p) ^ S k); [|lra].
      rewrite <- Rpower_pow by lra. unfold Rpower.
      assert (Hl : ln (1 - p) < 0) by (rewrite <- ln_1; apply ln_increasing; lra).
      assert (INR (S k) <= IZR (2 ^ 64)) by (rewrite INR_IZR_INZ; apply IZR_le; lia).
      assert (E : IZR (2 ^ 64) * ln (1 - p) <= INR (S k) * ln (1 - p)) by nra.
      destruct E as [E|E]; [left; by apply exp_increasing|right; by rewrite E].
    + exfalso. apply H0, H. lia.
  - assert (Hk0 : 0 <= (1 - p) ^ k) by (apply pow_le; lra).
    assert (Hk1 : (1 - p) ^ k <= 1) by (pose proof (pow_incr (1 - p) 1 k ltac:(lra)) as X; rewrite pow1 in X; exact X).
    replace (p * (1 - p) ^ k) with ((1 - p) ^ k - (1 - p) ^ S k) by (simpl; ring).
    apply has_volume_interval; [split; [apply pow_le; lra|simpl; nra]|lra|]. intros u Hu H1 H2. split; intros; lra.
Qed.

(** sampleCategorical, for probabilities that add up to exactly one, draws category k with probability p_k. *)
Theorem categorical_law p k pk : List.Forall (fun x => 0 <= x) p -> fold_right Rplus 0 p = 1 -> p !! k = Some pk ->
  exists region : list R -> Prop,
    (forall G (next : G -> Z * G) RM g, generator next RM -> unit_number next RM g 0 <> 0 ->
       (fst (sampleCategorical next RM rreal p g) = Ret k <-> region (draws (unit_number next RM g) 1))) /\
    has_volume 1 region pk.
Proof.
  intros Hp Hs Hk. assert (Hlen : (k < length p)%nat) by (by apply lookup_lt_Some in Hk).
  assert (Hsum0 : forall l, List.Forall (fun x => 0 <= x) l -> 0 <= fold_right Rplus 0 l).
  { intros l Hl. induction Hl as [|x l Hx _ IH]; simpl; lra. }
  assert (Hfirst0 : forall n, 0 <= sum_first p n) by (intros n; apply Hsum0; by apply Forall_take).
  assert (Hmono : forall n m, (n <= m)%nat -> sum_first p n <= sum_first p m).
  { intros n m Hnm. induction Hnm as [|m _ IH]; [lra|].
    destruct (p !! m) as [x|] eqn:Ex.
    - rewrite (sum_first_S _ _ _ Ex). assert (0 <= x) by (by eapply (Forall_lookup_1 (fun x => 0 <= x))). lra.
    - apply lookup_ge_None in Ex. unfold sum_first at 2. rewrite take_ge by lia. rewrite Hs.
      unfold sum_first in IH at 2. rewrite take_ge in IH by lia. lra. }
  assert (Htop : forall n, (length p <= n)%nat -> sum_first p n = 1).
  { intros n Hn. unfold sum_first. rewrite take_ge by lia. done. }
  assert (Hstep := sum_first_S p k pk Hk).
  exists (fun l => match l with u :: _ => sum_first p k < u <= sum_first p (S k) | _ => False end). split.
  - intros G next RM g HG H0. pose proof (num_range next RM HG g 0) as Hn. rewrite draws_1. cbv iota beta.
    destruct (categorical_sample next RM p g HG) as [_ H].
    destruct H as (j & -> & Hj & H1 & H2).
    { split; [|done]. rewrite Hs. replace (1 - 1) with 0 by ring. rewrite Rabs_R0. simpl. lra. }
    cbv zeta in *. set (u := unit_number next RM g 0) in *. cbn [fst].
    assert (Hlow : sum_first p j < u).
    { destruct j as [|j]; [unfold sum_first; simpl; lra|]. apply H1. lia. }
    assert (Hup : u <= sum_first p (S j)).
    { destruct (decide (j < length p - 1)%nat) as [Hl|Hl]; [by apply H2|]. rewrite Htop by lia. lra. }
    split; [intros [= ->]; done|]. intros [Ha Hb]. f_equal. destruct (Nat.lt_total j k) as [Hl|[Hl|Hl]]; [|done|].
    + specialize (Hmono (S j) k ltac:(lia)). lra.
    + specialize (Hmono (S k) j ltac:(lia)). lra.
  - replace pk with (sum_first p (S k) - sum_first p k) by lra.
    assert (sum_first p (S k) <= 1) by (rewrite <- (Htop (length p)) by lia; apply Hmono; lia).
    apply has_volume_interval; [split; [done|apply Hmono; lia]|done|]. intros u Hu Ha Hb. split; intros; lra.
Qed.

(** sampleUniform on reals: the probability of a sample below [t]. *)
Theorem uniform_law a b t : a < b -> a <= t <= b ->
  exists region : list R -> Prop,
    (forall G (next : G -> Z * G) RM g, generator next RM ->
       exists x, sampleUniform next RM rreal a b g = (Ret x, advance next 1 g) /\
         (x < t <-> region (draws (unit_number next RM g) 1))) /\
    has_volume 1 region ((t - a) / (b - a)) /\ is_RInt (fun _ => 1 / (b - a)) a t ((t - a) / (b - a)).
Proof.
  intros Hab Ht. exists (fun l => match l with u :: _ => u < (t - a) / (b - a) | _ => False end).
  assert (Hq : (t - a) / (b - a) * (b - a) = t - a) by (field; lra).
  split; [|split].
  - intros G next RM g HG. destruct (uniform_sample_real next RM a b g HG) as [_ H].
    destruct (H Hab) as (x & -> & Hx & E). exists x. split; [done|]. simpl. rewrite E. split; intros Hc; nra.
  - assert (0 <= (t - a) / (b - a) <= 1) by (split; nra).
    set (q := (t - a) / (b - a)) in *. set (P := fun _ => _).
    enough (Hv : has_volume 1 P (q - 0)) by (rewrite Rminus_0_r in Hv; exact Hv). unfold P.
    apply has_volume_interval; [lra|lra|]. intros u Hu H1 H2. split; intros; lra.
  - replace ((t - a) / (b - a)) with ((t - a) * (1 / (b - a))) by (field; lra). apply const_RInt.
Qed.

(** sampleUniform on integers does not: the two ends of the range have half the probability of the other values. *)
Theorem uniform_int_law_refuted w a b j : (- 2 ^ (w - 1) <= a < b)%Z -> (b < 2 ^ (w - 1))%Z -> (b - a < 2 ^ (w - 1))%Z ->
  (0 <= j <= b - a)%Z ->
  exists region : list R -> Prop,
    (forall G (next : G -> Z * G) RM g, generator next RM ->
       (sampleUniform next RM (rint w) a b g = (Ret (a + j)%Z, advance next 1 g) <->
        region (draws (unit_number next RM g) 1))) /\
    has_volume 1 region (if (j =? 0)%Z || (j =? b - a)%Z then 1 / (2 * IZR (b - a)) else 1 / IZR (b - a)).
Proof.
  intros Ha Hb Hw Hj.
  set (d := IZR (b - a)). assert (Hd : 0 < d) by (apply IZR_lt; lia).
  exists (fun l => match l with u :: _ => (2 * IZR j - 1) <= 2 * u * d < 2 * IZR j + 1 | _ => False end). split.
  - intros G next RM g HG. rewrite draws_1. cbv iota beta.
    destruct (uniform_sample_int next RM w a b g HG ltac:(lia) ltac:(lia)) as (_ & _ & H).
    destruct (H ltac:(lia) ltac:(lia)) as (k & -> & Hk & HI).
    assert (HRM : 0 < IZR RM) by (destruct HG as [HR _]; by apply IZR_lt).
    assert (Ez : 2 * unit_number next RM g 0 * d * IZR RM = IZR (2 * number next g 0 * (b - a))).
    { unfold unit_number, d. rewrite !mult_IZR. field. lra. }
    assert (E : (2 * IZR j - 1) <= 2 * unit_number next RM g 0 * d < 2 * IZR j + 1 <->
       ((2 * j - 1) * RM <= 2 * number next g 0 * (b - a) < (2 * j + 1) * RM)%Z).
    { set (q := 2 * unit_number next RM g 0 * d) in *.
      assert (E1 : IZR ((2 * j - 1) * RM) = (2 * IZR j - 1) * IZR RM) by (rewrite mult_IZR, minus_IZR, mult_IZR; ring).
      assert (E2 : IZR ((2 * j + 1) * RM) = (2 * IZR j + 1) * IZR RM) by (rewrite mult_IZR, plus_IZR, mult_IZR; ring).
      split; intros [H1 H2]; split.
      - apply le_IZR. rewrite E1, <- Ez. apply Rmult_le_compat_r; lra.
      - apply lt_IZR. rewrite E2, <- Ez. apply Rmult_lt_compat_r; lra.
      - apply Rmult_le_reg_r with (IZR RM); [done|]. rewrite Ez, <- E1. by apply IZR_le.
      - apply Rmult_lt_reg_r with (IZR RM); [done|]. rewrite Ez, <- E2. by apply IZR_lt. }
    rewrite E, <- HI. split; [intros [= Hz]; lia|by intros ->].
  - assert (Hj0 : 0 <= IZR j <= d) by (split; apply IZR_le; lia).
    destruct (Z.eqb_spec j 0) as [->|Hn0]; [|destruct (Z.eqb_spec j (b - a)) as [->|Hn1]]; cbn [orb].
    + replace (1 / (2 * d)) with (1 / (2 * d) - 0) by ring.
      assert (Hd1 : 1 <= d) by (apply IZR_le; lia).
      assert (Hq : 1 / (2 * d) * (2 * d) = 1) by (field; lra).
      apply has_volume_interval; [split; [lra|]|  |]; [nra|nra|].
      intros u Hu H1 H2. split; intros Hc; [split; [lra|nra]|nra].
    + fold d. assert (Hd1 : 1 <= d) by (apply IZR_le; lia).
      assert (Hq : 1 / (2 * d) * (2 * d) = 1) by (field; lra).
      replace (1 / (2 * d)) with (1 - (1 - 1 / (2 * d))) by ring.
      apply has_volume_interval; [split; nra|lra|].
      intros u Hu H1 H2. split; intros Hc.
      * split; [|lra]. destruct (Rlt_or_le (1 - 1 / (2 * d)) u) as [|Hle]; [done|]. exfalso. nra.
      * split; nra.
    + fold d. assert (Hj1 : 1 <= IZR j <= d - 1).
      { split; [apply IZR_le; lia|]. unfold d. rewrite <- minus_IZR. apply IZR_le. lia. }
      set (A := (2 * IZR j - 1) / (2 * d)). set (B := (2 * IZR j + 1) / (2 * d)).
      assert (HA : A * (2 * d) = 2 * IZR j - 1) by (unfold A; field; lra).
      assert (HB : B * (2 * d) = 2 * IZR j + 1) by (unfold B; field; lra).
      replace (1 / d) with (B - A) by (unfold A, B; field; lra).
      apply has_volume_interval; [split; nra|nra|].
      intros u Hu H1 H2. split; intros Hc; [|nra]. split.
      * destruct (Rlt_or_le A u) as [|Hle]; [done|]. exfalso. assert (u < A) by lra. nra.
      * destruct (Rlt_or_le u B) as [|Hle]; [done|]. exfalso. assert (B < u) by lra. nra.
Qed.

(** sampleGamma with an integral shape n: a sample is below [t] with the probability the gamma density gives to [0, t].
    Random numbers 0 are rejected. *)
Lemma prod_first_shift f n : prod_first f (S n) = f 0%nat * prod_first (fun i => f (S i)) n.
Proof. induction n as [|n IH]; [simpl; ring|]. cbn [prod_first] in *. rewrite IH. ring. Qed.
Lemma prod_first_ext f h n : (forall i, f i = h i) -> prod_first f n = prod_first h n.
Proof. intros E. induction n as [|n IH]; [done|]. simpl. by rewrite IH, E. Qed.
Lemma exp_sum_value {G} (next : G -> Z * G) RM fuel : generator next RM -> (0 < fuel)%nat -> forall m y g,
  (forall i, (i < m)%nat -> unit_number next RM g i <> 0) ->
  exp_sum next RM rreal fuel m y g = Some (y - ln (prod_first (unit_number next RM g) m), advance next m g) /\
  0 < prod_first (unit_number next RM g) m.
Proof.
  intros HG Hf. induction m as [|m IH]; intros y g H0.
  { simpl. rewrite ln_1, Rminus_0_r. split; [done|lra]. }
  assert (Hu : 0 < unit_number next RM g 0).
  { pose proof (num_range next RM HG g 0). specialize (H0 0%nat ltac:(lia)). lra. }
  assert (E1 : sampleExponential next RM rreal fuel 1 g = (Ret (- ln (unit_number next RM g 0) / 1), advance next 1 g)).
  { unfold sampleExponential. destruct (Rle_dec 1 0); [lra|]. destruct fuel as [|fuel]; [lia|]. cbn [nonzero_loop].
    rewrite unit_real. destruct (Req_EM_T (unit_number next RM g 0) 0); [lra|]. done. }
  cbn [exp_sum]. rewrite E1. rewrite prod_first_shift.
  assert (Esh : prod_first (fun i => unit_number next RM g (S i)) m = prod_first (unit_number next RM (advance next 1 g)) m).
  { apply prod_first_ext. intros i. by rewrite num_shift. }
  destruct (IH (y + - ln (unit_number next RM g 0) / 1) (advance next 1 g)) as [-> Hp].
  { intros i Hi. rewrite num_shift. apply H0. lia. }
  rewrite Esh. split; [|apply Rmult_lt_0_compat; done].
  rewrite ln_mult by done. f_equal. f_equal. field.
Qed.
Lemma erlang_density_integral n rate t : 0 < rate -> 0 < t ->
  is_RInt (fun x => rate * (exp (- (rate * x)) * (rate * x) ^ n / INR (fact n))) 0 t
    (1 - fold_right Rplus 0 (map (fun k => exp (- (rate * t)) * (rate * t) ^ k / INR (fact k)) (seq 0 (S n)))).
Proof.
  intros Hr Ht.
  set (S_ := fun m x => fold_right Rplus 0 (map (fun k => exp (- (rate * x)) * (rate * x) ^ k / INR (fact k)) (seq 0 m))).
  assert (Hs : forall m x, S_ (S m) x = S_ m x + exp (- (rate * x)) * (rate * x) ^ m / INR (fact m)).
  { intros m x. unfold S_. rewrite seq_S, map_app, foldr_app. simpl.
    generalize (map (fun k => exp (- (rate * x)) * (rate * x) ^ k / INR (fact k)) (seq 0 m)).
    induction l as [|a l IH]; simpl; [ring|]. rewrite IH. ring. }
  assert (H0 : forall m, S_ (S m) 0 = 1).
  { induction m as [|m IH]; rewrite Hs.
    - unfold S_. simpl. rewrite Rmult_0_r, Ropp_0, exp_0. field.
    - rewrite IH, Rmult_0_r, pow_i by lia. unfold Rdiv. ring. }
  assert (Hd : forall m x, is_derive (S_ (S m)) x (- (rate * (exp (- (rate * x)) * (rate * x) ^ m / INR (fact m))))).
  { induction m as [|m IH]; intros x.
    - apply (is_derive_ext (fun x => exp (- (rate * x)))).
      + intros z. rewrite Hs. unfold S_. simpl. field.
      + auto_derive; [done|]. simpl. field.
    - apply (is_derive_ext (fun x => S_ (S m) x + exp (- (rate * x)) * (rate * x) ^ S m / INR (fact (S m)))).
      + intros z. by rewrite (Hs (S m)).
      + pose proof (INR_fact_neq_0 m). assert (INR (S m) <> 0) by (apply not_0_INR; lia).
        assert (Ed : INR (fact (S m)) = INR (S m) * INR (fact m)) by (rewrite fact_simpl, mult_INR; done).
        set (T := fun x => exp (- (rate * x)) * (rate * x) ^ S m / INR (fact (S m))).
        assert (HT : is_derive T x (rate * (exp (- (rate * x)) * (rate * x) ^ m / INR (fact m)) -
          rate * (exp (- (rate * x)) * (rate * x) ^ S m / INR (fact (S m))))).
        { unfold T. rewrite Ed. set (e := INR (fact m)) in *. clearbody e. set (q := INR (S m)) in *.
          clear IH H0 Hs T Ed. assert (Em : Nat.pred (S m) = m) by done. 
          assert (Hpow : (rate * x) ^ S m = (rate * x) * (rate * x) ^ m) by done.
          revert Em Hpow. subst q. set (k := S m) in *. clearbody k. intros Em Hpow.
          auto_derive; [done|]. rewrite Em, Hpow. field. done. }
        replace (- (rate * (exp (- (rate * x)) * (rate * x) ^ S m / INR (fact (S m))))) with
          (plus (- (rate * (exp (- (rate * x)) * (rate * x) ^ m / INR (fact m))))
            (rate * (exp (- (rate * x)) * (rate * x) ^ m / INR (fact m)) -
             rate * (exp (- (rate * x)) * (rate * x) ^ S m / INR (fact (S m))))).
        2:{ unfold plus. cbn [AbelianGroup.plus]. cbn -[INR fact pow exp]. ring. }
        apply (@is_derive_plus R_AbsRing R_NormedModule (S_ (S m)) T); [apply IH|exact HT]. }
  fold (S_ (S n) t).
  replace (1 - S_ (S n) t) with ((fun x => - S_ (S n) x) t - (fun x => - S_ (S n) x) 0) by (rewrite H0; ring).
  apply (is_RInt_derive (fun x => - S_ (S n) x)).
  - intros x _. set (w := rate * _). replace w with (opp (- w)) by (unfold opp; simpl; ring).
    apply (@is_derive_opp R_AbsRing R_NormedModule). apply Hd.
  - intros x _. apply (ex_derive_continuous (fun x => rate * (exp (- (rate * x)) * (rate * x) ^ n / INR (fact n)))).
    auto_derive. done.
Qed.

Theorem gamma_integer_law n rate t : (0 < n)%nat -> INR n < IZR (2 ^ 64) -> 0 < rate -> 0 < t ->
  exists region : list R -> Prop,
    (forall G (next : G -> Z * G) RM g fuel, generator next RM -> (0 < fuel)%nat ->
       (forall i, (i < n)%nat -> unit_number next RM g i <> 0) ->
       exists x, sampleGamma next RM rreal fuel (INR n) rate g = (Ret (Some x), advance next n g) /\
         (x < t <-> region (draws (unit_number next RM g) n))) /\
    exists v, has_volume n region v /\ is_RInt (gamma_density (INR (fact (n - 1))) (INR n) rate) 0 t v.
Proof.
  intros Hn Hn64 Hr Ht. exists (fun l => exp (- (rate * t)) < prod_list l). split.
  - intros G next RM g fuel HG Hf H0. rewrite prod_list_draws.
    destruct (exp_sum_value next RM fuel HG Hf n 0 g H0) as [Es Hp].
    set (pr := prod_first (unit_number next RM g) n) in *.
    exists ((0 - ln pr) / rate). split.
    + unfold sampleGamma. assert (Hn0 : 0 < INR n) by (by apply lt_0_INR).
      destruct (Rle_dec (INR n) 0); [lra|]. destruct (Rle_dec rate 0); [lra|].
      assert (Ef : Zfloor (INR n) = Z.of_nat n) by (rewrite INR_IZR_INZ; apply Zfloor_IZR).
      rewrite Ef, <- INR_IZR_INZ. unfold to_size_t. destruct (Rlt_dec (INR n) 0); [lra|].
      destruct (Rle_dec (IZR (2 ^ 64)) (INR n)); [lra|]. rewrite Ef, Nat2Z.id, Es.
      rewrite Rminus_diag_eq by done. rewrite Rabs_R0.
      assert (0 < / 2 ^ 52) by (apply Rinv_0_lt_compat, pow_lt; lra).
      destruct (Rlt_dec (/ 2 ^ 52) 0); [lra|]. done.
    + assert (E : (0 - ln pr) / rate * rate = - ln pr) by (field; lra). split; intros Hc.
      * rewrite <- (exp_ln pr) by done. apply exp_increasing. nra.
      * apply ln_increasing in Hc; [|apply exp_pos]. rewrite ln_exp in Hc. nra.
  - exists (VE (exp (- (rate * t))) n 1). split.
    + eapply has_volume_ext; [|apply erlang_volume; [apply exp_pos|lra]]. intros l _ _. cbv beta. by rewrite Rmult_1_l.
    + destruct n as [|n]; [lia|]. simpl (S n - 1)%nat. rewrite Nat.sub_0_r.
      assert (Hlt : exp (- (rate * t)) < 1) by (rewrite <- exp_0; apply exp_increasing; nra).
      assert (EV : VE (exp (- (rate * t))) (S n) 1 =
        1 - fold_right Rplus 0 (map (fun k => exp (- (rate * t)) * (rate * t) ^ k / INR (fact k)) (seq 0 (S n)))).
      { unfold VE. destruct (Rle_dec 1 (exp (- (rate * t)))); [lra|]. f_equal. unfold sumV. f_equal. apply map_ext. intros k.
        unfold VP. destruct (Rle_dec 1 (exp (- (rate * t)))); [lra|].
        assert (E : 1 / exp (- (rate * t)) = exp (rate * t)).
        { rewrite exp_Ropp. unfold Rdiv. rewrite Rinv_inv. ring. }
        rewrite E, ln_exp. pose proof (INR_fact_neq_0 k). field. done. }
      rewrite EV. eapply is_RInt_ext; [|apply erlang_density_integral; done].
      intros x Hx. rewrite Rmin_left, Rmax_right in Hx by lra. cbv beta. unfold gamma_density.
      rewrite S_INR. replace (INR n + 1 - 1) with (INR n) by ring. rewrite <- S_INR.
      rewrite !Rpower_pow by lra. rewrite Rpow_mult_distr. simpl pow. pose proof (INR_fact_neq_0 n). match goal with |- ?a = ?b => change (@eq R a b) end. field. done.
Qed.

(** Non-vacuity: a generator, a run of the sampler, and the volume of the region it falls in. *)
Example sampler_law_ex :
  let next := fun g : nat => ((if Nat.even g then 1 else 0)%Z, S g) in
  generator next 1 /\
  fst (samplePoisson next 1 rreal 3 1 0%nat) = Ret 1%nat /\
  exists region, region (draws (unit_number next 1 0%nat) 2) /\ has_volume 2 region (exp (Ropp 1)).
Proof.
  intros next. assert (HG : generator next 1).
  { split; [lia|]. intros g. unfold next. cbn [fst]. destruct (Nat.even g); lia. }
  split; [done|].
  assert (E : fst (samplePoisson next 1 rreal 3 1 0%nat) = Ret 1%nat).
  { unfold samplePoisson. destruct (Rle_dec 1 0); [lra|]. cbn [poisson_loop]. rewrite !(unit_real next 1).
    assert (H1 : exp (- (1)) < exp 0) by (apply exp_increasing; lra). rewrite exp_0 in H1.
    assert (U0 : unit_number next 1 0%nat 0 = 1) by (unfold unit_number, number; simpl; lra).
    assert (U1 : unit_number next 1 (advance next 1 0%nat) 0 = 0) by (unfold unit_number, number; simpl; lra).
    rewrite U0. destruct (Rlt_dec (exp (- (1))) (1 * 1)) as [_|Hn]; [|lra].
    rewrite ?(unit_real next 1), ?U1. destruct (Rlt_dec (exp (- (1))) (1 * 1 * 0)) as [Hn|_]; [|done].
    pose proof (exp_pos (- (1))). lra. }
  split; [done|].
  destruct (poisson_law 1 1 ltac:(lra)) as (region & H1 & H2). exists region. split.
  - by apply (H1 nat next 1%Z 0%nat 3%nat HG ltac:(lia)).
  - replace (exp (Ropp 1)) with (exp (Ropp 1) * 1 ^ 1 / INR (fact 1)) by (simpl; field). exact H2.
Qed.
