(** C121: [Randomizer<T>] of an integral type [T], and samplePoisson in IEEE doubles.  All samplers but sampleUniform draw with
    [sampleUniform()], whose default support is [T(0), T(1)] (Randomizer.h), so that for an integral type every draw is 0 or 1. *)
From stdpp Require Import prelude list.
From Coq Require Import Reals ZArith Lra.
From Flocq Require Import Core BinarySingleNaN.
From Verif Require Import Base GridModel UniformModel RandomizerModel Spec_Randomizer RandomizerProofs Properties_Randomizer RandomizerTypesModel.
Local Open Scope R_scope.

(** The [n]-th draw from now: the number is in the lower respectively upper half of the generator's range. *)
Definition draws_one {G} (next : G -> Z * G) (RM : Z) (g : G) (n : nat) : Prop := (RM <= 2 * number next g n)%Z.

Section integral.
  Context {G : Type} (next : G -> Z * G) (RM : Z) (HG : generator next RM) (w : Z) (Hw : (2 <= w)%Z).
  Local Notation one g n := (draws_one next RM g n).
  Local Lemma one_shift g n : one (advance next 1 g) n <-> one g (S n).
  Proof. done. Qed.
  Local Lemma unit01 g : exists z, unit next RM (rint w) g = (IZR z, advance next 1 g) /\ (z = 0%Z /\ ~ one g 0 \/ z = 1%Z /\ one g 0).
  Proof.
    destruct (unit_int next RM HG w g Hw) as (z & Hz & -> & Hn). exists z. split; [done|]. unfold draws_one.
    destruct Hz as [-> | ->]; [left; split; [done|]; apply proj1 in Hn; specialize (Hn eq_refl); lia|right; split; [done|]].
    destruct (decide (RM <= 2 * number next g 0)%Z); [done|]. assert (1 = 0)%Z by (apply Hn; lia). lia.
  Qed.

  (** samplePoisson counts the ones before the first zero, whatever the mean. *)
  Local Lemma poisson01 fuel l k g : 0 < l < 1 ->
    match poisson_loop next RM (rint w) fuel l 1 k g with
    | Some (k', g') => exists j, k' = (k + S j)%nat /\ g' = advance next (S j) g /\ ~ one g j /\ forall i, (i < j)%nat -> one g i
    | None => forall i, (i < fuel)%nat -> one g i
    end.
  Proof.
    intros Hl. revert k g. induction fuel as [|fuel IH]; intros k g; [simpl; lia|]. cbn [poisson_loop].
    destruct (unit01 g) as (z & -> & Hz). cbn zeta.
    destruct Hz as [[-> Hn]|[-> Hn]].
    - destruct (Rlt_dec l (1 * 0)); [lra|]. exists 0%nat. split; [lia|]. split; [done|]. split; [done|lia].
    - destruct (Rlt_dec l (1 * 1)) as [_|]; [|lra]. rewrite Rmult_1_r. specialize (IH (S k) (advance next 1 g)).
      destruct (poisson_loop _ _ _ _ _ _ _ _) as [[k' g']|].
      + destruct IH as (j & -> & -> & Hj & Hi). exists (S j). split; [lia|]. split; [by rewrite <- advance_add|].
        split; [done|]. intros [|i] Hi'; [done|]. apply (Hi i). lia.
      + intros [|i] Hi; [done|]. apply (IH i). lia.
  Qed.
  Theorem poisson_integral fuel mean g : 0 < mean ->
    match samplePoisson next RM (rint w) fuel mean g with
    | (Ret k, g') => g' = advance next (S k) g /\ (forall i, (i < k)%nat -> one g i) /\ ~ one g k
    | (Diverge, _) => forall i, (i < fuel)%nat -> one g i
    | _ => False
    end.
  Proof.
    intros Hm. unfold samplePoisson. destruct (Rle_dec mean 0); [lra|].
    assert (0 < exp (- mean) < 1).
    { split; [apply exp_pos|]. rewrite <- exp_0. apply exp_increasing. lra. }
    pose proof (poisson01 fuel (exp (- mean)) 0 g ltac:(done)) as H'.
    destruct (poisson_loop _ _ _ _ _ _ _ _) as [[k g']|]; [|done].
    destruct H' as (j & -> & -> & Hj & Hi). replace (0 + S j - 1)%nat with j by lia. done.
  Qed.
  Theorem poisson_integral_mean_refuted fuel mean mean' g : 0 < mean -> 0 < mean' ->
    samplePoisson next RM (rint w) fuel mean g = samplePoisson next RM (rint w) fuel mean' g.
  Proof.
    intros Hm Hm'. pose proof (poisson_integral fuel mean g Hm) as H. pose proof (poisson_integral fuel mean' g Hm') as H'.
    assert (Hd : forall m (x : G), snd (samplePoisson next RM (rint w) fuel m g) = x -> fst (samplePoisson next RM (rint w) fuel m g) = Diverge -> x = g).
    { intros m x. unfold samplePoisson. destruct (Rle_dec m 0); [done|]. destruct (poisson_loop _ _ _ _ _ _ _ _) as [[? ?]|]; done. }
    assert (Hk : forall m k g1, 0 < m -> samplePoisson next RM (rint w) fuel m g = (Ret k, g1) -> (k < fuel)%nat).
    { intros m k g1 Hm1. unfold samplePoisson. destruct (Rle_dec m 0); [done|].
      assert (Hl : forall f l p k0 g0 k1 g2, poisson_loop next RM (rint w) f l p k0 g0 = Some (k1, g2) -> (k1 <= k0 + f)%nat /\ (0 < f)%nat).
      { clear. induction f as [|f IH]; intros l p k0 g0 k1 g2; [done|]. cbn [poisson_loop]. destruct (unit next RM (rint w) g0) as [u g'].
        destruct (Rlt_dec l (p * u)); [intros E; apply IH in E; lia|intros [= <- <-]; lia]. }
      destruct (poisson_loop _ _ _ _ _ _ _ _) as [[k1 g2]|] eqn:E; [|done]. apply Hl in E. intros [= <- <-]. lia. }
    pose proof (Hk mean) as Hk1. pose proof (Hk mean') as Hk2. pose proof (Hd mean) as Hd1. pose proof (Hd mean') as Hd2. clear Hk Hd.
    destruct (samplePoisson next RM (rint w) fuel mean g) as [[k| | |] g1]; try done;
      destruct (samplePoisson next RM (rint w) fuel mean' g) as [[k'| | |] g1']; try done.
    - destruct H as (-> & H1 & H2), H' as (-> & H3 & H4). assert (k = k') as ->; [|done].
      destruct (Nat.lt_trichotomy k k') as [Hlt|[?|Hlt]]; [by apply H3 in Hlt|done|by apply H1 in Hlt].
    - destruct H as (_ & _ & H2). exfalso. apply H2, H'. by apply (Hk1 k g1).
    - destruct H' as (_ & _ & H2). exfalso. apply H2, H. by apply (Hk2 k' g1').
    - cbn in *. by rewrite (Hd1 g1 eq_refl eq_refl), (Hd2 g1' eq_refl eq_refl).
  Qed.

  (** sampleExponential and sampleGeometric wait for a one and return 0, sampleGamma returns 0 or infinity. *)
  Local Lemma nonzero01 fuel g :
    match nonzero_loop next RM (rint w) fuel g with
    | Some (u, g') => u = 1 /\ exists j, g' = advance next (S j) g /\ one g j /\ forall i, (i < j)%nat -> ~ one g i
    | None => forall i, (i < fuel)%nat -> ~ one g i
    end.
  Proof.
    revert g. induction fuel as [|fuel IH]; intros g; [simpl; lia|]. cbn [nonzero_loop].
    destruct (unit01 g) as (z & -> & Hz). cbn zeta. destruct Hz as [[-> Hn]|[-> Hn]].
    - destruct (Req_EM_T 0 0); [|done]. specialize (IH (advance next 1 g)). destruct (nonzero_loop _ _ _ _ _) as [[u g']|].
      + destruct IH as (-> & j & -> & Hj & Hi). split; [done|]. exists (S j). split; [by rewrite <- advance_add|]. split; [done|].
        intros [|i] Hi'; [done|]. apply (Hi i). lia.
      + intros [|i] Hi; [done|]. apply (IH i). lia.
    - destruct (Req_EM_T 1 0); [lra|]. split; [done|]. exists 0%nat. split; [done|]. split; [done|lia].
  Qed.
  Theorem exponential_integral_refuted fuel rate g : 0 < rate ->
    match sampleExponential next RM (rint w) fuel rate g with
    | (Ret x, _) => x = 0
    | (Diverge, _) => forall i, (i < fuel)%nat -> ~ one g i
    | _ => False
    end.
  Proof.
    intros Hr. unfold sampleExponential. destruct (Rle_dec rate 0); [lra|]. pose proof (nonzero01 fuel g) as H.
    destruct (nonzero_loop _ _ _ _ _) as [[u g']|]; [|done]. destruct H as [-> _]. rewrite ln_1. unfold Rdiv. lra.
  Qed.
  Theorem geometric_integral_refuted fuel p g : 0 < p <= 1 ->
    match sampleGeometric next RM (rint w) fuel p g with
    | (Ret k, _) => k = 0%nat
    | (Diverge, _) => forall i, (i < fuel)%nat -> ~ one g i
    | _ => False
    end.
  Proof.
    intros Hp. unfold sampleGeometric. destruct (Rle_dec p 0); [lra|]. destruct (Rlt_dec 1 p); [lra|]. cbn [orb].
    pose proof (nonzero01 fuel g) as H. destruct (nonzero_loop _ _ _ _ _) as [[u g']|]; [|done]. destruct H as [-> _].
    destruct (Req_EM_T p 1); [done|]. rewrite ln_1. unfold Rdiv. rewrite Rmult_0_l, (Zfloor_IZR 0). unfold to_size_t.
    destruct (Rlt_dec 0 0); [lra|]. destruct (Rle_dec (IZR (2 ^ 64)) 0) as [H|_]; [apply (le_IZR (2 ^ 64) 0) in H; lia|].
    cbn [of_opt]. by rewrite (Zfloor_IZR 0).
  Qed.
  Local Lemma exp_sum01 fuel n g : match exp_sum next RM (rint w) fuel n 0 g with Some (y, _) => y = 0 | None => True end.
  Proof.
    revert g. induction n as [|n IH]; intros g; [done|]. cbn [exp_sum]. pose proof (exponential_integral_refuted fuel 1 g ltac:(lra)) as H.
    destruct (sampleExponential next RM (rint w) fuel 1 g) as [[x| | |] g']; [subst x|done..]. rewrite Rplus_0_r. apply IH.
  Qed.
  Local Lemma gamma_loop01 fuel frac g : 0 < frac < 1 ->
    match gamma_loop next RM (rint w) fuel frac ((exp 1 + frac) / exp 1) g with
    | Some (z, g') => z = None \/ z = Some 0
    | None => True
    end.
  Proof.
    intros Hf. assert (He : 0 < exp 1) by apply exp_pos.
    assert (Hb : 1 < (exp 1 + frac) / exp 1).
    { apply (Rmult_lt_reg_r (exp 1)); [done|]. unfold Rdiv. rewrite Rmult_assoc, Rinv_l by lra. lra. }
    revert g. induction fuel as [|fuel IH]; intros g; [done|]. cbn [gamma_loop].
    destruct (unit01 g) as (z & -> & Hz). cbn zeta. destruct (unit01 (advance next 1 g)) as (z' & -> & Hz').
    destruct Hz as [[-> Hn]|[-> Hn]].
    - rewrite Rmult_0_r. destruct (Rlt_dec 1 0); [lra|]. cbn zeta. unfold rpow0. destruct (Req_EM_T 0 0); [|done].
      rewrite Ropp_0, exp_0. destruct (Rlt_dec 1 (IZR z')) as [H|_]; [|by right].
      destruct Hz' as [[-> _]|[-> _]]; lra.
    - rewrite Rmult_1_r. destruct (Rlt_dec 1 _); [|lra]. cbn zeta. destruct (Req_EM_T _ 0) as [_|H]; [|lra].
      destruct Hz' as [[-> _]|[-> _]].
      + destruct (Rlt_dec 0 0); [lra|]. by left.
      + destruct (Rlt_dec 0 1); [|lra]. apply IH.
  Qed.
  Theorem gamma_integral_refuted fuel shape inv g : 0 < shape -> 0 < inv ->
    match sampleGamma next RM (rint w) fuel shape inv g with
    | (Ret r, _) => r = None \/ r = Some 0
    | (UB, _) => IZR (2 ^ 64) <= shape
    | (Diverge, _) => True
    | (Throw _, _) => False
    end.
  Proof.
    intros Hs Hi. unfold sampleGamma. destruct (Rle_dec shape 0); [lra|]. destruct (Rle_dec inv 0); [lra|].
    pose proof (Zfloor_lb shape) as Hlb. pose proof (Zfloor_ub shape) as Hub.
    assert (Hz : (0 <= Zfloor shape)%Z) by (apply Zfloor_lub; lra).
    unfold to_size_t. destruct (Rlt_dec (IZR (Zfloor shape)) 0) as [H|_]; [apply (lt_IZR _ 0) in H; lia|].
    destruct (Rle_dec (IZR (2 ^ 64)) (IZR (Zfloor shape))); [lra|]. rewrite Zfloor_IZR.
    pose proof (exp_sum01 fuel (Z.to_nat (Zfloor shape)) g) as He.
    destruct (exp_sum _ _ _ _ _ _ _) as [[y g1]|]; [subst y|done].
    assert (Hn : INR (Z.to_nat (Zfloor shape)) = IZR (Zfloor shape)) by (rewrite INR_IZR_INZ, Z2Nat.id by done; done).
    rewrite Hn. destruct (Rlt_dec _ _) as [Hf|Hf].
    - assert (0 < / 2 ^ 52) by (apply Rinv_0_lt_compat, pow_lt; lra).
      rewrite Rabs_right in Hf by lra.
      pose proof (gamma_loop01 fuel (shape - IZR (Zfloor shape)) g1 ltac:(lra)) as Hl.
      destruct (gamma_loop _ _ _ _ _ _ _) as [[[z|] g2]|]; [|by left|done].
      destruct Hl as [Hl|Hl]; [done|]. injection Hl as ->. right. f_equal. unfold Rdiv. lra.
    - right. f_equal. unfold Rdiv. lra.
  Qed.

  (** sampleCategorical returns the first category for a zero, and for a one the first that brings the sum to 1 (the last one otherwise):
      an inner category with positive probabilities before and after it that keep the sum below 1 is never returned. *)
  Theorem categorical_integral_refuted p g k g' : valid_probabilities p -> sampleCategorical next RM (rint w) p g = (Ret k, g') ->
    (~ one g 0 -> k = 0%nat) /\
    (one g 0 -> (k < length p)%nat /\ (forall j, (j < k)%nat -> sum_first p (S j) < 1) /\ ((k < length p - 1)%nat -> 1 <= sum_first p (S k))).
  Proof.
    intros Hv H.
    assert (Hu : exists z, unit next RM (rint w) g = (IZR z, advance next 1 g) /\ (z = 0%Z /\ ~ one g 0 \/ z = 1%Z /\ one g 0)) by apply unit01.
    destruct Hu as (z & Hu & Hz). revert H. unfold sampleCategorical.
    destruct (_ || _); [done|]. destruct p as [|p0 ps]; [done|]. rewrite Hu. intros [= <- <-].
    assert (Hp0 : Forall (fun x => 0 <= x) (p0 :: ps)) by apply Hv. apply Forall_cons in Hp0 as [Hp0 _].
    split.
    - intros Hn. destruct Hz as [[-> _]|[-> Ho]]; [|done]. destruct ps; cbn [cat_loop]; [done|]. destruct (Rlt_dec p0 0); [lra|done].
    - intros Ho. destruct Hz as [[-> Hn]|[-> _]]; [done|].
      assert (Gen : forall l pre acc, acc = sum_first (pre ++ l) (length pre) -> (0 < length pre)%nat ->
        (forall j, (S j < length pre)%nat -> sum_first (pre ++ l) (S j) < 1) ->
        let k := cat_loop 1 acc (length pre) l in
        (k < length (pre ++ l))%nat /\ (forall j, (j < k)%nat -> sum_first (pre ++ l) (S j) < 1) /\
        ((k < length (pre ++ l) - 1)%nat -> 1 <= sum_first (pre ++ l) (S k))).
      { induction l as [|x l IH]; intros pre acc Hacc Hlen Hj; cbn [cat_loop].
        - rewrite app_nil_r in *. split; [lia|]. split; [intros j Hj'; apply Hj; lia|lia].
        - destruct (Rlt_dec acc 1) as [Ha|Ha].
          + specialize (IH (pre ++ [x]) (acc + x)). rewrite <- app_assoc in IH. cbn [app] in IH.
            rewrite app_length in IH. cbn [length] in IH. rewrite Nat.add_1_r in IH. apply IH; [|lia|].
            * rewrite Hacc. unfold sum_first. 
              assert (firstn (S (length pre)) (pre ++ x :: l) = pre ++ [x]) as ->.
              { replace (S (length pre)) with (length (pre ++ [x])) by (rewrite app_length; simpl; lia).
                replace (pre ++ x :: l) with ((pre ++ [x]) ++ l) by by rewrite <- app_assoc. by rewrite firstn_app, firstn_all, Nat.sub_diag, app_nil_r. }
              rewrite firstn_app, firstn_all, Nat.sub_diag. cbn [firstn]. rewrite app_nil_r.
              clear. induction pre as [|y pre IH]; cbn; [lra|]. rewrite <- IH. lra.
            * intros j Hj'. destruct (decide (S j = length pre)) as [E|]; [|apply Hj; lia]. rewrite E, <- Hacc. lra.
          + rewrite app_length. cbn [length]. split; [lia|]. split; [intros j Hj'; apply Hj; lia|].
            intros _. replace (S (length pre - 1)) with (length pre) by lia. rewrite <- Hacc. lra. }
      apply (Gen ps [p0] p0); [unfold sum_first; cbn; rewrite take_0; cbn; lra|cbn; lia|cbn; lia].
  Qed.
End integral.

(** ** IEEE doubles *)
(** For two means whose exponential underflows (any mean from about 746 on) the sampler returns the same value: the mean is lost. *)
Theorem poisson_double_large_mean_refuted {G} (next : G -> Z * G) RM dexp fuel m m' g :
  Bleb m (B754_zero false) = false -> Bleb m' (B754_zero false) = false ->
  dexp (Bopp m) = B754_zero false -> dexp (Bopp m') = B754_zero false ->
  samplePoissonD next RM dexp fuel m g = samplePoissonD next RM dexp fuel m' g.
Proof. intros H1 H2 H3 H4. unfold samplePoissonD. by rewrite H1, H2, H3, H4. Qed.
(** The value returned is one less than the number of draws, and it is the first position at which the running product, as rounded, does
    not exceed the library's exponential. *)
Theorem poisson_double {G} (next : G -> Z * G) RM dexp fuel mean g : 
  (Bleb mean (B754_zero false) = true -> samplePoissonD next RM dexp fuel mean g = (Throw BadArgument, g)) /\
  (Bleb mean (B754_zero false) = false ->
   let above k := Bltb (dexp (Bopp mean)) (products next RM g k) in
   match samplePoissonD next RM dexp fuel mean g with
   | (Ret k, g') => g' = advance next (S k) g /\ (forall j, (j < k)%nat -> above (S j) = true) /\ above (S k) = false
   | (Diverge, _) => forall j, (j < fuel)%nat -> above (S j) = true
   | _ => False
   end).
Proof.
  unfold samplePoissonD. split; [by intros ->|]. intros ->. cbn zeta.
  assert (Gen : forall f k0 g0, g0 = advance next k0 g ->
    match poissonD_loop next RM f (dexp (Bopp mean)) (products next RM g k0) k0 g0 with
    | Some (k, g') => exists j, k = S j /\ (k0 <= j)%nat /\ g' = advance next k g /\
        (forall i, (k0 <= i < j)%nat -> Bltb (dexp (Bopp mean)) (products next RM g (S i)) = true) /\
        Bltb (dexp (Bopp mean)) (products next RM g (S j)) = false
    | None => forall i, (k0 <= i < k0 + f)%nat -> Bltb (dexp (Bopp mean)) (products next RM g (S i)) = true
    end).
  { induction f as [|f IH]; intros k0 g0 Hg; [intros i; lia|]. cbn [poissonD_loop]. unfold sampleUniformD.
    change (Bleb (double_of_Z 1 0) (double_of_Z 0 0)) with false. cbn iota.
    destruct (next g0) as [r g1] eqn:E. cbn iota beta zeta.
    assert (Hp : d_mul (products next RM g k0) (unit_double RM r) = products next RM g (S k0)).
    { cbn [products]. unfold number. rewrite <- Hg, E. done. }
    unfold unit_double in Hp. rewrite Hp.
    assert (Hg1 : g1 = advance next (S k0) g).
    { replace (S k0) with (k0 + 1)%nat by lia. rewrite (advance_add next k0 1), <- Hg. cbn. by rewrite E. }
    destruct (Bltb _ (products next RM g (S k0))) eqn:Hb.
    - specialize (IH (S k0) g1 Hg1). destruct (poissonD_loop _ _ _ _ _ _ _) as [[k g']|].
      + destruct IH as (j & -> & Hj & -> & Hi & Hlast). exists j. split; [done|]. split; [lia|]. split; [done|]. split; [|done].
        intros i Hi'. destruct (decide (i = k0)) as [-> |]; [done|]. apply Hi. lia.
      + intros i Hi'. destruct (decide (i = k0)) as [-> |]; [done|]. apply IH. lia.
    - exists k0. split; [done|]. split; [lia|]. split; [done|]. split; [lia|done]. }
  specialize (Gen fuel 0%nat g eq_refl). cbn [products] in Gen.
  destruct (poissonD_loop _ _ _ _ _ _ _) as [[k g']|].
  - destruct Gen as (j & -> & _ & -> & Hi & Hlast). replace (S j - 1)%nat with j by lia. split; [done|]. split; [|done]. intros i Hi'. apply Hi. lia.
  - intros j Hj. apply Gen. lia.
Qed.

(** Cases: a generator that counts, with the largest number 1. *)
Local Definition flip (g : Z) : Z * Z := (g mod 2, g + 1)%Z.
Example integral_cases : generator flip 1 /\ draws_one flip 1 1%Z 0 /\ ~ draws_one flip 1 1%Z 1 /\ valid_probabilities [1 / 4; 1 / 4; 1 / 2].
Proof.
  split; [split; [lia|]; intros g; cbn; pose proof (Z.mod_pos_bound g 2 ltac:(lia)); lia|].
  split; [unfold draws_one; vm_compute; discriminate|]. split; [unfold draws_one; vm_compute; intros H; by apply H|].
  split; [cbn; rewrite Rabs_right; lra|repeat apply List.Forall_cons; try apply List.Forall_nil; lra].
Qed.
Print Assumptions poisson_integral.
Print Assumptions poisson_integral_mean_refuted.
Print Assumptions exponential_integral_refuted.
Print Assumptions geometric_integral_refuted.
Print Assumptions gamma_integral_refuted.
Print Assumptions categorical_integral_refuted.
Print Assumptions poisson_double_large_mean_refuted.
Print Assumptions poisson_double.
