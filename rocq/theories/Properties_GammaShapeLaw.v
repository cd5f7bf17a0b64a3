(** C124, the gamma distribution with any shape that is not integral: the random numbers for which sampleGamma returns, with at most
    N attempts for the fraction, a sample of an interval fill a part of the unit cube whose volume is the probability the gamma
    density gives to the interval, times that of accepting one of N attempts. *)
From stdpp Require Import prelude list.
From Coq Require Import Reals Lra Psatz ZArith.
From Flocq Require Import Core.
From Coquelicot Require Import Coquelicot.
From Verif Require Import Base UniformModel RandomizerModel Spec_Randomizer Spec_Gamma Spec_Euler Spec_Volume VolumeProofs
  RandomizerProofs Properties_Randomizer Properties_SamplerLaw Properties_GammaLaw GammaLawProofs NormalVolumeProofs GammaVolumeProofs
  Properties_NormalLaw.
Local Open Scope R_scope.

Lemma gamma_step {G} (next : G -> Z * G) RM a fuel g : generator next RM ->
  gamma_loop next RM rreal (S fuel) a (gb a) g =
    match trial a (unit_number next RM g 0) (unit_number next RM g 1) with
    | Some z => Some (z, advance next 2 g) | None => gamma_loop next RM rreal fuel a (gb a) (advance next 2 g) end.
Proof.
  intros HG. cbn [gamma_loop]. rewrite !unit_real. change (advance next 2 g) with (advance next 1 (advance next 1 g)).
  assert (E1 : unit_number next RM (advance next 1 g) 0 = unit_number next RM g 1) by (rewrite num_shift; done). unfold trial.
  destruct (Rlt_dec 1 (gb a * unit_number next RM g 0)); cbn zeta; rewrite ?unit_real, ?E1; destruct (Rlt_dec _ (unit_number next RM g 1)); done.
Qed.
Lemma gamma_loop_gatt {G} (next : G -> Z * G) RM a : generator next RM -> forall N t g,
  (exists z g', gamma_loop next RM rreal N a (gb a) g = Some (Some z, g') /\ z <= t) <->
  gatt a N t (draws (unit_number next RM g) (2 * N)).
Proof.
  intros HG. induction N as [|N IH]; intros t g.
  { split; [intros (z & g' & ? & _); done|done]. }
  rewrite gamma_step by done. rewrite draws_cons2. cbn [gatt].
  change (take 2 (?a :: ?b :: ?l)) with (a :: b :: nil). change (drop 2 (?a :: ?b :: ?l)) with l.
  rewrite <- IH. unfold hit, rej.
  destruct (trial a (unit_number next RM g 0) (unit_number next RM g 1)) as [z|].
  - split.
    + intros (z' & g' & [= ->] & Hz). left. by exists z'.
    + intros [(z' & [= ->] & Hz)|[? _]]; [|done]. by exists z', (advance next 2 g).
  - split; [intros H; right; done|]. intros [(z' & ? & _)|[_ H]]; [done|exact H].
Qed.
Lemma gsum_draws {G} (next : G -> Z * G) RM (T : R -> list R -> Prop) m : generator next RM -> forall n t g,
  (forall i, (i < n)%nat -> unit_number next RM g i <> 0) ->
  (gsum n T t (draws (unit_number next RM g) (n + m)) <->
   T (t + ln (prod_first (unit_number next RM g) n)) (draws (unit_number next RM (advance next n g)) m)).
Proof.
  intros HG. induction n as [|n IH]; intros t g H0.
  { simpl. rewrite ln_1, Rplus_0_r. done. }
  assert (Ed : draws (unit_number next RM g) (S n + m) =
    unit_number next RM g 0 :: draws (unit_number next RM (advance next 1 g)) (n + m)).
  { unfold draws. cbn [Nat.add seq map]. f_equal. apply list_eq. intros i. rewrite !list_lookup_fmap.
    destruct (Nat.lt_ge_cases i (n + m)) as [Hi|Hi].
    - rewrite !lookup_seq_lt by done. exact (f_equal Some (eq_sym (num_shift next RM g 1 i))).
    - rewrite !lookup_seq_ge by done. done. }
  rewrite Ed. cbn [gsum].
  assert (H1 : forall i, (i < n)%nat -> unit_number next RM (advance next 1 g) i <> 0) by (intros i Hi; rewrite num_shift; apply H0; lia).
  rewrite IH by done. rewrite prod_first_shift.
  assert (Esh : prod_first (fun i => unit_number next RM g (S i)) n = prod_first (unit_number next RM (advance next 1 g)) n).
  { apply prod_first_ext. intros i. by rewrite num_shift. }
  rewrite Esh. rewrite <- advance_add. change (1 + n)%nat with (S n).
  assert (Hu : 0 < unit_number next RM g 0).
  { pose proof (num_range next RM HG g 0). specialize (H0 0%nat ltac:(lia)). lra. }
  destruct (exp_sum_value next RM 1 HG ltac:(lia) n 0 (advance next 1 g) H1) as [_ Hp].
  rewrite ln_mult by done. by rewrite Rplus_assoc.
Qed.

Lemma VV_density f n s t : 0 < f < 1 -> 0 < s -> s <= t -> is_RInt (euler (f + INR n)) s t ((VV f n t - VV f n s) / dd f n).
Proof.
  intros Hf Hs Hst. pose proof (dd_pos f Hf n) as Hd.
  assert (H1 : is_RInt (fun x => dd f n * ee (f + INR n - 1) x) s t (VV f n t - VV f n s)).
  { apply (is_RInt_derive (VV f n)); intros x Hx; rewrite Rmin_left, Rmax_right in Hx by lra.
    - apply VV_derive; [done|lra].
    - apply (continuous_scal_r (dd f n) (ee (f + INR n - 1))). apply (ex_derive_continuous (ee (f + INR n - 1))). eexists. apply ee_derive. lra. }
  apply (is_RInt_scal _ s t (/ dd f n)) in H1.
  replace ((VV f n t - VV f n s) / dd f n) with (scal (/ dd f n) (VV f n t - VV f n s)) by (unfold scal; simpl; unfold mult; simpl; unfold Rdiv; ring).
  eapply is_RInt_ext; [|exact H1]. intros x Hx. rewrite Rmin_left, Rmax_right in Hx by lra. cbv beta. rewrite ee_pos by lra.
  unfold scal; simpl; unfold mult; simpl. unfold euler. match goal with |- ?a = ?b => change (@eq R a b) end. field. lra.
Qed.
Lemma VV_gamma_value f n : 0 < f < 1 -> gamma_value (f + INR n) (Acc f / dd f n).
Proof.
  intros Hf eps He. pose proof (dd_pos f Hf n) as Hd.
  destruct (VV_limit f Hf n (eps * dd f n / 2)) as (B & HB & H1). { apply Rdiv_lt_0_compat; [nra|lra]. }
  pose proof (VV_cont f Hf n 0) as Hc. apply continuity_pt_filterlim in Hc.
  destruct (Hc (eps * dd f n / 2)) as (d & Hd0 & H2). { apply Rdiv_lt_0_compat; [nra|lra]. }
  simpl in H2. unfold R_dist in H2. rewrite (VV_neg f n 0), ?Rminus_0_r in H2 by lra.
  exists (d / 2), (Rmax B (d / 2)). split; [lra|]. intros s t Hs Hsd Ht.
  assert (Ht1 : B <= t) by (eapply Rle_trans; [apply Rmax_l|exact Ht]). assert (Ht2 : d / 2 <= t) by (eapply Rle_trans; [apply Rmax_r|exact Ht]).
  specialize (H1 t Ht1). specialize (H2 s). rewrite !Rminus_0_r in H2.
  assert (H3 : Rabs (VV f n s) < eps * dd f n / 2). { apply H2. split; [split; [done|lra]|]. rewrite Rabs_pos_eq; lra. }
  unfold integral. rewrite (is_RInt_unique _ _ _ _ (VV_density f n s t Hf Hs ltac:(lra))).
  replace ((VV f n t - VV f n s) / dd f n - Acc f / dd f n) with (((VV f n t - Acc f) - VV f n s) / dd f n) by (field; lra).
  unfold Rdiv. rewrite Rabs_mult, (Rabs_pos_eq (/ dd f n)) by (left; by apply Rinv_0_lt_compat).
  apply Rmult_lt_reg_r with (dd f n); [done|]. rewrite Rmult_assoc, Rinv_l, Rmult_1_r by lra.
  apply Rabs_def2 in H1, H3. apply Rabs_def1; lra.
Qed.

(** The shape is an integral part [n] and a fraction [f] (below 2^-52 the code takes the fraction for zero).  A random number 0 for the
    integral part is rejected.  [accept] is the probability that an attempt for the fraction is accepted. *)
Theorem gamma_shape_law n f rate : / 2 ^ 52 < f < 1 -> INR n < IZR (2 ^ 64) -> 0 < rate ->
  exists accept Gamma, 0 < accept <= 1 /\ gamma_value (INR n + f) Gamma /\
    forall s t, 0 < s -> s <= t -> exists v, is_RInt (gamma_density Gamma (INR n + f) rate) s t v /\
      forall N, (0 < N)%nat -> exists region : list R -> Prop,
        (forall G (next : G -> Z * G) RM g, generator next RM -> (forall i, (i < n)%nat -> unit_number next RM g i <> 0) ->
           ((exists x, fst (sampleGamma next RM rreal N (INR n + f) rate g) = Ret (Some x) /\ s < x <= t) <->
            region (draws (unit_number next RM g) (n + 2 * N)))) /\
        has_volume (n + 2 * N) region (v * (1 - (1 - accept) ^ N)).
Proof.
  intros [Hf0 Hf1] Hn64 Hr. assert (H52 : 0 < / 2 ^ 52) by (apply Rinv_0_lt_compat, pow_lt; lra).
  assert (Hf : 0 < f < 1) by lra. pose proof (Acc_range f Hf) as HA. pose proof (dd_pos f Hf n) as Hd.
  exists (Acc f), (Acc f / dd f n). split; [done|]. split; [rewrite (Rplus_comm (INR n)); by apply VV_gamma_value|].
  intros s t Hs Hst. exists ((VV f n (rate * t) - VV f n (rate * s)) / Acc f). split.
  - assert (H1 : is_RInt (fun y => scal rate (euler (f + INR n) (rate * y))) s t ((VV f n (rate * t) - VV f n (rate * s)) / dd f n)).
    { assert (Ei : (VV f n (rate * t) - VV f n (rate * s)) / dd f n = RInt (euler (f + INR n)) (rate * s) (rate * t)).
      { symmetry. apply is_RInt_unique. apply VV_density; nra. }
      rewrite Ei. apply (@is_RInt_comp R_CompleteNormedModule (euler (f + INR n)) (fun y => rate * y) (fun _ => rate)).
      - intros x Hx. rewrite Rmin_left, Rmax_right in Hx by lra.
        assert (Hx0 : 0 < rate * x) by nra.
        apply (continuous_ext_loc _ (fun t => exp ((f + INR n - 1) * ln t) * exp (- t))).
        + exists (mkposreal (rate * x) Hx0). intros y _. done.
        + apply (ex_derive_continuous (fun t => exp ((f + INR n - 1) * ln t) * exp (- t))). auto_derive. done.
      - intros x Hx. split; [auto_derive; [done|ring]|]. apply continuous_const. }
    apply (is_RInt_scal _ s t (dd f n / Acc f)) in H1.
    replace ((VV f n (rate * t) - VV f n (rate * s)) / Acc f) with (scal (dd f n / Acc f) ((VV f n (rate * t) - VV f n (rate * s)) / dd f n)).
    2:{ unfold scal; simpl; unfold mult; simpl. field. lra. }
    eapply is_RInt_ext; [|exact H1]. intros x Hx. rewrite Rmin_left, Rmax_right in Hx by lra. cbv beta.
    rewrite (Rplus_comm (INR n)). unfold gamma_density, euler, scal; simpl; unfold mult; simpl.
    rewrite <- Rpower_mult_distr by lra. set (a := f + INR n).
    match goal with |- ?a = ?b => change (@eq R a b) end.
    replace (Rpower rate a) with (rate * Rpower rate (a - 1)); [field; lra|].
    replace a with (1 + (a - 1)) at 2 by ring. rewrite Rpower_plus, Rpower_1 by done. ring.
  - intros N HN. exists (fun l => gsum n (gatt f N) (rate * t) l /\ ~ gsum n (gatt f N) (rate * s) l). split.
    + intros G next RM g HG H0. destruct (exp_sum_value next RM N HG HN n 0 g H0) as [Es Hp].
      rewrite !(gsum_draws next RM (gatt f N) (2 * N) HG n) by done.
      set (pr := prod_first (unit_number next RM g) n) in *.
      rewrite <- !gamma_loop_gatt by done.
      assert (E : sampleGamma next RM rreal N (INR n + f) rate g =
        match gamma_loop next RM rreal N f (gb f) (advance next n g) with
        | None => (Diverge, g)
        | Some (None, g2) => (Ret None, g2)
        | Some (Some z, g2) => (Ret (Some ((0 - ln pr + z) / rate)), g2)
        end).
      { unfold sampleGamma. pose proof (pos_INR n) as Hn0.
        destruct (Rle_dec (INR n + f) 0); [lra|]. destruct (Rle_dec rate 0); [lra|].
        assert (Ef : Zfloor (INR n + f) = Z.of_nat n) by (apply Zfloor_imp; rewrite plus_IZR, <- INR_IZR_INZ; lra).
        rewrite Ef, <- INR_IZR_INZ. unfold to_size_t. destruct (Rlt_dec (INR n) 0); [lra|].
        destruct (Rle_dec (IZR (2 ^ 64)) (INR n)); [lra|].
        assert (Ef' : Zfloor (INR n) = Z.of_nat n) by (rewrite INR_IZR_INZ; apply Zfloor_IZR).
        rewrite Ef', Nat2Z.id, Es. replace (INR n + f - INR n) with f by ring. rewrite Rabs_pos_eq by lra.
        destruct (Rlt_dec (/ 2 ^ 52) f); [|lra]. fold (gb f). done. }
      rewrite E. assert (Hz : forall z c, (0 - ln pr + z) / rate <= c <-> z <= rate * c + ln pr).
      { intros z c. assert (Ez : (0 - ln pr + z) / rate * rate = - ln pr + z) by (field; lra). split; intros Hc.
        - apply (Rmult_le_compat_r rate) in Hc; lra.
        - apply Rmult_le_reg_r with rate; lra. }
      destruct (gamma_loop next RM rreal N f (gb f) (advance next n g)) as [[[z|] g2]|]; cbn [fst].
      * split.
        -- intros (x & [= <-] & Hx1 & Hx2). split.
           ++ exists z, g2. split; [done|]. by apply Hz.
           ++ intros (z' & g' & [= <- <-] & Hz'). apply Hz in Hz'. lra.
        -- intros [(z' & g' & [= <- <-] & H1) H2]. exists ((0 - ln pr + z) / rate). split; [done|]. split; [|by apply Hz].
           destruct (Rlt_or_le s ((0 - ln pr + z) / rate)) as [|Hle]; [done|]. exfalso. apply H2. exists z, g2. split; [done|]. by apply Hz.
      * split; [by intros (x & ? & _)|]. by intros [(z' & g' & ? & _) _].
      * split; [by intros (x & ? & _)|]. by intros [(z' & g' & ? & _) _].
    + replace ((VV f n (rate * t) - VV f n (rate * s)) / Acc f * (1 - (1 - Acc f) ^ N)) with
        (kk f N * VV f n (rate * t) - kk f N * VV f n (rate * s)) by (unfold kk; field; lra).
      apply has_volume_diff.
      * apply gsum_volume; [done|]. intros c. by apply gatt_volume.
      * apply gsum_volume; [done|]. intros c. by apply gatt_volume.
      * intros l. apply gsum_mono; [|nra]. intros; by eapply gatt_mono.
Qed.
Lemma half_big : / 2 ^ 52 < / 2.
Proof. apply Rinv_lt_contravar; [|simpl; lra]. simpl; lra. Qed.
(** Non-vacuity: a generator of which sampleGamma with shape 3/2 gives a sample in (1, 4] at the first attempt. *)
Example gamma_shape_law_ex :
  let next := fun g : nat => (1%Z, S g) in
  generator next 4 /\ (forall i, (i < 1)%nat -> unit_number next 4 0%nat i <> 0) /\
  (exists x, fst (sampleGamma next 4 rreal 1 (INR 1 + / 2) 1 0%nat) = Ret (Some x) /\ 1 < x <= 4) /\
  exists accept region v, 0 < accept <= 1 /\ region (draws (unit_number next 4 0%nat) 3) /\ has_volume 3 region (v * accept).
Proof.
  intros next. assert (HG : generator next 4).
  { split; [lia|]. intros g. simpl. lia. }
  assert (Hnum : forall g i, unit_number next 4 g i = / 4) by (intros g i; unfold unit_number, number; simpl; lra).
  assert (H0 : forall i, (i < 1)%nat -> unit_number next 4 0%nat i <> 0) by (intros i _; rewrite Hnum; lra).
  split; [done|]. split; [done|].
  assert (He : 2 < exp 1 <= 3) by (split; [pose proof (exp_ineq1 1 ltac:(lra)); lra|apply exp_le_3]).
  assert (Hb : 1 < gb (/ 2) < 2).
  { unfold gb. split; [apply Rlt_div_r; lra|apply Rlt_div_l; lra]. }
  assert (Hx : exists x, fst (sampleGamma next 4 rreal 1 (INR 1 + / 2) 1 0%nat) = Ret (Some x) /\ 1 < x <= 4).
  { unfold sampleGamma. simpl INR. destruct (Rle_dec (1 + / 2) 0); [lra|]. destruct (Rle_dec 1 0); [lra|].
    assert (Ef : Zfloor (1 + / 2) = 1%Z) by (apply Zfloor_imp; rewrite plus_IZR; lra).
    rewrite Ef.
    unfold to_size_t. destruct (Rlt_dec 1 0); [lra|]. destruct (Rle_dec (IZR (2 ^ 64)) 1) as [Hc|_]; [apply le_IZR in Hc; lia|].
    rewrite Zfloor_IZR. change (Z.to_nat 1) with 1%nat.
    destruct (exp_sum_value next 4 1 HG ltac:(lia) 1 0 0%nat H0) as [Es _]. rewrite Es.
    replace (1 + / 2 - INR 1) with (/ 2) by (simpl; ring). rewrite Rabs_pos_eq by lra. destruct (Rlt_dec (/ 2 ^ 52) (/ 2)) as [_|Hc]; [|contradict Hc; exact half_big].
    change ((exp 1 + / 2) / exp 1) with (gb (/ 2)). rewrite gamma_step by done. rewrite !Hnum. unfold trial.
    destruct (Rlt_dec 1 (gb (/ 2) * / 4)); [lra|]. unfold rpow0. destruct (Req_EM_T _ 0); [lra|].
    replace (1 / / 2) with (INR 2) by (simpl; field). rewrite Rpower_pow by lra.
    set (z := (gb (/ 2) * / 4) ^ 2). assert (Hz : 0 < z < / 2) by (unfold z; simpl; split; nra).
    assert (Hez : / 4 < exp (- z)). { pose proof (exp_ineq1 (- z) ltac:(lra)). lra. }
    destruct (Rlt_dec (exp (- z)) (/ 4)); [lra|]. cbn [fst]. eexists. split; [reflexivity|].
    simpl prod_first. rewrite Hnum. 
    assert (Hl : 1 < ln 4 < 3).
    { split.
      - rewrite <- (ln_exp 1). apply ln_increasing; [apply exp_pos|lra].
      - rewrite <- (ln_exp 3). apply ln_increasing; [lra|]. replace 3 with (1 + (1 + 1)) by ring. rewrite !exp_plus. nra. }
    match goal with |- context [ln ?q] => replace q with (/ 4) by ring end. rewrite ln_Rinv by lra. lra. }
  split; [exact Hx|].
  destruct (gamma_shape_law 1 (/ 2) 1) as (acc & Gm & Ha & _ & H); [split; [exact half_big|lra]|simpl; apply IZR_lt; lia|lra|].
  destruct (H 1 4 ltac:(lra) ltac:(lra)) as (v & _ & H1). destruct (H1 1%nat ltac:(lia)) as (region & H2 & H3).
  exists acc, region, v. split; [done|]. split; [by apply (H2 nat next 4%Z 0%nat HG H0)|].
  replace (v * acc) with (v * (1 - (1 - acc) ^ 1)) by ring. exact H3.
Qed.
