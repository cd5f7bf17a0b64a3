(** Properties of the 2D laser simulation: path (C81), measurements (C82), guess of the landmarks (C83). *)
From Coq Require Import Reals List Lra Lia ZArith Psatz.
From Verif Require Import ErrorTermModel LrfSimModel Spec_LrfSim.
Import ListNotations.
Local Open Scope R_scope.

(** ** Angles *)
Theorem round_angle_ok : angle_mod_ok round_angle.
Proof.
  intros x. unfold round_angle. split; [eexists; reflexivity|].
  pose proof PI_RGT_0. pose proof (base_Int_part (x / (2 * PI) + / 2)) as [H1 H2].
  set (n := IZR (Int_part (x / (2 * PI) + / 2))) in *.
  assert (E : x = 2 * PI * (x / (2 * PI))) by (field; lra).
  set (y := x / (2 * PI)) in *. rewrite E. split; nra.
Qed.
Lemma turn_Z x (n : Z) : cos (x - 2 * PI * IZR n) = cos x /\ sin (x - 2 * PI * IZR n) = sin x.
Proof.
  destruct (Z_lt_le_dec n 0) as [Hn|Hn].
  - replace (x - 2 * PI * IZR n) with (x + 2 * INR (Z.to_nat (- n)) * PI).
    + split; [apply cos_period|apply sin_period].
    + rewrite INR_IZR_INZ, Z2Nat.id by lia. rewrite opp_IZR. ring.
  - assert (E : x = (x - 2 * PI * IZR n) + 2 * INR (Z.to_nat n) * PI).
    { rewrite INR_IZR_INZ, Z2Nat.id by lia. ring. }
    set (y := x - 2 * PI * IZR n) in *. rewrite E. split; symmetry; [apply cos_period|apply sin_period].
Qed.
Lemma am_turn am x : angle_mod_ok am -> cos (am x) = cos x /\ sin (am x) = sin x.
Proof. intros H. destruct (H x) as [[n ->] _]. apply turn_Z. Qed.
Lemma am_fix am x y (n : Z) : angle_mod_ok am -> x = y + 2 * PI * IZR n -> - PI < y < PI -> am x = y.
Proof.
  intros H Hx Hy. destruct (H x) as [[m E] Hb]. pose proof PI_RGT_0 as Hp.
  assert (Hd : am x = y + 2 * PI * IZR (n - m)) by (rewrite E, Hx, minus_IZR; ring).
  assert (Hm : (n - m = 0)%Z).
  { destruct (Z.eq_dec (n - m) 0) as [E0|Hne]; [exact E0|]. exfalso. destruct (Z_lt_le_dec (n - m) 0) as [Hl|Hl].
    - assert (IZR (n - m) <= -1) by (apply IZR_le; lia). nra.
    - assert (1 <= IZR (n - m)) by (apply IZR_le; lia). nra. }
  rewrite Hd, Hm. simpl. ring.
Qed.
(** Polar coordinates. *)
Lemma atan2_polar a b : a * a + b * b <> 0 ->
  a = sqrt (a * a + b * b) * cos (atan2 b a) /\ b = sqrt (a * a + b * b) * sin (atan2 b a).
Proof.
  intros Hn.
  assert (Hs : forall a b, a <> 0 -> sqrt (a * a + b * b) = Rabs a * sqrt (1 + Rsqr (b / a))).
  { intros x y Hx. rewrite <- (sqrt_Rsqr_abs x), <- sqrt_mult_alt by apply Rle_0_sqr. f_equal. unfold Rsqr. field. exact Hx. }
  assert (Hq : forall x, 0 < sqrt (1 + Rsqr x)). { intros x. apply sqrt_lt_R0. pose proof (Rle_0_sqr x). lra. }
  unfold atan2. destruct (Rlt_dec 0 a) as [Ha|Ha].
  - rewrite Hs, cos_atan, sin_atan by lra. specialize (Hq (b / a)). rewrite Rabs_pos_eq by lra. split; field; lra.
  - destruct (Rlt_dec a 0) as [Ha'|Ha'].
    + rewrite Hs by lra. rewrite Rabs_left by lra. specialize (Hq (b / a)).
      destruct (Rle_dec 0 b) as [Hb|Hb].
      * rewrite neg_cos, neg_sin, cos_atan, sin_atan. split; field; lra.
      * replace (atan (b / a) - PI) with (- (PI - atan (b / a))) by ring. rewrite cos_neg, sin_neg.
        rewrite Rtrigo_facts.cos_pi_minus, Rtrigo_facts.sin_pi_minus, cos_atan, sin_atan. split; field; lra.
    + assert (E : a = 0) by lra. subst a. replace (0 * 0 + b * b) with (Rsqr b) by (unfold Rsqr; ring). rewrite sqrt_Rsqr_abs.
      destruct (Rlt_dec 0 b) as [Hb|Hb].
      * rewrite cos_PI2, sin_PI2, Rabs_pos_eq by lra. split; ring.
      * destruct (Rlt_dec b 0) as [Hb'|Hb'].
        -- rewrite cos_neg, sin_neg, cos_PI2, sin_PI2, Rabs_left by lra. split; ring.
        -- exfalso. apply Hn. replace b with 0 by lra. ring.
Qed.

(** * C81: the sine path *)
Lemma costs_run amp f T (n : nat) : 0 < T -> forall (k fuel : nat), (n < fuel)%nat ->
  sine_costs fuel (INR (k + n) * T) amp f T (INR k * T)
  = Some (map (fun i => amp * cos (2 * PI * f * (INR i * T))) (seq k n)).
Proof.
  intros HT. induction n as [|n IH]; intros k fuel Hf; (destruct fuel as [|fuel]; [lia|]); simpl.
  - rewrite Nat.add_0_r. destruct (Rlt_dec _ _) as [H|H]; [lra|reflexivity].
  - destruct (Rlt_dec _ _) as [H|H].
    + replace (INR k * T + T) with (INR (S k) * T) by (rewrite S_INR; ring).
      replace (k + S n)%nat with (S k + n)%nat by lia. rewrite IH by lia. reflexivity.
    + exfalso. apply H. apply Rmult_lt_compat_r; [exact HT|]. apply lt_INR. lia.
Qed.
Lemma inputs_length f T th p c : length (sine_inputs f T th p c) = length c.
Proof. revert th p. induction c as [|x c IH]; intros th p; simpl; [reflexivity|]. rewrite IH. reflexivity. Qed.
(** The loop ends; the path has one input per step (and one, if there is no step), the first one is zero. *)
Theorem sine_path_length steps amp f T : 0 < T ->
  exists u, (forall fuel, (steps < fuel)%nat -> genSineWavePath fuel steps amp f T = Some u)
    /\ length u = Nat.max 1 steps /\ nth 0 u (vec3 1 1 1) = vec3 0 0 0.
Proof.
  intros HT. unfold genSineWavePath.
  exists (vec3 0 0 0 :: match map (fun i => amp * cos (2 * PI * f * (INR i * T))) (seq 0 steps) with
                        | [] => [] | c0 :: rest => sine_inputs f T 0 c0 rest end).
  split; [|split; [|reflexivity]].
  - intros fuel Hf. pose proof (costs_run amp f T steps HT 0 fuel Hf) as E. replace (INR 0 * T) with 0 in E by (simpl; ring).
    replace (0 + steps)%nat with steps in E by lia. rewrite E. reflexivity.
  - destruct steps as [|steps]; [reflexivity|]. cbn [seq map length]. rewrite inputs_length, map_length, seq_length. lia.
Qed.
(** Without a positive time step there is one input. *)
Theorem sine_path_no_time steps amp f T fuel : T <= 0 -> (0 < fuel)%nat -> genSineWavePath fuel steps amp f T = Some [vec3 0 0 0].
Proof.
  intros HT Hf. destruct fuel as [|fuel]; [lia|]. unfold genSineWavePath. simpl.
  destruct (Rlt_dec 0 (INR steps * T)) as [H|H]; [|reflexivity]. pose proof (pos_INR steps). nra.
Qed.
Definition path_slope (amp f T : R) (k : nat) : R := amp * cos (2 * PI * f * (INR k * T)).
Lemma inputs_nth amp f T n : forall k i th d, (i < n)%nat ->
  nth i (sine_inputs f T th (path_slope amp f T k) (map (path_slope amp f T) (seq (S k) n))) d
  = vec3 (2 * PI * f * (sqrt (1 + path_slope amp f T (S k + i) * path_slope amp f T (S k + i))
                        + sqrt (1 + path_slope amp f T (k + i) * path_slope amp f T (k + i))) / 2) 0
         ((atan (path_slope amp f T (S k + i)) - (if Nat.eqb i 0 then th else atan (path_slope amp f T (k + i)))) / T).
Proof.
  induction n as [|n IH]; intros k i th d Hi; [lia|]. destruct i as [|i].
  - cbn [seq map sine_inputs nth]. rewrite !Nat.add_0_r. reflexivity.
  - cbn [seq map sine_inputs nth]. rewrite IH by lia. replace (S (S k) + i)%nat with (S k + S i)%nat by lia.
    replace (S k + i)%nat with (k + S i)%nat by lia. f_equal. destruct i; [|reflexivity].
    replace (k + 1)%nat with (S k) by lia. reflexivity.
Qed.
Lemma path_nth steps amp f T u fuel k d : 0 < T -> (steps < fuel)%nat -> genSineWavePath fuel steps amp f T = Some u -> (1 <= k < steps)%nat ->
  nth k u d = vec3 (2 * PI * f * (sqrt (1 + path_slope amp f T k * path_slope amp f T k)
                        + sqrt (1 + path_slope amp f T (k - 1) * path_slope amp f T (k - 1))) / 2) 0
         ((atan (path_slope amp f T k) - (if Nat.eqb k 1 then 0 else atan (path_slope amp f T (k - 1)))) / T).
Proof.
  intros HT Hf Hu Hk. unfold genSineWavePath in Hu. pose proof (costs_run amp f T steps HT 0 fuel Hf) as E.
  replace (INR 0 * T) with 0 in E by (simpl; ring). replace (0 + steps)%nat with steps in E by lia. rewrite E in Hu. injection Hu as <-.
  destruct steps as [|steps]; [lia|]. destruct k as [|k]; [lia|]. cbn [seq map nth].
  change (fun i : nat => amp * cos (2 * PI * f * (INR i * T))) with (path_slope amp f T).
  change (amp * cos (2 * PI * f * (INR 0 * T))) with (path_slope amp f T 0). rewrite inputs_nth by lia.
  replace (1 + k)%nat with (S k) by lia. replace (S k - 1)%nat with k by lia. replace (0 + k)%nat with k by lia.
  f_equal.
Qed.
(** Headings: integrating the turn rates gives at every time the direction of the slope A cos(2 pi f t). *)
Theorem sine_path_heading steps amp f T u fuel k : 0 < T -> (steps < fuel)%nat -> genSineWavePath fuel steps amp f T = Some u -> (1 <= k < steps)%nat ->
  sum_to k (fun i => T * nth i u (vec3 0 0 0) 2%nat) = atan (amp * cos (2 * PI * f * (INR k * T))).
Proof.
  intros HT Hf Hu [Hk1 Hk2]. revert Hk2. induction k as [|k IH]; [lia|]. intros Hk. cbn [sum_to].
  rewrite (path_nth steps amp f T u fuel (S k)) by (assumption || lia). cbn [vec3].
  replace (S k - 1)%nat with k by lia. fold (path_slope amp f T (S k)). destruct k as [|k].
  - cbn [Nat.eqb sum_to]. field. lra.
  - rewrite IH by lia. fold (path_slope amp f T (S k)). cbn [Nat.eqb]. field. lra.
Qed.
(** Speeds: no sideways motion; forward speed between w and w sqrt(1 + A^2), w = 2 pi f. *)
Theorem sine_path_speed steps amp f T u fuel k : 0 < T -> 0 <= f -> (steps < fuel)%nat -> genSineWavePath fuel steps amp f T = Some u -> (1 <= k < steps)%nat ->
  nth k u (vec3 0 0 0) 1%nat = 0
  /\ 2 * PI * f <= nth k u (vec3 0 0 0) 0%nat <= 2 * PI * f * sqrt (1 + amp * amp).
Proof.
  intros HT Hfr Hf Hu Hk. rewrite (path_nth steps amp f T u fuel k) by assumption. cbn [vec3]. split; [reflexivity|].
  assert (B : forall i, 1 <= sqrt (1 + path_slope amp f T i * path_slope amp f T i) <= sqrt (1 + amp * amp)).
  { intros i. unfold path_slope. set (c := cos _). assert (Hc : -1 <= c <= 1) by apply COS_bound.
    assert (Hc2 : 0 <= c * c <= 1) by (split; nra). split.
    - rewrite <- sqrt_1 at 1. apply sqrt_le_1_alt. nra.
    - apply sqrt_le_1_alt. replace (amp * c * (amp * c)) with (amp * amp * (c * c)) by ring. assert (0 <= amp * amp) by nra. nra. }
  destruct (B k) as [B1 B2]. destruct (B (k - 1)%nat) as [B3 B4].
  set (s1 := sqrt (1 + path_slope amp f T k * _)) in *. set (s2 := sqrt (1 + path_slope amp f T (k - 1) * _)) in *.
  assert (Hw : 0 <= 2 * PI * f) by (pose proof PI_RGT_0; nra). set (w := 2 * PI * f) in *. split; nra.
Qed.

(** * C82: the measurements *)
Lemma mapi_length {A B} (f : nat -> A -> B) k l : length (mapi f k l) = length l.
Proof. revert k. induction l as [|x l IH]; intros k; simpl; [reflexivity|]. rewrite IH. reflexivity. Qed.
Lemma mapi_nth {A B} (f : nat -> A -> B) l : forall k j d da, (j < length l)%nat -> nth j (mapi f k l) d = f (k + j)%nat (nth j l da).
Proof.
  induction l as [|x l IH]; intros k j d da Hj; simpl in *; [lia|]. destruct j as [|j]; [rewrite Nat.add_0_r; reflexivity|].
  rewrite (IH (S k) j d da) by lia. f_equal. lia.
Qed.
Section loop.
  Context (am : R -> R) (T : R) (Theta : rvec) (xls : list rvec) (wu : nat -> rvec) (wr wb : nat -> nat -> R).
  Notation loop := (lrf_loop am T Theta xls wu wr wb).
  Lemma loop_lengths us : forall i x o, let d := loop i x o us in
    length (d_true d) = length us /\ length (d_odom d) = length us /\ length (d_u d) = length us
    /\ length (d_r d) = length us /\ length (d_b d) = length us.
  Proof.
    induction us as [|u us IH]; intros i x o; cbv zeta; [repeat split|]. cbn [lrf_loop d_true d_odom d_u d_r d_b length].
    destruct (IH (S i) (lrf_step am T x u) (lrf_step am T o (fun k => u k + wu i k))) as (H1 & H2 & H3 & H4 & H5).
    rewrite H1, H2, H3, H4, H5. repeat split.
  Qed.
  Lemma loop_nth us : forall i x o k dx, (k < length us)%nat -> let d := loop i x o us in
    nth k (d_true d) dx = lrf_step am T (nth k (x :: d_true d) dx) (nth k us dx)
    /\ nth k (d_odom d) dx = lrf_step am T (nth k (o :: d_odom d) dx) (nth k (d_u d) dx)
    /\ (forall c, nth k (d_u d) dx c = nth k us dx c + wu (i + k)%nat c)
    /\ nth k (d_r d) [] = mapi (fun j xl => lrf_range (nth k (d_true d) dx) xl Theta (wr (i + k)%nat j)) 0 xls
    /\ nth k (d_b d) [] = mapi (fun j xl => lrf_bearing am (nth k (d_true d) dx) xl Theta (wb (i + k)%nat j)) 0 xls.
  Proof.
    induction us as [|u us IH]; intros i x o k dx Hk; cbv zeta; [simpl in Hk; lia|].
    cbn [lrf_loop d_true d_odom d_u d_r d_b]. destruct k as [|k].
    - cbn [nth]. rewrite Nat.add_0_r. repeat split.
    - cbn [nth]. replace (i + S k)%nat with (S i + k)%nat by lia. apply IH. simpl in Hk. lia.
  Qed.
End loop.
(** The five vectors have one entry per time step. *)
Theorem simulation_lengths am T x0 Theta xls us wu wr wb : let d := lrf_simulate am T x0 Theta xls us wu wr wb in
  length (d_true d) = S (length us) /\ length (d_odom d) = S (length us) /\ length (d_u d) = S (length us)
  /\ table (S (length us)) (length xls) (d_r d) /\ table (S (length us)) (length xls) (d_b d)
  /\ length (d_r d) = S (length us) /\ length (d_b d) = S (length us).
Proof.
  intros d. destruct (loop_lengths am T Theta xls wu wr wb us 1 x0 x0) as (H1 & H2 & H3 & H4 & H5).
  assert (HT : forall t, length t = length us -> (forall k, (k < length us)%nat -> length (nth k t []) = length xls) ->
             table (S (length us)) (length xls) (repeat 0 (length xls) :: t)).
  { intros t Ht Hl. split; [simpl; lia|]. intros i Hi. destruct i as [|i]; cbn [nth]; [rewrite repeat_length; lia|]. rewrite Hl; lia. }
  unfold d, lrf_simulate. cbn [d_true d_odom d_u d_r d_b length]. rewrite H1, H2, H3, H4, H5.
  repeat match goal with |- _ /\ _ => split end; try reflexivity; apply HT; try assumption; intros k Hk;
    destruct (loop_nth am T Theta xls wu wr wb us 1 x0 x0 k (vec3 0 0 0) Hk) as (_ & _ & _ & Er & Eb).
  - rewrite Er. apply mapi_length.
  - rewrite Eb. apply mapi_length.
Qed.
Lemma simulate_nth am T x0 Theta xls us wu wr wb k : (1 <= k <= length us)%nat -> let d := lrf_simulate am T x0 Theta xls us wu wr wb in
  nth k (d_true d) x0 = lrf_step am T (nth (k - 1) (d_true d) x0) (nth (k - 1) us x0)
  /\ nth k (d_odom d) x0 = lrf_step am T (nth (k - 1) (d_odom d) x0) (nth k (d_u d) x0)
  /\ (forall c, nth k (d_u d) x0 c = nth (k - 1) us x0 c + wu k c)
  /\ (forall j xl, nth_error xls j = Some xl ->
       entry (d_r d) k j = lrf_range (nth k (d_true d) x0) xl Theta (wr k j)
       /\ entry (d_b d) k j = lrf_bearing am (nth k (d_true d) x0) xl Theta (wb k j)).
Proof.
  intros Hk d. destruct k as [|k]; [lia|]. assert (Hk' : (k < length us)%nat) by lia.
  destruct (loop_nth am T Theta xls wu wr wb us 1 x0 x0 k x0 Hk') as (H1 & H2 & H3 & H4 & H5).
  replace (S k - 1)%nat with k by lia. unfold d, lrf_simulate, entry. cbn [d_true d_odom d_u d_r d_b].
  repeat split.
  - etransitivity; [exact H1|reflexivity].
  - etransitivity; [exact H2|reflexivity].
  - intros c. cbn [nth]. rewrite H3. reflexivity.
  - cbn [nth]. rewrite H4. rewrite (mapi_nth _ _ 0 j 0 xl) by (apply nth_error_Some; congruence).
    rewrite (nth_error_nth _ _ _ H). reflexivity.
  - cbn [nth]. rewrite H5. rewrite (mapi_nth _ _ 0 j 0 xl) by (apply nth_error_Some; congruence).
    rewrite (nth_error_nth _ _ _ H). reflexivity.
Qed.
Lemma range_obs x xl Theta nr : lrf_range x xl Theta nr = sqrt (obs_aa x xl Theta * obs_aa x xl Theta + obs_bb x xl Theta * obs_bb x xl Theta) + nr.
Proof. reflexivity. Qed.
Lemma bearing_obs am x xl Theta nb : lrf_bearing am x xl Theta nb = am (atan2 (obs_bb x xl Theta) (obs_aa x xl Theta) - x 2%nat - Theta 2%nat + nb).
Proof. reflexivity. Qed.
(** The error term of a simulated measurement, evaluated at the truth, is the noise that was drawn (as long as the bearing
    noise is below a half turn). *)
Theorem simulated_observation_error am T x0 Theta xls us wu wr wb k j xl :
  angle_mod_ok am -> (1 <= k <= length us)%nat -> nth_error xls j = Some xl -> - PI < wb k j < PI ->
  let d := lrf_simulate am T x0 Theta xls us wu wr wb in
  let e := obs_error am (entry (d_r d) k j) (entry (d_b d) k j) (nth k (d_true d) x0) xl Theta in
  e 0%nat = wr k j /\ e 1%nat = wb k j.
Proof.
  intros Ham Hk Hj Hb d e. destruct (simulate_nth am T x0 Theta xls us wu wr wb k Hk) as (_ & _ & _ & Hm).
  destruct (Hm j xl Hj) as [Er Eb]. unfold e, d. clear e d. rewrite Er, Eb. clear Er Eb Hm. set (x := nth k _ x0).
  rewrite range_obs, bearing_obs. unfold obs_error. cbv zeta.
  split; [ring|]. set (w := atan2 _ _ - x 2%nat - Theta 2%nat) in *. destruct (Ham (w + wb k j)) as [[n E] _]. rewrite E.
  apply (am_fix am _ _ (- n)); [exact Ham| |exact Hb]. rewrite opp_IZR. ring.
Qed.
Lemma step_coords am T x u :
  lrf_step am T x u = vec3 (x 0%nat + T * (cos (x 2%nat) * u 0%nat - sin (x 2%nat) * u 1%nat))
                           (x 1%nat + T * (sin (x 2%nat) * u 0%nat + cos (x 2%nat) * u 1%nat)) (am (x 2%nat + T * u 2%nat)).
Proof.
  unfold lrf_step, lrf_B, rmul, rsum, rset, rident. cbn [Nat.eqb andb]. f_equal; [| |f_equal]; ring.
Qed.
Lemma motion_after_step am T x u un : T <> 0 ->
  let e := motion_error T un x (lrf_step am T x u) in
  e 0%nat = un 0%nat - u 0%nat /\ e 1%nat = un 1%nat - u 1%nat
  /\ e 2%nat = un 2%nat - u 2%nat - (am (x 2%nat + T * u 2%nat) - (x 2%nat + T * u 2%nat)) / T.
Proof.
  intros HT e. unfold e. rewrite step_coords. unfold motion_error, rmul, rsum, rset, rident. cbn [Nat.eqb andb vec3].
  pose proof (sin2_cos2 (x 2%nat)) as P. unfold Rsqr in P. set (c := cos (x 2%nat)) in *. set (s := sin (x 2%nat)) in *.
  split; [|split].
  - replace (un 0%nat - _) with (un 0%nat - u 0%nat * (s * s + c * c)) by (field; exact HT). rewrite P. ring.
  - replace (un 1%nat - _) with (un 1%nat - u 1%nat * (s * s + c * c)) by (field; exact HT). rewrite P. ring.
  - field. exact HT.
Qed.
(** The same for the motion: the error at the true poses is the noise that was drawn, plus a multiple of a full turn per time
    step, which is 0 exactly if the heading was not wrapped in this step. *)
Theorem simulated_motion_error am T x0 Theta xls us wu wr wb k :
  angle_mod_ok am -> T <> 0 -> (1 <= k <= length us)%nat ->
  let d := lrf_simulate am T x0 Theta xls us wu wr wb in
  let e := motion_error T (nth k (d_u d) x0) (nth (k - 1) (d_true d) x0) (nth k (d_true d) x0) in
  let heading := nth (k - 1) (d_true d) x0 2%nat + T * nth (k - 1) us x0 2%nat in
  e 0%nat = wu k 0%nat /\ e 1%nat = wu k 1%nat /\
  exists n : Z, nth k (d_true d) x0 2%nat = heading - 2 * PI * IZR n /\ e 2%nat = wu k 2%nat + 2 * PI * IZR n / T
    /\ (- PI < heading < PI -> n = 0%Z) /\ (heading < - PI \/ PI < heading -> n <> 0%Z).
Proof.
  intros Ham HT Hk d e heading. destruct (simulate_nth am T x0 Theta xls us wu wr wb k Hk) as (Hx & _ & Hu & _).
  fold d in Hx, Hu. unfold e. rewrite Hx. set (x := nth (k - 1) (d_true d) x0) in *. set (u := nth (k - 1) us x0) in *.
  destruct (motion_after_step am T x u (nth k (d_u d) x0) HT) as (E0 & E1 & E2). rewrite E0, E1, E2, !Hu.
  split; [ring|]. split; [ring|]. fold heading. rewrite step_coords. cbn [vec3]. fold heading. pose proof PI_RGT_0 as Hp.
  destruct (Ham heading) as [[n E] Hb]. exists n. split; [exact E|]. split; [rewrite E; field; exact HT|]. split.
  - intros Hh. assert (Ea : am heading = heading) by (apply (am_fix am _ _ 0); [exact Ham|simpl; ring|exact Hh]).
    rewrite Ea in E. assert (P0 : 2 * PI * IZR n = 0) by lra. apply Rmult_integral in P0 as [P0|P0]; [lra|]. apply eq_IZR in P0. exact P0.
  - intros Hh ->. simpl in E. lra.
Qed.
(** So without noise the simulated data do not have zero error: whenever the heading passes a half turn, the motion error of the
    true poses is at least a full turn per time step. *)
Theorem simulated_motion_error_refuted am T x0 Theta xls us wu wr wb k :
  angle_mod_ok am -> 0 < T -> (1 <= k <= length us)%nat -> (forall i c, wu i c = 0) ->
  let d := lrf_simulate am T x0 Theta xls us wu wr wb in
  let e := motion_error T (nth k (d_u d) x0) (nth (k - 1) (d_true d) x0) (nth k (d_true d) x0) in
  let heading := nth (k - 1) (d_true d) x0 2%nat + T * nth (k - 1) us x0 2%nat in
  heading < - PI \/ PI < heading -> 2 * PI / T <= Rabs (e 2%nat).
Proof.
  intros Ham HT Hk Hw d e heading Hh.
  destruct (simulated_motion_error am T x0 Theta xls us wu wr wb k Ham (Rgt_not_eq _ _ HT) Hk) as (_ & _ & n & _ & E & _ & Hn).
  specialize (Hn Hh). fold d e in E. rewrite Hw in E. rewrite E, Rplus_0_l. unfold Rdiv. rewrite !Rabs_mult.
  pose proof PI_RGT_0 as Hp. rewrite (Rabs_pos_eq 2), (Rabs_pos_eq PI), (Rabs_pos_eq (/ T)) by (try apply Rlt_le, Rinv_0_lt_compat; lra).
  assert (Hi : 0 < / T) by (apply Rinv_0_lt_compat; exact HT).
  assert (H1 : 1 <= Rabs (IZR n)). { rewrite <- abs_IZR. apply IZR_le. lia. }
  apply Rmult_le_compat_r; [lra|]. nra.
Qed.
(** With and without noise the poses obey the discrete motion model; without noise the odometry is the true path. *)
Theorem simulated_poses am T x0 Theta xls us wu wr wb k : (1 <= k <= length us)%nat ->
  let d := lrf_simulate am T x0 Theta xls us wu wr wb in
  forall (path : list rvec) (u : rvec), (path = d_true d /\ u = nth (k - 1) us x0) \/ (path = d_odom d /\ u = nth k (d_u d) x0) ->
  let p := nth (k - 1) path x0 in let q := nth k path x0 in
  q 0%nat - p 0%nat = T * (u 0%nat * cos (p 2%nat) - u 1%nat * sin (p 2%nat))
  /\ q 1%nat - p 1%nat = T * (u 0%nat * sin (p 2%nat) + u 1%nat * cos (p 2%nat))
  /\ q 2%nat = am (p 2%nat + T * u 2%nat).
Proof.
  intros Hk d path u Hc p q. destruct (simulate_nth am T x0 Theta xls us wu wr wb k Hk) as (H1 & H2 & _). fold d in H1, H2.
  unfold p, q. destruct Hc as [[-> ->]|[-> ->]]; [rewrite H1|rewrite H2]; rewrite step_coords; cbn [vec3]; repeat split; ring.
Qed.
Theorem noiseless_odometry am T x0 Theta xls us wu wr wb : (forall i c, wu i c = 0) ->
  let d := lrf_simulate am T x0 Theta xls us wu wr wb in d_odom d = d_true d.
Proof.
  intros Hw d. unfold d, lrf_simulate. cbn [d_true d_odom]. f_equal. clear d.
  enough (G : forall i x, d_odom (lrf_loop am T Theta xls wu wr wb i x x us) = d_true (lrf_loop am T Theta xls wu wr wb i x x us)) by apply G.
  induction us as [|u us IH]; intros i x; [reflexivity|]. cbn [lrf_loop d_true d_odom].
  assert (E : lrf_step am T x (fun k => u k + wu i k) = lrf_step am T x u).
  { rewrite !step_coords, !Hw, !Rplus_0_r. reflexivity. }
  rewrite E, IH. reflexivity.
Qed.

(** * C83: the guess of the landmarks *)
Definition il_point (x Theta : rvec) (r b : R) : rvec :=
  vec2 (x 0%nat + Theta 0%nat * cos (x 2%nat) - Theta 1%nat * sin (x 2%nat) + r * cos (b + Theta 2%nat + x 2%nat))
       (x 1%nat + Theta 0%nat * sin (x 2%nat) + Theta 1%nat * cos (x 2%nat) + r * sin (b + Theta 2%nat + x 2%nat)).
Lemma il_row_spec x Theta ri bi d0 : forall s j0, (j0 + length s <= length ri)%nat -> (j0 + length s <= length bi)%nat ->
  exists s', il_row x Theta (Some ri) (Some bi) j0 s = Some s' /\ length s' = length s
    /\ forall j, (j < length s)%nat -> nth j s' d0 =
         if snd (nth j s d0) then (fst (nth j s d0), true)
         else if Rlt_dec 0 (nth (j0 + j) ri 0) then (il_point x Theta (nth (j0 + j) ri 0) (nth (j0 + j) bi 0), true)
         else (fst (nth j s d0), false).
Proof.
  induction s as [|[l f] s IH]; intros j0 Hr Hb; cbn [length] in *; [exists []; repeat split; intros; lia|].
  destruct (IH (S j0) ltac:(lia) ltac:(lia)) as (s' & E & Hl & Hn). cbn [il_row]. rewrite E. unfold il_cell.
  assert (Er : nth_error ri j0 = Some (nth j0 ri 0)) by (apply nth_error_nth'; lia).
  assert (Eb : nth_error bi j0 = Some (nth j0 bi 0)) by (apply nth_error_nth'; lia). rewrite Er, Eb.
  assert (Hrest : forall c j, (j < length s)%nat -> nth (S j) (c :: s') d0 =
         if snd (nth (S j) ((l, f) :: s) d0) then (fst (nth (S j) ((l, f) :: s) d0), true)
         else if Rlt_dec 0 (nth (j0 + S j) ri 0) then (il_point x Theta (nth (j0 + S j) ri 0) (nth (j0 + S j) bi 0), true)
         else (fst (nth (S j) ((l, f) :: s) d0), false)).
  { intros c j Hj. cbn [nth]. rewrite (Hn j Hj). replace (j0 + S j)%nat with (S j0 + j)%nat by lia. reflexivity. }
  destruct f; [|destruct (Rlt_dec 0 (nth j0 ri 0)) as [Hp|Hp]]; eexists;
    (split; [reflexivity|split; [simpl; lia|intros [|j] Hj; [cbn [nth fst snd]; rewrite ?Nat.add_0_r|apply Hrest; lia]]]).
  - reflexivity.
  - destruct (Rlt_dec _ _); [reflexivity|contradiction].
  - destruct (Rlt_dec _ _); [contradiction|reflexivity].
Qed.
Definition il_inv (Theta : rvec) (xs : list rvec) (r b : list (list R)) (i j : nat) (c : rvec * bool) : Prop :=
  (snd c = false /\ fst c = vec2 0 0 /\ (forall i', (i' < i)%nat -> entry r i' j <= 0))
  \/ (snd c = true /\ exists i0, first_sighting r i j i0 /\ fst c = il_point (nth i0 xs (vec3 0 0 0)) Theta (entry r i0 j) (entry b i0 j)).
Lemma il_rows_spec Theta xs r b nl : table (length xs) nl r -> table (length xs) nl b ->
  forall rest i s, xs = firstn i xs ++ rest -> length (firstn i xs) = i -> length s = nl ->
  (forall j, (j < nl)%nat -> il_inv Theta xs r b i j (nth j s (vec2 0 0, false))) ->
  exists s', il_rows Theta r b i rest s = Some s' /\ length s' = nl
    /\ forall j, (j < nl)%nat -> il_inv Theta xs r b (length xs) j (nth j s' (vec2 0 0, false)).
Proof.
  intros [Hr1 Hr2] [Hb1 Hb2]. induction rest as [|x rest IH]; intros i s Hx Hi Hs Hinv.
  - exists s. rewrite app_nil_r in Hx. assert (El : length xs = i) by (rewrite Hx; exact Hi). rewrite El. auto.
  - assert (Hlen : (i < length xs)%nat). { rewrite Hx, app_length, Hi. simpl. lia. }
    assert (Ex : nth i xs (vec3 0 0 0) = x). { rewrite Hx, app_nth2, Hi, Nat.sub_diag by lia. reflexivity. }
    cbn [il_rows].
    assert (Er : nth_error r i = Some (nth i r [])) by (apply nth_error_nth'; lia).
    assert (Eb : nth_error b i = Some (nth i b [])) by (apply nth_error_nth'; lia). rewrite Er, Eb.
    destruct (il_row_spec x Theta (nth i r []) (nth i b []) (vec2 0 0, false) s 0) as (s1 & E1 & L1 & N1).
    { specialize (Hr2 i Hlen). simpl. lia. } { specialize (Hb2 i Hlen). simpl. lia. }
    rewrite E1. apply IH.
    + rewrite Hx at 1. change (x :: rest) with ([x] ++ rest). rewrite app_assoc. f_equal.
      rewrite Hx at 2. rewrite firstn_app, Hi. replace (S i - i)%nat with 1%nat by lia.
      rewrite (firstn_all2 (n := S i) (firstn i xs)) by lia. reflexivity.
    + rewrite firstn_length. lia.
    + lia.
    + intros j Hj. rewrite (N1 j) by lia. cbn [Nat.add]. specialize (Hinv j Hj).
      destruct (nth j s (vec2 0 0, false)) as [l f]. cbn [fst snd] in *. unfold il_inv in *. cbn [fst snd] in *. destruct f.
      * right. destruct Hinv as [[? _]|(_ & i0 & Hf & He)]; [discriminate|]. split; [reflexivity|]. exists i0. split; [|exact He].
        destruct Hf as (? & ? & ?). split; [lia|auto].
      * destruct Hinv as [(_ & Hl & Hz)|[? _]]; [|discriminate]. fold (entry r i j). fold (entry b i j). destruct (Rlt_dec 0 (entry r i j)) as [Hp|Hp].
        -- right. split; [reflexivity|]. exists i. split; [split; [lia|split; [exact Hp|exact Hz]]|]. cbn [fst]. rewrite Ex. reflexivity.
        -- left. split; [reflexivity|]. split; [exact Hl|]. intros i' Hi'. destruct (Nat.eq_dec i' i) as [->|]; [lra|apply Hz; lia].
Qed.
(** Every landmark that is ever seen is placed where its first sighting puts it, later sightings do not matter; a landmark that
    is never seen is put at the origin. *)
Theorem landmarks_first_sighting old xs Theta r b : r <> [] -> let nl := length (nth 0 r []) in
  table (length xs) nl r -> table (length xs) nl b ->
  exists ls, initLandmarks old xs Theta r b = Some ls /\ length ls = nl
    /\ (forall j i, (j < nl)%nat -> first_sighting r (length xs) j i ->
          seen_at (nth i xs (vec3 0 0 0)) Theta (entry r i j) (entry b i j) (nth j ls (vec2 0 0)))
    /\ (forall j, (j < nl)%nat -> (forall i, (i < length xs)%nat -> entry r i j <= 0) -> nth j ls (vec2 0 0) = vec2 0 0).
Proof.
  intros Hr nl Hr' Hb'. destruct r as [|r0 r]; [contradiction|]. unfold initLandmarks.
  destruct (il_rows_spec Theta xs (r0 :: r) b nl Hr' Hb' xs 0 (repeat (vec2 0 0, false) (length r0))) as (s & E & L & N).
  - reflexivity.
  - reflexivity.
  - apply repeat_length.
  - intros j Hj. left. rewrite nth_repeat. repeat split. intros; lia.
  - rewrite E. exists (map fst s). split; [reflexivity|]. split; [rewrite map_length; exact L|].
    assert (Hm : forall j, nth j (map fst s) (vec2 0 0) = fst (nth j s (vec2 0 0, false))).
    { intros j. change (vec2 0 0) with (fst (vec2 0 0, false)) at 1. apply map_nth. }
    split.
    + intros j i Hj (H1 & H2 & H3). rewrite Hm. destruct (N j Hj) as [(_ & _ & Hz)|(_ & i0 & (F1 & F2 & F3) & He)].
      * specialize (Hz i H1). lra.
      * assert (i0 = i). { destruct (Nat.lt_trichotomy i0 i) as [Hlt|[Heq|Hlt]]; [specialize (H3 _ Hlt); lra|exact Heq|specialize (F3 _ Hlt); lra]. }
        subst i0. rewrite He. unfold il_point, seen_at, sensor_x, sensor_y. cbn [vec2].
        replace (nth i xs (vec3 0 0 0) 2%nat + Theta 2%nat + entry b i j) with (entry b i j + Theta 2%nat + nth i xs (vec3 0 0 0) 2%nat) by ring. split; reflexivity.
    + intros j Hj Hz. rewrite Hm. destruct (N j Hj) as [(_ & He & _)|(_ & i0 & (F1 & F2 & F3) & _)]; [exact He|].
      specialize (Hz i0 F1). lra.
Qed.
(** Without measurements the argument is returned unchanged, not cleared. *)
Theorem landmarks_no_data old xs Theta b : initLandmarks old xs Theta [] b = Some old.
Proof. reflexivity. Qed.
(** Fewer rows of measurements than poses: undefined, if a landmark is still missing then. *)
Theorem landmarks_undefined_refuted old xs Theta r b j : r <> [] -> (length r < length xs)%nat -> (j < length (nth 0 r []))%nat ->
  (forall i, (i < length r)%nat -> entry r i j <= 0) -> initLandmarks old xs Theta r b = None.
Proof.
  intros Hr Hlen Hj Hz. destruct r as [|r0 r]; [contradiction|]. unfold initLandmarks. cbn [nth] in Hj.
  assert (G : forall xs i s, nth_error s j = Some (vec2 0 0, false) -> (i <= length (r0 :: r))%nat -> (length (r0 :: r) < i + length xs)%nat ->
            il_rows Theta (r0 :: r) b i xs s = None).
  { clear xs Hlen. assert (Hrow : forall x ri bi s j0 k, nth_error s k = Some (vec2 0 0, false) ->
      (ri = None \/ exists l, ri = Some l /\ nth (j0 + k) l 0 <= 0) ->
      forall s', il_row x Theta ri bi j0 s = Some s' -> ri <> None /\ nth_error s' k = Some (vec2 0 0, false)).
    { intros x ri bi. induction s as [|[l f] s IH]; intros j0 k Hk Hc s' Hs; [destruct k; discriminate|]. cbn [il_row] in Hs.
      destruct (il_cell x Theta ri bi j0 l f) as [c|] eqn:Ec; [|discriminate].
      destruct (il_row x Theta ri bi (S j0) s) as [s1|] eqn:E1; [|discriminate]. injection Hs as <-. destruct k as [|k].
      - cbn [nth_error] in *. injection Hk as -> ->. unfold il_cell in Ec. rewrite Nat.add_0_r in Hc.
        destruct Hc as [->|(w & -> & Hw)]; [discriminate|]. split; [discriminate|].
        destruct (nth_error w j0) as [v|] eqn:Ev; [|discriminate]. rewrite (nth_error_nth _ _ _ Ev) in Hw.
        destruct (Rlt_dec 0 v); [lra|]. injection Ec as <-. reflexivity.
      - cbn [nth_error] in *. apply (IH (S j0) k Hk); [|exact E1]. replace (S j0 + k)%nat with (j0 + S k)%nat by lia. exact Hc. }
    induction xs as [|x xs IH]; intros i s Hs Hi Hl; cbn [length] in *; [lia|]. cbn [il_rows].
    destruct (il_row x Theta (nth_error (r0 :: r) i) (nth_error b i) 0 s) as [s1|] eqn:E1; [|reflexivity].
    destruct (nth_error (r0 :: r) i) as [ri|] eqn:Ei.
    - assert (Hi' : (i < length (r0 :: r))%nat) by (apply nth_error_Some; congruence).
      destruct (Hrow x (Some ri) (nth_error b i) s 0%nat j Hs) with (s' := s1) as [_ Hn]; [right; exists ri; split; [reflexivity|]|exact E1|].
      + specialize (Hz i Hi'). unfold entry in Hz. rewrite (nth_error_nth _ _ _ Ei) in Hz. exact Hz.
      + apply IH; [exact Hn|cbn [length] in *; lia|cbn [length]; lia].
    - destruct (Hrow x None (nth_error b i) s 0%nat j Hs (or_introl eq_refl) s1 E1) as [Hn _]. contradiction. }
  rewrite G; [reflexivity| |cbn [length]; lia|exact Hlen].
  assert (Hn : nth_error (repeat (vec2 0 0, false) (length r0)) j = Some (nth j (repeat (vec2 0 0, false) (length r0)) (vec2 0 0, false))).
  { apply nth_error_nth'. rewrite repeat_length. exact Hj. }
  rewrite Hn, nth_repeat. reflexivity.
Qed.
Lemma classic_search (P : nat -> Prop) (dec : forall i, {P i} + {~ P i}) n : (exists i, (i < n)%nat /\ P i) \/ (forall i, (i < n)%nat -> ~ P i).
Proof.
  induction n as [|n [(i & Hi & Hp)|Hno]]; [right; intros; lia|left; exists i; split; [lia|exact Hp]|].
  destruct (dec n) as [H|H]; [left; exists n; split; [lia|exact H]|]. right. intros i Hi. destruct (Nat.eq_dec i n) as [->|]; [exact H|apply Hno; lia].
Qed.
(** From the true poses, the true mounting and measurements without noise, the guess is exactly the map: for every landmark that the
    sensor is not on top of all the time. *)
Theorem landmarks_reconstructed am T x0 Theta xls us wu wr wb old : angle_mod_ok am ->
  (forall i c, wu i c = 0) -> (forall i j, wr i j = 0) -> (forall i j, wb i j = 0) ->
  let d := lrf_simulate am T x0 Theta xls us wu wr wb in
  exists ls, initLandmarks old (d_odom d) Theta (d_r d) (d_b d) = Some ls /\ length ls = length xls
    /\ forall j xl, nth_error xls j = Some xl -> (exists k, (1 <= k <= length us)%nat /\ 0 < distance_to (nth k (d_true d) x0) Theta xl) ->
         nth j ls (vec2 0 0) 0%nat = xl 0%nat /\ nth j ls (vec2 0 0) 1%nat = xl 1%nat.
Proof.
  intros Ham Hu Hr Hb d. destruct (simulation_lengths am T x0 Theta xls us wu wr wb) as (L1 & L2 & _ & Tr & Tb & _). fold d in L1, L2, Tr, Tb.
  assert (Ho : d_odom d = d_true d) by (apply noiseless_odometry; exact Hu).
  assert (E0 : nth 0 (d_r d) [] = repeat 0 (length xls)) by reflexivity.
  destruct (landmarks_first_sighting old (d_odom d) Theta (d_r d) (d_b d)) as (ls & E & L & S & _).
  - discriminate.
  - rewrite E0, repeat_length, L2. exact Tr.
  - rewrite E0, repeat_length, L2. exact Tb.
  - rewrite E0, repeat_length in *. exists ls. split; [exact E|]. split; [exact L|]. intros j xl Hj (k & Hk & Hd).
    assert (Hjl : (j < length xls)%nat) by (apply nth_error_Some; congruence).
    assert (Hcell : forall k, (1 <= k <= length us)%nat ->
       entry (d_r d) k j = lrf_range (nth k (d_true d) x0) xl Theta 0 /\ entry (d_b d) k j = lrf_bearing am (nth k (d_true d) x0) xl Theta 0).
    { intros k' Hk'. destruct (simulate_nth am T x0 Theta xls us wu wr wb k' Hk') as (_ & _ & _ & Hm).
      destruct (Hm j xl Hj) as [A B]. rewrite Hr in A. rewrite Hb in B. split; assumption. }
    assert (Hdist : forall k, lrf_range (nth k (d_true d) x0) xl Theta 0 = distance_to (nth k (d_true d) x0) Theta xl).
    { intros k'. unfold lrf_range, distance_to, sensor_x, sensor_y. rewrite Rplus_0_r. f_equal. ring. }
    assert (Hrow0 : entry (d_r d) 0 j = 0). { unfold entry. rewrite E0. rewrite nth_repeat. reflexivity. }
    (* the first sighting *)
    assert (Hfirst : exists i, first_sighting (d_r d) (length (d_odom d)) j i).
    { assert (G : forall n, (exists i, (i < n)%nat /\ 0 < entry (d_r d) i j) -> exists i, first_sighting (d_r d) n j i).
      { induction n as [|n IH]; intros (i & Hi & Hp); [lia|].
        destruct (Rlt_dec 0 (entry (d_r d) n j)) as [Hn|Hn].
        - destruct (classic_search _ (fun i => Rlt_dec 0 (entry (d_r d) i j)) n) as [(m & Hm & Hmp)|Hno].
          + destruct (IH (ex_intro _ m (conj Hm Hmp))) as (i0 & F1 & F2). exists i0. split; [lia|exact F2].
          + exists n. split; [lia|]. split; [exact Hn|]. intros i' Hi'. specialize (Hno i' Hi'). lra.
        - assert (i <> n) by (intros ->; contradiction). assert (Hi' : (i < n)%nat) by lia. destruct (IH (ex_intro _ i (conj Hi' Hp))) as (i0 & F1 & F2).
          exists i0. split; [lia|exact F2]. }
      apply G. exists k. split; [lia|]. destruct (Hcell k Hk) as [-> _]. rewrite Hdist. exact Hd. }
    destruct Hfirst as (i & F). pose proof F as (F1 & F2 & _). assert (Hi : (1 <= i <= length us)%nat).
    { split; [|lia]. destruct i; [rewrite Hrow0 in F2; lra|lia]. }
    destruct (S j i Hjl F) as [S0 S1]. rewrite S0, S1. clear S0 S1 S. destruct (Hcell i Hi) as [Er Eb]. rewrite Er in *. rewrite Eb. clear Er Eb.
    rewrite Ho, (nth_indep _ (vec3 0 0 0) x0) by lia. set (x := nth i (d_true d) x0) in *.
    rewrite bearing_obs, Rplus_0_r. rewrite range_obs, Rplus_0_r in *.
    set (a := obs_aa x xl Theta) in *. set (bb := obs_bb x xl Theta) in *.
    assert (Hn : a * a + bb * bb <> 0). { intros E1. rewrite E1, sqrt_0 in F2. lra. }
    destruct (atan2_polar a bb Hn) as [Pa Pb]. set (w := atan2 bb a) in *.
    destruct (Ham (w - x 2%nat - Theta 2%nat)) as [[n En] _]. rewrite En.
    replace (x 2%nat + Theta 2%nat + (w - x 2%nat - Theta 2%nat - 2 * PI * IZR n)) with (w - 2 * PI * IZR n) by ring.
    destruct (turn_Z w n) as [-> ->]. rewrite <- Pa, <- Pb. unfold a, bb, obs_aa, obs_bb, sensor_x, sensor_y. split; ring.
Qed.

(** ** The programs: simulation of the sine path *)
(** With an initial heading of at most a quarter turn the heading is never wrapped: it is the initial heading plus the direction of
    the slope, and the motion error of the true poses is exactly the noise that was drawn. *)
Theorem sine_simulation steps amp f T u fuel am x0 Theta xls wu wr wb k :
  0 < T -> (steps < fuel)%nat -> genSineWavePath fuel steps amp f T = Some u -> angle_mod_ok am -> - (PI / 2) <= x0 2%nat <= PI / 2 ->
  (1 <= k < steps)%nat ->
  let d := lrf_simulate am T x0 Theta xls (firstn (steps - 1) (tl u)) wu wr wb in
  let e := motion_error T (nth k (d_u d) x0) (nth (k - 1) (d_true d) x0) (nth k (d_true d) x0) in
  nth k (d_true d) x0 2%nat = x0 2%nat + atan (amp * cos (2 * PI * f * (INR k * T)))
  /\ e 0%nat = wu k 0%nat /\ e 1%nat = wu k 1%nat /\ e 2%nat = wu k 2%nat.
Proof.
  intros HT Hf Hu Ham Hx0 Hk d. set (us := firstn (steps - 1) (tl u)) in *.
  destruct (sine_path_length steps amp f T HT) as (u' & Hu' & Lu & _). rewrite (Hu' fuel Hf) in Hu. injection Hu as ->.
  specialize (Hu' fuel Hf). assert (Ltl : length (tl u) = (Nat.max 1 steps - 1)%nat). { destruct u; simpl in *; lia. }
  assert (Lus : length us = (steps - 1)%nat). { unfold us. rewrite firstn_length, Ltl. lia. }
  assert (Hnth : forall i, (1 <= i < steps)%nat -> nth (i - 1) us x0 = nth i u (vec3 0 0 0)).
  { intros i Hi. unfold us. rewrite (nth_indep _ x0 (vec3 0 0 0)) by (fold us; lia).
    assert (G : forall (l : list rvec) n m dd, (m < n)%nat -> nth m (firstn n l) dd = nth m l dd).
    { induction l as [|y l IHl]; intros [|n] [|m] dd Hm; try reflexivity; try lia. cbn [firstn nth]. apply IHl. lia. }
    rewrite G by lia. destruct i as [|i]; [lia|]. replace (S i - 1)%nat with i by lia. destruct u; [destruct i|]; reflexivity. }
  assert (Hhead : forall i, (i < steps)%nat -> nth i (d_true d) x0 2%nat = x0 2%nat + sum_to i (fun i => T * nth i u (vec3 0 0 0) 2%nat)
             /\ (forall i', i = S i' -> nth i' (d_true d) x0 2%nat + T * nth i' us x0 2%nat = x0 2%nat + sum_to i (fun i => T * nth i u (vec3 0 0 0) 2%nat))).
  { induction i as [|i IH]; intros Hi.
    - split; [cbn [sum_to]; unfold d, lrf_simulate; cbn [d_true nth]; ring|intros; discriminate].
    - destruct IH as [IH _]; [lia|].
      assert (Hraw : nth i (d_true d) x0 2%nat + T * nth i us x0 2%nat = x0 2%nat + sum_to (S i) (fun i => T * nth i u (vec3 0 0 0) 2%nat)).
      { rewrite IH. cbn [sum_to]. rewrite <- (Hnth (S i)) by lia. replace (S i - 1)%nat with i by lia. ring. }
      split; [|intros i' [= <-]; exact Hraw].
      destruct (simulate_nth am T x0 Theta xls us wu wr wb (S i)) as (H1 & _); [lia|]. fold d in H1. rewrite H1, step_coords. cbn [vec3].
      replace (S i - 1)%nat with i by lia. rewrite Hraw. apply (am_fix am _ _ 0); [exact Ham|simpl; ring|].
      rewrite (sine_path_heading steps amp f T u fuel (S i)) by (assumption || lia).
      pose proof (atan_bound (amp * cos (2 * PI * f * (INR (S i) * T)))). lra. }
  intros e. destruct (Hhead k ltac:(lia)) as [Hk1 Hk2]. rewrite (sine_path_heading steps amp f T u fuel k) in Hk1, Hk2 by assumption.
  split; [exact Hk1|].
  destruct (simulated_motion_error am T x0 Theta xls us wu wr wb k Ham (Rgt_not_eq _ _ HT)) as (E0 & E1 & n & _ & E2 & Hn & _); [lia|].
  split; [exact E0|]. split; [exact E1|]. fold d in E2, Hn. unfold e. rewrite E2.
  destruct k as [|k]; [lia|]. replace (S k - 1)%nat with k in Hn by lia. rewrite (Hk2 k eq_refl) in Hn.
  rewrite Hn; [simpl; field; lra|]. pose proof (atan_bound (amp * cos (2 * PI * f * (INR (S k) * T)))). lra.
Qed.

(** ** Examples *)
(** The hypotheses of the refutation are met: half a turn plus a bit, in one step. *)
Example wrap_example :
  let us := [vec3 0 0 2] in let x0 := vec3 0 0 3 in let no := (fun _ _ => 0) in
  let d := lrf_simulate round_angle 1 x0 (vec3 0 0 0) [] us no no no in
  PI < nth 0 (d_true d) x0 2%nat + 1 * nth 0 us x0 2%nat
  /\ 2 * PI / 1 <= Rabs (motion_error 1 (nth 1 (d_u d) x0) (nth 0 (d_true d) x0) (nth 1 (d_true d) x0) 2%nat).
Proof.
  intros us x0 no d. assert (H : PI < nth 0 (d_true d) x0 2%nat + 1 * nth 0 us x0 2%nat).
  { unfold d, lrf_simulate. cbn [d_true nth us x0 vec3]. pose proof PI_4. lra. }
  split; [exact H|].
  apply (simulated_motion_error_refuted round_angle 1 x0 (vec3 0 0 0) [] us no no no 1 round_angle_ok); [lra|simpl; lia|reflexivity|].
  right. exact H.
Qed.
(** One landmark, seen in one step of one metre. *)
Example reconstruct_example :
  let us := [vec3 1 0 0] in let x0 := vec3 0 0 0 in let no := (fun _ _ => 0) in let xls := [vec2 5 0] in
  let d := lrf_simulate round_angle 1 x0 (vec3 0 0 0) xls us no no no in
  exists ls, initLandmarks [] (d_odom d) (vec3 0 0 0) (d_r d) (d_b d) = Some ls /\ nth 0 ls (vec2 0 0) 0%nat = 5 /\ nth 0 ls (vec2 0 0) 1%nat = 0.
Proof.
  intros us x0 no xls d.
  destruct (landmarks_reconstructed round_angle 1 x0 (vec3 0 0 0) xls us no no no [] round_angle_ok) as (ls & E & _ & H); try reflexivity.
  exists ls. split; [exact E|]. apply (H 0%nat (vec2 5 0) eq_refl). exists 1%nat. split; [simpl; lia|].
  unfold lrf_simulate. cbn [d_true nth lrf_loop us]. rewrite step_coords. unfold x0, distance_to, sensor_x, sensor_y. cbn [vec2 vec3].
  rewrite cos_0, sin_0. apply sqrt_lt_R0. lra.
Qed.
Example undefined_example : initLandmarks [] [vec3 0 0 0; vec3 0 0 0] (vec3 0 0 0) [[0]] [[0]] = None.
Proof.
  apply (landmarks_undefined_refuted _ _ _ _ _ 0); [discriminate|simpl; lia|simpl; lia|].
  intros [|i] Hi; simpl in *; [unfold entry; simpl; lra|lia].
Qed.
Print Assumptions sine_simulation.
Print Assumptions landmarks_reconstructed.
Print Assumptions landmarks_undefined_refuted.
