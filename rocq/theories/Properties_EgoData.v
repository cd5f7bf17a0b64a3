(** Properties of the sensor data of the egomotion simulator and their use by the calibrator (C90). *)
From Coq Require Import Reals List ZArith Lra Lia.
From Verif Require Import Base GeodeticModel Spec_Geodetic Properties_Geodetic SimEngineModel Spec_SimEngine.
Import ListNotations.
Local Open Scope R_scope.

(** * Transformations *)
Lemma mulv_add M a b : mulv M (add3 a b) = add3 (mulv M a) (mulv M b).
Proof. apply v3_eq; unfold mulv, add3, dot3; cbn [vx vy vz]; ring. Qed.
Lemma mulm_mulv A B p : mulv (mulm A B) p = mulv A (mulv B p).
Proof. apply v3_eq; unfold mulv, mulm, dot3; cbn [vx vy vz r1 r2 r3]; ring. Qed.
Lemma compose_apply S T p : apply_T (compose_T S T) p = apply_T S (apply_T T p).
Proof.
  unfold apply_T, compose_T. cbn [rot trans]. rewrite mulm_mulv, mulv_add. apply v3_eq; unfold add3; cbn [vx vy vz]; ring.
Qed.
Lemma inverse_left T p : orthogonal (rot T) -> apply_T (inverse_T T) (apply_T T p) = p.
Proof.
  intros [H1 H2]. unfold apply_T, inverse_T. cbn [rot trans]. rewrite mulv_add, H1. apply v3_eq; unfold add3, scale3; cbn [vx vy vz]; ring.
Qed.
Lemma mulv_scale M s a : mulv M (scale3 s a) = scale3 s (mulv M a).
Proof. apply v3_eq; unfold mulv, scale3, dot3; cbn [vx vy vz]; ring. Qed.
Lemma inverse_right T p : orthogonal (rot T) -> apply_T T (apply_T (inverse_T T) p) = p.
Proof.
  intros [H1 H2]. unfold apply_T, inverse_T. cbn [rot trans]. rewrite mulv_add, mulv_scale, !H2. apply v3_eq; unfold add3, scale3; cbn [vx vy vz]; ring.
Qed.
Lemma orthogonal_mulm A B : orthogonal A -> orthogonal B -> orthogonal (mulm A B).
Proof.
  intros [A1 A2] [B1 B2].
  assert (E : forall p, mulv (transpose (mulm A B)) p = mulv (transpose B) (mulv (transpose A) p)).
  { intros p. apply v3_eq; unfold mulv, transpose, mulm, dot3; cbn [vx vy vz r1 r2 r3]; ring. }
  split; intros p; rewrite E, !mulm_mulv; [rewrite A1; apply B1|rewrite B2; apply A2].
Qed.
Lemma orthogonal_ident : orthogonal ident3.
Proof. split; intros p; apply v3_eq; unfold mulv, transpose, ident3, dot3; cbn [vx vy vz r1 r2 r3]; ring. Qed.
(** Transformations that map every point alike are equal. *)
Lemma same_T_eq S T : same_T S T -> S = T.
Proof.
  intros H. pose proof (H (V3 0 0 0)) as H0. pose proof (H (V3 1 0 0)) as H1. pose proof (H (V3 0 1 0)) as H2. pose proof (H (V3 0 0 1)) as H3.
  unfold apply_T, add3, mulv, dot3 in *. destruct S as [[[a1 a2 a3] [b1 b2 b3] [c1 c2 c3]] [x y z]], T as [[[d1 d2 d3] [e1 e2 e3] [f1 f2 f3]] [x' y' z']].
  cbn [rot trans vx vy vz r1 r2 r3] in *. injection H0 as ? ? ?. injection H1 as ? ? ?. injection H2 as ? ? ?. injection H3 as ? ? ?.
  f_equal; f_equal; try (f_equal; lra); lra.
Qed.

(** * Times *)
(** The trajectory is sampled at every multiple of the step, from its start to its end, both included ... *)
Theorem ego_times_spec fuel : forall step tmax t l, ego_times fuel step tmax t = Some l -> (0 < step)%Z ->
  forall k, nth_error l k = if (t + Z.of_nat k * step <=? tmax)%Z then Some (t + Z.of_nat k * step)%Z else None.
Proof.
  induction fuel as [|fuel IH]; intros step tmax t l; [discriminate|]. cbn [ego_times]. destruct (Z.leb_spec t tmax) as [Ht|Ht].
  - destruct (ego_times fuel step tmax (t + step)) as [l'|] eqn:E; [|discriminate]. intros [= <-] Hs [|k].
    + cbn [nth_error]. rewrite Z.mul_0_l, Z.add_0_r. apply Z.leb_le in Ht as ->. reflexivity.
    + cbn [nth_error]. rewrite (IH _ _ _ _ E Hs k). replace (t + step + Z.of_nat k * step)%Z with (t + Z.of_nat (S k) * step)%Z by (rewrite Nat2Z.inj_succ; ring). reflexivity.
  - intros [= <-] Hs k. destruct (Z.leb_spec (t + Z.of_nat k * step) tmax); [|destruct k; reflexivity]. nia.
Qed.
(** ... if the step is positive, *)
Theorem ego_times_end step tmax t : (0 < step)%Z -> exists N, forall fuel, (N <= fuel)%nat -> exists l, ego_times fuel step tmax t = Some l.
Proof.
  intros Hs. exists (S (Z.to_nat (tmax - t + 1))). intros fuel Hf. assert (H : (tmax < t + Z.of_nat (fuel - 1) * step)%Z) by nia.
  assert (Hf' : (0 < fuel)%nat) by lia. clear Hf. revert t H. induction fuel as [|fuel IH]; intros t H; [lia|]. cbn [ego_times]. destruct (Z.leb_spec t tmax) as [Ht|Ht]; [|eexists; reflexivity].
  destruct fuel as [|fuel]; [cbn in H; lia|]. destruct (IH ltac:(lia) (t + step)%Z) as [l ->]; [|eexists; reflexivity].
  replace (S (S fuel) - 1)%nat with (S fuel) in H by lia. replace (S fuel - 1)%nat with fuel by lia. rewrite Nat2Z.inj_succ in H. lia.
Qed.
(** otherwise sampling never ends. *)
Theorem ego_times_never_end fuel : forall step tmax t, (step <= 0)%Z -> (t <= tmax)%Z -> ego_times fuel step tmax t = None.
Proof.
  induction fuel as [|fuel IH]; intros step tmax t Hs Ht; [reflexivity|]. cbn [ego_times]. rewrite (proj2 (Z.leb_le _ _) Ht), IH by lia. reflexivity.
Qed.

(** * Measurements *)
Section data.
Context (traj : Z -> transf) (cal : nat -> option (Z * transf)) (ref : nat) (noise : nat -> nat -> transf).
Notation rounds := (ego_rounds traj cal ref noise).
Definition motion_of (a b : transf) (k : nat) : transf :=
  if Nat.eqb k ref then compose_T (inverse_T a) b
  else match cal k with Some (_, m) => compose_T (compose_T (compose_T (inverse_T m) (inverse_T a)) b) m | None => ident_T end.
Definition known (k : nat) : Prop := k = ref \/ cal k <> None.
Lemma ego_motion_known a b t k : known k -> ego_motion cal ref a b t k = Ret ((t + sensor_delay cal ref k)%Z, motion_of a b k).
Proof.
  intros H. unfold ego_motion, sensor_delay, motion_of. destruct (Nat.eqb_spec k ref) as [->|Hk]; [rewrite Z.add_0_r; reflexivity|].
  destruct H as [H|H]; [contradiction|]. destruct (cal k) as [[d m]|]; [reflexivity|contradiction].
Qed.
Definition push_of (i : nat) (a b : transf) (t : Z) (k : nat) : push :=
  Push k (t + sensor_delay cal ref k)%Z (motion_of a b k) (compose_T (motion_of a b k) (noise i k)).
Lemma ego_round_known i a b t sensors : Forall known sensors -> ego_round cal ref noise i a b t sensors = Ret (map (push_of i a b t) sensors).
Proof.
  induction 1 as [|k sensors Hk Hs IH]; [reflexivity|]. cbn [ego_round]. rewrite ego_motion_known by exact Hk. cbn [rbind]. rewrite IH. reflexivity.
Qed.
Fixpoint pushes (i : nat) (prev : Z) (times : list Z) (sensors : list nat) : list push :=
  match times with [] => [] | t :: times => map (push_of i (traj prev) (traj t) t) sensors ++ pushes (S i) t times sensors end.
Lemma ego_rounds_known times sensors : forall i prev, Forall known sensors -> rounds i (Some (traj prev)) times sensors = Ret (pushes i prev times sensors).
Proof.
  induction times as [|t times IH]; intros i prev Hs; [reflexivity|]. cbn [ego_rounds]. rewrite ego_round_known by exact Hs. cbn [rbind]. rewrite IH by exact Hs. reflexivity.
Qed.
Lemma ego_rounds_all times sensors : Forall known sensors ->
  rounds 0 None times sensors = Ret (match times with [] => [] | t :: times => pushes 1 t times sensors end).
Proof. intros Hs. destruct times as [|t times]; [reflexivity|]. cbn [ego_rounds rbind]. rewrite ego_rounds_known by exact Hs. reflexivity. Qed.
Lemma filter_one i a b t k sensors : NoDup sensors -> In k sensors ->
  filter (fun p => Nat.eqb (pu_sensor p) k) (map (push_of i a b t) sensors) = [push_of i a b t k].
Proof.
  induction sensors as [|x sensors IH]; intros Hnd Hin; [destruct Hin|]. cbn [map filter]. cbn [push_of pu_sensor]. apply NoDup_cons_iff in Hnd as [Hx Hnd].
  destruct (Nat.eqb_spec x k) as [->|Hne].
  - f_equal. clear -Hx. induction sensors as [|y sensors IH]; [reflexivity|]. cbn [map filter]. cbn [push_of pu_sensor]. destruct (Nat.eqb_spec y k) as [->|]; [exfalso; apply Hx; left; reflexivity|].
    apply IH. intros H. apply Hx. right. exact H.
  - apply IH; [exact Hnd|]. destruct Hin as [|]; [contradiction|assumption].
Qed.
Lemma filter_none i a b t k sensors : ~ In k sensors -> filter (fun p => Nat.eqb (pu_sensor p) k) (map (push_of i a b t) sensors) = [].
Proof.
  induction sensors as [|x sensors IH]; intros Hin; [reflexivity|]. cbn [map filter]. cbn [push_of pu_sensor]. destruct (Nat.eqb_spec x k) as [->|]; [exfalso; apply Hin; left; reflexivity|].
  apply IH. intros H. apply Hin. right. exact H.
Qed.
Lemma pushes_data k sensors times : forall i prev, NoDup sensors -> In k sensors ->
  map (fun p => (pu_stamp p, pu_motion p, pu_noisy p)) (filter (fun p => Nat.eqb (pu_sensor p) k) (pushes i prev times sensors)) =
  map (fun '(j, (a, b)) => ((b + sensor_delay cal ref k)%Z, motion_of (traj a) (traj b) k, compose_T (motion_of (traj a) (traj b) k) (noise j k)))
      (combine (seq i (length times)) (successive (prev :: times))).
Proof.
  induction times as [|t times IH]; intros i prev Hnd Hin; [reflexivity|]. cbn [pushes]. rewrite filter_app, map_app, filter_one by assumption. cbn [map app length seq].
  rewrite IH by assumption. unfold successive. cbn [tl combine map]. reflexivity.
Qed.
Lemma data_triples l k : motionData l k = map (fun '(a, b, _) => (a, b)) (map (fun p => (pu_stamp p, pu_motion p, pu_noisy p)) (filter (fun p => Nat.eqb (pu_sensor p) k) l))
  /\ motionDataNoisy l k = map (fun '(a, _, c) => (a, c)) (map (fun p => (pu_stamp p, pu_motion p, pu_noisy p)) (filter (fun p => Nat.eqb (pu_sensor p) k) l)).
Proof. unfold motionData, motionDataNoisy. rewrite !map_map. split; reflexivity. Qed.
(** The simulator's motion of a sensor is the motion between its poses. *)
Lemma motion_of_between a b k S T : known k -> orthogonal (rot (traj a)) -> (forall d m, cal k = Some (d, m) -> orthogonal (rot m)) ->
  sensor_pose_is traj cal ref k a S -> sensor_pose_is traj cal ref k b T -> motion_between S T (motion_of (traj a) (traj b) k).
Proof.
  intros Hk Ha Hm HS HT p. rewrite HS, HT. unfold motion_of. destruct (Nat.eqb_spec k ref) as [->|Hne].
  - rewrite compose_apply. apply inverse_right, Ha.
  - destruct Hk as [|Hk]; [contradiction|]. destruct (cal k) as [[d m]|]; [|contradiction]. specialize (Hm d m eq_refl).
    rewrite !compose_apply, inverse_right by exact Hm. apply inverse_right, Ha.
Qed.
(** One measurement per sensor and pair of successive times, in order, for every sensor (so all sensors have equally many): stamped
    with the second time plus the sensor's delay, the motion of the sensor between the two times. *)
Theorem ego_measurements times sensors k : NoDup sensors -> Forall known sensors -> In k sensors ->
  (forall t, orthogonal (rot (traj t))) -> (forall k d m, cal k = Some (d, m) -> orthogonal (rot m)) ->
  exists l, rounds 0 None times sensors = Ret l
  /\ Forall2 (fun '(a, b) '(stamp, m) => stamp = (b + sensor_delay cal ref k)%Z
       /\ forall S T, sensor_pose_is traj cal ref k a S -> sensor_pose_is traj cal ref k b T -> motion_between S T m)
     (successive times) (motionData l k)
  /\ Forall2 (fun '(i, (stamp, m)) '(stamp', m') => stamp' = stamp /\ forall p, apply_T m' p = apply_T m (apply_T (noise i k) p))
     (combine (seq 1 (length times - 1)) (motionData l k)) (motionDataNoisy l k).
Proof.
  intros Hnd Hkn Hin Ho Hc. rewrite ego_rounds_all by exact Hkn. eexists. split; [reflexivity|]. destruct times as [|t0 times]; [split; constructor|].
  destruct (data_triples (pushes 1 t0 times sensors) k) as [-> ->]. rewrite pushes_data by assumption.
  replace (length (t0 :: times) - 1)%nat with (length times) by (cbn [length]; lia).
  assert (Hk : known k) by (rewrite Forall_forall in Hkn; apply Hkn, Hin). generalize 1%nat as i. revert t0.
  induction times as [|t1 times IH]; intros t0 i; [split; constructor|]. destruct (IH t1 (S i)) as [IH1 IH2].
  unfold successive in *. cbn [tl combine map length seq] in *. split; constructor.
  - split; [reflexivity|]. intros S T HS HT. apply (motion_of_between t0 t1 k S T Hk (Ho t0)); [intros d m; apply Hc|exact HS|exact HT].
  - exact IH1.
  - split; [reflexivity|]. intros p. apply compose_apply.
  - exact IH2.
Qed.
Theorem ego_other_sensors times sensors k l : Forall known sensors -> ~ In k sensors -> rounds 0 None times sensors = Ret l ->
  motionData l k = [] /\ motionDataNoisy l k = [].
Proof.
  intros Hs Hk. rewrite ego_rounds_all by exact Hs. intros [= <-]. assert (G : forall times i prev, filter (fun p => Nat.eqb (pu_sensor p) k) (pushes i prev times sensors) = []).
  { clear times. induction times as [|t times IH]; intros i prev; [reflexivity|]. cbn [pushes]. rewrite filter_app, filter_none, IH by exact Hk. reflexivity. }
  unfold motionData, motionDataNoisy. destruct times as [|t times]; [split; reflexivity|]. rewrite G. split; reflexivity.
Qed.
(** A sensor without calibration that is not the reference makes the simulation fail as soon as there is a motion to report. *)
Theorem ego_missing_calibration times sensors : Exists (fun k => ~ known k) sensors -> (2 <= length times)%nat ->
  rounds 0 None times sensors = Throw StdOutOfRange.
Proof.
  intros Hs Ht. destruct times as [|t0 [|t1 times]]; cbn [length] in Ht; [lia|lia|]. cbn [ego_rounds rbind].
  assert (E : forall i a b t, ego_round cal ref noise i a b t sensors = Throw StdOutOfRange).
  { clear -Hs. intros i a b t. induction Hs as [k sensors Hk|k sensors Hs IH]; cbn [ego_round].
    - unfold ego_motion. destruct (Nat.eqb_spec k ref) as [->|]; [exfalso; apply Hk; left; reflexivity|].
      destruct (cal k) eqn:Ec; [exfalso; apply Hk; right; congruence|]. reflexivity.
    - unfold ego_motion. destruct (Nat.eqb k ref); cbn [rbind]; [rewrite IH; reflexivity|].
      destruct (cal k) as [[d m]|]; cbn [rbind]; [rewrite IH; reflexivity|reflexivity]. }
  rewrite E. reflexivity.
Qed.
Lemma data_eq times sensors k l : NoDup sensors -> Forall known sensors -> In k sensors -> rounds 0 None times sensors = Ret l ->
  motionData l k = map (fun '(a, b) => ((b + sensor_delay cal ref k)%Z, motion_of (traj a) (traj b) k)) (successive times).
Proof.
  intros Hnd Hkn Hin. rewrite ego_rounds_all by exact Hkn. intros [= <-]. destruct times as [|t0 times]; [reflexivity|].
  destruct (data_triples (pushes 1 t0 times sensors) k) as [-> _]. rewrite pushes_data by assumption. generalize 1%nat as i. revert t0.
  induction times as [|t1 times IH]; intros t0 i; [reflexivity|]. unfold successive in *. cbn [tl combine map length seq] in *. f_equal. apply IH.
Qed.
Lemma hand_eye a b k d m p : k <> ref -> cal k = Some (d, m) -> orthogonal (rot m) ->
  apply_T m (apply_T (motion_of (traj a) (traj b) k) p) = apply_T (motion_of (traj a) (traj b) ref) (apply_T m p).
Proof.
  intros Hk Hc Hm. unfold motion_of. rewrite Nat.eqb_refl. destruct (Nat.eqb_spec k ref) as [|_]; [contradiction|]. rewrite Hc.
  rewrite !compose_apply, inverse_right by exact Hm. reflexivity.
Qed.
Lemma calibrator_consistent a b k d m : k <> ref -> cal k = Some (d, m) -> orthogonal (rot m) -> orthogonal (rot (traj a)) ->
  ego_predicted traj d m (a + d) (b + d) = motion_of (traj a) (traj b) k.
Proof.
  intros Hk Hc Hm Ha. apply same_T_eq. intros p. unfold ego_predicted, motion_of. destruct (Nat.eqb_spec k ref) as [|_]; [contradiction|]. rewrite Hc.
  replace (a + d - d)%Z with a by lia. replace (b + d - d)%Z with b by lia. rewrite !compose_apply.
  assert (O : orthogonal (rot (compose_T (traj a) m))) by (apply orthogonal_mulm; assumption).
  rewrite <-(inverse_left (compose_T (traj a) m) (apply_T (inverse_T m) (apply_T (inverse_T (traj a)) (apply_T (traj b) (apply_T m p)))) O).
  f_equal. rewrite compose_apply, inverse_right by exact Hm. rewrite inverse_right by exact Ha. reflexivity.
Qed.
(** Hand-eye relation: seen from the reference, the sensor's motion is that of the reference, delayed. *)
Theorem ego_hand_eye times sensors k d r_T_s l j s mk t mr : NoDup sensors -> Forall known sensors -> In k sensors -> In ref sensors -> rounds 0 None times sensors = Ret l ->
  k <> ref -> cal k = Some (d, r_T_s) -> orthogonal (rot r_T_s) ->
  nth_error (motionData l k) j = Some (s, mk) -> nth_error (motionData l ref) j = Some (t, mr) ->
  s = (t + d)%Z /\ forall p, apply_T r_T_s (apply_T mk p) = apply_T mr (apply_T r_T_s p).
Proof.
  intros Hnd Hkn Hin Hr Hl Hk Hc Hm. rewrite (data_eq _ _ _ _ Hnd Hkn Hin Hl), (data_eq _ _ _ _ Hnd Hkn Hr Hl), !nth_error_map.
  destruct (nth_error (successive times) j) as [[a b]|]; [|discriminate]. cbn [option_map]. intros [= <- <-] [= <- <-]. split.
  - unfold sensor_delay. rewrite Nat.eqb_refl. destruct (Nat.eqb_spec k ref) as [|_]; [contradiction|]. rewrite Hc. lia.
  - intros p. apply (hand_eye a b k d r_T_s p Hk Hc Hm).
Qed.
(** The calibrator predicts, for the true delay and calibration and the stamps of two successive measurements of the sensor, exactly
    the second measured motion: without noise the residual is zero. *)
Theorem ego_calibrator_consistent times sensors k d r_T_s l j s m s' m' : NoDup sensors -> Forall known sensors -> In k sensors -> rounds 0 None times sensors = Ret l ->
  k <> ref -> cal k = Some (d, r_T_s) -> orthogonal (rot r_T_s) -> (forall t, orthogonal (rot (traj t))) ->
  nth_error (motionData l k) j = Some (s, m) -> nth_error (motionData l k) (S j) = Some (s', m') ->
  ego_predicted traj d r_T_s s s' = m'.
Proof.
  intros Hnd Hkn Hin Hl Hk Hc Hm Ho. rewrite (data_eq _ _ _ _ Hnd Hkn Hin Hl), !nth_error_map.
  destruct (nth_error (successive times) j) as [[a b]|] eqn:E1; [|discriminate]. destruct (nth_error (successive times) (S j)) as [[a' b']|] eqn:E2; [|discriminate].
  cbn [option_map]. intros [= <- <-] [= <- <-].
  assert (Eb : b = a').
  { clear -E1 E2. unfold successive in *. revert j E1 E2. induction times as [|t0 times IH]; intros j E1 E2; [destruct j; discriminate|].
    destruct times as [|t1 times]; [destruct j; discriminate|]. destruct j as [|j].
    - cbn in E1, E2. destruct times as [|t2 times]; [discriminate|]. cbn in E2. congruence.
    - apply (IH j); [exact E1|exact E2]. }
  subst a'. assert (Ed : sensor_delay cal ref k = d).
  { unfold sensor_delay. destruct (Nat.eqb_spec k ref) as [|_]; [contradiction|]. rewrite Hc. reflexivity. }
  rewrite Ed. apply calibrator_consistent; [exact Hk|exact Hc|exact Hm|apply Ho].
Qed.
(** The calibrator's initial trajectory, integrated from the noise-free reference motions, is the true one seen from its start. *)
Theorem ego_dead_reckoning times sensors l dt : NoDup sensors -> Forall known sensors -> In ref sensors -> (forall t, orthogonal (rot (traj t))) ->
  rounds 0 None times sensors = Ret l -> (2 <= length times)%nat -> (forall k t t', nth_error times k = Some t -> nth_error times (S k) = Some t' -> t' = (t + dt)%Z) ->
  ego_initial_poses ident_T dt (motionData l ref) = map (fun t => (t, compose_T (inverse_T (traj (hd 0%Z times))) (traj t))) times.
Proof.
  intros Hnd Hkn Hin Ho. rewrite ego_rounds_all by exact Hkn. intros [= <-] Hlen Hstep. destruct times as [|t0 [|t1 times]]; cbn [length] in Hlen; [lia|lia|]. cbn [hd].
  destruct (data_triples (pushes 1 t0 (t1 :: times) sensors) ref) as [-> _]. rewrite pushes_data by assumption.
  assert (D : sensor_delay cal ref ref = 0%Z) by (unfold sensor_delay; rewrite Nat.eqb_refl; reflexivity). rewrite D.
  assert (G : forall times i prev, ego_integrate (compose_T (inverse_T (traj t0)) (traj prev))
      (map (fun '(a, b, _) => (a, b)) (map (fun '(j, (a, b)) => ((b + 0)%Z, motion_of (traj a) (traj b) ref, compose_T (motion_of (traj a) (traj b) ref) (noise j ref)))
        (combine (seq i (length times)) (successive (prev :: times))))) = map (fun t => (t, compose_T (inverse_T (traj t0)) (traj t))) times).
  { clear -Ho. induction times as [|t times IH]; intros i prev; [reflexivity|]. unfold successive. cbn [tl combine map length seq ego_integrate]. rewrite Z.add_0_r.
    assert (E : compose_T (compose_T (inverse_T (traj t0)) (traj prev)) (motion_of (traj prev) (traj t) ref) = compose_T (inverse_T (traj t0)) (traj t)).
    { apply same_T_eq. intros p. unfold motion_of. rewrite Nat.eqb_refl, !compose_apply, inverse_right by apply Ho. reflexivity. }
    rewrite E. f_equal. apply IH. }
  assert (E0 : ident_T = compose_T (inverse_T (traj t0)) (traj t0)).
  { apply same_T_eq. intros p. rewrite compose_apply, inverse_left by apply Ho. apply v3_eq; unfold apply_T, ident_T, ident3, mulv, add3, dot3; cbn [rot trans r1 r2 r3 vx vy vz]; ring. }
  assert (F : forall a x r, ego_initial_poses a dt (x :: r) = ((fst x - dt)%Z, a) :: ego_integrate a (x :: r)).
  { intros a [? ?] r. reflexivity. }
  specialize (G (t1 :: times) 1%nat t0). rewrite <-E0 in G. unfold successive in G |- *. cbn [tl combine map length seq] in G |- *. rewrite F. cbn [fst]. rewrite G. cbn [map]. f_equal.
  rewrite <-E0. f_equal. rewrite (Hstep 0%nat t0 t1) by reflexivity. lia.
Qed.
End data.

(** * Examples: a vehicle moving along x, reference sensor 0, sensor 1 mounted at (0, 1, 0) with delay 3 *)
Definition ex_traj (t : Z) : transf := Transf ident3 (V3 (IZR t) 0 0).
Definition ex_cal (k : nat) : option (Z * transf) := if Nat.eqb k 1 then Some (3%Z, Transf ident3 (V3 0 1 0)) else None.
Example ex_hyps : NoDup [0; 1]%nat /\ Forall (known ex_cal 0) [0; 1]%nat /\ (forall t, orthogonal (rot (ex_traj t)))
  /\ (forall k d m, ex_cal k = Some (d, m) -> orthogonal (rot m)) /\ ego_times 10 2 5 0 = Some [0; 2; 4]%Z.
Proof.
  split; [repeat constructor; cbn; intuition discriminate|]. split; [constructor; [left; reflexivity|constructor; [right; discriminate|constructor]]|].
  split; [intros t; apply orthogonal_ident|]. split; [|reflexivity].
  intros k d m. unfold ex_cal. destruct (Nat.eqb k 1); [|discriminate]. intros [= <- <-]. apply orthogonal_ident.
Qed.
Example ex_data : exists l m1 m2, ego_rounds ex_traj ex_cal 0 (fun _ _ => ident_T) 0 None [0; 2; 4]%Z [0; 1]%nat = Ret l
  /\ motionData l 1 = [(5%Z, m1); (7%Z, m2)] /\ apply_T m1 (V3 0 0 0) = V3 2 0 0 /\ ego_predicted ex_traj 3 (Transf ident3 (V3 0 1 0)) 5 7 = m2.
Proof.
  destruct ex_hyps as (Hnd & Hk & Ho & Hc & _). pose proof (ego_rounds_all ex_traj ex_cal 0 (fun _ _ => ident_T) [0; 2; 4]%Z [0; 1]%nat Hk) as El.
  eexists _, _, _. split; [exact El|]. split; [reflexivity|]. split.
  - assert (I : forall t p, apply_T (Transf ident3 t) p = add3 p t) by (intros t p; apply v3_eq; unfold apply_T, ident3, mulv, dot3; cbn [rot trans r1 r2 r3 vx vy vz]; unfold add3; cbn [vx vy vz]; ring).
    assert (J : forall t, inverse_T (Transf ident3 t) = Transf ident3 (scale3 (- 1) t)).
    { intros t. unfold inverse_T, transpose, ident3, mulv, dot3. cbn [rot trans r1 r2 r3 vx vy vz]. f_equal. unfold scale3. cbn [vx vy vz]. f_equal; ring. }
    change (apply_T (motion_of ex_cal 0 (ex_traj 0) (ex_traj 2) 1) (V3 0 0 0) = V3 2 0 0). unfold motion_of. cbn [Nat.eqb ex_cal]. unfold ex_traj. rewrite !J, !compose_apply, !I.
    unfold add3, scale3. cbn [vx vy vz]. f_equal; ring.
  - eapply (ego_calibrator_consistent ex_traj ex_cal 0 (fun _ _ => ident_T) _ _ 1 3 (Transf ident3 (V3 0 1 0)) _ 0 5%Z _ 7%Z _ Hnd Hk); try exact El; try reflexivity; try discriminate.
    + right. left. reflexivity.
    + apply orthogonal_ident.
    + exact Ho.
Qed.
Print Assumptions ego_measurements.
Print Assumptions ego_calibrator_consistent.
Print Assumptions ego_dead_reckoning.
