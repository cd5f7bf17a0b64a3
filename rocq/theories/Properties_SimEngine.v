(** Properties of the simulators of the time-delay and egomotion examples (C86-C90). *)
From Coq Require Import Reals List ZArith Lra Lia.
From Verif Require Import Base GeodeticModel ErrorTermModel SimEngineModel Spec_SimEngine.
Import ListNotations.
Local Open Scope R_scope.

(** * C86: integration of the motion model *)
Lemma quat2r_qplus a b p : mulv (quat2r (qplus a b)) p = mulv (quat2r a) (mulv (quat2r b) p).
Proof. unfold mulv, quat2r, qplus, dot3. cbn [q0 q1 q2 q3 vx vy vz r1 r2 r3]. f_equal; ring. Qed.
Lemma quat2r_inv q : quat2r (quatInv q) = transpose (quat2r q).
Proof. unfold quat2r, quatInv, transpose. cbn [q0 q1 q2 q3 vx vy vz r1 r2 r3]. f_equal; f_equal; ring. Qed.
Lemma unit_inv q : unit_quat q -> unit_quat (quatInv q).
Proof. unfold unit_quat, quatInv. cbn. intros H. rewrite <-H. ring. Qed.
Lemma unit_qplus a b : unit_quat a -> unit_quat b -> unit_quat (qplus a b).
Proof.
  unfold unit_quat, qplus. cbn. intros Ha Hb.
  transitivity ((q0 a * q0 a + q1 a * q1 a + q2 a * q2 a + q3 a * q3 a) * (q0 b * q0 b + q1 b * q1 b + q2 b * q2 b + q3 b * q3 b)); [ring|].
  rewrite Ha, Hb. ring.
Qed.
Lemma quatInv_inv q : quatInv (quatInv q) = q.
Proof. destruct q as [a b c d]. unfold quatInv. cbn. f_equal; ring. Qed.
Lemma epsilon_pos : 0 < epsilon.
Proof. unfold epsilon. apply Rinv_0_lt_compat, pow_lt. lra. Qed.
Lemma norm_v_sq a : norm_v a * norm_v a = dot3 a a.
Proof. apply sqrt_sqrt. unfold dot3. nra. Qed.

(** The vehicle moves by dt times its velocity, given in its own frame, along the old attitude; *)
Theorem integrate_position w v om dt :
  snd (integrateMotionModel w v om dt) = add3 (snd w) (scale3 dt (mulv (quat2r (fst w)) v)).
Proof. reflexivity. Qed.
(** it turns by the angle |om| dt about the axis om of its own frame; rates up to the machine epsilon are ignored; *)
Theorem integrate_rotation w v om dt p : epsilon < norm_v om ->
  mulv (quat2r (fst (integrateMotionModel w v om dt))) p =
  mulv (quat2r (fst w)) (rotate_about (scale3 (/ norm_v om) om) (norm_v om * dt) p).
Proof.
  intros Hn. destruct w as [q t]. unfold integrateMotionModel. cbn [fst snd]. fold (norm_v om). destruct (Rlt_dec epsilon (norm_v om)) as [_|]; [|lra].
  pose proof epsilon_pos. assert (Hpos : 0 < norm_v om) by lra. pose proof (norm_v_sq om) as Hsq.
  set (n := norm_v om) in *. replace (n / 2 * dt) with (n * dt / 2) by field.
  set (a := n * dt). set (s := sin (a / 2)). set (c := cos (a / 2)).
  assert (Hc : cos a = c * c - s * s) by (replace a with (2 * (a / 2)) by field; rewrite cos_2a; reflexivity).
  assert (Hs : sin a = 2 * s * c) by (replace a with (2 * (a / 2)) at 1 by field; rewrite sin_2a; reflexivity).
  assert (H1 : s * s + c * c = 1) by (pose proof (sin2_cos2 (a / 2)) as E; unfold Rsqr in E; exact E).
  set (sg := Quat _ _ _ _). rewrite (quat2r_inv (qplus sg (quatInv q))).
  assert (E : forall x, mulv (transpose (quat2r (qplus sg (quatInv q)))) x = mulv (quat2r q) (mulv (transpose (quat2r sg)) x)).
  { intros x. rewrite <-quat2r_inv, <-quat2r_inv. rewrite <-quat2r_qplus. f_equal. f_equal.
    unfold quatInv, qplus. cbn. f_equal; ring. }
  rewrite E. f_equal. clear E.
  assert (Hk : (vx om / n) * (vx om / n) + (vy om / n) * (vy om / n) + (vz om / n) * (vz om / n) = 1).
  { unfold dot3 in Hsq. replace 1 with (n * n / (n * n)) by (field; lra). rewrite Hsq at 1. field. lra. }
  unfold rotate_about, scale3, sg. cbn [vx vy vz]. rewrite Hc, Hs.
  replace (/ n * vx om) with (vx om / n) by (field; lra). replace (/ n * vy om) with (vy om / n) by (field; lra). replace (/ n * vz om) with (vz om / n) by (field; lra).
  set (kx := vx om / n) in *. set (ky := vy om / n) in *. set (kz := vz om / n) in *.
  replace (1 - (c * c - s * s)) with (2 * s * s) by lra.
  unfold mulv, transpose, quat2r, dot3. cbn [q0 q1 q2 q3 vx vy vz r1 r2 r3].
  clearbody kx ky kz s c. clear -Hk H1.
  assert (Hd : c * c - (kx * s * (kx * s) + ky * s * (ky * s) + kz * s * (kz * s)) = c * c - s * s).
  { replace (kx * s * (kx * s) + ky * s * (ky * s) + kz * s * (kz * s)) with ((kx * kx + ky * ky + kz * kz) * (s * s)) by ring. rewrite Hk. ring. }
  rewrite Hd. f_equal; ring.
Qed.
Theorem integrate_no_rotation w v om dt : norm_v om <= epsilon -> fst (integrateMotionModel w v om dt) = fst w.
Proof.
  intros Hn. unfold integrateMotionModel. cbn [fst]. fold (norm_v om). destruct (Rlt_dec epsilon (norm_v om)) as [|_]; [lra|]. apply quatInv_inv.
Qed.
(** its attitude stays a rotation. *)
Theorem integrate_unit w v om dt : unit_quat (fst w) -> unit_quat (fst (integrateMotionModel w v om dt)).
Proof.
  intros Hu. unfold integrateMotionModel. cbn [fst]. fold (norm_v om). apply unit_inv.
  destruct (Rlt_dec epsilon (norm_v om)) as [Hn|_]; [|apply unit_inv; exact Hu].
  apply unit_qplus; [|apply unit_inv; exact Hu]. pose proof epsilon_pos. pose proof (norm_v_sq om) as Hsq.
  set (n := norm_v om) in *. set (a := n / 2 * dt). assert (Hk : (vx om / n) * (vx om / n) + (vy om / n) * (vy om / n) + (vz om / n) * (vz om / n) = 1).
  { unfold dot3 in Hsq. replace 1 with (n * n / (n * n)) by (field; lra). rewrite Hsq at 1. field. lra. }
  pose proof (sin2_cos2 a) as H1. unfold Rsqr in H1. unfold unit_quat. cbn [q0 q1 q2 q3].
  rewrite <-H1. transitivity ((vx om / n * (vx om / n) + vy om / n * (vy om / n) + vz om / n * (vz om / n)) * (sin a * sin a) + cos a * cos a); [ring|].
  rewrite Hk. ring.
Qed.
(** The attitude of a vehicle in the plane: quaternion and rotation matrix. *)
Definition planar (h : R) : quat := Quat 0 0 (- sin (h / 2)) (cos (h / 2)).
Lemma planar_yaw h : quat2r (planar h) = yaw h.
Proof.
  unfold quat2r, planar, yaw. cbn [q0 q1 q2 q3].
  assert (Es : sin h = 2 * sin (h / 2) * cos (h / 2)) by (rewrite <-sin_2a; f_equal; field).
  assert (Ec : cos h = cos (h / 2) * cos (h / 2) - sin (h / 2) * sin (h / 2)) by (rewrite <-cos_2a; f_equal; field).
  rewrite Es, Ec. pose proof (sin2_cos2 (h / 2)) as H1. unfold Rsqr in H1.
  set (s := sin (h / 2)) in *. set (c := cos (h / 2)) in *. f_equal; f_equal; try ring; lra.
Qed.
Lemma norm_z om : norm_v (V3 0 0 om) = Rabs om.
Proof. unfold norm_v, dot3. cbn. rewrite <-sqrt_Rsqr_abs. f_equal. unfold Rsqr. ring. Qed.
Theorem integrate_planar h p v om dt :
  integrateMotionModel (planar h, p) (V3 v 0 0) (V3 0 0 om) dt =
  (planar (if Rlt_dec epsilon (Rabs om) then h + om * dt else h), add3 p (V3 (dt * v * cos h) (dt * v * sin h) 0)).
Proof.
  unfold integrateMotionModel. cbn [fst snd]. fold (norm_v (V3 0 0 om)). rewrite norm_z. f_equal.
  - destruct (Rlt_dec epsilon (Rabs om)) as [Hn|_]; [|apply quatInv_inv]. cbn [vx vy vz]. pose proof epsilon_pos.
    assert (Hs : om / Rabs om * sin (Rabs om / 2 * dt) = sin (om * dt / 2)).
    { destruct (Rcase_abs om) as [Hneg|Hpos].
      - rewrite Rabs_left by assumption. replace (- om / 2 * dt) with (- (om * dt / 2)) by field. rewrite sin_neg. field. lra.
      - rewrite Rabs_right in * by assumption. replace (om / 2 * dt) with (om * dt / 2) by field. field. lra. }
    assert (Hc : cos (Rabs om / 2 * dt) = cos (om * dt / 2)).
    { destruct (Rcase_abs om) as [Hneg|Hpos].
      - rewrite Rabs_left by assumption. replace (- om / 2 * dt) with (- (om * dt / 2)) by field. apply cos_neg.
      - rewrite Rabs_right by assumption. f_equal. field. }
    rewrite Hs, Hc. unfold planar, qplus, quatInv. cbn [q0 q1 q2 q3]. replace ((h + om * dt) / 2) with (om * dt / 2 + h / 2) by field.
    rewrite sin_plus, cos_plus. replace (0 / Rabs om) with 0 by (field; lra). f_equal; ring.
  - unfold quatRotate. rewrite planar_yaw. unfold yaw, mulv, scale3, dot3, add3. cbn [vx vy vz r1 r2 r3]. f_equal; ring.
Qed.

(** * C87: the simulated vehicle of the time-delay example *)
Section td.
Context (sec : R -> Z) (ypr : m3 -> v3) (P : td_params) (nl nr : nat -> R) (np nq : nat -> v3).
Notation dt := (tp_dt P).
Notation speed k := (chord_speed (tp_A P) (tp_f P) dt k).
Notation rate k := (turn_rate (tp_A P) (tp_f P) dt k).
(** Everything recorded in round k of the simulation, starting from pose [w] and ending in pose [w']. *)
Record round_ok (d : td_data) (k i : nat) (w w' : quat * v3) : Prop := {
  ro_pose : w' = integrateMotionModel w (V3 (speed i) 0 0) (V3 0 0 (rate i)) dt;
  ro_v : nth_error (td_v d) k = Some (V3 (speed i) 0 0);
  ro_om : nth_error (td_om d) k = Some (V3 0 0 (rate i));
  ro_wl : nth_error (td_wl d) k = Some (V3 (speed i - tp_b P * rate i) 0 0);
  ro_wr : nth_error (td_wr d) k = Some (V3 (speed i + tp_b P * rate i) 0 0);
  ro_lw : nth_error (td_lw d) k = Some ((Z.of_nat i * sec dt + sec (tp_tl P))%Z, tp_kl P * (speed i - tp_b P * rate i));
  ro_lwn : nth_error (td_lwn d) k = Some ((Z.of_nat i * sec dt + sec (tp_tl P))%Z, tp_kl P * (speed i - tp_b P * rate i + nl i));
  ro_rw : nth_error (td_rw d) k = Some ((Z.of_nat i * sec dt + sec (tp_tr P))%Z, tp_kr P * (speed i + tp_b P * rate i));
  ro_rwn : nth_error (td_rwn d) k = Some ((Z.of_nat i * sec dt + sec (tp_tr P))%Z, tp_kr P * (speed i + tp_b P * rate i + nr i));
  ro_p : nth_error (td_pose d) k = Some ((Z.of_nat i * sec dt + sec (dt * 0.5))%Z,
           (apply_T (Transf (quat2r (fst w')) (snd w')) (trans (tp_vTp P)), ypr (mulm (quat2r (fst w')) (rot (tp_vTp P)))));
  ro_pn : nth_error (td_posen d) k = Some ((Z.of_nat i * sec dt + sec (dt * 0.5))%Z,
           (add3 (apply_T (Transf (quat2r (fst w')) (snd w')) (trans (tp_vTp P))) (np i),
            add3 (ypr (mulm (quat2r (fst w')) (rot (tp_vTp P)))) (nq i))) }.
Definition all_lengths (d : td_data) (n : nat) : Prop :=
  length (td_T d) = n /\ length (td_v d) = n /\ length (td_om d) = n /\ length (td_wl d) = n /\ length (td_wr d) = n
  /\ length (td_lw d) = n /\ length (td_lwn d) = n /\ length (td_rw d) = n /\ length (td_rwn d) = n
  /\ length (td_pose d) = n /\ length (td_posen d) = n.
Definition sine_at (i : nat) : sine :=
  Sine (curve_angle (tp_A P) (tp_f P) (INR (Nat.max i 1) * dt)) (curve_x (INR i * dt)) (curve_y (tp_A P) (tp_f P) (INR i * dt)).
Lemma gen_at i : 0 < dt ->
  genSineBodyVel2d (sine_at i) (INR (S i) * dt) dt (tp_A P) (tp_f P) = (sine_at (S i), (speed i, rate i)).
Proof.
  intros Hdt. unfold genSineBodyVel2d, sine_at. cbn [s_phi s_x s_y]. f_equal; [|f_equal].
  - replace (Nat.max (S i) 1) with (S i) by lia. reflexivity.
  - unfold chord_speed, curve_x, curve_y, curve_angle. field. lra.
Qed.
Lemma td_loop_spec n : forall fuel i w ts, 0 < dt -> ts = (Z.of_nat i * sec dt)%Z -> (n < fuel)%nat ->
  (n = 0%nat \/ INR (i + n) * dt < tp_T P) -> tp_T P <= INR (S (i + n)) * dt ->
  exists d, td_loop sec ypr P nl nr np nq fuel i (INR (S i) * dt) (sine_at i) ts w = Some d /\ all_lengths d n
    /\ forall k, (k < n)%nat -> exists w0 w1, nth_error (w :: td_T d) k = Some w0 /\ nth_error (w :: td_T d) (S k) = Some w1 /\ round_ok d k (i + k) w0 w1.
Proof.
  induction n as [|n IH]; intros fuel i w ts Hdt Hts Hf H1 H2; (destruct fuel as [|fuel]; [lia|]); cbn [td_loop].
  - rewrite Nat.add_0_r in H2. destruct (Rlt_dec (INR (S i) * dt) (tp_T P)); [lra|]. eexists. split; [reflexivity|]. split; [repeat split|]. intros k Hk. lia.
  - destruct (Rlt_dec (INR (S i) * dt) (tp_T P)) as [_|Hn].
    2:{ exfalso. apply Hn. destruct H1 as [?|H1]; [lia|]. apply Rle_lt_trans with (INR (i + S n) * dt); [|exact H1].
        apply Rmult_le_compat_r; [lra|]. apply le_INR. lia. }
    rewrite gen_at by assumption.
    replace (INR (S i) * dt + dt) with (INR (S (S i)) * dt) by (rewrite (S_INR (S i)); ring).
    set (w' := integrateMotionModel w _ _ _).
    destruct (IH fuel (S i) w' (ts + sec dt)%Z Hdt) as (d & Hd & Hlen & Hk).
    + subst ts. rewrite Nat2Z.inj_succ. ring.
    + lia.
    + destruct n; [left; reflexivity|right]. destruct H1 as [?|H1]; [lia|]. replace (S i + S n)%nat with (i + S (S n))%nat by lia. exact H1.
    + replace (S i + n)%nat with (i + S n)%nat by lia. exact H2.
    + rewrite Hd. eexists. split; [reflexivity|]. split.
      { destruct Hlen as (?&?&?&?&?&?&?&?&?&?&?). unfold all_lengths. cbn. repeat split; congruence. }
      intros [|k] Hk'.
      * exists w, w'. cbn [td_T nth_error]. split; [reflexivity|]. split; [reflexivity|]. rewrite Nat.add_0_r.
        assert (Ew : genWheelVelocity (V3 (speed i) 0 0) (V3 0 0 (rate i)) (V3 0 (tp_b P) 0) = V3 (speed i - tp_b P * rate i) 0 0).
        { unfold genWheelVelocity, add3, cross3. cbn [vx vy vz]. f_equal; ring. }
        assert (Er : genWheelVelocity (V3 (speed i) 0 0) (V3 0 0 (rate i)) (V3 0 (- tp_b P) 0) = V3 (speed i + tp_b P * rate i) 0 0).
        { unfold genWheelVelocity, add3, cross3. cbn [vx vy vz]. f_equal; ring. }
        assert (Ep : add3 (snd w') (mulv (quat2r (fst w')) (trans (tp_vTp P))) = apply_T (Transf (quat2r (fst w')) (snd w')) (trans (tp_vTp P))).
        { unfold apply_T, add3. cbn [rot trans]. f_equal; ring. }
        subst ts. constructor; cbn [td_v td_om td_wl td_wr td_lw td_lwn td_rw td_rwn td_pose td_posen nth_error]; rewrite ?Ew, ?Er, ?Ep; reflexivity.
      * destruct (Hk k ltac:(lia)) as (w0 & w1 & Hw0 & Hw1 & Hr). exists w0, w1. cbn [td_T]. split; [exact Hw0|]. split; [exact Hw1|].
        replace (i + S k)%nat with (S i + k)%nat by lia. destruct Hr. constructor; assumption.
Qed.
(** One round per step k = 1, 2, ... with k dt < T; the recorded poses follow from each other by the recorded velocities, which are
    those of the sine curve; the wheels move with v -/+ b om; time stamps are k dt (delayed by t_l, t_r), poses half a step later. *)
Theorem td_simulation n fuel : 0 < dt -> num_steps dt (tp_T P) n -> (n < fuel)%nat ->
  exists d, td_simulate sec ypr P nl nr np nq fuel = Some d
    /\ length (td_T d) = S n /\ length (td_v d) = S n /\ length (td_om d) = S n /\ length (td_wl d) = n /\ length (td_wr d) = n
    /\ length (td_lw d) = n /\ length (td_lwn d) = n /\ length (td_rw d) = n /\ length (td_rwn d) = n
    /\ length (td_pose d) = n /\ length (td_posen d) = n
    /\ nth_error (td_T d) 0 = Some (tp_q0 P, tp_p0 P)
    /\ forall k, (k < n)%nat -> exists w w',
         nth_error (td_T d) k = Some w /\ nth_error (td_T d) (S k) = Some w'
         /\ w' = integrateMotionModel w (V3 (speed k) 0 0) (V3 0 0 (rate k)) dt
         /\ nth_error (td_v d) (S k) = Some (V3 (speed k) 0 0) /\ nth_error (td_om d) (S k) = Some (V3 0 0 (rate k))
         /\ nth_error (td_wl d) k = Some (V3 (speed k - tp_b P * rate k) 0 0) /\ nth_error (td_wr d) k = Some (V3 (speed k + tp_b P * rate k) 0 0)
         /\ nth_error (td_lw d) k = Some ((Z.of_nat k * sec dt + sec (tp_tl P))%Z, tp_kl P * (speed k - tp_b P * rate k))
         /\ nth_error (td_rw d) k = Some ((Z.of_nat k * sec dt + sec (tp_tr P))%Z, tp_kr P * (speed k + tp_b P * rate k))
         /\ nth_error (td_lwn d) k = Some ((Z.of_nat k * sec dt + sec (tp_tl P))%Z, tp_kl P * (speed k - tp_b P * rate k + nl k))
         /\ nth_error (td_rwn d) k = Some ((Z.of_nat k * sec dt + sec (tp_tr P))%Z, tp_kr P * (speed k + tp_b P * rate k + nr k))
         /\ exists r a, r = apply_T (Transf (quat2r (fst w')) (snd w')) (trans (tp_vTp P)) /\ a = ypr (mulm (quat2r (fst w')) (rot (tp_vTp P)))
              /\ nth_error (td_pose d) k = Some ((Z.of_nat k * sec dt + sec (dt * 0.5))%Z, (r, a))
              /\ nth_error (td_posen d) k = Some ((Z.of_nat k * sec dt + sec (dt * 0.5))%Z, (add3 r (np k), add3 a (nq k))).
Proof.
  intros Hdt [Hn1 Hn2] Hf. unfold td_simulate.
  assert (E : Sine (phi_init dt (tp_A P) (tp_f P)) 0 0 = sine_at 0).
  { unfold sine_at, phi_init, curve_angle, curve_x, curve_y. cbn [Nat.max INR]. f_equal.
    - rewrite Rmult_1_l. reflexivity.
    - ring.
    - rewrite Rmult_0_l, Rmult_0_r, sin_0. ring. }
  rewrite E. destruct (td_loop_spec n fuel 0 (tp_q0 P, tp_p0 P) 0%Z Hdt) as (d & Hd & Hlen & Hk); [reflexivity|assumption|assumption|assumption|].
  replace (INR 1 * dt) with dt in Hd by (simpl; ring). rewrite Hd. eexists. split; [reflexivity|].
  destruct Hlen as (?&?&?&?&?&?&?&?&?&?&?). cbn [td_T td_v td_om td_wl td_wr td_lw td_lwn td_rw td_rwn td_pose td_posen length].
  repeat (split; [congruence|]). split; [reflexivity|].
  intros k Hkn. destruct (Hk k Hkn) as (w & w' & Hw & Hw' & [R1 R2 R3 R4 R5 R6 R7 R8 R9 R10 R11]). exists w, w'.
  cbn [Nat.add] in *. repeat (split; [assumption|]). eexists _, _. repeat (split; [reflexivity|]). split; assumption.
Qed.
(** The loop never ends for a step that is not positive (unless the simulation is over at once). *)
Theorem td_never_ends fuel : dt <= 0 -> dt < tp_T P -> td_simulate sec ypr P nl nr np nq fuel = None.
Proof.
  intros Hdt HT. unfold td_simulate. assert (G : forall fuel i t s ts w, t < tp_T P -> td_loop sec ypr P nl nr np nq fuel i t s ts w = None).
  { clear fuel. induction fuel as [|fuel IH]; intros i t s ts w Ht; [reflexivity|]. cbn [td_loop]. destruct (Rlt_dec t (tp_T P)); [|contradiction].
    destruct (genSineBodyVel2d _ _ _ _ _) as [s' [v om]]. rewrite IH; [reflexivity|lra]. }
  rewrite G by assumption. reflexivity.
Qed.
(** Every recorded attitude is a rotation. *)
Theorem td_unit n fuel d : 0 < dt -> num_steps dt (tp_T P) n -> (n < fuel)%nat -> unit_quat (tp_q0 P) ->
  td_simulate sec ypr P nl nr np nq fuel = Some d -> forall w, In w (td_T d) -> unit_quat (fst w).
Proof.
  intros Hdt Hn Hf Hu Hd. destruct (td_simulation n fuel Hdt Hn Hf) as (d' & Hd' & Hlen & _ & _ & _ & _ & _ & _ & _ & _ & _ & _ & H0 & Hk).
  rewrite Hd in Hd'. injection Hd' as <-.
  assert (G : forall k, (k <= n)%nat -> forall w, nth_error (td_T d) k = Some w -> unit_quat (fst w)).
  { induction k as [|k IH]; intros Hkn w Hw. { rewrite H0 in Hw. injection Hw as <-. exact Hu. }
    destruct (Hk k ltac:(lia)) as (w0 & w1 & Hw0 & Hw1 & Hi & _). rewrite Hw in Hw1. injection Hw1 as <-. rewrite Hi. apply integrate_unit.
    apply IH; [lia|exact Hw0]. }
  intros w Hin. apply In_nth_error in Hin as [k Hw]. apply (G k); [|exact Hw].
  assert (k < length (td_T d))%nat by (apply nth_error_Some; congruence). lia.
Qed.
(** A vehicle that starts in the plane stays in the plane and heads, up to k steps of the ignored rate epsilon, along the tangent of the
    curve (relative to the heading of the start). *)
Theorem td_heading n fuel d h0 : 0 < dt -> num_steps dt (tp_T P) n -> (n < fuel)%nat -> tp_q0 P = planar h0 ->
  td_simulate sec ypr P nl nr np nq fuel = Some d -> forall k, (k <= n)%nat -> exists h p,
    nth_error (td_T d) k = Some (planar h, p) /\ vz p = vz (tp_p0 P)
    /\ Rabs (h - (h0 + (curve_angle (tp_A P) (tp_f P) (INR (Nat.max k 1) * dt) - curve_angle (tp_A P) (tp_f P) dt))) <= INR k * dt * epsilon
    /\ ((k < n)%nat -> exists h' p', nth_error (td_T d) (S k) = Some (planar h', p') /\ p' = add3 p (V3 (dt * speed k * cos h) (dt * speed k * sin h) 0)).
Proof.
  intros Hdt Hn Hf Hq Hd. destruct (td_simulation n fuel Hdt Hn Hf) as (d' & Hd' & Hlen & _ & _ & _ & _ & _ & _ & _ & _ & _ & _ & H0 & Hk).
  rewrite Hd in Hd'. injection Hd' as <-. rewrite Hq in H0. pose proof epsilon_pos as He.
  assert (G : forall k, (k <= n)%nat -> exists h p, nth_error (td_T d) k = Some (planar h, p) /\ vz p = vz (tp_p0 P)
    /\ Rabs (h - (h0 + (curve_angle (tp_A P) (tp_f P) (INR (Nat.max k 1) * dt) - curve_angle (tp_A P) (tp_f P) dt))) <= INR k * dt * epsilon).
  { induction k as [|k IH]; intros Hkn.
    { exists h0, (tp_p0 P). split; [exact H0|]. split; [reflexivity|]. cbn [Nat.max INR]. rewrite Rmult_1_l.
      match goal with |- Rabs ?x <= _ => replace x with 0 by ring end. rewrite Rabs_R0. lra. }
    destruct (IH ltac:(lia)) as (h & p & Hw & Hz & Hb). destruct (Hk k ltac:(lia)) as (w0 & w1 & Hw0 & Hw1 & Hi & _).
    rewrite Hw in Hw0. injection Hw0 as <-. rewrite integrate_planar in Hi. rewrite Hi in Hw1. eexists _, _. split; [exact Hw1|]. split.
    { unfold add3. cbn. rewrite Hz. ring. }
    replace (Nat.max (S k) 1) with (S k) by lia. rewrite S_INR at 2.
    assert (Er : dt * rate k = curve_angle (tp_A P) (tp_f P) (INR (S k) * dt) - curve_angle (tp_A P) (tp_f P) (INR (Nat.max k 1) * dt)).
    { unfold turn_rate. field. lra. }
    set (a1 := curve_angle _ _ (INR (S k) * dt)) in *. set (a0 := curve_angle _ _ (INR (Nat.max k 1) * dt)) in *. set (a := curve_angle _ _ dt) in *.
    assert (Hstep : Rabs ((if Rlt_dec epsilon (Rabs (rate k)) then h + rate k * dt else h) - (h + (a1 - a0))) <= dt * epsilon).
    { rewrite <-Er. destruct (Rlt_dec epsilon (Rabs (rate k))) as [_|Hle].
      - match goal with |- Rabs ?x <= _ => replace x with 0 by ring end. rewrite Rabs_R0. nra.
      - replace (h - (h + dt * rate k)) with (- (dt * rate k)) by ring. rewrite Rabs_Ropp, Rabs_mult, (Rabs_right dt) by lra. nra. }
    set (h' := if Rlt_dec _ _ then _ else _) in *.
    replace (h' - (h0 + (a1 - a))) with ((h' - (h + (a1 - a0))) + (h - (h0 + (a0 - a)))) by ring.
    eapply Rle_trans; [apply Rabs_triang|]. lra. }
  intros k Hkn. destruct (G k Hkn) as (h & p & Hw & Hz & Hb). exists h, p. split; [exact Hw|]. split; [exact Hz|]. split; [exact Hb|]. intros Hlt.
  destruct (Hk k Hlt) as (w0 & w1 & Hw0 & Hw1 & Hi & _). rewrite Hw in Hw0. injection Hw0 as <-. rewrite integrate_planar in Hi. rewrite Hi in Hw1.
  eexists _, _. split; [exact Hw1|reflexivity].
Qed.
(** Amplitude zero: the vehicle drives straight ahead with unit speed and the wheels do too. *)
Theorem td_straight n fuel d h0 : 0 < dt -> num_steps dt (tp_T P) n -> (n < fuel)%nat -> tp_q0 P = planar h0 -> tp_A P = 0 ->
  td_simulate sec ypr P nl nr np nq fuel = Some d -> forall k, (k <= n)%nat ->
    nth_error (td_T d) k = Some (planar h0, add3 (tp_p0 P) (V3 (INR k * dt * cos h0) (INR k * dt * sin h0) 0))
    /\ ((k < n)%nat -> nth_error (td_wl d) k = Some (V3 1 0 0) /\ nth_error (td_wr d) k = Some (V3 1 0 0)).
Proof.
  intros Hdt Hn Hf Hq HA Hd. destruct (td_simulation n fuel Hdt Hn Hf) as (d' & Hd' & Hlen & _ & _ & _ & _ & _ & _ & _ & _ & _ & _ & H0 & Hk).
  rewrite Hd in Hd'. injection Hd' as <-. rewrite Hq in H0.
  assert (Ea : forall t, curve_angle (tp_A P) (tp_f P) t = 0).
  { intros t. unfold curve_angle. rewrite HA. replace (2 * PI * tp_f P * 0 * cos (2 * PI * tp_f P * t)) with 0 by ring. apply atan_0. }
  assert (Er : forall k, rate k = 0) by (intros k; unfold turn_rate; rewrite !Ea; field; lra).
  assert (Ev : forall k, speed k = 1).
  { intros k. unfold chord_speed. rewrite Ea, cos_0, sin_0. unfold curve_x, curve_y. rewrite HA, S_INR. field. lra. }
  induction k as [|k IH]; intros Hkn.
  - split; [|intros Hlt].
    + rewrite H0. f_equal. f_equal. unfold add3. cbn. destruct (tp_p0 P). cbn. f_equal; ring.
    + destruct (Hk 0%nat Hlt) as (w0 & w1 & _ & _ & _ & _ & _ & Hwl & Hwr & _). rewrite Hwl, Hwr, Er, Ev. split; repeat f_equal; ring.
  - destruct (IH ltac:(lia)) as [Hw _]. split; [|intros Hlt].
    + destruct (Hk k ltac:(lia)) as (w0 & w1 & Hw0 & Hw1 & Hi & _). rewrite Hw in Hw0. injection Hw0 as <-. rewrite integrate_planar, Er, Ev in Hi.
      rewrite Rabs_R0 in Hi. pose proof epsilon_pos. destruct (Rlt_dec epsilon 0); [lra|]. rewrite Hw1, Hi. f_equal. f_equal.
      rewrite S_INR. unfold add3. cbn [vx vy vz]. f_equal; ring.
    + destruct (Hk (S k) Hlt) as (w0 & w1 & _ & _ & _ & _ & _ & Hwl & Hwr & _). rewrite Hwl, Hwr, Er, Ev. split; repeat f_equal; ring.
Qed.

(** * C88: error terms of the simulated data at the true parameters *)
Definition vec_of (a : v3) : rvec := fun i => match i with O => vx a | 1%nat => vy a | _ => vz a end.
(** At the true wheel velocity and scale factor the wheel residual is the noise times the scale factor. *)
Theorem td_wheel_residual n fuel d : 0 < dt -> num_steps dt (tp_T P) n -> (n < fuel)%nat ->
  td_simulate sec ypr P nl nr np nq fuel = Some d -> forall k, (k < n)%nat -> exists wl wr lw lwn rw rwn,
    nth_error (td_wl d) k = Some wl /\ nth_error (td_wr d) k = Some wr
    /\ nth_error (map snd (td_lw d)) k = Some lw /\ nth_error (map snd (td_lwn d)) k = Some lwn
    /\ nth_error (map snd (td_rw d)) k = Some rw /\ nth_error (map snd (td_rwn d)) k = Some rwn
    /\ (forall i, wheel_error false lw (tp_kl P) (vec_of wl) i = 0) /\ (forall i, wheel_error false rw (tp_kr P) (vec_of wr) i = 0)
    /\ (forall i, wheel_error false lwn (tp_kl P) (vec_of wl) i = match i with O => tp_kl P * nl k | _ => 0 end)
    /\ (forall i, wheel_error false rwn (tp_kr P) (vec_of wr) i = match i with O => tp_kr P * nr k | _ => 0 end).
Proof.
  intros Hdt Hn Hf Hd k Hkn. destruct (td_simulation n fuel Hdt Hn Hf) as (d' & Hd' & _ & _ & _ & _ & _ & _ & _ & _ & _ & _ & _ & _ & Hk).
  rewrite Hd in Hd'. injection Hd' as <-. destruct (Hk k Hkn) as (w & w' & _ & _ & _ & _ & _ & Hwl & Hwr & Hlw & Hrw & Hlwn & Hrwn & _).
  eexists _, _, _, _, _, _. split; [exact Hwl|]. split; [exact Hwr|].
  split; [rewrite nth_error_map, Hlw; reflexivity|]. split; [rewrite nth_error_map, Hlwn; reflexivity|].
  split; [rewrite nth_error_map, Hrw; reflexivity|]. split; [rewrite nth_error_map, Hrwn; reflexivity|].
  cbn [snd]. repeat split; intros [|[|i]]; unfold wheel_error, vec_of; cbn [vx vy vz]; ring.
Qed.
(** The velocity of a step carries each pose to the next, whose time stamps lie half a step before and after the (undelayed) time stamp of the
    wheel measurements of that step. *)
Theorem td_midpoint n fuel d : 0 < dt -> num_steps dt (tp_T P) n -> (n < fuel)%nat -> (forall x, sec (x * 0.5) + sec (x * 0.5) = sec x)%Z ->
  td_simulate sec ypr P nl nr np nq fuel = Some d -> forall k, (S k < n)%nat ->
  exists t0 t1 tw m0 m1 lw, nth_error (td_pose d) k = Some (t0, m0) /\ nth_error (td_pose d) (S k) = Some (t1, m1)
    /\ nth_error (td_lw d) (S k) = Some ((tw + sec (tp_tl P))%Z, lw) /\ (tw - t0 = t1 - tw)%Z.
Proof.
  intros Hdt Hn Hf Hsec Hd k Hkn. destruct (td_simulation n fuel Hdt Hn Hf) as (d' & Hd' & _ & _ & _ & _ & _ & _ & _ & _ & _ & _ & _ & _ & Hk).
  rewrite Hd in Hd'. injection Hd' as <-. destruct (Hk k ltac:(lia)) as (w & w' & _ & _ & _ & _ & _ & _ & _ & _ & _ & _ & _ & r0 & a0 & _ & _ & Hp0 & _).
  destruct (Hk (S k) Hkn) as (w2 & w3 & _ & _ & _ & _ & _ & _ & _ & Hlw & _ & _ & _ & r1' & a1 & _ & _ & Hp1 & _).
  eexists _, _, (Z.of_nat (S k) * sec dt)%Z, _, _, _. split; [exact Hp0|]. split; [exact Hp1|]. split; [exact Hlw|]. rewrite Nat2Z.inj_succ. specialize (Hsec dt). lia.
Qed.
(** The delay.  [v], [om]: velocities of the vehicle as functions of time that agree with the simulated ones.  The calibrator's error vanishes for
    the estimate minus t_l; *)
Theorem td_delay_opposite_sign n fuel d v om : 0 < dt -> num_steps dt (tp_T P) n -> (n < fuel)%nat ->
  td_simulate sec ypr P nl nr np nq fuel = Some d ->
  (forall k, (k < n)%nat -> nth_error (td_v d) (S k) = Some (v (Z.of_nat k * sec dt)%Z) /\ nth_error (td_om d) (S k) = Some (om (Z.of_nat k * sec dt)%Z)) ->
  forall stamp value, In (stamp, value) (td_lw d) ->
  forall i, wheel_error false value (tp_kl P) (vec_of (td_wheel_velocity v om (- sec (tp_tl P)) stamp (tp_b P))) i = 0.
Proof.
  intros Hdt Hn Hf Hd Hv stamp value Hin i. destruct (td_simulation n fuel Hdt Hn Hf) as (d' & Hd' & _ & _ & _ & _ & _ & Hlen & _ & _ & _ & _ & _ & _ & Hk).
  rewrite Hd in Hd'. injection Hd' as <-. apply In_nth_error in Hin as [k Hk'].
  assert (Hkn : (k < n)%nat) by (rewrite <-Hlen; apply nth_error_Some; congruence).
  destruct (Hk k Hkn) as (w & w' & _ & _ & _ & Hvk & Homk & _ & _ & Hlw & _). rewrite Hk' in Hlw. injection Hlw as -> ->.
  destruct (Hv k Hkn) as [Ev Eom]. rewrite Ev in Hvk. rewrite Eom in Homk. injection Hvk as Hvk. injection Homk as Homk.
  unfold td_wheel_velocity. replace (- sec (tp_tl P) + (Z.of_nat k * sec dt + sec (tp_tl P)))%Z with (Z.of_nat k * sec dt)%Z by ring.
  rewrite Hvk, Homk. destruct i as [|[|i]]; unfold wheel_error, vec_of, add3, cross3; cbn [vx vy vz]; ring.
Qed.
(** with the simulated delay itself it compares each measurement with the motion 2 t_l later, so that it vanishes only if the wheel has the
    same speed there. *)
Theorem td_delay_refuted n fuel d v om : 0 < dt -> num_steps dt (tp_T P) n -> (n < fuel)%nat ->
  td_simulate sec ypr P nl nr np nq fuel = Some d -> tp_kl P <> 0 ->
  (forall k, (k < n)%nat -> nth_error (td_v d) (S k) = Some (v (Z.of_nat k * sec dt)%Z) /\ nth_error (td_om d) (S k) = Some (om (Z.of_nat k * sec dt)%Z)) ->
  forall k stamp value, nth_error (td_lw d) k = Some (stamp, value) ->
  wheel_error false value (tp_kl P) (vec_of (td_wheel_velocity v om (sec (tp_tl P)) stamp (tp_b P))) 0%nat = 0 <->
  (let t := (Z.of_nat k * sec dt)%Z in let t' := (t + 2 * sec (tp_tl P))%Z in
   vx (v t') - tp_b P * vz (om t') = vx (v t) - tp_b P * vz (om t)).
Proof.
  intros Hdt Hn Hf Hd Hkl Hv k stamp value Hk'. destruct (td_simulation n fuel Hdt Hn Hf) as (d' & Hd' & _ & _ & _ & _ & _ & Hlen & _ & _ & _ & _ & _ & _ & Hk).
  rewrite Hd in Hd'. injection Hd' as <-.
  assert (Hkn : (k < n)%nat) by (rewrite <-Hlen; apply nth_error_Some; congruence).
  destruct (Hk k Hkn) as (w & w' & _ & _ & _ & Hvk & Homk & _ & _ & Hlw & _). rewrite Hk' in Hlw. injection Hlw as -> ->.
  destruct (Hv k Hkn) as [Ev Eom]. rewrite Ev in Hvk. rewrite Eom in Homk. injection Hvk as Hvk. injection Homk as Homk.
  cbv zeta. rewrite Hvk, Homk. unfold td_wheel_velocity. replace (sec (tp_tl P) + (Z.of_nat k * sec dt + sec (tp_tl P)))%Z with (Z.of_nat k * sec dt + 2 * sec (tp_tl P))%Z by ring.
  unfold wheel_error, vec_of, add3, cross3. cbn [vx vy vz]. set (x := vx (v _)). set (y := vz (om _)). clearbody x y. split.
  - intros H. assert (E : tp_kl P * (speed k - tp_b P * rate k - (x - tp_b P * y)) = 0) by lra. apply Rmult_integral in E as [E|E]; [contradiction|]. lra.
  - intros H. replace (x + (vy (om _) * 0 - y * tp_b P)) with (x - tp_b P * y) by ring. rewrite H. ring.
Qed.
End td.


(** * Examples: dt = 1, T = 5/2: two rounds; a vehicle heading along x; delay 7 for the left wheel *)
Definition ex_P : td_params :=
  TdParams (planar 0) (V3 0 0 0) 0 1 1 (5 / 2) 1 2 7 3 0 ident_T.
Example ex_steps : num_steps (tp_dt ex_P) (tp_T ex_P) 2 /\ 0 < tp_dt ex_P /\ unit_quat (tp_q0 ex_P).
Proof.
  unfold num_steps, unit_quat, ex_P, planar. cbn [tp_dt tp_T tp_q0 q0 q1 q2 q3 INR]. split; [split; [right|]; lra|]. split; [lra|].
  replace (0 / 2) with 0 by field. rewrite sin_0, cos_0. ring.
Qed.
Example ex_sim : exists d, td_simulate (fun x => (if Rlt_dec x 2 then 10 else 7)%Z) (fun _ => V3 0 0 0) ex_P (fun _ => 0) (fun _ => 0) (fun _ => V3 0 0 0) (fun _ => V3 0 0 0) 5 = Some d
  /\ length (td_T d) = 3%nat /\ nth_error (td_lw d) 1 = Some (17%Z, 2).
Proof.
  destruct ex_steps as (H1 & H2 & _).
  destruct (td_simulation (fun x => (if Rlt_dec x 2 then 10 else 7)%Z) (fun _ => V3 0 0 0) ex_P (fun _ => 0) (fun _ => 0) (fun _ => V3 0 0 0) (fun _ => V3 0 0 0) 2 5 H2 H1 ltac:(lia))
    as (d & Hd & HT & _ & _ & _ & _ & _ & _ & _ & _ & _ & _ & _ & Hk).
  exists d. split; [exact Hd|]. split; [exact HT|]. destruct (Hk 1%nat ltac:(lia)) as (w & w' & _ & _ & _ & _ & _ & _ & _ & Hlw & _). rewrite Hlw.
  unfold ex_P. cbn [tp_dt tp_tl tp_kl tp_b tp_A tp_f]. destruct (Rlt_dec 1 2) as [_|]; [|lra]. destruct (Rlt_dec 7 2); [lra|]. f_equal. f_equal.
  unfold chord_speed, turn_rate, curve_angle, curve_x, curve_y. rewrite !Rmult_0_r, !Rmult_0_l, atan_0, cos_0, sin_0. cbn [INR]. field.
Qed.
Print Assumptions integrate_rotation.
Print Assumptions integrate_unit.
Print Assumptions integrate_planar.
Print Assumptions td_simulation.
Print Assumptions td_never_ends.
Print Assumptions td_unit.
Print Assumptions td_heading.
Print Assumptions td_straight.
Print Assumptions td_wheel_residual.
Print Assumptions td_midpoint.
Print Assumptions td_delay_opposite_sign.
Print Assumptions td_delay_refuted.
