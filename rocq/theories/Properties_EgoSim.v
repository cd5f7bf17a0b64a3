(** Properties of the trajectory generator of the egomotion simulator (C89). *)
From Coq Require Import Reals List ZArith Lra Lia.
From Verif Require Import Base GeodeticModel Spec_Geodetic Properties_Geodetic SimEngineModel Spec_SimEngine Properties_SimEngine.
Import ListNotations.
Local Open Scope R_scope.

Notation entry := (Z * v3 * quat)%type.
(** Entry [e'] follows from [e] by moving for one step with velocity [v] and rotation rate [om] (both in the vehicle frame): the time
    advances by [S]; position and attitude come from the motion model; of the two quaternions with this attitude the one
    on the side of the previous quaternion is recorded. *)
Definition step (S : Z) (dt : R) (v om : v3) (e e' : entry) : Prop :=
  let '(t, p, q) := e in let '(t', p', q') := e' in
  let w := integrateMotionModel (q, p) v om dt in
  t' = (t + S)%Z /\ p' = snd w /\ (q' = fst w \/ q' = q_opp (fst w)) /\ 0 <= q_dot q q'.
Definition steps (S : Z) (dt : R) (cmd : nat -> v3 * v3) (l : list entry) : Prop :=
  forall k e e', nth_error l k = Some e -> nth_error l (k + 1) = Some e' -> step S dt (fst (cmd k)) (snd (cmd k)) e e'.
Lemma steps_ext S dt c c' l : (forall k, (k + 1 < length l)%nat -> c k = c' k) -> steps S dt c l -> steps S dt c' l.
Proof. intros E H k e e' H1 H2. rewrite <-E; [apply H; assumption|]. apply nth_error_Some. congruence. Qed.
Lemma steps_one S dt c e : steps S dt c [e].
Proof. intros k a b _ H. rewrite Nat.add_comm in H. cbn in H. destruct k; discriminate. Qed.
Lemma steps_cons S dt c e e' l : step S dt (fst (c 0%nat)) (snd (c 0%nat)) e e' -> steps S dt (fun k => c (1 + k)%nat) (e' :: l) -> steps S dt c (e :: e' :: l).
Proof.
  intros H1 H2 [|k] a b Ha Hb.
  - injection Ha as <-. injection Hb as <-. exact H1.
  - apply (H2 k a b); [exact Ha|exact Hb].
Qed.
Lemma last_indep {X} (l : list X) : forall a x y, last (a :: l) x = last (a :: l) y.
Proof. induction l as [|b l IH]; intros a x y; [reflexivity|]. apply (IH b x y). Qed.
Lemma nth_error_last {X} (l : list X) : forall a x, nth_error (a :: l) (length l) = Some (last (a :: l) x).
Proof. induction l as [|b l IH]; intros a x; [reflexivity|]. apply (IH b x). Qed.
Lemma steps_app S dt c c' e l l' d : steps S dt c (e :: l) -> steps S dt c' (last (e :: l) d :: l') ->
  steps S dt (fun k => if (k <? length l)%nat then c k else c' (k - length l)%nat) (e :: l ++ l').
Proof.
  intros H1 H2 k a b Ha Hb. rewrite app_comm_cons in Ha, Hb. destruct (Nat.ltb_spec k (length l)) as [Hk|Hk].
  - rewrite nth_error_app1 in Ha, Hb by (cbn [length]; lia). apply H1; assumption.
  - apply H2.
    + destruct (Nat.eq_dec k (length l)) as [->|Hne].
      * rewrite nth_error_app1 in Ha by (cbn [length]; lia). rewrite (nth_error_last l e d) in Ha. rewrite Nat.sub_diag. exact Ha.
      * rewrite nth_error_app2 in Ha by (cbn [length]; lia). cbn [length] in Ha. replace (k - length l)%nat with (Datatypes.S (k - Datatypes.S (length l))) by lia. exact Ha.
    + rewrite nth_error_app2 in Hb by (cbn [length]; lia). cbn [length] in Hb.
      replace (k - length l + 1)%nat with (Datatypes.S (k + 1 - Datatypes.S (length l))) by lia. exact Hb.
Qed.

Lemma best_cases p c : bestQuat p c = c \/ bestQuat p c = q_opp c.
Proof. apply (bestQuat_same_rotation p c). Qed.
Lemma opp_rotation q : quat2r (q_opp q) = quat2r q.
Proof. unfold quat2r, q_opp. cbn [q0 q1 q2 q3]. f_equal; f_equal; ring. Qed.
Lemma opp_unit q : unit_quat q -> unit_quat (q_opp q).
Proof. unfold unit_quat, q_opp. cbn [q0 q1 q2 q3]. intros H. rewrite <-H. ring. Qed.

Section ego.
Context (sec : R -> Z) (nsec : Z -> R) (iq : quat) (ip : v3) (A f dt T : R) (nv nom : nat -> v3).
Notation loop := (ego_loop sec f dt nv nom).
Notation traj := (ego_trajectory sec nsec iq ip A f dt T nv nom).
(** Commanded speed and rate of step j of a phase whose first step ends at time t: the curve is followed, starting from the origin
    and from the tangent angle of time dt, whatever t is. *)
Definition phase_speed (Ak t : R) (j : nat) : R :=
  match j with
  | O => speed_from Ak f dt 0 0 t
  | S j' => speed_from Ak f dt (curve_x (t + INR j' * dt)) (curve_y Ak f (t + INR j' * dt)) (t + INR j * dt)
  end.
Definition phase_rate (Ak t : R) (j : nat) : R :=
  match j with
  | O => rate_from Ak f dt (curve_angle Ak f dt) t
  | S j' => rate_from Ak f dt (curve_angle Ak f (t + INR j' * dt)) (t + INR j * dt)
  end.
Definition planar_cmd (v om : R) : v3 * v3 := (V3 v 0 0, V3 0 0 om).
(** In the random phase the planar command is used for all three axes and noise is added. *)
Definition random_cmd (v om : R) (k : nat) : v3 * v3 := (add3 (V3 v v v) (nv k), add3 (V3 om om om) (nom k)).

Definition st (Ak : R) (s : sine) (t : R) (j : nat) : sine :=
  match j with O => s | S j' => Sine (curve_angle Ak f (t + INR j' * dt)) (t + INR j' * dt) (curve_y Ak f (t + INR j' * dt)) end.
Definition cmd (rand : bool) (Ak : R) (i : nat) (s : sine) (t : R) (j : nat) : v3 * v3 :=
  let '(v, om) := snd (genSineBodyVel2d (st Ak s t j) (t + INR j * dt) dt Ak f) in
  if rand then random_cmd v om (i + j) else planar_cmd v om.
Lemma loop_spec rand Ak limit n : forall fuel i t s ts p q, 0 < dt -> count_from dt limit t n -> (n < fuel)%nat ->
  exists l, loop fuel i rand Ak limit t s ts p q = Some l /\ length l = n /\ steps (sec dt) dt (cmd rand Ak i s t) ((ts, p, q) :: l).
Proof.
  induction n as [|n IH]; intros fuel i t s ts p q Hdt [H1 H2] Hf; (destruct fuel as [|fuel]; [lia|]); cbn [ego_loop].
  - cbn [INR] in H2. destruct (Rlt_dec t limit); [lra|]. exists []. split; [reflexivity|]. split; [reflexivity|]. apply steps_one.
  - destruct (Rlt_dec t limit) as [_|Hn].
    2:{ exfalso. apply Hn. destruct H1 as [?|H1]; [lia|]. replace (Datatypes.S n - 1)%nat with n in H1 by lia. pose proof (pos_INR n). nra. }
    destruct (genSineBodyVel2d s t dt Ak f) as [s' [v om]] eqn:Eg.
    set (vv := if rand then add3 (V3 v v v) (nv i) else V3 v 0 0). set (oo := if rand then add3 (V3 om om om) (nom i) else V3 0 0 om).
    set (w := integrateMotionModel (q, p) vv oo dt).
    destruct (IH fuel (Datatypes.S i) (t + dt) s' (ts + sec dt)%Z (snd w) (bestQuat q (fst w)) Hdt) as (l & El & Hl & Hs).
    + split.
      * destruct n as [|n]; [left; reflexivity|right]. destruct H1 as [?|H1]; [lia|].
        replace (Datatypes.S (Datatypes.S n) - 1)%nat with (Datatypes.S n) in H1 by lia. replace (Datatypes.S n - 1)%nat with n by lia. rewrite S_INR in H1. lra.
      * rewrite S_INR in H2. lra.
    + lia.
    + rewrite El. eexists. split; [reflexivity|]. split; [cbn [length]; congruence|]. apply steps_cons.
      * unfold cmd. cbn [st INR]. rewrite Rmult_0_l, Rplus_0_r, Eg. cbn [snd]. rewrite Nat.add_0_r.
        assert (Ec : (if rand then random_cmd v om i else planar_cmd v om) = (vv, oo)) by (unfold vv, oo; destruct rand; reflexivity).
        rewrite Ec. cbn [fst snd]. fold w. split; [reflexivity|]. split; [reflexivity|]. split; [apply best_cases|apply bestQuat_hemisphere].
      * revert Hs. apply steps_ext. intros k _. unfold cmd. replace (Datatypes.S i + k)%nat with (i + (1 + k))%nat by lia.
        replace (t + INR (1 + k) * dt) with (t + dt + INR k * dt) by (change (1 + k)%nat with (Datatypes.S k); rewrite S_INR; ring).
        replace (st Ak s' (t + dt) k) with (st Ak s t (1 + k)); [reflexivity|].
        destruct k as [|k]; cbn [st Nat.add].
        -- unfold genSineBodyVel2d in Eg. injection Eg as <- _ _. cbn [INR]. rewrite Rmult_0_l, Rplus_0_r. reflexivity.
        -- replace (t + INR (Datatypes.S k) * dt) with (t + dt + INR k * dt) by (rewrite S_INR; ring). reflexivity.
Qed.
Lemma cmd_phase rand Ak i t j s : 0 < dt -> s = Sine (curve_angle Ak f dt) 0 0 ->
  cmd rand Ak i s t j = if rand then random_cmd (phase_speed Ak t j) (phase_rate Ak t j) (i + j) else planar_cmd (phase_speed Ak t j) (phase_rate Ak t j).
Proof.
  intros Hdt ->. unfold cmd. replace (snd _) with (phase_speed Ak t j, phase_rate Ak t j); [destruct rand; reflexivity|].
  unfold genSineBodyVel2d. cbn [snd]. destruct j as [|j]; cbn [st phase_speed phase_rate s_phi s_x s_y].
  - cbn [INR]. rewrite Rmult_0_l, Rplus_0_r. f_equal. unfold speed_from, curve_x, curve_y, curve_angle. field. lra.
  - f_equal. unfold speed_from, curve_x, curve_y, curve_angle. field. lra.
Qed.
Lemma straight_speed t j : 0 < dt -> phase_speed 0 t j = match j with O => t / dt | S _ => 1 end /\ phase_rate 0 t j = 0.
Proof.
  intros Hdt. assert (E : forall t, curve_angle 0 f t = 0). { intros x. unfold curve_angle. rewrite Rmult_0_r, Rmult_0_l. apply atan_0. }
  destruct j; unfold phase_speed, phase_rate, speed_from, rate_from, curve_x, curve_y; rewrite !E, cos_0, sin_0.
  - split; field; lra.
  - rewrite S_INR. split; field; lra.
Qed.
Lemma phase_chord Ak k : 0 < dt -> phase_speed Ak dt k = chord_speed Ak f dt k /\ phase_rate Ak dt k = turn_rate Ak f dt k.
Proof.
  intros Hdt. destruct k as [|k].
  - unfold phase_speed, phase_rate, speed_from, rate_from, chord_speed, turn_rate. cbn [Nat.max INR]. rewrite Rmult_0_l, Rmult_1_l.
    unfold curve_x, curve_y. rewrite Rmult_0_r, sin_0. split; [f_equal; ring|reflexivity].
  - unfold phase_speed, phase_rate, chord_speed, turn_rate, speed_from, rate_from. replace (Nat.max (S k) 1) with (S k) by lia.
    replace (dt + INR k * dt) with (INR (S k) * dt) by (rewrite S_INR; ring). replace (dt + INR (S k) * dt) with (INR (S (S k)) * dt) by (rewrite (S_INR (S k)); ring).
    split; reflexivity.
Qed.
Lemma sine0_eq Ak : Sine (phi_init dt Ak f) 0 0 = Sine (curve_angle Ak f dt) 0 0.
Proof. reflexivity. Qed.
Lemma sine00 : Sine 0 0 0 = Sine (curve_angle 0 f dt) 0 0.
Proof. unfold curve_angle. rewrite Rmult_0_r, Rmult_0_l, atan_0. reflexivity. Qed.
Lemma steps_count n : 0 < dt -> num_steps dt T n -> count_from dt T dt n.
Proof.
  intros Hdt [H1 H2]. rewrite S_INR in H2. split; [|lra]. destruct H1 as [->|H1]; [left; reflexivity|]. destruct n as [|n]; [left; reflexivity|right].
  rewrite S_INR in H1. replace (S n - 1)%nat with n by lia. lra.
Qed.
(** Straight, random and (for every other name) planar sine trajectories: one pose per step k dt < T, after the initial one; the
    commanded velocities are those of the sine curve (straight: speed 1, no rotation; random: on all axes, with noise). *)
Theorem ego_trajectory_single fuel n type : 0 < dt -> num_steps dt T n -> (n < fuel)%nat -> type <> Combined ->
  exists l, traj fuel type = Some l /\ length l = S n /\ nth_error l 0 = Some (0%Z, ip, iq)
  /\ steps (sec dt) dt (fun k => match type with
       | Straight => planar_cmd 1 0
       | Random => random_cmd (chord_speed A f dt k) (turn_rate A f dt k) k
       | _ => planar_cmd (chord_speed A f dt k) (turn_rate A f dt k) end) l.
Proof.
  intros Hdt Hn Hf Ht. apply steps_count in Hn; [|exact Hdt]. unfold ego_trajectory. destruct type; [|congruence| |]; cbn [last].
  - destruct (loop_spec false 0 T n fuel 0 dt (Sine 0 0 0) 0%Z ip iq Hdt Hn Hf) as (l & -> & Hl & Hs). eexists. split; [reflexivity|].
    split; [cbn [app length]; congruence|]. split; [reflexivity|]. revert Hs. apply steps_ext. intros k _. rewrite cmd_phase by (exact Hdt || apply sine00).
    destruct (straight_speed dt k Hdt) as [-> ->]. destruct k; [|reflexivity]. replace (dt / dt) with 1 by (field; lra). reflexivity.
  - destruct (loop_spec true A T n fuel 0 dt (Sine (phi_init dt A f) 0 0) 0%Z ip iq Hdt Hn Hf) as (l & -> & Hl & Hs). eexists. split; [reflexivity|].
    split; [cbn [app length]; congruence|]. split; [reflexivity|]. revert Hs. apply steps_ext. intros k _. rewrite cmd_phase by (exact Hdt || reflexivity).
    destruct (phase_chord A k Hdt) as [-> ->]. reflexivity.
  - destruct (loop_spec false A T n fuel 0 dt (Sine (phi_init dt A f) 0 0) 0%Z ip iq Hdt Hn Hf) as (l & -> & Hl & Hs). eexists. split; [reflexivity|].
    split; [cbn [app length]; congruence|]. split; [reflexivity|]. revert Hs. apply steps_ext. intros k _. rewrite cmd_phase by (exact Hdt || reflexivity).
    destruct (phase_chord A k Hdt) as [-> ->]. reflexivity.
Qed.
Lemma steps_stamp c l : forall k t p q, steps (sec dt) dt c l -> nth_error l 0 = Some (0%Z, ip, iq) -> nth_error l k = Some (t, p, q) ->
  t = (Z.of_nat k * sec dt)%Z /\ (unit_quat iq -> unit_quat q).
Proof.
  induction k as [|k IH]; intros t p q Hs H0 Hk.
  - rewrite H0 in Hk. injection Hk as <- <- <-. split; [reflexivity|trivial].
  - destruct (nth_error l k) as [[[t' p'] q']|] eqn:Ek.
    + destruct (IH t' p' q' Hs H0 eq_refl) as [Ht Hu]. rewrite <-Nat.add_1_r in Hk. destruct (Hs k _ _ Ek Hk) as (H1 & _ & H2 & _).
      split; [rewrite H1, Ht, Nat2Z.inj_succ; ring|]. intros H. apply Hu in H. assert (U : unit_quat (fst (integrateMotionModel (q', p') (fst (c k)) (snd (c k)) dt))) by (apply integrate_unit; exact H).
      destruct H2 as [->| ->]; [exact U|apply opp_unit; exact U].
    + apply nth_error_None in Ek. assert (S k < length l)%nat by (apply nth_error_Some; congruence). lia.
Qed.
Lemma last_app_ne {X} (l1 l2 : list X) d : l2 <> [] -> last (l1 ++ l2) d = last l2 d.
Proof.
  intros H. induction l1 as [|a l1 IH]; [reflexivity|]. cbn [app]. rewrite <-IH. cbn [last]. destruct (l1 ++ l2) eqn:E; [|reflexivity].
  apply app_eq_nil in E. tauto.
Qed.
(** The combined trajectory: a straight phase until T / 3, a planar sine until 2 T / 3, a random phase until T; the times of a phase
    continue after the last recorded stamp. *)
Theorem ego_trajectory_combined fuel n1 n2 n3 (t2 := nsec (Z.of_nat n1 * sec dt) + dt) (t3 := nsec (Z.of_nat (n1 + n2) * sec dt) + dt) :
  0 < dt -> count_from dt (T / 3) dt n1 -> count_from dt (2 / 3 * T) t2 n2 -> count_from dt T t3 n3 -> (n1 + n2 + n3 < fuel)%nat ->
  exists l, traj fuel Combined = Some l /\ length l = (1 + n1 + n2 + n3)%nat /\ nth_error l 0 = Some (0%Z, ip, iq)
  /\ steps (sec dt) dt (fun k =>
       if (k <? n1)%nat then planar_cmd 1 0
       else if (k <? n1 + n2)%nat then planar_cmd (phase_speed A t2 (k - n1)) (phase_rate A t2 (k - n1))
       else random_cmd (phase_speed A t3 (k - (n1 + n2))) (phase_rate A t3 (k - (n1 + n2))) (k + 1)) l.
Proof.
  intros Hdt H1 H2 H3 Hf. unfold ego_trajectory. cbn [last]. set (e0 := (0%Z, ip, iq)).
  destruct (loop_spec false 0 (T / 3) n1 fuel 0 dt (Sine 0 0 0) 0%Z ip iq Hdt H1 ltac:(lia)) as (l1 & -> & L1 & S1). fold e0 in S1.
  change ([e0] ++ l1) with (e0 :: l1).
  assert (Z1 : fst (fst (last (e0 :: l1) e0)) = (Z.of_nat n1 * sec dt)%Z).
  { pose proof (nth_error_last l1 e0 e0) as Hn. destruct (last (e0 :: l1) e0) as [[t p] q]. cbn [fst]. rewrite L1 in Hn.
    apply (steps_stamp _ _ _ _ _ _ S1 eq_refl) in Hn. apply Hn. }
  rewrite Z1. fold t2. destruct (last (e0 :: l1) e0) as [[ts1 p1] q1'] eqn:E1.
  destruct (loop_spec false A (2 / 3 * T) n2 fuel (length (e0 :: l1)) t2 (Sine (phi_init dt A f) 0 0) ts1 p1 q1' Hdt H2 ltac:(lia)) as (l2 & -> & L2 & S2).
  rewrite <-E1 in S2. pose proof (steps_app _ _ _ _ _ _ _ e0 S1 S2) as S12. change ((e0 :: l1) ++ l2) with (e0 :: l1 ++ l2).
  assert (Z2 : fst (fst (last (e0 :: l1 ++ l2) e0)) = (Z.of_nat (n1 + n2) * sec dt)%Z).
  { pose proof (nth_error_last (l1 ++ l2) e0 e0) as Hn. destruct (last (e0 :: l1 ++ l2) e0) as [[t p] q]. cbn [fst]. rewrite app_length, L1, L2 in Hn.
    apply (steps_stamp _ _ _ _ _ _ S12 eq_refl) in Hn. apply Hn. }
  rewrite Z2. fold t3. destruct (last (e0 :: l1 ++ l2) e0) as [[ts2 p2] q2'] eqn:E2.
  destruct (loop_spec true A T n3 fuel (length (e0 :: l1 ++ l2)) t3 (Sine (phi_init dt A f) 0 0) ts2 p2 q2' Hdt H3 ltac:(lia)) as (l3 & -> & L3 & S3).
  rewrite <-E2 in S3. pose proof (steps_app _ _ _ _ _ _ _ e0 S12 S3) as S123. change ((e0 :: l1 ++ l2) ++ l3) with (e0 :: (l1 ++ l2) ++ l3).
  eexists. split; [reflexivity|]. split; [cbn [length]; rewrite !app_length; lia|]. split; [reflexivity|]. revert S123. apply steps_ext.
  intros k Hk. cbn [length]. rewrite !app_length, !L1, !L2.
  destruct (Nat.ltb_spec k (n1 + n2)) as [Hk2|Hk2], (Nat.ltb_spec k n1) as [Hk1|Hk1]; try lia.
  - rewrite cmd_phase by (exact Hdt || apply sine00). destruct (straight_speed dt k Hdt) as [-> ->]. destruct k; [|reflexivity].
    replace (dt / dt) with 1 by (field; lra). reflexivity.
  - rewrite cmd_phase by (exact Hdt || reflexivity). reflexivity.
  - rewrite cmd_phase by (exact Hdt || reflexivity). f_equal. lia.
Qed.
(** Hence, for every type: entry k is stamped k secToNsec(dt), and its quaternion is a unit quaternion if the initial one is. *)
Theorem ego_trajectory_stamps fuel n1 n2 n3 n type l k t p q (t2 := nsec (Z.of_nat n1 * sec dt) + dt) (t3 := nsec (Z.of_nat (n1 + n2) * sec dt) + dt) :
  0 < dt -> num_steps dt T n -> count_from dt (T / 3) dt n1 -> count_from dt (2 / 3 * T) t2 n2 -> count_from dt T t3 n3 -> (n + n1 + n2 + n3 < fuel)%nat ->
  traj fuel type = Some l -> nth_error l k = Some (t, p, q) -> t = (Z.of_nat k * sec dt)%Z /\ (unit_quat iq -> unit_quat q).
Proof.
  intros Hdt Hn H1 H2 H3 Hf Hl. assert (D : type = Combined \/ type <> Combined) by (destruct type; (left; reflexivity) || (right; discriminate)).
  destruct D as [->|D].
  - destruct (ego_trajectory_combined fuel n1 n2 n3 Hdt H1 H2 H3 ltac:(lia)) as (l' & E & _ & H0 & Hs). rewrite E in Hl. injection Hl as <-. apply (steps_stamp _ _ _ _ _ _ Hs H0).
  - destruct (ego_trajectory_single fuel n type Hdt Hn ltac:(lia) D) as (l' & E & _ & H0 & Hs). rewrite E in Hl. injection Hl as <-. apply (steps_stamp _ _ _ _ _ _ Hs H0).
Qed.
(** The counts exist whenever the step is positive, so the trajectory is always completed ... *)
Theorem count_exists limit t : 0 < dt -> exists n, count_from dt limit t n.
Proof.
  intros Hdt. assert (Hn : exists n, (limit - t) / dt < INR n).
  { exists (Z.to_nat (Z.max 0 (Rdefinitions.up ((limit - t) / dt)))). rewrite INR_IZR_INZ, Z2Nat.id by lia. destruct (archimed ((limit - t) / dt)) as [Ha _].
    apply Rlt_le_trans with (IZR (Rdefinitions.up ((limit - t) / dt))); [exact Ha|apply IZR_le; lia]. }
  destruct Hn as [n Hn]. apply (Rmult_lt_compat_r dt) in Hn; [|exact Hdt]. unfold Rdiv in Hn. rewrite Rmult_assoc, Rinv_l, Rmult_1_r in Hn by lra.
  assert (H : limit <= t + INR n * dt) by lra. clear Hn. induction n as [|n IH]; [exists 0%nat; split; [left; reflexivity|exact H]|].
  destruct (Rlt_dec (t + INR n * dt) limit) as [Hl|Hl]; [|apply IH; lra]. exists (S n). split; [right|exact H]. replace (S n - 1)%nat with n by lia. exact Hl.
Qed.
(** ... while for a step that is not positive (and T, respectively T / 3, after it) it never is. *)
Theorem ego_trajectory_never_ends fuel type : dt <= 0 -> dt < T -> dt < T / 3 -> traj fuel type = None.
Proof.
  intros Hdt HT HT3. assert (G : forall fuel i rand Ak limit t s ts p q, t < limit -> loop fuel i rand Ak limit t s ts p q = None).
  { clear fuel. induction fuel as [|fuel IH]; intros i rand Ak limit t s ts p q Ht; [reflexivity|]. cbn [ego_loop]. destruct (Rlt_dec t limit); [|contradiction].
    destruct (genSineBodyVel2d _ _ _ _ _) as [s' [v om]]. rewrite IH by lra. reflexivity. }
  unfold ego_trajectory. destruct type; cbn [last]; rewrite G by assumption; reflexivity.
Qed.
(** A straight trajectory: the vehicle moves along its initial x axis with speed 1 and keeps its attitude. *)
Theorem ego_straight fuel n l k t p q : 0 < dt -> num_steps dt T n -> (n < fuel)%nat -> traj fuel Straight = Some l -> nth_error l k = Some (t, p, q) ->
  p = add3 ip (scale3 (INR k * dt) (mulv (quat2r iq) (V3 1 0 0))) /\ quat2r q = quat2r iq.
Proof.
  intros Hdt Hn Hf Hl. destruct (ego_trajectory_single fuel n Straight Hdt Hn Hf ltac:(discriminate)) as (l' & E & _ & H0 & Hs).
  rewrite E in Hl. injection Hl as <-. revert t p q. induction k as [|k IH]; intros t p q Hk.
  - rewrite H0 in Hk. injection Hk as <- <- <-. split; [|reflexivity]. cbn [INR]. rewrite Rmult_0_l. apply v3_eq; cbn; ring.
  - destruct (nth_error l' k) as [[[t' p'] q']|] eqn:Ek.
    + destruct (IH t' p' q' eq_refl) as [Hp Hq]. rewrite <-Nat.add_1_r in Hk. destruct (Hs k _ _ Ek Hk) as (_ & H1 & H2 & _). cbn [planar_cmd fst snd] in *.
      assert (Ef : fst (integrateMotionModel (q', p') (V3 1 0 0) (V3 0 0 0) dt) = q').
      { apply integrate_no_rotation. rewrite norm_z, Rabs_R0. apply Rlt_le, epsilon_pos. }
      rewrite Ef in H2. split.
      * rewrite H1, integrate_position. cbn [fst snd]. rewrite Hq, Hp. rewrite S_INR. apply v3_eq; cbn; ring.
      * destruct H2 as [->| ->]; rewrite ?opp_rotation; exact Hq.
    + apply nth_error_None in Ek. assert (S k < length l')%nat by (apply nth_error_Some; congruence). lia.
Qed.
(** The second phase restarts at the origin of the curve although the time goes on: its first step covers the whole way from the
    origin, however small dt is. *)
Lemma rotate_norm q v : unit_quat q -> norm_v (mulv (quat2r q) v) = norm_v v.
Proof.
  intros Hu. unfold norm_v. f_equal. unfold unit_quat in Hu.
  transitivity ((q0 q * q0 q + q1 q * q1 q + q2 q * q2 q + q3 q * q3 q) * (q0 q * q0 q + q1 q * q1 q + q2 q * q2 q + q3 q * q3 q) * dot3 v v); [|rewrite Hu; ring].
  unfold mulv, dot3, quat2r. cbn [vx vy vz r1 r2 r3]. unfold dot3. cbn [vx vy vz]. ring.
Qed.
Theorem ego_combined_jump fuel n1 n2 n3 l t p q t' p' q' (t2 := nsec (Z.of_nat n1 * sec dt) + dt) (t3 := nsec (Z.of_nat (n1 + n2) * sec dt) + dt) :
  0 < dt -> count_from dt (T / 3) dt n1 -> count_from dt (2 / 3 * T) t2 n2 -> count_from dt T t3 n3 -> (n1 + n2 + n3 < fuel)%nat ->
  unit_quat iq -> (0 < n2)%nat -> 0 <= t2 ->
  traj fuel Combined = Some l -> nth_error l n1 = Some (t, p, q) -> nth_error l (n1 + 1) = Some (t', p', q') ->
  norm_v (sub_v p' p) = Rabs (t2 * cos (curve_angle A f t2) + curve_y A f t2 * sin (curve_angle A f t2))
  /\ t2 / sqrt (1 + Rsqr (2 * PI * f * A)) - Rabs A <= norm_v (sub_v p' p).
Proof.
  intros Hdt H1 H2 H3 Hf Hu Hn2 Ht2 Hl Hp Hp'. destruct (ego_trajectory_combined fuel n1 n2 n3 Hdt H1 H2 H3 Hf) as (l' & E & _ & H0 & Hs).
  rewrite E in Hl. injection Hl as <-. destruct (steps_stamp _ _ _ _ _ _ Hs H0 Hp) as [_ Huq]. specialize (Huq Hu).
  destruct (Hs n1 _ _ Hp Hp') as (_ & Hpos & _ & _). rewrite (proj2 (Nat.ltb_ge n1 n1) ltac:(lia)), (proj2 (Nat.ltb_lt n1 (n1 + n2)) ltac:(lia)), Nat.sub_diag in Hpos.
  cbn [phase_speed phase_rate planar_cmd fst snd] in Hpos. fold t2 in Hpos. rewrite integrate_position in Hpos. cbn [fst snd] in Hpos.
  set (s := speed_from A f dt 0 0 t2) in Hpos. assert (Hs' : dt * s = t2 * cos (curve_angle A f t2) + curve_y A f t2 * sin (curve_angle A f t2)).
  { unfold s, speed_from, curve_x. field. lra. }
  assert (Hd : norm_v (sub_v p' p) = Rabs (dt * s)).
  { replace (sub_v p' p) with (mulv (quat2r q) (V3 (dt * s) 0 0)).
    - rewrite rotate_norm by exact Huq. unfold norm_v, dot3. cbn [vx vy vz]. replace (dt * s * (dt * s) + 0 * 0 + 0 * 0) with (Rsqr (dt * s)) by (unfold Rsqr; ring). apply sqrt_Rsqr_abs.
    - rewrite Hpos. apply v3_eq; unfold sub_v, add3, scale3, mulv, dot3; cbn [vx vy vz]; ring. }
  rewrite Hd, Hs'. split; [reflexivity|]. set (a := curve_angle A f t2). set (x := 2 * PI * f * A * cos (2 * PI * f * t2)).
  assert (Hc : / sqrt (1 + Rsqr (2 * PI * f * A)) <= cos a).
  { unfold a, curve_angle. fold x. rewrite cos_atan. unfold Rdiv. rewrite Rmult_1_l. pose proof (Rle_0_sqr x). pose proof (Rle_0_sqr (2 * PI * f * A)).
    apply Rinv_le_contravar; [apply sqrt_lt_R0; lra|]. apply sqrt_le_1; [lra|lra|]. apply Rplus_le_compat_l. unfold x. rewrite Rsqr_mult.
    pose proof (COS_bound (2 * PI * f * t2)) as Hb. assert (Rsqr (cos (2 * PI * f * t2)) <= 1) by (unfold Rsqr; nra). nra. }
  assert (Hy : Rabs (curve_y A f t2 * sin a) <= Rabs A).
  { unfold curve_y. rewrite !Rabs_mult. pose proof (Rabs_pos A). assert (B : forall z, Rabs (sin z) <= 1) by (intros z; apply Rabs_le; apply SIN_bound).
    pose proof (B a). pose proof (B (2 * PI * f * t2)). pose proof (Rabs_pos (sin a)). pose proof (Rabs_pos (sin (2 * PI * f * t2))).
    rewrite Rmult_assoc. rewrite <-(Rmult_1_r (Rabs A)) at 2. apply Rmult_le_compat_l; [assumption|]. nra. }
  pose proof (Rabs_triang (t2 * cos a + curve_y A f t2 * sin a) (- (curve_y A f t2 * sin a))) as Ht. rewrite Rabs_Ropp in Ht.
  replace (t2 * cos a + curve_y A f t2 * sin a + - (curve_y A f t2 * sin a)) with (t2 * cos a) in Ht by ring.
  assert (t2 / sqrt (1 + Rsqr (2 * PI * f * A)) <= Rabs (t2 * cos a)).
  { apply Rle_trans with (t2 * cos a); [|apply Rle_abs]. apply Rmult_le_compat_l; assumption. }
  lra.
Qed.
End ego.

(** Examples: step 1; straight phase 1, 2; sine 3, 4, 5; random 6, 7, 8 *)
Example ex_counts : count_from 1 (9 / 3) 1 2 /\ count_from 1 (2 / 3 * 9) (IZR (Z.of_nat 2 * 1) + 1) 3 /\ count_from 1 9 (IZR (Z.of_nat (2 + 3) * 1) + 1) 3
  /\ num_steps 1 9 8.
Proof. unfold count_from, num_steps. rewrite !Z.mul_1_r, !INR_IZR_INZ. unfold Z.of_nat. cbn. repeat split; try right; lra. Qed.
Example ex_combined (nv nom : nat -> v3) (A f : R) : exists l,
  ego_trajectory (fun _ => 1%Z) IZR (Quat 0 0 0 1) (V3 0 0 0) A f 1 9 nv nom 20 Combined = Some l /\ length l = 9%nat
  /\ forall t p q t' p' q', nth_error l 2 = Some (t, p, q) -> nth_error l 3 = Some (t', p', q') ->
       t = 2%Z /\ t' = 3%Z /\ 3 / sqrt (1 + Rsqr (2 * PI * f * A)) - Rabs A <= norm_v (sub_v p' p).
Proof.
  destruct ex_counts as (H1 & H2 & H3 & H4).
  destruct (ego_trajectory_combined (fun _ => 1%Z) IZR (Quat 0 0 0 1) (V3 0 0 0) A f 1 9 nv nom 20 2 3 3) as (l & El & Hl & H0 & Hs); [lra|assumption|assumption|assumption|lia|].
  exists l. split; [exact El|]. split; [exact Hl|]. intros t p q t' p' q' Hp Hp'.
  split; [|split].
  - apply (steps_stamp (fun _ => 1%Z) (Quat 0 0 0 1) (V3 0 0 0) 1 _ _ _ _ _ _ Hs H0) in Hp. apply Hp.
  - apply (steps_stamp (fun _ => 1%Z) (Quat 0 0 0 1) (V3 0 0 0) 1 _ _ _ _ _ _ Hs H0) in Hp'. apply Hp'.
  - assert (E3 : IZR (Z.of_nat 2 * 1) + 1 = 3) by (rewrite <-plus_IZR; reflexivity).
    destruct (ego_combined_jump (fun _ => 1%Z) IZR (Quat 0 0 0 1) (V3 0 0 0) A f 1 9 nv nom 20 2 3 3 l t p q t' p' q') as [_ H]; try assumption; try lra; try lia; try (rewrite E3; lra).
    + unfold unit_quat. cbn. ring.
    + rewrite E3 in H. exact H.
Qed.
Print Assumptions ego_trajectory_single.
Print Assumptions ego_trajectory_combined.
Print Assumptions ego_trajectory_stamps.
Print Assumptions ego_straight.
Print Assumptions ego_combined_jump.
