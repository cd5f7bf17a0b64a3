(** Model of the trajectory and sensor simulators of the time-delay and the egomotion example
    (incremental_calibration_examples_time_delay/src/simulation/simulationEngine.cpp, cited as TD, and
    incremental_calibration_examples_egomotion_sensors/src/simulation/simulationEngine.cpp, cited as EGO), with exact arithmetic.
    Parameters of the model: the noise drawn by the normal distributions, secToNsec / nsecToSec, the Euler angles of a rotation matrix,
    and (EGO) the evaluation of the fitted splines.  A Transformation is the rotation matrix and the translation (GeodeticModel.v);
    where the code works on quaternions so does the model. *)
From Coq Require Import Reals List ZArith.
From Verif Require Import Base GeodeticModel.
Import ListNotations.
Local Open Scope R_scope.

(** sm_kinematics quaternion_algebra (library, scalar last, "Barfoot" convention): quatInv, qplus, quat2r; quatRotate(q, v) = C(q) v *)
Definition quatInv (q : quat) : quat := Quat (- q0 q) (- q1 q) (- q2 q) (q3 q).
Definition qplus (p q : quat) : quat :=
  Quat (q3 p * q0 q + q2 p * q1 q - q1 p * q2 q + q0 p * q3 q)
       (- q2 p * q0 q + q3 p * q1 q + q0 p * q2 q + q1 p * q3 q)
       (q1 p * q0 q - q0 p * q1 q + q3 p * q2 q + q2 p * q3 q)
       (- q0 p * q0 q - q1 p * q1 q - q2 p * q2 q + q3 p * q3 q).
Definition quat2r (q : quat) : m3 :=
  let d := q3 q * q3 q - (q0 q * q0 q + q1 q * q1 q + q2 q * q2 q) in
  M3 (V3 (d + 2 * q0 q * q0 q) (2 * q0 q * q1 q + 2 * q3 q * q2 q) (2 * q0 q * q2 q - 2 * q3 q * q1 q))
     (V3 (2 * q1 q * q0 q - 2 * q3 q * q2 q) (d + 2 * q1 q * q1 q) (2 * q1 q * q2 q + 2 * q3 q * q0 q))
     (V3 (2 * q2 q * q0 q + 2 * q3 q * q1 q) (2 * q2 q * q1 q - 2 * q3 q * q0 q) (d + 2 * q2 q * q2 q)).
Definition quatRotate (q : quat) (v : v3) : v3 := mulv (quat2r q) v.
(** numeric_limits<double>::epsilon() *)
Definition epsilon : R := / 2 ^ 52.
Definition cross3 (a b : v3) : v3 :=
  V3 (vy a * vz b - vz a * vy b) (vz a * vx b - vx a * vz b) (vx a * vy b - vy a * vx b).
(** Product of matrices and of transformations *)
Definition mulm (A B : m3) : m3 :=
  let col1 := V3 (vx (r1 B)) (vx (r2 B)) (vx (r3 B)) in
  let col2 := V3 (vy (r1 B)) (vy (r2 B)) (vy (r3 B)) in
  let col3 := V3 (vz (r1 B)) (vz (r2 B)) (vz (r3 B)) in
  let row r := V3 (dot3 r col1) (dot3 r col2) (dot3 r col3) in
  M3 (row (r1 A)) (row (r2 A)) (row (r3 A)).
Definition compose_T (S T : transf) : transf := Transf (mulm (rot S) (rot T)) (add3 (mulv (rot S) (trans T)) (trans S)).

(** integrateMotionModel, TD 108-126, EGO 267-285: rotation and translation of w_T_v *)
Definition integrateMotionModel (w_T_v_km1 : quat * v3) (v om : v3) (dt : R) : quat * v3 :=
  let w_q_v_km1 := fst w_T_v_km1 in
  let w_r_wv_k := add3 (snd w_T_v_km1) (scale3 dt (quatRotate w_q_v_km1 v)) in
  let v_q_w_k := quatInv w_q_v_km1 in
  let n := sqrt (dot3 om om) in
  let v_q_w_k :=
    if Rlt_dec epsilon n then
      let c := cos (n / 2 * dt) in
      let s := sin (n / 2 * dt) in
      let sigma := Quat (vx om / n * s) (vy om / n * s) (vz om / n * s) c in
      qplus sigma v_q_w_k
    else v_q_w_k in
  (quatInv v_q_w_k, w_r_wv_k).

(** The variables that genSineBodyVel2d updates: w_phi_v_km1, w_r_wv_km1 *)
Record sine := Sine { s_phi : R; s_x : R; s_y : R }.
(** genSineBodyVel2d, TD 128-144, EGO 287-303: forward velocity, rotation rate *)
Definition genSineBodyVel2d (s : sine) (t dt A f : R) : sine * (R * R) :=
  let phi := atan (2 * PI * f * A * cos (2 * PI * f * t)) in
  let om := (phi - s_phi s) / dt in
  let rx := t in
  let ry := A * sin (2 * PI * f * t) in
  let wx := (rx - s_x s) / dt in
  let wy := (ry - s_y s) / dt in
  let c := cos phi in
  let s' := sin phi in
  let vx := c * wx + s' * wy in                     (* first row of the transposed rotation *)
  (Sine phi rx ry, (vx, om)).
(** The value of w_phi_v_km1 before the loop, TD 43, EGO 78, 101, 133 *)
Definition phi_init (dt A f : R) : R := atan (2 * PI * f * A * cos (2 * PI * f * dt)).

(** genWheelVelocity, TD 146-149 *)
Definition genWheelVelocity (v om r : v3) : v3 := add3 v (cross3 om r).

(** ** Time-delay example *)
(** SimulationParams; the covariances of the poses, which are only copied into the measurements, are left out *)
Record td_params := TdParams {
  tp_q0 : quat; tp_p0 : v3;          (* trajectoryParams.w_T_v_0 *)
  tp_A : R; tp_f : R; tp_dt : R; tp_T : R;
  tp_b : R; tp_kl : R; tp_tl : R; tp_kr : R; tp_tr : R; tp_vTp : transf }.
Record td_data := TdData {
  td_T : list (quat * v3); td_v : list v3; td_om : list v3;                 (* data.trajectory *)
  td_wl : list v3; td_wr : list v3;                                         (* w_v_wwl, w_v_wwr *)
  td_lw : list (Z * R); td_lwn : list (Z * R); td_rw : list (Z * R); td_rwn : list (Z * R);
  td_pose : list (Z * (v3 * v3)); td_posen : list (Z * (v3 * v3)) }.
Section td.
Context (secToNsec : R -> Z) (ypr : m3 -> v3) (P : td_params).
(** Noise of round i *)
Context (nl nr : nat -> R) (np nq : nat -> v3).
(** TD 46-105.  None: the loop still runs after [fuel] rounds. *)
Fixpoint td_loop (fuel i : nat) (t : R) (s : sine) (timestamp : Z) (w_T_v : quat * v3) : option td_data :=
  match fuel with
  | O => None
  | S fuel =>
    if Rlt_dec t (tp_T P) then
      let '(s, (v, om)) := genSineBodyVel2d s t (tp_dt P) (tp_A P) (tp_f P) in
      let v_v_wv_k := V3 v 0 0 in
      let v_om_wv_k := V3 0 0 om in
      let w_T_v := integrateMotionModel w_T_v v_v_wv_k v_om_wv_k (tp_dt P) in
      let wl := genWheelVelocity v_v_wv_k v_om_wv_k (V3 0 (tp_b P) 0) in
      let wr := genWheelVelocity v_v_wv_k v_om_wv_k (V3 0 (- tp_b P) 0) in
      let C := quat2r (fst w_T_v) in
      let w_r_wp := add3 (snd w_T_v) (mulv C (trans (tp_vTp P))) in
      let w_R_p := ypr (mulm C (rot (tp_vTp P))) in
      let tl := (timestamp + secToNsec (tp_tl P))%Z in
      let tr := (timestamp + secToNsec (tp_tr P))%Z in
      let tpose := (timestamp + secToNsec (tp_dt P * 0.5))%Z in
      match td_loop fuel (S i) (t + tp_dt P) s (timestamp + secToNsec (tp_dt P)) w_T_v with
      | None => None
      | Some d =>
        Some (TdData (w_T_v :: td_T d) (v_v_wv_k :: td_v d) (v_om_wv_k :: td_om d) (wl :: td_wl d) (wr :: td_wr d)
               ((tl, tp_kl P * vx wl) :: td_lw d) ((tl, tp_kl P * (vx wl + nl i)) :: td_lwn d)
               ((tr, tp_kr P * vx wr) :: td_rw d) ((tr, tp_kr P * (vx wr + nr i)) :: td_rwn d)
               ((tpose, (w_r_wp, w_R_p)) :: td_pose d)
               ((tpose, (add3 w_r_wp (np i), add3 w_R_p (nq i))) :: td_posen d))
      end
    else Some (TdData [] [] [] [] [] [] [] [] [] [] [])
  end.
(** TD 35-106, from an empty SimulationData *)
Definition td_simulate (fuel : nat) : option td_data :=
  match td_loop fuel 0 (tp_dt P) (Sine (phi_init (tp_dt P) (tp_A P) (tp_f P)) 0 0) 0 (tp_q0 P, tp_p0 P) with
  | None => None
  | Some d => Some (TdData ((tp_q0 P, tp_p0 P) :: td_T d) (V3 0 0 0 :: td_v d) (V3 0 0 0 :: td_om d) (td_wl d) (td_wr d)
                      (td_lw d) (td_lwn d) (td_rw d) (td_rwn d) (td_pose d) (td_posen d))
  end.
End td.

(** ** Egomotion example: the trajectory the splines are fitted to, EGO 49-178 *)
Inductive traj_type := Straight | Combined | Random | Other.    (* comparisons of the string [type]; Other: planar sine *)
Section ego.
Context (secToNsec : R -> Z) (nsecToSec : Z -> R) (q0' : quat) (p0' : v3) (A f dt T : R).
(** samples added to the velocities in round i of a random trajectory *)
Context (nv nom : nat -> v3).
(** One of the loops (59-75, 81-97, 106-128, 140-177): while t < limit.  [rand]: random velocities; [Ak]: the amplitude it uses.
    Result: the entries pushed to timestamps, transPoses, rotPoses. *)
Fixpoint ego_loop (fuel i : nat) (rand : bool) (Ak limit t : R) (s : sine) (timestamp : Z) (p : v3) (q : quat) : option (list (Z * v3 * quat)) :=
  match fuel with
  | O => None
  | S fuel =>
    if Rlt_dec t limit then
      let '(s, (v, om)) := genSineBodyVel2d s t dt Ak f in
      let v_v := if rand then add3 (V3 v v v) (nv i) else V3 v 0 0 in
      let v_om := if rand then add3 (V3 om om om) (nom i) else V3 0 0 om in
      let w_T_v := integrateMotionModel (q, p) v_v v_om dt in
      let timestamp := (timestamp + secToNsec dt)%Z in
      let q := bestQuat q (fst w_T_v) in
      match ego_loop fuel (S i) rand Ak limit (t + dt) s timestamp (snd w_T_v) q with
      | None => None
      | Some l => Some ((timestamp, snd w_T_v, q) :: l)
      end
    else Some []
  end.
Definition ego_trajectory (fuel : nat) (type : traj_type) : option (list (Z * v3 * quat)) :=
  let first := (0%Z, p0', q0') in
  let sine0 := Sine (phi_init dt A f) 0 0 in
  let run i rand Ak limit t s (l : list (Z * v3 * quat)) :=
    let '(ts, p, q) := last l first in
    match ego_loop fuel i rand Ak limit t s ts p q with Some l' => Some (l ++ l') | None => None end in
  let last_time (l : list (Z * v3 * quat)) := nsecToSec (fst (fst (last l first))) in
  match type with
  | Combined =>
    match run 0%nat false 0 (T / 3) dt (Sine 0 0 0) [first] with                                   (* 57-75 *)
    | None => None
    | Some l =>
      match run (length l) false A (2 / 3 * T) (last_time l + dt) sine0 l with                     (* 77-97 *)
      | None => None
      | Some l => run (length l) true A T (last_time l + dt) sine0 l                              (* 99-128 *)
      end
    end
  | Straight => run 0%nat false 0 T dt (Sine 0 0 0) [first]                                       (* 129-177 *)
  | Random => run 0%nat true A T dt sine0 [first]
  | Other => run 0%nat false A T dt sine0 [first]
  end.
End ego.

(** ** Egomotion example: sensor data, EGO 211-264 *)
(** 218-220: the times of the loop.  None: still running after [fuel] rounds *)
Fixpoint ego_times (fuel : nat) (step tmax t : Z) : option (list Z) :=
  match fuel with
  | O => None
  | S fuel => if (t <=? tmax)%Z then match ego_times fuel step tmax (t + step) with Some l => Some (t :: l) | None => None end
              else Some []
  end.
Section ego_data.
(** [traj]: the splines evaluated at a time; [cal]: params.sensorCalibration (delay, r_T_s); [noise i k]: the transformation built from
    the sample of round i for sensor k *)
Context (traj : Z -> transf) (cal : nat -> option (Z * transf)) (ref : nat) (noise : nat -> nat -> transf).
(** 229-258: time stamp and motion for one sensor *)
Definition ego_motion (prev cur : transf) (t : Z) (k : nat) : result (Z * transf) :=
  if Nat.eqb k ref then Ret (t, compose_T (inverse_T prev) cur)
  else match cal k with
       | None => Throw StdOutOfRange
       | Some (timeDelay, r_T_s) =>
         Ret ((t + timeDelay)%Z, compose_T (compose_T (compose_T (inverse_T r_T_s) (inverse_T prev)) cur) r_T_s)
       end.
(** one measurement as it is appended to motionData[sensor] and motionDataNoisy[sensor]; duration and sigma2 left out *)
Record push := Push { pu_sensor : nat; pu_stamp : Z; pu_motion : transf; pu_noisy : transf }.
(** 228: the loop over the sensors in params.sigma2 *)
Fixpoint ego_round (i : nat) (prev cur : transf) (t : Z) (sensors : list nat) : result (list push) :=
  match sensors with
  | [] => Ret []
  | k :: sensors =>
    rbind (ego_motion prev cur t k) (fun '(stamp, m) =>
    rbind (ego_round i prev cur t sensors) (fun l =>
    Ret (Push k stamp m (compose_T m (noise i k)) :: l)))
  end.
(** 218-263; [prev] is None while firstTime *)
Fixpoint ego_rounds (i : nat) (prev : option transf) (times : list Z) (sensors : list nat) : result (list push) :=
  match times with
  | [] => Ret []
  | t :: times =>
    let cur := traj t in
    rbind (match prev with None => Ret [] | Some prev => ego_round i prev cur t sensors end) (fun l =>
    rbind (ego_rounds (S i) (Some cur) times sensors) (fun l' => Ret (l ++ l')))
  end.
(** motionData[k], motionDataNoisy[k] *)
Definition motionData (l : list push) (k : nat) : list (Z * transf) :=
  map (fun p => (pu_stamp p, pu_motion p)) (filter (fun p => Nat.eqb (pu_sensor p) k) l).
Definition motionDataNoisy (l : list push) (k : nat) : list (Z * transf) :=
  map (fun p => (pu_stamp p, pu_noisy p)) (filter (fun p => Nat.eqb (pu_sensor p) k) l).
End ego_data.

(** ** What the calibrators do with these measurements *)
(** time_delay/src/algo/Calibrator.cpp 417-458: the left wheel's error term for a measurement (stamp, value) when the estimated delay
    is [delay]: velocity [v] and rotation rate [om] of the vehicle frame at stamp + delay *)
Definition td_wheel_velocity (v om : Z -> v3) (delay stamp : Z) (b : R) : v3 :=
  let t := (delay + stamp)%Z in
  add3 (v t) (cross3 (om t) (V3 0 b 0)).
(** egomotion_sensors/src/algo/Calibrator.cpp 232-267: the motion predicted between the previous measurement and this one, for a sensor
    with estimated delay and calibration *)
Definition ego_predicted (traj : Z -> transf) (delay : Z) (r_T_s : transf) (prev_stamp stamp : Z) : transf :=
  compose_T (inverse_T (compose_T (traj (prev_stamp - delay)%Z) r_T_s)) (compose_T (traj (stamp - delay)%Z) r_T_s).
(** egomotion_sensors/src/algo/Calibrator.cpp 164-181: time stamps and poses the splines are initialised from; [dur]: duration *)
Fixpoint ego_integrate (prev : transf) (l : list (Z * transf)) : list (Z * transf) :=
  match l with
  | [] => []
  | (t, m) :: l => let cur := compose_T prev m in (t, cur) :: ego_integrate cur l
  end.
Definition ego_initial_poses (prev : transf) (dur : Z) (l : list (Z * transf)) : list (Z * transf) :=
  match l with [] => [] | (t, _) :: _ => ((t - dur)%Z, prev) :: ego_integrate prev l end.
