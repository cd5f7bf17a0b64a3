(** Model of incremental_calibration_examples/incremental_calibration_examples_car/src/realworld/calibrator.cpp, main
    (57-284): the loop that turns the messages of a log file into calls of the calibrator, and the call after it.
    realworld/analyzer.cpp 57-241 has the same loop.
    Exact arithmetic.  From libraries, hence arguments: the conversion between angles and rotation matrices
    (sm::kinematics::EulerAnglesYawPitchRoll), sm::timing::TimestampCorrector (a state machine [correct], whose result is
    the rounded corrected time in ns) and secToNsec.  The text files written beside are in CarFilesModel.v. *)
From stdpp Require Import prelude list.
From Coq Require Import Reals String.
From Verif Require Import Base GeodeticModel CalibratorModel.
Local Open Scope R_scope.

(** The fields used of poslv::VehicleNavigationPerformanceMsg, ...SolutionMsg and TimeTaggedDMIDataMsg, and of the messages
    of can_prius.  [stamp]: header.stamp.toNSec(), [seq]: header.seq, [time1]: timeDistance.time1, in seconds. *)
Record vnp_msg := VnpMsg {
  northPositionRMSError : R; eastPositionRMSError : R; downPositionRMSError : R;
  northVelocityRMSError : R; eastVelocityRMSError : R; downVelocityRMSError : R;
  rollRMSError : R; pitchRMSError : R; headingRMSError : R }.
Record vns_msg := VnsMsg {
  vns_stamp : Z; vns_time1 : R; latitude : R; longitude : R; altitude : R;
  northVelocity : R; eastVelocity : R; downVelocity : R; roll : R; pitch : R; heading : R;
  angularRateLong : R; angularRateTrans : R; angularRateDown : R }.
Record wheels_msg := WheelsMsg { wh_seq : Z; wh_stamp : Z; wh_left : R; wh_right : R }.
Record steer_msg := SteerMsg { st_seq : Z; st_stamp : Z; st_value : R }.
Record dmi_msg := DmiMsg { dmi_stamp : Z; dmi_time1 : R; signedDistanceTraveled : R }.
Inductive payload := Vnp (m : vnp_msg) | Vns (m : vns_msg) | Fws (m : wheels_msg) | Rws (m : wheels_msg) | St (m : steer_msg)
| Dmi (m : dmi_msg) | OtherMsg.
Record message := Message { topic : string; content : payload }.

(** data/PoseMeasurement.h, VelocitiesMeasurement.h, WheelSpeedsMeasurement.h, SteeringMeasurement.h, DMIMeasurement.h; the
    covariances are diagonal matrices here, given by their diagonals. *)
Record pose_meas := PoseMeas { m_r_mr : v3; m_R_r : v3; sigma2_m_r_mr : v3; sigma2_m_R_r : v3 }.
Record vel_meas := VelMeas { r_v_mr : v3; r_om_mr : v3; sigma2_r_v_mr : v3; sigma2_r_om_mr : v3 }.
Inductive meas := MPose (p : pose_meas) | MVel (v : vel_meas) | MFront (left right : R) | MRear (left right : R) | MSteer (value : R)
| MDmi (wheelSpeed : R).
(** A call of one of the calibrator's add...Measurement functions. *)
Record call := Call { c_meas_of : meas; c_time : Z }.

(** Configuration, 67-74 and 93-104. *)
Record car_config := CarConfig {
  useDMI : bool; useFw : bool; useRw : bool; useSt : bool;
  t_fws : string; t_rws : string; t_st : string; t_dmi : string; t_vns : string; t_vnp : string }.

(** sm::kinematics::deg2rad *)
Definition deg2rad (x : R) : R := x * PI / 180.
Definition mulm (A B : m3) : m3 :=
  let Bt := transpose B in
  M3 (V3 (dot3 (r1 A) (r1 Bt)) (dot3 (r1 A) (r2 Bt)) (dot3 (r1 A) (r3 Bt)))
     (V3 (dot3 (r2 A) (r1 Bt)) (dot3 (r2 A) (r2 Bt)) (dot3 (r2 A) (r3 Bt)))
     (V3 (dot3 (r3 A) (r1 Bt)) (dot3 (r3 A) (r2 Bt)) (dot3 (r3 A) (r3 Bt))).

Section driver.
  Context {C : Type} (c0 : C) (correct : C -> Z -> Z -> C * Z) (secToNsec : R -> Z).
  Context (parametersToRotationMatrix : v3 -> m3) (rotationMatrixToParameters : m3 -> v3).
  Context (cfg : car_config).

  (** The local variables, 106-117.  m_T_r_0 (117, 159-163) is never read and left out. *)
  Record dstate := DState {
    lastDMITimestamp : R; lastDMIDistance : R; firstVns : bool; lastVnp : option vnp_msg; m_T_e : transf;
    corVns : C; corDmi : C; corFw : C; corRw : C; corSt : C }.
  Definition identity_T : transf := Transf (M3 (V3 1 0 0) (V3 0 1 0) (V3 0 0 1)) (V3 0 0 0).
  Definition driver_init : dstate := DState (- 1) (- 1) true None identity_T c0 c0 c0 c0 c0.

  (** 131-133, 138-153 *)
  Definition make_pose (T : transf) (vns : vns_msg) (vnp : vnp_msg) : pose_meas :=
    let lat := deg2rad (latitude vns) in let long := deg2rad (longitude vns) in
    let ecef := wgs84ToEcef lat long (altitude vns) in
    let l_ned_R_r := parametersToRotationMatrix (V3 (deg2rad (heading vns)) (deg2rad (pitch vns)) (deg2rad (roll vns))) in
    let e_T_l_ned := ned2ecef (vx ecef) (vy ecef) (vz ecef) lat long in
    PoseMeas (apply_T T ecef)
      (rotationMatrixToParameters (mulm (mulm (rot T) (rot e_T_l_ned)) l_ned_R_r))
      (V3 (northPositionRMSError vnp * northPositionRMSError vnp) (eastPositionRMSError vnp * eastPositionRMSError vnp)
          (downPositionRMSError vnp * downPositionRMSError vnp))
      (V3 (deg2rad (headingRMSError vnp) * deg2rad (headingRMSError vnp)) (deg2rad (pitchRMSError vnp) * deg2rad (pitchRMSError vnp))
          (deg2rad (rollRMSError vnp) * deg2rad (rollRMSError vnp))).
  (** 164-175 *)
  Definition make_vel (vns : vns_msg) (vnp : vnp_msg) : vel_meas :=
    let l_ned_R_r := parametersToRotationMatrix (V3 (deg2rad (heading vns)) (deg2rad (pitch vns)) (deg2rad (roll vns))) in
    VelMeas (mulv (transpose l_ned_R_r) (V3 (northVelocity vns) (eastVelocity vns) (downVelocity vns)))
      (V3 (deg2rad (angularRateLong vns)) (deg2rad (angularRateTrans vns)) (deg2rad (angularRateDown vns)))
      (V3 (northVelocityRMSError vnp * northVelocityRMSError vnp) (eastVelocityRMSError vnp * eastVelocityRMSError vnp)
          (downVelocityRMSError vnp * downVelocityRMSError vnp))
      (V3 (deg2rad (rollRMSError vnp) * deg2rad (rollRMSError vnp)) (deg2rad (pitchRMSError vnp) * deg2rad (pitchRMSError vnp))
          (deg2rad (headingRMSError vnp) * deg2rad (headingRMSError vnp))).

  (** instantiate<M>() returns a null pointer when the message is of another type. *)
  Definition as_vnp (p : payload) : option vnp_msg := match p with Vnp m => Some m | _ => None end.
  Definition as_vns (p : payload) : option vns_msg := match p with Vns m => Some m | _ => None end.
  Definition as_fws (p : payload) : option wheels_msg := match p with Fws m => Some m | _ => None end.
  Definition as_rws (p : payload) : option wheels_msg := match p with Rws m => Some m | _ => None end.
  Definition as_st (p : payload) : option steer_msg := match p with St m => Some m | _ => None end.
  Definition as_dmi (p : payload) : option dmi_msg := match p with Dmi m => Some m | _ => None end.

  (** One `if` of the loop body: the new state, the calls made and whether `continue` was executed; a null pointer
      dereferenced is undefined behaviour. *)
  Notation block := (dstate -> payload -> result (dstate * list call * bool)).
  (** 119-124 *)
  Definition block_vnp : block := fun s p =>
    Ret (DState (lastDMITimestamp s) (lastDMIDistance s) (firstVns s) (as_vnp p) (m_T_e s)
           (corVns s) (corDmi s) (corFw s) (corRw s) (corSt s), [], false).
  (** 125-185 *)
  Definition block_vns : block := fun s p =>
    match lastVnp s with
    | None => Ret (s, [], true)
    | Some vnp =>
      match as_vns p with
      | None => UB
      | Some vns =>
        let lat := deg2rad (latitude vns) in let long := deg2rad (longitude vns) in
        let ecef := wgs84ToEcef lat long (altitude vns) in
        let T := if firstVns s then ecef2enu (vx ecef) (vy ecef) (vz ecef) lat long else m_T_e s in
        let (cor, ts) := correct (corVns s) (secToNsec (vns_time1 vns)) (vns_stamp vns) in
        Ret (DState (lastDMITimestamp s) (lastDMIDistance s) false (lastVnp s) T cor (corDmi s) (corFw s) (corRw s) (corSt s),
             [Call (MPose (make_pose T vns vnp)) ts; Call (MVel (make_vel vns vnp)) ts], false)
      end
    end.
  (** 186-198 *)
  Definition block_fws : block := fun s p =>
    match as_fws p with
    | None => UB
    | Some m => let (cor, ts) := correct (corFw s) (wh_seq m) (wh_stamp m) in
      Ret (DState (lastDMITimestamp s) (lastDMIDistance s) (firstVns s) (lastVnp s) (m_T_e s) (corVns s) (corDmi s) cor (corRw s) (corSt s),
           [Call (MFront (wh_left m) (wh_right m)) ts], false)
    end.
  (** 199-211 *)
  Definition block_rws : block := fun s p =>
    match as_rws p with
    | None => UB
    | Some m => let (cor, ts) := correct (corRw s) (wh_seq m) (wh_stamp m) in
      Ret (DState (lastDMITimestamp s) (lastDMIDistance s) (firstVns s) (lastVnp s) (m_T_e s) (corVns s) (corDmi s) (corFw s) cor (corSt s),
           [Call (MRear (wh_left m) (wh_right m)) ts], false)
    end.
  (** 212-222 *)
  Definition block_st : block := fun s p =>
    match as_st p with
    | None => UB
    | Some m => let (cor, ts) := correct (corSt s) (st_seq m) (st_stamp m) in
      Ret (DState (lastDMITimestamp s) (lastDMIDistance s) (firstVns s) (lastVnp s) (m_T_e s) (corVns s) (corDmi s) (corFw s) (corRw s) cor,
           [Call (MSteer (st_value m)) ts], false)
    end.
  (** 223-239 *)
  Definition block_dmi : block := fun s p =>
    match as_dmi p with
    | None => UB
    | Some m =>
      if Req_EM_T (lastDMITimestamp s) (- 1) then
        Ret (DState (dmi_time1 m) (signedDistanceTraveled m) (firstVns s) (lastVnp s) (m_T_e s)
               (corVns s) (corDmi s) (corFw s) (corRw s) (corSt s), [], false)
      else
        let (cor, ts) := correct (corDmi s) (secToNsec (dmi_time1 m)) (dmi_stamp m) in
        Ret (DState (dmi_time1 m) (signedDistanceTraveled m) (firstVns s) (lastVnp s) (m_T_e s)
               (corVns s) cor (corFw s) (corRw s) (corSt s),
             [Call (MDmi ((signedDistanceTraveled m - lastDMIDistance s) / (dmi_time1 m - lastDMITimestamp s))) ts], false)
    end.

  (** The body of the loop: the six ifs in their order. *)
  Fixpoint do_blocks (bs : list (bool * block)) (s : dstate) (p : payload) : result (dstate * list call) :=
    match bs with
    | [] => Ret (s, [])
    | (false, _) :: bs' => do_blocks bs' s p
    | (true, b) :: bs' =>
      rbind (b s p) (fun '(s1, l, cont) =>
        if cont then Ret (s1, l) else rbind (do_blocks bs' s1 p) (fun '(s2, l') => Ret (s2, l ++ l')))
    end.
  Definition loop_body (s : dstate) (m : message) : result (dstate * list call) :=
    let is t := String.eqb (topic m) t in
    do_blocks [ (is (t_vnp cfg), block_vnp); (is (t_vns cfg), block_vns); (is (t_fws cfg) && useFw cfg, block_fws);
                (is (t_rws cfg) && useRw cfg, block_rws); (is (t_st cfg) && useSt cfg, block_st); (is (t_dmi cfg) && useDMI cfg, block_dmi) ]
      s (content m).
  (** The view delivers the messages of the six topics, in the order of the log, 105 and 118. *)
  Definition in_view (m : message) : bool :=
    existsb (String.eqb (topic m)) [t_fws cfg; t_rws cfg; t_st cfg; t_dmi cfg; t_vns cfg; t_vnp cfg].
  Fixpoint loop (s : dstate) (ms : list message) : result (dstate * list call) :=
    match ms with
    | [] => Ret (s, [])
    | m :: ms' => rbind (loop_body s m) (fun '(s1, l) => rbind (loop s1 ms') (fun '(s2, l') => Ret (s2, l ++ l')))
    end.
  Definition read_bag (bag : list message) : result (list call) :=
    rbind (loop driver_init (List.filter in_view bag)) (fun '(_, l) => Ret l).
End driver.

(** The calls as measurements of the calibrator of CalibratorModel.v. *)
Definition meas_kind (m : meas) : car_kind :=
  match m with MPose _ => CPose | MVel _ => CVel | MFront _ _ => CFront | MRear _ _ => CRear | MSteer _ => CSteer | MDmi _ => CDmi end.
(** The program: an exception out of a call ends it. *)
Section program.
  Context {E B P : Type} (h : hooks car_kind meas E B P).
  Local Notation cal := (cal car_kind meas E B P).
  Fixpoint make_calls (c : cal) (l : list call) : cal * result unit :=
    match l with
    | [] => (c, Ret tt)
    | x :: l' => match addOne h c (meas_kind (c_meas_of x)) (c_time x) (c_meas_of x) with
                 | (c1, Ret _) => make_calls c1 l'
                 | (c1, r) => (c1, r)
                 end
    end.
  (** CarCalibrator::unprocessedMeasurements, src/algo/CarCalibrator.cpp 114-120 *)
  Definition unprocessedMeasurements (c : cal) : bool :=
    existsb (fun k => negb (Nat.eqb (Datatypes.length (c_meas c k)) 0)) [CPose; CVel; CDmi; CFront; CRear; CSteer].
  (** 118-243, once the messages are read; the two interleave in the program, but reading does not depend on the calibrator. *)
  Definition program (c : cal) (l : list call) : cal * result unit :=
    match make_calls c l with
    | (c1, Ret _) => if unprocessedMeasurements c1 then addMeasurements h c1 else (c1, Ret tt)
    | (c1, r) => (c1, r)
    end.
End program.
