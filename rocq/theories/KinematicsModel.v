(** Model of how the car and time-delay calibrators build their splines, error terms and predictions from the stored measurements:
    CAR = incremental_calibration_examples/incremental_calibration_examples_car/src/algo/CarCalibrator.cpp, 269-296 and 413-1077;
    TD = incremental_calibration_examples/incremental_calibration_examples_time_delay/src/algo/Calibrator.cpp, 198-217 and 298-614.
    Exact arithmetic.  From libraries, hence arguments: the spline fit, the conversions between angles, quaternions and matrices and
    angleMod.  An expression is modelled by its value.  The covariances of poses and velocities are diagonal here (all programs of the
    repository fill in diagonal ones). *)
From stdpp Require Import prelude list.
From Coq Require Import Reals.
From Verif Require Import Base GeodeticModel SimEngineModel ErrorTermModel CalibratorModel CarDriverModel.
Local Open Scope R_scope.

(** The two splines of a window, as functions of the time in ns: range (getMinTime, getMaxTime), position and its derivative
    (getValueExpression(), getValueExpression(1)), rotation matrix of the unit quaternion, getAngularVelocityExpression(). *)
Record splines := Splines { sp_min : Z; sp_max : Z; sp_r : Z -> v3; sp_v : Z -> v3; sp_R : Z -> m3; sp_av : Z -> v3 }.

(** ** Kinematic expressions *)
Section kinematics.
  Context (s : splines) (t : Z).
  (** v_v_mv = m_R_v.inverse() * m_v_mv, CAR 545-549, 630-632 and the like; TD 442-444 *)
  Definition v_v_mv : v3 := mulv (transpose (sp_R s t)) (sp_v s t).
  (** m_om_mv = -..., v_om_mv = m_R_v.inverse() * m_om_mv, CAR 550-552, 633-635; TD 445-447 *)
  Definition v_om_mv : v3 := mulv (transpose (sp_R s t)) (scale3 (- 1) (sp_av s t)).
  (** v_v_mv + v_om_mv.cross(p), CAR 555, 638, 738, 742, 884, 887, 1008; TD 450, 550 *)
  Definition point_velocity (p : v3) : v3 := add3 v_v_mv (cross3 v_om_mv p).
End kinematics.
(** EuclideanExpression(0, 1, 0) * e, and with the other axes and signs, CAR 637, 735-742, 883-887, 1007; TD 449, 548-549 *)
Definition axis_x : v3 := V3 1 0 0.
Definition axis_y : v3 := V3 0 1 0.
Definition left_point (e : R) : v3 := scale3 e axis_y.
Definition right_point (e : R) : v3 := scale3 e (scale3 (- 1) axis_y).
Definition front_left_point (L e : R) : v3 := add3 (scale3 L axis_x) (scale3 e axis_y).
Definition front_right_point (L e : R) : v3 := add3 (scale3 L axis_x) (scale3 (- 1) (scale3 e axis_y)).
Definition front_point (L : R) : v3 := scale3 L axis_x.
(** Lever arm and attitude of the navigation system: v_r_vr, v_R_r (CAR), v_r_vp, v_R_p (TD). *)
Record mounting := Mounting { mt_r : v3; mt_R : m3 }.
(** m_r_mr = m_r_mv + m_R_v * v_r_vr, m_R_r = m_R_v * v_R_r, CAR 481-490; TD 366-375 *)
Definition pose_value (s : splines) (b : mounting) (t : Z) : v3 * m3 :=
  (add3 (sp_r s t) (mulv (sp_R s t) (mt_r b)), CarDriverModel.mulm (sp_R s t) (mt_R b)).
(** r_v_mr, r_om_mr, CAR 553-556 *)
Definition imu_velocity (s : splines) (b : mounting) (t : Z) : v3 * v3 :=
  (mulv (transpose (mt_R b)) (add3 (v_v_mv s t) (cross3 (v_om_mv s t) (mt_r b))), mulv (transpose (mt_R b)) (v_om_mv s t)).
Definition rvec_of (v : v3) : rvec := fun i => match i with O => vx v | 1%nat => vy v | _ => vz v end.
Definition v3_of (f : rvec) : v3 := V3 (f 0%nat) (f 1%nat) (f 2%nat).
Definition sub_v3 (a b : v3) : v3 := V3 (vx a - vx b) (vy a - vy b) (vz a - vz b).

(** ** Error terms: what their constructors are given, and their evaluation (error and weighted squared error) *)
Inductive eterm :=
| EPose (T : v3 * m3) (m_r m_a : v3) (var_r var_a : v3)
| EVel (v om : v3) (m_v m_om : v3) (var_v var_om : v3)
| EWheel (v : v3) (k : R) (m : R) (var : v3) (front : bool)
| ESteer (v : v3) (m : R) (var : R) (a : rvec).
Section eval.
  Context (unypr : m3 -> v3) (angleMod : R -> R).
  (** car/src/error-terms/ErrorTermPose.cpp 87-100 (the same in time_delay) *)
  Definition pose_error (T : v3 * m3) (m_r m_a : v3) : v3 * v3 :=
    let d := sub_v3 m_a (unypr (snd T)) in
    (sub_v3 m_r (fst T), V3 (angleMod (vx d)) (angleMod (vy d)) (angleMod (vz d))).
  (** evaluateChiSquaredError (library) for a diagonal covariance *)
  Definition chi3 (e var : v3) : R := vx e * vx e / vx var + vy e * vy e / vy var + vz e * vz e / vz var.
  Definition coords (v : v3) : list R := [vx v; vy v; vz v].
  Definition eval_term (x : eterm) : list R * R :=
    match x with
    | EPose T m_r m_a var_r var_a => let e := pose_error T m_r m_a in (coords (fst e) ++ coords (snd e), chi3 (fst e) var_r + chi3 (snd e) var_a)
    | EVel v om m_v m_om var_v var_om =>       (* ErrorTermVelocities.cpp: measured minus predicted *)
      let e1 := sub_v3 m_v v in let e2 := sub_v3 m_om om in (coords e1 ++ coords e2, chi3 e1 var_v + chi3 e2 var_om)
    | EWheel v k m var front => let e := v3_of (wheel_error front m k (rvec_of v)) in (coords e, chi3 e var)
    | ESteer v m var a => let e := steering_error angleMod m a (rvec_of v) 0%nat in ([e], e * e / var)
    end.
End eval.

(** ** Car *)
Record car_params := CarParams {
  e_r : R; e_f : R; p_L : R; p_a : rvec; k_rl : R; k_rr : R; k_fl : R; k_fr : R; k_dmi : R; p_mount : mounting;
  p_t_r : Z; p_t_f : Z; p_t_s : Z; p_t_dmi : Z }.
(** CarCalibratorOptions.h *)
Record car_opts := CarOpts {
  o_usePose : bool; o_useVelocities : bool; o_delayBound : Z; o_cutoff : R; o_tolerance : R; o_knots : Z;
  o_dmi : R; o_flw : R; o_frw : R; o_vy : R; o_vz : R; o_st : R }.
(** The stored measurements. *)
Record car_store := CarStore {
  ms_pose : list (Z * pose_meas); ms_vel : list (Z * vel_meas); ms_dmi : list (Z * R); ms_front : list (Z * (R * R));
  ms_rear : list (Z * (R * R)); ms_st : list (Z * R) }.
Section init.
  Context (ypr : v3 -> m3) (r2quat : m3 -> quat).
  (** The loop of initSplines: the position and the rotation of the vehicle for one measured pose, CAR 424-431, 439; TD 309-324 *)
  Definition init_rotation (b : mounting) (m_a : v3) : m3 := CarDriverModel.mulm (ypr m_a) (transpose (mt_R b)).
  Definition init_translation (b : mounting) (m_r m_a : v3) : v3 := sub_v3 m_r (mulv (init_rotation b m_a) (mt_r b)).
  (** CAR 422-440; TD 307-325: transPoses and rotPoses *)
  Definition init_poses (b : mounting) (poses : list (v3 * v3)) : list v3 * list quat :=
    (map (fun '(r, a) => init_translation b r a) poses, rotPoses (map (fun '(_, a) => r2quat (init_rotation b a)) poses)).
End init.

Definition ltR (a b : R) : bool := if Rlt_dec a b then true else false.
Section car.
  Context (P : car_params) (o : car_opts) (s : splines).
  Definition delayed_in (delay : Z) (t : Z) : bool := in_spline (sp_min s) (sp_max s) (o_delayBound o) (delay + t).
  Definition below (l r : R) : bool := ltR l (o_cutoff o) || ltR r (o_cutoff o).
  Definition backwards (t : Z) : bool := ltR (vx (v_v_mv s t)) 0.
  Definition too_slow (t : Z) : bool := ltR (Rabs (vx (point_velocity s t (front_point (p_L P))))) (o_tolerance o).
  Definition wheel_var (v : R) : v3 := V3 v (o_vy o) (o_vz o).

  (** addPoseErrorTerms 465-494 *)
  Definition addPoseErrorTerms (l : list (Z * pose_meas)) : list eterm :=
    map (fun '(t, m) => EPose (pose_value s (p_mount P) t) (m_r_mr m) (m_R_r m) (sigma2_m_r_mr m) (sigma2_m_R_r m)) l.
  (** addVelocitiesErrorTerms 532-563 *)
  Definition addVelocitiesErrorTerms (l : list (Z * vel_meas)) : list eterm :=
    flat_map (fun '(t, m) =>
      if ((t <? sp_min s) || (sp_max s <? t))%Z then []
      else let p := imu_velocity s (p_mount P) t in [EVel (fst p) (snd p) (r_v_mr m) (r_om_mr m) (sigma2_r_v_mr m) (sigma2_r_om_mr m)]) l.
  (** addDMIErrorTerms 605-646 *)
  Definition addDMIErrorTerms (l : list (Z * R)) : list eterm :=
    flat_map (fun '(t, m) =>
      let t' := (p_t_dmi P + t)%Z in
      if negb (delayed_in (p_t_dmi P) t) then []
      else [EWheel (point_velocity s t' (left_point (e_r P))) (k_dmi P) m (wheel_var (o_dmi o)) false]) l.
  (** addFrontWheelsErrorTerms 700-760 *)
  Definition addFrontWheelsErrorTerms (l : list (Z * (R * R))) : list eterm :=
    flat_map (fun '(t, (ml, mr)) =>
      let t' := (p_t_f P + t)%Z in
      if below ml mr then [] else if negb (delayed_in (p_t_f P) t) then [] else if backwards t' then []
      else [EWheel (point_velocity s t' (front_left_point (p_L P) (e_f P))) (k_fl P) ml (wheel_var (o_flw o)) true;
            EWheel (point_velocity s t' (front_right_point (p_L P) (e_f P))) (k_fr P) mr (wheel_var (o_frw o)) true]) l.
  (** addRearWheelsErrorTerms 846-902 (with the variances of the front wheels) *)
  Definition addRearWheelsErrorTerms (l : list (Z * (R * R))) : list eterm :=
    flat_map (fun '(t, (ml, mr)) =>
      let t' := (p_t_r P + t)%Z in
      if below ml mr then [] else if negb (delayed_in (p_t_r P) t) then [] else if backwards t' then []
      else [EWheel (point_velocity s t' (left_point (e_r P))) (k_rl P) ml (wheel_var (o_flw o)) false;
            EWheel (point_velocity s t' (right_point (e_r P))) (k_rr P) mr (wheel_var (o_frw o)) false]) l.
  (** addSteeringErrorTerms 976-1019 *)
  Definition addSteeringErrorTerms (l : list (Z * R)) : list eterm :=
    flat_map (fun '(t, m) =>
      let t' := (p_t_s P + t)%Z in
      if negb (delayed_in (p_t_s P) t) then [] else if too_slow t' then []
      else [ESteer (point_velocity s t' (front_point (p_L P))) m (o_st o) (p_a P)]) l.
  (** addMeasurements 352-359 *)
  Definition car_error_terms (st : car_store) : list eterm :=
    (if o_useVelocities o then addVelocitiesErrorTerms (ms_vel st) else []) ++ (if o_usePose o then addPoseErrorTerms (ms_pose st) else []) ++
    addDMIErrorTerms (ms_dmi st) ++ addFrontWheelsErrorTerms (ms_front st) ++ addRearWheelsErrorTerms (ms_rear st) ++ addSteeringErrorTerms (ms_st st).

  (** Predictions: time stamp, predicted value(s), error, squared error; one entry of the three vectors filled together. *)
  Context (unypr : m3 -> v3) (angleMod : R -> R).
  Record pred (A : Type) := Pred { pr_time : Z; pr_value : A; pr_error : list R; pr_error2 : R }.
  Global Arguments Pred {A}. Global Arguments pr_time {A}. Global Arguments pr_value {A}. Global Arguments pr_error {A}. Global Arguments pr_error2 {A}.
  Local Notation eval := (eval_term unypr angleMod).
  (** predictPoses 496-530 *)
  Definition predictPoses (l : list (Z * pose_meas)) : list (pred (v3 * v3)) :=
    map (fun '(t, m) =>
      let T := pose_value s (p_mount P) t in
      let e := EPose T (m_r_mr m) (m_R_r m) (sigma2_m_r_mr m) (sigma2_m_R_r m) in
      Pred t (fst T, unypr (snd T)) (fst (eval e)) (snd (eval e))) l.
  (** predictVelocities 565-603 *)
  Definition predictVelocities (l : list (Z * vel_meas)) : list (pred (v3 * v3)) :=
    flat_map (fun '(t, m) =>
      if ((t <? sp_min s) || (sp_max s <? t))%Z then []
      else let p := imu_velocity s (p_mount P) t in
           let e := EVel (fst p) (snd p) (r_v_mr m) (r_om_mr m) (sigma2_r_v_mr m) (sigma2_r_om_mr m) in
           [Pred t p (fst (eval e)) (snd (eval e))]) l.
  (** predictDMI 648-698 *)
  Definition predictDMI (l : list (Z * R)) : list (pred R) :=
    flat_map (fun '(t, m) =>
      let t' := (p_t_dmi P + t)%Z in
      if negb (delayed_in (p_t_dmi P) t) then []
      else let w := point_velocity s t' (left_point (e_r P)) in
           let e := EWheel w (k_dmi P) m (wheel_var (o_dmi o)) false in
           [Pred t' (k_dmi P * vx w) (fst (eval e)) (snd (eval e))]) l.
  (** The value predicted for a front wheel, 824-828, 830-834; TD 508-512, 608-612 *)
  Definition turned_wheel_speed (k : R) (v : v3) : R :=
    let v0 := vx v in let v1 := vy v in
    let temp := sqrt (v1 * v1 / (v0 * v0) + 1) in
    k * (v0 / temp + v1 * v1 / (v0 * temp)).
  (** predictFrontWheels 763-844 *)
  Definition predictFrontWheels (l : list (Z * (R * R))) : list (pred (R * R)) :=
    flat_map (fun '(t, (ml, mr)) =>
      let t' := (p_t_f P + t)%Z in
      if below ml mr then [] else if negb (delayed_in (p_t_f P) t) then [] else if backwards t' then []
      else let wl := point_velocity s t' (front_left_point (p_L P) (e_f P)) in
           let wr := point_velocity s t' (front_right_point (p_L P) (e_f P)) in
           let el := EWheel wl (k_fl P) ml (wheel_var (o_flw o)) true in
           let er := EWheel wr (k_fr P) mr (wheel_var (o_frw o)) true in
           [Pred t' (turned_wheel_speed (k_fl P) wl, turned_wheel_speed (k_fr P) wr) (fst (eval el) ++ fst (eval er)) (snd (eval el) + snd (eval er))]) l.
  (** predictRearWheels 904-974 *)
  Definition predictRearWheels (l : list (Z * (R * R))) : list (pred (R * R)) :=
    flat_map (fun '(t, (ml, mr)) =>
      let t' := (p_t_r P + t)%Z in
      if below ml mr then [] else if negb (delayed_in (p_t_r P) t) then [] else if backwards t' then []
      else let wl := point_velocity s t' (left_point (e_r P)) in
           let wr := point_velocity s t' (right_point (e_r P)) in
           let el := EWheel wl (k_rl P) ml (wheel_var (o_flw o)) false in
           let er := EWheel wr (k_rr P) mr (wheel_var (o_frw o)) false in
           [Pred t' (k_rl P * vx wl, k_rr P * vx wr) (fst (eval el) ++ fst (eval er)) (snd (eval el) + snd (eval er))]) l.
  (** predictSteering 1021-1076 *)
  Definition predictSteering (l : list (Z * R)) : list (pred R) :=
    flat_map (fun '(t, m) =>
      let t' := (p_t_s P + t)%Z in
      if negb (delayed_in (p_t_s P) t) then [] else if too_slow t' then []
      else let w := point_velocity s t' (front_point (p_L P)) in
           let e := ESteer w m (o_st o) (p_a P) in
           [Pred t' (atan2 (vy w) (vx w)) (fst (eval e)) (snd (eval e))]) l.
End car.
(** The vectors of predictions. *)
Record car_preds := CarPreds {
  pd_pose : list (pred (v3 * v3)); pd_vel : list (pred (v3 * v3)); pd_dmi : list (pred R); pd_front : list (pred (R * R));
  pd_rear : list (pred (R * R)); pd_st : list (pred R) }.
(** clearPredictions 269-287 *)
Definition clearPredictions : car_preds := CarPreds [] [] [] [] [] [].
Section predict.
  Context (ypr : v3 -> m3) (unypr : m3 -> v3) (r2quat : m3 -> quat) (angleMod : R -> R).
  (** BSplineFitter::initUniformSpline for both splines: time stamps, positions, quaternions, number of segments *)
  Context (fit : list Z -> list v3 * list quat -> Z -> result splines).
  (** initSplines 413-463; TD 298-348: no pose, or no time between the first and the last one, is undefined ([numSegments]) *)
  Definition fit_splines (knots : Z) (b : mounting) (times : list Z) (poses : list (v3 * v3)) : result splines :=
    match numSegments knots times with
    | None => UB
    | Some n => fit times (init_poses ypr r2quat b poses) n
    end.
  (** predict 288-296 *)
  Definition car_predict (P : car_params) (o : car_opts) (st : car_store) (d : car_preds) : result car_preds :=
    rbind (fit_splines (o_knots o) (p_mount P) (map fst (ms_pose st)) (map (fun x => (m_r_mr (snd x), m_R_r (snd x))) (ms_pose st))) (fun s =>
    Ret (CarPreds (pd_pose d ++ predictPoses P s unypr angleMod (ms_pose st))
                  (pd_vel d ++ predictVelocities P s unypr angleMod (ms_vel st))
                  (pd_dmi d ++ predictDMI P o s unypr angleMod (ms_dmi st))
                  (pd_front d ++ predictFrontWheels P o s unypr angleMod (ms_front st))
                  (pd_rear d ++ predictRearWheels P o s unypr angleMod (ms_rear st))
                  (pd_st d ++ predictSteering P o s unypr angleMod (ms_st st)))).
  (** The error terms that addMeasurements 343-363 puts into the batch for the same measurements ([None]: it returns before) *)
  Definition car_batch_terms (P : car_params) (o : car_opts) (st : car_store) : result (option (list eterm)) :=
    if Nat.ltb (length (ms_pose st)) 2 then Ret None else
    rbind (fit_splines (o_knots o) (p_mount P) (map fst (ms_pose st)) (map (fun x => (m_r_mr (snd x), m_R_r (snd x))) (ms_pose st))) (fun s =>
    Ret (Some (car_error_terms P o s st))).
End predict.

(** ** Time-delay example *)
Record td_cparams := TdCParams { c_b : R; c_kl : R; c_tl : Z; c_kr : R; c_tr : Z; c_mount : mounting }.
Record td_opts := TdOpts { td_bound : Z; td_knots : Z; td_lw : R; td_rw : R; td_vy : R; td_vz : R }.
Record td_store := TdStore { tds_pose : list (Z * pose_meas); tds_left : list (Z * R); tds_right : list (Z * R) }.
Section td.
  Context (P : td_cparams) (o : td_opts) (s : splines) (unypr : m3 -> v3) (angleMod : R -> R).
  Local Notation eval := (eval_term unypr angleMod).
  Definition td_in (delay t : Z) : bool := in_spline (sp_min s) (sp_max s) (td_bound o) (delay + t).
  (** addPoseErrorTerms 350-378 *)
  Definition td_pose_terms (l : list (Z * pose_meas)) : list eterm :=
    map (fun '(t, m) => EPose (pose_value s (c_mount P) t) (m_r_mr m) (m_R_r m) (sigma2_m_r_mr m) (sigma2_m_R_r m)) l.
  (** addLeftWheelErrorTerms 417-459 *)
  Definition td_left_terms (l : list (Z * R)) : list eterm :=
    flat_map (fun '(t, m) => if negb (td_in (c_tl P) t) then []
      else [EWheel (point_velocity s (c_tl P + t) (left_point (c_b P))) (c_kl P) m (V3 (td_lw o) (td_vy o) (td_vz o)) false]) l.
  (** addRightWheelErrorTerms 516-559 *)
  Definition td_right_terms (l : list (Z * R)) : list eterm :=
    flat_map (fun '(t, m) => if negb (td_in (c_tr P) t) then []
      else [EWheel (point_velocity s (c_tr P + t) (right_point (c_b P))) (c_kr P) m (V3 (td_rw o) (td_vy o) (td_vz o)) false]) l.
  (** predictPoses 380-415 *)
  Definition td_predictPoses (l : list (Z * pose_meas)) : list (pred (v3 * v3)) :=
    map (fun '(t, m) =>
      let T := pose_value s (c_mount P) t in
      let e := EPose T (m_r_mr m) (m_R_r m) (sigma2_m_r_mr m) (sigma2_m_R_r m) in
      Pred t (fst T, unypr (snd T)) (fst (eval e)) (snd (eval e))) l.
  (** predictLeftWheel 461-514 *)
  Definition td_predictLeftWheel (l : list (Z * R)) : list (pred R) :=
    flat_map (fun '(t, m) => if negb (td_in (c_tl P) t) then []
      else let w := point_velocity s (c_tl P + t) (left_point (c_b P)) in
           let e := EWheel w (c_kl P) m (V3 (td_lw o) (td_vy o) (td_vz o)) false in
           [Pred t (turned_wheel_speed (c_kl P) w) (fst (eval e)) (snd (eval e))]) l.
  (** predictRightWheel 561-614 *)
  Definition td_predictRightWheel (l : list (Z * R)) : list (pred R) :=
    flat_map (fun '(t, m) => if negb (td_in (c_tr P) t) then []
      else let w := point_velocity s (c_tr P + t) (right_point (c_b P)) in
           let e := EWheel w (c_kr P) m (V3 (td_rw o) (td_vy o) (td_vz o)) false in
           [Pred t (turned_wheel_speed (c_kr P) w) (fst (eval e)) (snd (eval e))]) l.
  Definition td_error_terms (st : td_store) : list eterm :=
    td_pose_terms (tds_pose st) ++ td_left_terms (tds_left st) ++ td_right_terms (tds_right st).
End td.
Record td_preds := TdPreds { tpd_pose : list (pred (v3 * v3)); tpd_left : list (pred R); tpd_right : list (pred R) }.
(** predict, TD 210-217 *)
Definition td_predict ypr unypr r2quat angleMod fit (P : td_cparams) (o : td_opts) (st : td_store) (d : td_preds) : result td_preds :=
  rbind (fit_splines ypr r2quat fit (td_knots o) (c_mount P) (map fst (tds_pose st)) (map (fun x => (m_r_mr (snd x), m_R_r (snd x))) (tds_pose st))) (fun s =>
  Ret (TdPreds (tpd_pose d ++ td_predictPoses P s unypr angleMod (tds_pose st)) (tpd_left d ++ td_predictLeftWheel P o s unypr angleMod (tds_left st))
               (tpd_right d ++ td_predictRightWheel P o s unypr angleMod (tds_right st)))).
