(** Model of the constructors that read a configuration:
    - [IncrementalEstimator(const sm::PropertyTree&)], incremental_calibration/src/core/IncrementalEstimator.cpp 63-92,
      and [createTsvdOptionsFromPropertyTree], aslam_tsvd_solver/src/aslam-tsvd-solver.cc 17-30;
    - [CarCalibratorOptions], [CalibratorOptions] (time delay, egomotion), [SimulationParams], [TrajectoryParams] of the examples.

    [sm::PropertyTree] is external: a key is absent, holds something that cannot be converted (both the one-argument getters
    then throw), or a value.  Doubles are reals.  Members that a constructor reads before it has written them are indeterminate:
    their content is the argument [g] of the model (formally already reading it is undefined). *)
From stdpp Require Import prelude list gmap strings pretty.
From Coq Require Import Reals.
From Verif Require Import Base.
Local Open Scope string_scope.

Inductive entry (A : Type) := Missing | Malformed | Value (a : A).
Global Arguments Missing {A}. Global Arguments Malformed {A}. Global Arguments Value {A} a.

(** What the tree answers for each type asked. *)
Record tree := Tree {
  t_double : string -> entry R; t_int : string -> entry Z; t_bool : string -> entry bool; t_string : string -> entry string
}.
(** [sm::PropertyTree(config, prefix)] *)
Definition subtree (t : tree) (p : string) : tree :=
  Tree (fun k => t_double t (p +:+ "/" +:+ k)) (fun k => t_int t (p +:+ "/" +:+ k))
       (fun k => t_bool t (p +:+ "/" +:+ k)) (fun k => t_string t (p +:+ "/" +:+ k)).
(** [getX(key)]; [getX(key, default)] *)
Definition need {A} (e : entry A) : result A := match e with Value a => Ret a | _ => Throw External end.
Definition need_or {A} (e : entry A) (d : A) : result A :=
  match e with Value a => Ret a | Missing => Ret d | Malformed => Throw External end.
Definition getDouble t k := need (t_double t k).
Definition getInt t k := need (t_int t k).
Definition getBool t k := need (t_bool t k).
Definition getString t k := need (t_string t k).
Definition getDoubleOr t k d := need_or (t_double t k) d.
Definition getIntOr t k d := need_or (t_int t k) d.
Definition getBoolOr t k d := need_or (t_bool t k) d.

(** [int] to [size_t] and to [uint16_t] *)
Definition size_of_int (z : Z) : Z := (z mod 2 ^ 64)%Z.
Definition uint16_of_int (z : Z) : Z := (z mod 2 ^ 16)%Z.

(** ** Linear solver and estimator *)
Record tsvd_options := TsvdOptions {
  ts_columnScaling : bool; ts_epsNorm : R; ts_epsSVD : R; ts_epsQR : R; ts_svdTol : R; ts_qrTol : R; ts_verbose : bool }.
(** aslam-tsvd-solver.cc 17-30; [d]: the defaults of the library *)
Definition tsvd_of (d : tsvd_options) (t : tree) : result tsvd_options :=
  rbind (getBoolOr t "columnScaling" (ts_columnScaling d)) (fun cs =>
  rbind (getDoubleOr t "epsNorm" (ts_epsNorm d)) (fun en =>
  rbind (getDoubleOr t "epsSVD" (ts_epsSVD d)) (fun es =>
  rbind (getDoubleOr t "epsQR" (ts_epsQR d)) (fun eq =>
  rbind (getDoubleOr t "svdTol" (ts_svdTol d)) (fun st =>
  rbind (getDoubleOr t "qrTol" (ts_qrTol d)) (fun qt =>
  rbind (getBoolOr t "verbose" (ts_verbose d)) (fun v =>
  Ret (TsvdOptions cs en es eq st qt v)))))))).

(** [IncrementalEstimator::Options] with the defaults of IncrementalEstimator.h 67-71 *)
Record est_options := EstOptions { eo_infoGainDelta : R; eo_checkValidity : bool; eo_verbose : bool }.
Definition est_options0 : est_options := EstOptions 0.2 false false.
Record est_config (O : Type) := EstConfig {
  ec_solver : tsvd_options; ec_optimizer : O; ec_options : est_options; ec_margGroupId : Z }.
Global Arguments EstConfig {O}. Global Arguments ec_solver {O}. Global Arguments ec_optimizer {O}.
Global Arguments ec_options {O}. Global Arguments ec_margGroupId {O}.
(** 63-92; [optimizer]: the constructor of the external optimizer *)
Definition estimator_of {O} (d : tsvd_options) (optimizer : tree -> result O) (t : tree) : result (est_config O) :=
  rbind (tsvd_of d (subtree t "optimizer/linearSolver")) (fun ls =>
  rbind (optimizer (subtree t "optimizer")) (fun op =>
  rbind (getDoubleOr t "infoGainDelta" (eo_infoGainDelta est_options0)) (fun ig =>
  rbind (getBoolOr t "checkValidity" (eo_checkValidity est_options0)) (fun cv =>
  rbind (getBoolOr t "verbose" (eo_verbose est_options0)) (fun v =>
  rbind (getInt t "groupId") (fun m =>
  Ret (EstConfig ls op (EstOptions ig cv v) (size_of_int m)))))))).

(** ** Calibrator options *)
(** Members shared by the three structures. *)
Record spline_options := SplineOptions {
  so_windowDuration : R; so_transSplineLambda : R; so_rotSplineLambda : R; so_splineKnotsPerSecond : Z;
  so_transSplineOrder : Z; so_rotSplineOrder : Z; so_verbose : bool; so_delayBound : Z }.
Definition spline_options0 : spline_options := SplineOptions 10 0 0 5 4 4 true 50000000.
(** the "splines/" keys: car 52-57, time delay 40-45, egomotion 38-43 *)
Definition splines_of (t : tree) (g : Z) : result (R * R * Z * Z * Z) :=
  rbind (getDouble t "splines/transSplineLambda") (fun tl =>
  rbind (getDouble t "splines/rotSplineLambda") (fun rl =>
  rbind (getInt t "splines/splineKnotsPerSecond") (fun kn =>
  rbind (getIntOr t "splines/transSplineOrder" g) (fun to =>
  rbind (getInt t "splines/rotSplineOrder") (fun ro =>
  Ret (tl, rl, kn, to, ro)))))).

Record car_options := CarOptions {
  co_splines : spline_options; co_linearVelocityTolerance : R; co_dmiPercentError : R; co_dmiVariance : R;
  co_flwPercentError : R; co_flwVariance : R; co_frwPercentError : R; co_frwVariance : R;
  co_rlwPercentError : R; co_rlwVariance : R; co_rrwPercentError : R; co_rrwVariance : R;
  co_steeringVariance : R; co_wheelSpeedSensorCutoff : Z; co_vyVariance : R; co_vzVariance : R;
  co_usePose : bool; co_useVelocities : bool }.
(** CarCalibratorOptions.cpp 19-45 *)
Definition car_options0 : car_options :=
  CarOptions spline_options0 1 0.1 1 0.1 (/ 1000000) 0.1 (/ 1000000) 0.1 (/ 1000000) 0.1 (/ 1000000) (/ 1000000) 350 0.1 0.1 true false.
(** CarCalibratorOptions.cpp 47-88 *)
Definition car_options_of (t : tree) (g : Z) : result car_options :=
  rbind (getDouble t "windowDuration") (fun wd =>
  rbind (getBool t "verbose") (fun vb =>
  rbind (getBool t "usePose") (fun up =>
  rbind (getBool t "useVelocities") (fun uv =>
  rbind (getInt t "odometry/timeDelays/delayBound") (fun db =>
  rbind (splines_of t g) (fun '(tl, rl, kn, to, ro) =>
  rbind (getDouble t "odometry/sensors/linearVelocityTolerance") (fun lv =>
  rbind (getDouble t "odometry/sensors/dmi/noise/dmiPercentError") (fun dp =>
  rbind (getDouble t "odometry/sensors/dmi/noise/dmiVariance") (fun dv =>
  rbind (getDouble t "odometry/sensors/fws/noise/flwPercentError") (fun flp =>
  rbind (getDouble t "odometry/sensors/fws/noise/flwVariance") (fun flv =>
  rbind (getDouble t "odometry/sensors/fws/noise/frwPercentError") (fun frp =>
  rbind (getDouble t "odometry/sensors/fws/noise/frwVariance") (fun frv =>
  rbind (getDouble t "odometry/sensors/rws/noise/rlwPercentError") (fun rlp =>
  rbind (getDouble t "odometry/sensors/rws/noise/rlwVariance") (fun rlv =>
  rbind (getDouble t "odometry/sensors/rws/noise/rrwPercentError") (fun rrp =>
  rbind (getDouble t "odometry/sensors/rws/noise/rrwVariance") (fun rrv =>
  rbind (getDouble t "odometry/sensors/st/noise/steeringVariance") (fun sv =>
  rbind (getDouble t "odometry/constraints/noise/vyVariance") (fun vy =>
  rbind (getDouble t "odometry/constraints/noise/vzVariance") (fun vz =>
  rbind (getInt t "odometry/sensors/wheelSpeedSensorCutoff") (fun co =>
  Ret (CarOptions (SplineOptions wd tl rl kn to ro vb db) lv dp dv flp flv frp frv rlp rlv rrp rrv sv
         (uint16_of_int co) vy vz up uv)))))))))))))))))))))).

Record td_options := TdOptions {
  to_splines : spline_options; to_lwVariance : R; to_rwVariance : R; to_vyVariance : R; to_vzVariance : R }.
(** time delay CalibratorOptions.cpp 19-32 *)
Definition td_options0 : td_options := TdOptions spline_options0 (/ 1000) (/ 1000) 0.1 0.1.
(** time delay CalibratorOptions.cpp 34-52 *)
Definition td_options_of (t : tree) (g : Z) : result td_options :=
  rbind (getDouble t "windowDuration") (fun wd =>
  rbind (getBool t "verbose") (fun vb =>
  rbind (getInt t "delayBound") (fun db =>
  rbind (splines_of t g) (fun '(tl, rl, kn, to, ro) =>
  rbind (getDouble t "odometry/sensors/wss/noise/lwVariance") (fun lw =>
  rbind (getDouble t "odometry/sensors/wss/noise/rwVariance") (fun rw =>
  rbind (getDouble t "odometry/constraints/noise/vyVariance") (fun vy =>
  rbind (getDouble t "odometry/constraints/noise/vzVariance") (fun vz =>
  Ret (TdOptions (SplineOptions wd tl rl kn to ro vb db) lw rw vy vz))))))))).

Record ego_options := EgoOptions { eg_splines : spline_options; eg_referenceSensor : Z }.
(** egomotion CalibratorOptions.cpp 19-29 *)
Definition ego_options0 : ego_options := EgoOptions spline_options0 0.
(** egomotion CalibratorOptions.cpp 31-43 *)
Definition ego_options_of (t : tree) (g : Z) : result ego_options :=
  rbind (getDouble t "windowDuration") (fun wd =>
  rbind (getBool t "verbose") (fun vb =>
  rbind (getInt t "delayBound") (fun db =>
  rbind (getInt t "referenceSensor") (fun rs =>
  rbind (splines_of t g) (fun '(tl, rl, kn, to, ro) =>
  Ret (EgoOptions (SplineOptions wd tl rl kn to ro vb db) (size_of_int rs))))))).

(** ** Simulation parameters *)
Section sim.
(** [rt2Transform(ypr.parametersToRotationMatrix(e1, e2, e3), (x, y, z))] of the library *)
Context {T : Type} (identity : T) (ypr_xyz : R * R * R -> R * R * R -> T).

Definition getVec (t : tree) (k1 k2 k3 : string) : result (R * R * R) :=
  rbind (getDouble t k1) (fun a => rbind (getDouble t k2) (fun b => rbind (getDouble t k3) (fun c => Ret (a, b, c)))).

(** time delay TrajectoryParams.cpp 22-31; the start pose is default constructed by both constructors *)
Record td_trajectory := TdTrajectory { tt_start : T; tt_A : R; tt_f : R }.
Definition td_trajectory0 : td_trajectory := TdTrajectory identity 15 0.01.
Definition td_trajectory_of (t : tree) : result td_trajectory :=
  rbind (getDouble t "A") (fun a => rbind (getDouble t "f") (fun f => Ret (TdTrajectory identity a f))).

(** time delay SimulationParams.cpp 44-75; the covariances are diagonal matrices, given by their diagonals *)
Record td_sim := TdSim {
  tp_trajectory : td_trajectory; tp_v_T_p : T; tp_b : R; tp_k_l : R; tp_t_l : R; tp_k_r : R; tp_t_r : R; tp_dt : R; tp_T : R;
  tp_sigma2_l : R; tp_sigma2_r : R; tp_sigma2_position : R * R * R; tp_sigma2_rotation : R * R * R }.
Definition td_sim_of (t : tree) : result td_sim :=
  rbind (getDouble t "calibration/odometry/wss/b") (fun b =>
  rbind (getDouble t "calibration/odometry/wss/k_l") (fun kl =>
  rbind (getDouble t "calibration/odometry/wss/t_l") (fun tl =>
  rbind (getDouble t "calibration/odometry/wss/k_r") (fun kr =>
  rbind (getDouble t "calibration/odometry/wss/t_r") (fun tr =>
  rbind (getVec t "calibration/v_T_p/v_R_p/e1" "calibration/v_T_p/v_R_p/e2" "calibration/v_T_p/v_R_p/e3") (fun e =>
  rbind (getVec t "calibration/v_T_p/v_r_vp/e1" "calibration/v_T_p/v_r_vp/e2" "calibration/v_T_p/v_r_vp/e3") (fun x =>
  rbind (getDouble t "dt") (fun dt =>
  rbind (getDouble t "T") (fun TT =>
  rbind (getDouble t "noise/odometry/wss/sigma2_l") (fun sl =>
  rbind (getDouble t "noise/odometry/wss/sigma2_r") (fun sr =>
  rbind (getVec t "noise/pose/sigma2_w_r_wp/e1" "noise/pose/sigma2_w_r_wp/e2" "noise/pose/sigma2_w_r_wp/e3") (fun sp =>
  rbind (getVec t "noise/pose/sigma2_w_R_p/e1" "noise/pose/sigma2_w_R_p/e2" "noise/pose/sigma2_w_R_p/e3") (fun sq =>
  rbind (td_trajectory_of (subtree t "trajectory")) (fun tj =>
  Ret (TdSim tj (ypr_xyz e x) b kl tl kr tr dt TT sl sr sp sq))))))))))))))).

(** egomotion TrajectoryParams.cpp 22-51 *)
Record ego_trajectory := EgoTrajectory {
  et_start : T; et_A : R; et_f : R; et_transSplineLambda : R; et_rotSplineLambda : R; et_splineKnotsPerSecond : Z;
  et_transSplineOrder : Z; et_rotSplineOrder : Z; et_type : string }.
Definition ego_trajectory0 : ego_trajectory := EgoTrajectory identity 15 0.01 0 0 5 4 4 "".
Definition ego_trajectory_of (t : tree) (g : Z) : result ego_trajectory :=
  rbind (getDouble t "A") (fun a =>
  rbind (getDouble t "f") (fun f =>
  rbind (getVec t "w_T_v_0/yaw" "w_T_v_0/pitch" "w_T_v_0/roll") (fun e =>
  rbind (getVec t "w_T_v_0/x" "w_T_v_0/y" "w_T_v_0/z") (fun x =>
  rbind (splines_of t g) (fun '(tl, rl, kn, to, ro) =>
  rbind (getString t "type") (fun ty =>
  Ret (EgoTrajectory (ypr_xyz e x) a f tl rl kn to ro ty))))))).

(** egomotion SimulationParams.cpp 29-46: one calibrated sensor *)
Definition ego_sensor (t : tree) (i : nat) : result (Z * (Z * T)) :=
  let tag := "calibration/sensor_" +:+ pretty i +:+ "/" in
  rbind (getVec t (tag +:+ "extrinsics/rotation/yaw") (tag +:+ "extrinsics/rotation/pitch") (tag +:+ "extrinsics/rotation/roll")) (fun e =>
  rbind (getVec t (tag +:+ "extrinsics/translation/x") (tag +:+ "extrinsics/translation/y") (tag +:+ "extrinsics/translation/z")) (fun x =>
  rbind (getInt t (tag +:+ "intrinsics/timeDelay")) (fun d =>
  rbind (getInt t (tag +:+ "idx")) (fun idx =>
  Ret (size_of_int idx, (d, ypr_xyz e x)))))).
(** 53-67: the noise of one sensor (the diagonal) *)
Definition ego_noise (t : tree) (i : nat) : result (Z * (R * R * R * (R * R * R))) :=
  let tag := "noise/sensor_" +:+ pretty i +:+ "/" in
  rbind (getInt t (tag +:+ "idx")) (fun idx =>
  rbind (getVec t (tag +:+ "e1") (tag +:+ "e2") (tag +:+ "e3")) (fun a =>
  rbind (getVec t (tag +:+ "e4") (tag +:+ "e5") (tag +:+ "e6")) (fun b =>
  Ret (size_of_int idx, (a, b))))).
(** [for (int i = 0; i < n; ++i) { ...; map[idx] = ...; }] *)
Fixpoint fill {X} (read : nat -> result (Z * X)) (is : list nat) (m : gmap Z X) : result (gmap Z X) :=
  match is with
  | [] => Ret m
  | i :: is' => rbind (read i) (fun '(k, x) => fill read is' (<[k := x]> m))
  end.
Record ego_sim := EgoSim {
  ep_trajectory : ego_trajectory; ep_calibration : gmap Z (Z * T); ep_dt : R; ep_T : R;
  ep_sigma2 : gmap Z (R * R * R * (R * R * R)); ep_referenceSensor : Z }.
(** egomotion SimulationParams.cpp 25-73; [reserve] with a negative number throws *)
Definition ego_sim_of (t parent : tree) (g : Z) : result ego_sim :=
  rbind (getInt parent "egomotion/calibrator/referenceSensor") (fun rs =>
  rbind (getInt t "calibration/num") (fun n =>
  if (n <? 0)%Z then Throw External else
  rbind (fill (ego_sensor t) (seq 0 (Z.to_nat n)) ∅) (fun cal =>
  rbind (getDouble t "dt") (fun dt =>
  rbind (getDouble t "T") (fun TT =>
  rbind (fill (ego_noise t) (seq 0 (Z.to_nat n + 1)) ∅) (fun s2 =>
  rbind (ego_trajectory_of (subtree t "trajectory") g) (fun tj =>
  Ret (EgoSim tj cal dt TT s2 (size_of_int rs))))))))).
End sim.
