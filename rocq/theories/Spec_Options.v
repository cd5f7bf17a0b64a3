(** Which key of the configuration holds which option (the documented names of the example configurations). *)
From stdpp Require Import prelude list gmap strings pretty.
From Coq Require Import Reals.
From Verif Require Import Base OptionsModel.
Local Open Scope string_scope.

(** Every key of the table holds exactly the value of its option. *)
Definition holds {O A} (get : string -> entry A) (table : list (string * (O -> A))) (o : O) : Prop :=
  Forall (fun '(k, f) => get k = Value (f o)) table.
(** An optional key: absent and the option has the default, or present with the option's value. *)
Definition holds_or {O A} (get : string -> entry A) (table : list (string * (O -> A))) (d o : O) : Prop :=
  Forall (fun '(k, f) => get k = Value (f o) \/ get k = Missing /\ f o = f d) table.

Definition tsvd_doubles : list (string * (tsvd_options -> R)) :=
  [("epsNorm", ts_epsNorm); ("epsSVD", ts_epsSVD); ("epsQR", ts_epsQR); ("svdTol", ts_svdTol); ("qrTol", ts_qrTol)].
Definition tsvd_bools : list (string * (tsvd_options -> bool)) :=
  [("columnScaling", ts_columnScaling); ("verbose", ts_verbose)].
Definition est_doubles : list (string * (est_options -> R)) := [("infoGainDelta", eo_infoGainDelta)].
Definition est_bools : list (string * (est_options -> bool)) := [("checkValidity", eo_checkValidity); ("verbose", eo_verbose)].

Definition spline_doubles : list (string * (spline_options -> R)) :=
  [("windowDuration", so_windowDuration); ("splines/transSplineLambda", so_transSplineLambda); ("splines/rotSplineLambda", so_rotSplineLambda)].
Definition spline_ints : list (string * (spline_options -> Z)) :=
  [("splines/splineKnotsPerSecond", so_splineKnotsPerSecond); ("splines/rotSplineOrder", so_rotSplineOrder)].
Definition spline_bools : list (string * (spline_options -> bool)) := [("verbose", so_verbose)].
(** The options common to the three calibrators; [bound]: key of the delay bound; [g]: what the order of the translation
    spline becomes if its key is absent. *)
Definition splines_hold (t : tree) (bound : string) (g : Z) (o : spline_options) : Prop :=
  holds (t_double t) spline_doubles o /\ holds (t_int t) ((bound, so_delayBound) :: spline_ints) o /\
  holds (t_bool t) spline_bools o /\
  (t_int t "splines/transSplineOrder" = Value (so_transSplineOrder o) \/
   t_int t "splines/transSplineOrder" = Missing /\ so_transSplineOrder o = g).

Definition car_doubles : list (string * (car_options -> R)) :=
  [("odometry/sensors/linearVelocityTolerance", co_linearVelocityTolerance);
   ("odometry/sensors/dmi/noise/dmiPercentError", co_dmiPercentError); ("odometry/sensors/dmi/noise/dmiVariance", co_dmiVariance);
   ("odometry/sensors/fws/noise/flwPercentError", co_flwPercentError); ("odometry/sensors/fws/noise/flwVariance", co_flwVariance);
   ("odometry/sensors/fws/noise/frwPercentError", co_frwPercentError); ("odometry/sensors/fws/noise/frwVariance", co_frwVariance);
   ("odometry/sensors/rws/noise/rlwPercentError", co_rlwPercentError); ("odometry/sensors/rws/noise/rlwVariance", co_rlwVariance);
   ("odometry/sensors/rws/noise/rrwPercentError", co_rrwPercentError); ("odometry/sensors/rws/noise/rrwVariance", co_rrwVariance);
   ("odometry/sensors/st/noise/steeringVariance", co_steeringVariance);
   ("odometry/constraints/noise/vyVariance", co_vyVariance); ("odometry/constraints/noise/vzVariance", co_vzVariance)].
Definition car_bools : list (string * (car_options -> bool)) := [("usePose", co_usePose); ("useVelocities", co_useVelocities)].
Definition td_doubles : list (string * (td_options -> R)) :=
  [("odometry/sensors/wss/noise/lwVariance", to_lwVariance); ("odometry/sensors/wss/noise/rwVariance", to_rwVariance);
   ("odometry/constraints/noise/vyVariance", to_vyVariance); ("odometry/constraints/noise/vzVariance", to_vzVariance)].

(** Simulation parameters: position, angle and variance triples by the names of their components. *)
Definition vec_holds (t : tree) (k1 k2 k3 : string) (v : R * R * R) : Prop :=
  t_double t k1 = Value (fst (fst v)) /\ t_double t k2 = Value (snd (fst v)) /\ t_double t k3 = Value (snd v).
Section sim.
Context {T : Type}.
Definition td_sim_doubles : list (string * (td_sim (T := T) -> R)) :=
  [("calibration/odometry/wss/b", tp_b); ("calibration/odometry/wss/k_l", tp_k_l); ("calibration/odometry/wss/t_l", tp_t_l);
   ("calibration/odometry/wss/k_r", tp_k_r); ("calibration/odometry/wss/t_r", tp_t_r); ("dt", tp_dt); ("T", tp_T);
   ("noise/odometry/wss/sigma2_l", tp_sigma2_l); ("noise/odometry/wss/sigma2_r", tp_sigma2_r)].
End sim.
