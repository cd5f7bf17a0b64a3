(** Theorems written against mutants that survived: the options used without a configuration (C103, C104). *)
From stdpp Require Import prelude list gmap strings pretty.
From Coq Require Import Reals Lra.
From Verif Require Import Base OptionsModel Spec_Options.
Local Open Scope string_scope.
Local Open Scope R_scope.

(** Key by key, the values a default-constructed structure holds. *)
Definition values {O A} (table : list (string * (O -> A))) (o : O) : list (string * A) := map (fun '(k, f) => (k, f o)) table.
Definition default_splines (s : spline_options) : Prop :=
  values spline_doubles s = [("windowDuration", 10); ("splines/transSplineLambda", 0); ("splines/rotSplineLambda", 0)] /\
  values spline_ints s = [("splines/splineKnotsPerSecond", 5%Z); ("splines/rotSplineOrder", 4%Z)] /\
  so_transSplineOrder s = 4%Z /\ so_verbose s = true /\ so_delayBound s = 50000000%Z.
Theorem calibrator_defaults :
  (let o := car_options0 in default_splines (co_splines o) /\
   values car_doubles o =
     [("odometry/sensors/linearVelocityTolerance", 1);
      ("odometry/sensors/dmi/noise/dmiPercentError", 1 / 10); ("odometry/sensors/dmi/noise/dmiVariance", 1);
      ("odometry/sensors/fws/noise/flwPercentError", 1 / 10); ("odometry/sensors/fws/noise/flwVariance", 1 / 10 ^ 6);
      ("odometry/sensors/fws/noise/frwPercentError", 1 / 10); ("odometry/sensors/fws/noise/frwVariance", 1 / 10 ^ 6);
      ("odometry/sensors/rws/noise/rlwPercentError", 1 / 10); ("odometry/sensors/rws/noise/rlwVariance", 1 / 10 ^ 6);
      ("odometry/sensors/rws/noise/rrwPercentError", 1 / 10); ("odometry/sensors/rws/noise/rrwVariance", 1 / 10 ^ 6);
      ("odometry/sensors/st/noise/steeringVariance", 1 / 10 ^ 6);
      ("odometry/constraints/noise/vyVariance", 1 / 10); ("odometry/constraints/noise/vzVariance", 1 / 10)] /\
   values car_bools o = [("usePose", true); ("useVelocities", false)] /\ co_wheelSpeedSensorCutoff o = 350%Z) /\
  (let o := td_options0 in default_splines (to_splines o) /\
   values td_doubles o =
     [("odometry/sensors/wss/noise/lwVariance", 1 / 10 ^ 3); ("odometry/sensors/wss/noise/rwVariance", 1 / 10 ^ 3);
      ("odometry/constraints/noise/vyVariance", 1 / 10); ("odometry/constraints/noise/vzVariance", 1 / 10)]) /\
  (let o := ego_options0 in default_splines (eg_splines o) /\ eg_referenceSensor o = 0%Z).
Proof.
  assert (H : forall a b : R, a = b -> forall (s : string) (l l2 : list (string * R)), l = l2 -> (s, a) :: l = (s, b) :: l2) by (intros a b -> s l l2 ->; reflexivity).
  assert (S : default_splines spline_options0) by (unfold default_splines; split_and!; reflexivity).
  cbn zeta. unfold values. cbn [map car_doubles td_doubles car_options0 td_options0 ego_options0 car_bools co_splines co_linearVelocityTolerance co_dmiPercentError
    co_dmiVariance co_flwPercentError co_flwVariance co_frwPercentError co_frwVariance co_rlwPercentError co_rlwVariance co_rrwPercentError co_rrwVariance
    co_steeringVariance co_vyVariance co_vzVariance co_usePose co_useVelocities to_splines to_lwVariance to_rwVariance to_vyVariance to_vzVariance eg_splines].
  split_and!; try exact S; try reflexivity; repeat (apply H; [lra|]); reflexivity.
Qed.
(** The trajectory parameters of the two simulators. *)
Theorem trajectory_defaults {T} (identity : T) :
  td_trajectory0 identity = TdTrajectory identity 15 (1 / 100) /\ ego_trajectory0 identity = EgoTrajectory identity 15 (1 / 100) 0 0 5 4 4 "".
Proof. unfold td_trajectory0, ego_trajectory0. split; f_equal; lra. Qed.
