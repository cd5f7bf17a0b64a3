(** What the real-world programs of the car example should hand to the calibrator. *)
From stdpp Require Import prelude list.
From Coq Require Import Reals String.
From Verif Require Import Base GeodeticModel Spec_Geodetic CalibratorModel CarDriverModel.
Local Open Scope R_scope.

(** A proper configuration and log: six different topics, and every message of the type that belongs to its topic. *)
Definition topics_ok (cfg : car_config) : Prop := NoDup [t_vnp cfg; t_vns cfg; t_fws cfg; t_rws cfg; t_st cfg; t_dmi cfg].
Definition typed (cfg : car_config) (m : message) : Prop :=
  (topic m = t_vnp cfg -> exists x, content m = Vnp x) /\ (topic m = t_vns cfg -> exists x, content m = Vns x) /\
  (topic m = t_fws cfg -> exists x, content m = Fws x) /\ (topic m = t_rws cfg -> exists x, content m = Rws x) /\
  (topic m = t_st cfg -> exists x, content m = St x) /\ (topic m = t_dmi cfg -> exists x, content m = Dmi x).

(** The messages of a topic, of the type that belongs to it. *)
Definition on_topic {A} (t : string) (f : payload -> option A) (ms : list message) : list A :=
  omap (fun m => if String.eqb (topic m) t then f (content m) else None) ms.
(** The navigation solutions that count, each with the most recent performance message; those before the first performance
    message do not count. *)
Fixpoint solutions (cfg : car_config) (last : option vnp_msg) (ms : list message) : list (vns_msg * vnp_msg) :=
  match ms with
  | [] => []
  | Message t (Vnp p) :: ms' => solutions cfg (if String.eqb t (t_vnp cfg) then Some p else last) ms'
  | Message t (Vns v) :: ms' =>
    match last with
    | Some p => if String.eqb t (t_vns cfg) then (v, p) :: solutions cfg last ms' else solutions cfg last ms'
    | None => solutions cfg last ms'
    end
  | _ :: ms' => solutions cfg last ms'
  end.
(** The times a fresh corrector gives for a list of (device time, host time). *)
Fixpoint corrected {C} (correct : C -> Z -> Z -> C * Z) (c : C) (l : list (Z * Z)) : list Z :=
  match l with [] => [] | (d, h) :: l' => (correct c d h).2 :: corrected correct (correct c d h).1 l' end.

(** The calls of a kind. *)
Definition of_kinds (ks : list car_kind) (l : list call) : list call :=
  List.filter (fun c => bool_decide (meas_kind (c_meas_of c) ∈ ks)) l.

(** Coordinates east, north, up / north, east, down at a place, as a direction in space. *)
Definition in_enu (lat long : R) (p : v3) : v3 :=
  add3 (scale3 (vx p) (east lat long)) (add3 (scale3 (vy p) (north lat long)) (scale3 (vz p) (up lat long))).
Definition in_ned (lat long : R) (p : v3) : v3 :=
  add3 (scale3 (vx p) (north lat long)) (add3 (scale3 (vy p) (east lat long)) (scale3 (- vz p) (up lat long))).
Definition rad (deg : R) : R := deg / 180 * PI.
Definition sqr (x : R) : R := x * x.
Definition place (v : vns_msg) : v3 := wgs84ToEcef (rad (latitude v)) (rad (longitude v)) (altitude v).

(** A matrix is a rotation: rows orthonormal, right handed. *)
Definition rotation (M : m3) : Prop :=
  dot3 (r1 M) (r1 M) = 1 /\ dot3 (r2 M) (r2 M) = 1 /\ dot3 (r3 M) (r3 M) = 1 /\
  dot3 (r1 M) (r2 M) = 0 /\ dot3 (r1 M) (r3 M) = 0 /\ dot3 (r2 M) (r3 M) = 0 /\ det3 M = 1.
(** The attitude of the vehicle in a navigation solution, as angles. *)
Definition attitude (v : vns_msg) : v3 := V3 (rad (heading v)) (rad (pitch v)) (rad (roll v)).

(** The measurements that belong to a navigation solution [v] with performance [p]; [ref] is the first solution, whose place
    and east-north-up axes are the reference frame. *)
Definition solution_ok (ypr : v3 -> m3) (ref : vns_msg) (v : vns_msg) (p : vnp_msg) (pose : pose_meas) (vel : vel_meas) : Prop :=
  (* position *)
  place v = add3 (place ref) (in_enu (rad (latitude ref)) (rad (longitude ref)) (m_r_mr pose)) /\
  (* orientation: every vector of the vehicle points to the same direction in space *)
  (forall b, in_enu (rad (latitude ref)) (rad (longitude ref)) (mulv (ypr (m_R_r pose)) b)
             = in_ned (rad (latitude v)) (rad (longitude v)) (mulv (ypr (attitude v)) b)) /\
  (* velocity and rotation rates in the vehicle frame *)
  mulv (ypr (attitude v)) (r_v_mr vel) = V3 (northVelocity v) (eastVelocity v) (downVelocity v) /\
  r_om_mr vel = V3 (rad (angularRateLong v)) (rad (angularRateTrans v)) (rad (angularRateDown v)) /\
  (* variance of the angles *)
  sigma2_m_R_r pose = V3 (sqr (rad (headingRMSError p))) (sqr (rad (pitchRMSError p))) (sqr (rad (rollRMSError p))).

(** The covariance A diag(d) A^T of A x, when x has the covariance diag(d). *)
Definition cov_entry (A : m3) (d : v3) (i j : v3) : R :=
  vx d * (dot3 i (mulv A (V3 1 0 0)) * dot3 j (mulv A (V3 1 0 0))) + vy d * (dot3 i (mulv A (V3 0 1 0)) * dot3 j (mulv A (V3 0 1 0)))
  + vz d * (dot3 i (mulv A (V3 0 0 1)) * dot3 j (mulv A (V3 0 0 1))).
(** One sample of the odometer after another: the sum of speed times elapsed time. *)
Fixpoint travelled (times : list R) (speeds : list R) : R :=
  match times, speeds with
  | t0 :: ((t1 :: _) as ts), s :: ss => s * (t1 - t0) + travelled ts ss
  | _, _ => 0
  end.
