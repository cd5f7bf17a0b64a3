(** Specification vocabulary for the motion of the vehicle and the calibrators' predictions. *)
From stdpp Require Import prelude list.
From Coq Require Import Reals.
From Verif Require Import Base GeodeticModel Spec_Geodetic SimEngineModel CarDriverModel Spec_CarDriver KinematicsModel.
Local Open Scope R_scope.

(** At time [x] the origin of the vehicle, at [r], moves with velocity [v] and the vehicle, with attitude [A], turns with
    angular velocity [om], both seen in the fixed frame: every vector attached to the vehicle changes by om x vector. *)
Definition moving (r : R -> v3) (A : R -> m3) (x : R) (v om : v3) : Prop :=
  rotation (A x) /\ derives3 r x v /\ forall q, derives3 (fun y => mulv (A y) q) x (cross3 om (mulv (A x) q)).
(** Time in ns to s. *)
Definition seconds (t : Z) : R := IZR t / 10 ^ 9.
(** The splines represent that motion at time [t]; the library's angular velocity is that of the fixed frame with respect to the
    vehicle, -om. *)
Definition represents (s : splines) (r : R -> v3) (A : R -> m3) (t : Z) : Prop :=
  exists v om, moving r A (seconds t) v om /\ sp_r s t = r (seconds t) /\ sp_R s t = A (seconds t) /\ sp_v s t = v /\ sp_av s t = scale3 (- 1) om.
(** [w] is the velocity, in vehicle coordinates, of the point [p] of the vehicle. *)
Definition body_velocity (r : R -> v3) (A : R -> m3) (t : Z) (p w : v3) : Prop :=
  derives3 (fun y => add3 (r y) (mulv (A y) p)) (seconds t) (mulv (A (seconds t)) w).

(** Where the sensors are, in vehicle coordinates (origin between the rear wheels, x forward, y left). *)
Definition rear_left (P : car_params) : v3 := V3 0 (e_r P) 0.
Definition rear_right (P : car_params) : v3 := V3 0 (- e_r P) 0.
Definition fore_left (P : car_params) : v3 := V3 (p_L P) (e_f P) 0.
Definition fore_right (P : car_params) : v3 := V3 (p_L P) (- e_f P) 0.
Definition fore_middle (P : car_params) : v3 := V3 (p_L P) 0 0.
(** The speed along the ground. *)
Definition ground_speed (w : v3) : R := sqrt (vx w * vx w + vy w * vy w).
(** The delayed measurement and everything up to the bound around it lies in the range of the splines. *)
Definition within (s : splines) (bound : Z) (t : Z) : Prop := (sp_min s <= t - bound /\ t + bound <= sp_max s)%Z.
