(** What the simulators should deliver, independently of their code. *)
From Coq Require Import Reals ZArith.
From Verif Require Import GeodeticModel.
Local Open Scope R_scope.

Definition unit_quat (q : quat) : Prop := q0 q * q0 q + q1 q * q1 q + q2 q * q2 q + q3 q * q3 q = 1.
Definition norm_v (a : v3) : R := sqrt (dot3 a a).
Definition sub_v (a b : v3) : v3 := V3 (vx a - vx b) (vy a - vy b) (vz a - vz b).
(** Rodrigues: rotation of [p] about the unit axis [k] by the angle [a] (right-handed). *)
Definition rotate_about (k : v3) (a : R) (p : v3) : v3 :=
  let kp := V3 (vy k * vz p - vz k * vy p) (vz k * vx p - vx k * vz p) (vx k * vy p - vy k * vx p) in
  V3 (cos a * vx p + sin a * vx kp + (1 - cos a) * dot3 k p * vx k)
     (cos a * vy p + sin a * vy kp + (1 - cos a) * dot3 k p * vy k)
     (cos a * vz p + sin a * vz kp + (1 - cos a) * dot3 k p * vz k).
(** Rotation matrix of a heading: the vehicle's x axis points to (cos h, sin h, 0). *)
Definition yaw (h : R) : m3 := M3 (V3 (cos h) (- sin h) 0) (V3 (sin h) (cos h) 0) (V3 0 0 1).

(** The curve the vehicle should follow, y = A sin(2 pi f x) with x = time, and its tangent angle. *)
Definition curve_x (t : R) : R := t.
Definition curve_y (A f t : R) : R := A * sin (2 * PI * f * t).
Definition curve_angle (A f t : R) : R := atan (2 * PI * f * A * cos (2 * PI * f * t)).
(** Commanded speed of step k (from time k dt to (k + 1) dt): mean velocity along the chord of the curve, projected on the direction
    of the tangent at the end of the step; commanded rotation rate: change of the tangent angle (none in the first step). *)
Definition chord_speed (A f dt : R) (k : nat) : R :=
  let t0 := INR k * dt in let t1 := INR (S k) * dt in
  ((curve_x t1 - curve_x t0) * cos (curve_angle A f t1) + (curve_y A f t1 - curve_y A f t0) * sin (curve_angle A f t1)) / dt.
Definition turn_rate (A f dt : R) (k : nat) : R :=
  (curve_angle A f (INR (S k) * dt) - curve_angle A f (INR (Nat.max k 1) * dt)) / dt.
(** [n] is the number of steps k = 1, 2, ... with k dt < T. *)
Definition num_steps (dt T : R) (n : nat) : Prop := (n = 0%nat \/ INR n * dt < T) /\ T <= INR (S n) * dt.

(** Rigid transformations: identity, orthogonal rotation. *)
Definition ident3 : m3 := M3 (V3 1 0 0) (V3 0 1 0) (V3 0 0 1).
Definition ident_T : transf := Transf ident3 (V3 0 0 0).
Definition orthogonal (M : m3) : Prop :=
  (forall p, mulv (transpose M) (mulv M p) = p) /\ (forall p, mulv M (mulv (transpose M) p) = p).
(** Two transformations that map every point alike; the motion from frame [S] to frame [T], expressed in [S]: S maps its result to T. *)
Definition same_T (S T : transf) : Prop := forall p, apply_T S p = apply_T T p.
Definition motion_between (S T m : transf) : Prop := forall p, apply_T S (apply_T m p) = apply_T T p.
(** Successive pairs of a list. *)
Definition successive {X} (l : list X) : list (X * X) := List.combine l (List.tl l).
(** Commanded speed and rotation rate of a step that ends at time [t1], when the curve's previous point is (x0, y0) and the previous
    tangent angle a0. *)
Definition speed_from (A f dt x0 y0 t1 : R) : R :=
  ((curve_x t1 - x0) * cos (curve_angle A f t1) + (curve_y A f t1 - y0) * sin (curve_angle A f t1)) / dt.
Definition rate_from (A f dt a0 t1 : R) : R := (curve_angle A f t1 - a0) / dt.
(** [n] is the number of times t, t + dt, t + 2 dt, ... before [limit]. *)
Definition count_from (dt limit t : R) (n : nat) : Prop := (n = 0%nat \/ t + INR (n - 1) * dt < limit) /\ limit <= t + INR n * dt.
(** Pose of sensor [k] at time [t]: the reference sensor moves along [traj], the others are mounted on it with [cal]. *)
Definition sensor_pose_is (traj : Z -> transf) (cal : nat -> option (Z * transf)) (ref k : nat) (t : Z) (T : transf) : Prop :=
  forall p, apply_T T p = match (if Nat.eqb k ref then None else cal k) with
                          | None => apply_T (traj t) p
                          | Some (_, r_T_s) => apply_T (traj t) (apply_T r_T_s p)
                          end.
(** Delay of the sensor's time stamps. *)
Definition sensor_delay (cal : nat -> option (Z * transf)) (ref k : nat) : Z :=
  match (if Nat.eqb k ref then None else cal k) with None => 0%Z | Some (d, _) => d end.
