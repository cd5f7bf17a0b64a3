(** What quaternions, frames and geodetic coordinates mean, independently of the code. *)
From Coq Require Import Reals.
From Verif Require Import GeodeticModel.
Local Open Scope R_scope.

(** Hamilton product (scalar part last), conjugate, and the rotation of a vector: q v q*. *)
Definition q_mul (p q : quat) : quat :=
  Quat (q3 p * q0 q + q0 p * q3 q + q1 p * q2 q - q2 p * q1 q)
       (q3 p * q1 q - q0 p * q2 q + q1 p * q3 q + q2 p * q0 q)
       (q3 p * q2 q + q0 p * q1 q - q1 p * q0 q + q2 p * q3 q)
       (q3 p * q3 q - q0 p * q0 q - q1 p * q1 q - q2 p * q2 q).
Definition q_conj (q : quat) : quat := Quat (- q0 q) (- q1 q) (- q2 q) (q3 q).
Definition q_rotate (q v : quat) : quat := q_mul (q_mul q v) (q_conj q).
Definition q_dot (p q : quat) : R := q0 p * q0 q + q1 p * q1 q + q2 p * q2 q + q3 p * q3 q.

(** The local directions at a point of given latitude and longitude. *)
Definition east (lat long : R) : v3 := V3 (- sin long) (cos long) 0.
Definition north (lat long : R) : v3 := V3 (- (sin lat * cos long)) (- (sin lat * sin long)) (cos lat).
Definition up (lat long : R) : v3 := V3 (cos lat * cos long) (cos lat * sin long) (sin lat).

Definition sub3 (a b : v3) : v3 := V3 (vx a - vx b) (vy a - vy b) (vz a - vz b).
Definition norm3 (a : v3) : R := sqrt (dot3 a a).
(** A transformation that preserves distances and orientation. *)
Definition det3 (M : m3) : R :=
  vx (r1 M) * (vy (r2 M) * vz (r3 M) - vz (r2 M) * vy (r3 M))
  - vy (r1 M) * (vx (r2 M) * vz (r3 M) - vz (r2 M) * vx (r3 M))
  + vz (r1 M) * (vx (r2 M) * vy (r3 M) - vy (r2 M) * vx (r3 M)).
Definition rigid (T : transf) : Prop :=
  (forall p q, norm3 (sub3 (apply_T T p) (apply_T T q)) = norm3 (sub3 p q)) /\ det3 (rot T) = 1.

(** The WGS84 ellipsoid: semi-axes a (equator) and b (poles), with b^2 = a^2 (1 - e^2); the outward normal at a point is
    the direction of the gradient of the left-hand side. *)
Definition on_ellipsoid (p : v3) : Prop :=
  (vx p * vx p + vy p * vy p) / (wgs84_a * wgs84_a) + vz p * vz p / (wgs84_a * wgs84_a * (1 - wgs84_e2)) = 1.
Definition gradient (p : v3) : v3 :=
  V3 (2 * vx p / (wgs84_a * wgs84_a)) (2 * vy p / (wgs84_a * wgs84_a)) (2 * vz p / (wgs84_a * wgs84_a * (1 - wgs84_e2))).
Definition derives3 (f : R -> v3) (t : R) (d : v3) : Prop :=
  derivable_pt_lim (fun s => vx (f s)) t (vx d) /\ derivable_pt_lim (fun s => vy (f s)) t (vy d)
  /\ derivable_pt_lim (fun s => vz (f s)) t (vz d).
