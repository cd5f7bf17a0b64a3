(** Textbook rigid motions, independent of the code. *)
From stdpp Require Import prelude.
From Coq Require Import Reals.
Local Open Scope R_scope.

(** Rotation of the plane by an angle, and rotations of space about the three axes (right hand rule). *)
Definition rot (a : R) (p : R * R) : R * R := (cos a * p.1 - sin a * p.2, sin a * p.1 + cos a * p.2).
Definition rot_z (a : R) (p : R * R * R) : R * R * R :=
  let '(x, y, z) := p in (cos a * x - sin a * y, sin a * x + cos a * y, z).
Definition rot_y (a : R) (p : R * R * R) : R * R * R :=
  let '(x, y, z) := p in (cos a * x + sin a * z, y, - sin a * x + cos a * z).
Definition rot_x (a : R) (p : R * R * R) : R * R * R :=
  let '(x, y, z) := p in (x, cos a * y - sin a * z, sin a * y + cos a * z).
Definition add2 (p q : R * R) : R * R := (p.1 + q.1, p.2 + q.2).
Definition add3 (p q : R * R * R) : R * R * R := (p.1.1 + q.1.1, p.1.2 + q.1.2, p.2 + q.2).
Definition neg2 (p : R * R) : R * R := (- p.1, - p.2).
Definition neg3 (p : R * R * R) : R * R * R := (- p.1.1, - p.1.2, - p.2).
(** Squared distances. *)
Definition dist2 (p q : R * R) : R := (p.1 - q.1) ^ 2 + (p.2 - q.2) ^ 2.
Definition dist3 (p q : R * R * R) : R := (p.1.1 - q.1.1) ^ 2 + (p.1.2 - q.1.2) ^ 2 + (p.2 - q.2) ^ 2.
(** Yaw, pitch and roll about z, y and x. *)
Definition rot_ypr (roll pitch yaw : R) (p : R * R * R) : R * R * R := rot_z yaw (rot_y pitch (rot_x roll p)).
Definition unrot_ypr (roll pitch yaw : R) (p : R * R * R) : R * R * R :=
  rot_x (- roll) (rot_y (- pitch) (rot_z (- yaw) p)).
