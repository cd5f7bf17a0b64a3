(** What it means for the pose error term to be differentiated correctly, independently of the code. *)
From Coq Require Import Reals.
From Verif Require Import GeodeticModel Spec_Geodetic SimEngineModel.
Local Open Scope R_scope.

(** A curve of vectors, of matrices, has a velocity at time [t]: entry by entry. *)
Definition moves3 (x : R -> v3) (t : R) (v : v3) : Prop :=
  derivable_pt_lim (fun s => vx (x s)) t (vx v) /\ derivable_pt_lim (fun s => vy (x s)) t (vy v) /\ derivable_pt_lim (fun s => vz (x s)) t (vz v).
Definition moves33 (C : R -> m3) (t : R) (V : m3) : Prop :=
  moves3 (fun s => r1 (C s)) t (r1 V) /\ moves3 (fun s => r2 (C s)) t (r2 V) /\ moves3 (fun s => r3 (C s)) t (r3 V).
(** -phi^x C: every column of C is turned by -phi (to first order). *)
Definition turning (phi : v3) (C : m3) : m3 :=
  let c a := scale3 (- 1) (cross3 phi a) in
  let A := transpose C in   (* rows of A: the columns of C *)
  transpose (M3 (c (r1 A)) (c (r2 A)) (c (r3 A))).
(** The optimizer's convention: a transformation with position x and rotation C is perturbed by (u, phi) to
    (1 - phi^x) x + u and (1 - phi^x) C, to first order. *)
Definition perturbed (x : R -> v3) (C : R -> m3) (t : R) (u phi : v3) : Prop :=
  moves3 x t (add3 u (scale3 (- 1) (cross3 phi (x t)))) /\ moves33 C t (turning phi (C t)).
(** A reduction of angles modulo a turn to [-pi, pi). *)
Definition reduces (angleMod : R -> R) : Prop := forall a, - PI <= angleMod a < PI /\ exists k : Z, angleMod a = a + IZR k * (2 * PI).
