(** What it means for error terms to be differentiated correctly, independently of the code. *)
From Coq Require Import Reals Lra.
From Verif Require Import ErrorTermModel.
Local Open Scope R_scope.

(** The first [n] coordinates of the curve [x] have, at time [t], the derivatives [v]. *)
Definition has_velocity (n : nat) (x : R -> rvec) (t : R) (v : rvec) : Prop :=
  forall i, (i < n)%nat -> derivable_pt_lim (fun s => x s i) t (v i).
(** A normalisation of angles to [-pi, pi): what a correct [angleMod] must satisfy. *)
Definition periodic (angleMod : R -> R) : Prop := forall x, angleMod (x + 2 * PI) = angleMod x.
Definition smooth_at (angleMod : R -> R) (x : R) : Prop := derivable_pt_lim angleMod x 1.
Definition wrap (x : R) : R := x - 2 * PI * IZR (Int_part ((x + PI) / (2 * PI))).
