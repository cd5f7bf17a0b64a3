(** What the simulated laser range finder measures, independently of the code. *)
From Coq Require Import Reals List.
From Verif Require Import ErrorTermModel LrfSimModel.
Import ListNotations.
Local Open Scope R_scope.

(** sm::kinematics::angleMod: the same direction, in [-pi, pi]. *)
Definition angle_mod_ok (angleMod : R -> R) : Prop :=
  forall x, (exists n : Z, angleMod x = x - 2 * PI * IZR n) /\ - PI <= angleMod x <= PI.
(** Rounding to the nearest multiple of 2 pi is an instance. *)
Definition round_angle (x : R) : R := x - 2 * PI * IZR (Int_part (x / (2 * PI) + / 2)).

(** Where the sensor is when the vehicle is at pose [x] = (x, y, heading) and the sensor is mounted at
    [Theta] = (forward, left, rotation); and where a thing is that it sees at range [r] and bearing [b]. *)
Definition sensor_x (x Theta : rvec) : R := x 0%nat + Theta 0%nat * cos (x 2%nat) - Theta 1%nat * sin (x 2%nat).
Definition sensor_y (x Theta : rvec) : R := x 1%nat + Theta 0%nat * sin (x 2%nat) + Theta 1%nat * cos (x 2%nat).
Definition seen_at (x Theta : rvec) (r b : R) (l : rvec) : Prop :=
  l 0%nat = sensor_x x Theta + r * cos (x 2%nat + Theta 2%nat + b)
  /\ l 1%nat = sensor_y x Theta + r * sin (x 2%nat + Theta 2%nat + b).
Definition distance_to (x Theta l : rvec) : R :=
  sqrt ((l 0%nat - sensor_x x Theta) * (l 0%nat - sensor_x x Theta) + (l 1%nat - sensor_y x Theta) * (l 1%nat - sensor_y x Theta)).
(** The first row in which the entry of column [j] is positive. *)
Definition entry (m : list (list R)) (i j : nat) : R := nth j (nth i m []) 0.
Definition first_sighting (r : list (list R)) (n j i : nat) : Prop :=
  (i < n)%nat /\ 0 < entry r i j /\ (forall i', (i' < i)%nat -> entry r i' j <= 0).
(** A table with [n] rows or more, each with [m] entries or more. *)
Definition table (n m : nat) (t : list (list R)) : Prop :=
  (n <= length t)%nat /\ (forall i, (i < n)%nat -> (m <= length (nth i t []))%nat).
Fixpoint sum_to (n : nat) (f : nat -> R) : R := match n with O => 0 | S n => sum_to n f + f (S n) end.
