(** Model of [Transformation<T, 2>] and [Transformation<T, 3>]
    (incremental_calibration/include/aslam/calibration/geometry/Transformation2d.tpp, Transformation3d.tpp)
    with exact arithmetic.  A matrix of Eigen is a function of row and column; [mmul n] multiplies n x n matrices. *)
From stdpp Require Import prelude.
From Coq Require Import Reals.
Local Open Scope R_scope.

Local Notation mat := (nat -> nat -> R).
Fixpoint sum_lt (n : nat) (f : nat -> R) : R := match n with O => 0 | S n' => sum_lt n' f + f n' end.
Definition mmul (n : nat) (A B : mat) : mat := fun i j => sum_lt n (fun k => A i k * B k j).
Definition mvec (n : nat) (A : mat) (v : nat -> R) : nat -> R := fun i => sum_lt n (fun k => A i k * v k).
Definition mtransp (A : mat) : mat := fun i j => A j i.
(** Assignment of one coefficient. *)
Definition mset (A : mat) (i j : nat) (x : R) : mat :=
  fun a b => if Nat.eqb a i && Nat.eqb b j then x else A a b.

(** mTransformationMatrix, mRotationMatrix, mTranslationMatrix *)
Record transf := Transf { t_T : mat; t_rot : mat; t_tr : mat }.

(** Constructor from a matrix, Transformation2d.tpp 19-23, Transformation3d.tpp 17-21: the other two members stay
    uninitialised ([junk]). *)
Definition transf_of_matrix (junk : transf) (T : mat) : transf := Transf T (t_rot junk) (t_tr junk).
(** setTransformationMatrix, 2d 77-81, 3d 76-80 *)
Definition setTransformationMatrix (t : transf) (T : mat) : transf := Transf T (t_rot t) (t_tr t).
(** getTransformationMatrix, 2d 83-87, 3d 82-86 *)
Definition getTransformationMatrix (t : transf) : mat := t_T t.
(** Copy constructor 2d 31-36, 3d 30-35; assignment 2d 38-47, 3d 37-46. *)
Definition transf_copy (other : transf) : transf := Transf (t_T other) (t_rot other) (t_tr other).
Definition transf_assign (this other : transf) : transf := Transf (t_T other) (t_rot other) (t_tr other).

(** ** Two dimensions *)
(** setTransformation, 89-112 *)
Definition setTransformation2 (t : transf) (x y yaw : R) : transf :=
  let c := cos yaw in let s := sin yaw in
  let r := t_rot t in
  let r := mset r 0 0 c in let r := mset r 0 1 (- s) in let r := mset r 0 2 0 in
  let r := mset r 1 0 s in let r := mset r 1 1 c in let r := mset r 1 2 0 in
  let r := mset r 2 0 0 in let r := mset r 2 1 0 in let r := mset r 2 2 1 in
  let l := t_tr t in
  let l := mset l 0 0 1 in let l := mset l 0 1 0 in let l := mset l 0 2 x in
  let l := mset l 1 0 0 in let l := mset l 1 1 1 in let l := mset l 1 2 y in
  let l := mset l 2 0 0 in let l := mset l 2 1 0 in let l := mset l 2 2 1 in
  Transf (mmul 3 l r) r l.
(** inverse, 137-144 *)
Definition inverse2 (t : transf) : transf :=
  let r := mtransp (t_rot t) in
  let l := mset (t_tr t) 0 2 (- t_tr t 0%nat 2%nat) in
  let l := mset l 1 2 (- l 1%nat 2%nat) in
  Transf (mmul 3 r l) r l.
(** getInverse, 114-117 *)
Definition getInverse2 (t : transf) : transf := inverse2 (transf_copy t).
(** transform, 123-128, and operator (), 130-135 *)
Definition transform2 (t : transf) (p : R * R) : R * R :=
  let point k := match k with O => fst p | 1%nat => snd p | _ => 1 end in
  (mvec 3 (t_T t) point 0%nat, mvec 3 (t_T t) point 1%nat).

(** ** Three dimensions *)
(** setTransformation, 88-130 *)
Definition setTransformation3 (t : transf) (x y z roll pitch yaw : R) : transf :=
  let sr := sin roll in let cr := cos roll in
  let sp := sin pitch in let cp := cos pitch in
  let sy := sin yaw in let cy := cos yaw in
  let r := t_rot t in
  let r := mset r 0 0 (cy * cp) in let r := mset r 0 1 (cy * sp * sr - sy * cr) in
  let r := mset r 0 2 (cy * sp * cr + sy * sr) in let r := mset r 0 3 0 in
  let r := mset r 1 0 (sy * cp) in let r := mset r 1 1 (sy * sp * sr + cy * cr) in
  let r := mset r 1 2 (sy * sp * cr - cy * sr) in let r := mset r 1 3 0 in
  let r := mset r 2 0 (- sp) in let r := mset r 2 1 (cp * sr) in let r := mset r 2 2 (cp * cr) in
  let r := mset r 2 3 0 in
  let r := mset r 3 0 0 in let r := mset r 3 1 0 in let r := mset r 3 2 0 in let r := mset r 3 3 1 in
  let l := t_tr t in
  let l := mset l 0 0 1 in let l := mset l 0 1 0 in let l := mset l 0 2 0 in let l := mset l 0 3 x in
  let l := mset l 1 0 0 in let l := mset l 1 1 1 in let l := mset l 1 2 0 in let l := mset l 1 3 y in
  let l := mset l 2 0 0 in let l := mset l 2 1 0 in let l := mset l 2 2 1 in let l := mset l 2 3 z in
  let l := mset l 3 0 0 in let l := mset l 3 1 0 in let l := mset l 3 2 0 in let l := mset l 3 3 1 in
  Transf (mmul 4 l r) r l.
(** inverse, 141-149 *)
Definition inverse3 (t : transf) : transf :=
  let r := mtransp (t_rot t) in
  let l := mset (t_tr t) 0 3 (- t_tr t 0%nat 3%nat) in
  let l := mset l 1 3 (- l 1%nat 3%nat) in
  let l := mset l 2 3 (- l 2%nat 3%nat) in
  Transf (mmul 4 r l) r l.
(** getInverse, 132-135 *)
Definition getInverse3 (t : transf) : transf := inverse3 (transf_copy t).
(** transform, 151-156, and operator (), 158-163 *)
Definition transform3 (t : transf) (p : R * R * R) : R * R * R :=
  let point k := match k with O => fst (fst p) | 1%nat => snd (fst p) | 2%nat => snd p | _ => 1 end in
  (mvec 4 (t_T t) point 0%nat, mvec 4 (t_T t) point 1%nat, mvec 4 (t_T t) point 2%nat).
