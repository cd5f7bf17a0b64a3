(** Model of the error terms of the examples, with exact arithmetic:
    - LRF: incremental_calibration_examples/incremental_calibration_examples_2dlrf/src/2dlrf/ErrorTermMotion.cpp and
      ErrorTermObservation.cpp;
    - CAR: incremental_calibration_examples/incremental_calibration_examples_car/src/error-terms/ErrorTermSteering.cpp,
      ErrorTermWheel.cpp (the time-delay example has an identical copy), ErrorTermVelocities.cpp.
    ErrorTermPose needs the rotation conventions of a library that is not part of the repository: its Jacobian is not
    modelled.  A vector is a function of the index, a matrix of row and column.  sm::kinematics::angleMod is a parameter. *)
From Coq Require Import Reals Arith.
Local Open Scope R_scope.

Notation rvec := (nat -> R).
Notation rmat := (nat -> nat -> R).
Fixpoint rsum (n : nat) (f : nat -> R) : R := match n with O => 0 | S n' => rsum n' f + f n' end.
(** Matrix (with [n] columns) times vector. *)
Definition rmul (n : nat) (A : rmat) (v : rvec) : rvec := fun i => rsum n (fun j => A i j * v j).
(** Assignment of one coefficient. *)
Definition rset (A : rmat) (i j : nat) (x : R) : rmat := fun a b => if (Nat.eqb a i && Nat.eqb b j)%bool then x else A a b.
Definition rzero : rmat := fun _ _ => 0.
Definition rident : rmat := fun i j => if Nat.eqb i j then 1 else 0.
Definition rneg (A : rmat) : rmat := fun i j => - A i j.
Definition rdivs (A : rmat) (x : R) : rmat := fun i j => A i j / x.

(** C's atan2 on reals. *)
Definition atan2 (y x : R) : R :=
  if Rlt_dec 0 x then atan (y / x)
  else if Rlt_dec x 0 then (if Rle_dec 0 y then atan (y / x) + PI else atan (y / x) - PI)
  else if Rlt_dec 0 y then PI / 2 else if Rlt_dec y 0 then - (PI / 2) else 0.

(** ** LRF ErrorTermMotion *)
(** evaluateErrorImplementation, 98-108: the error vector *)
Definition motion_error (T : R) (uk xkm1 xk : rvec) : rvec :=
  let B := rident in
  let B := rset B 0 0 (cos (xkm1 2%nat)) in
  let B := rset B 0 1 (sin (xkm1 2%nat)) in
  let B := rset B 1 0 (- sin (xkm1 2%nat)) in
  let B := rset B 1 1 (cos (xkm1 2%nat)) in
  fun i => uk i - rmul 3 (fun a b => 1 / T * B a b) (fun j => xk j - xkm1 j) i.
(** evaluateJacobiansImplementation, 110-135: the Jacobians added for _xkm1 and for _xk *)
Definition motion_jacobian_xk (T : R) (xkm1 xk : rvec) : rmat :=
  let H := rzero in
  let H := rset H 0 0 (cos (xkm1 2%nat)) in
  let H := rset H 0 1 (sin (xkm1 2%nat)) in
  let H := rset H 1 0 (- sin (xkm1 2%nat)) in
  let H := rset H 1 1 (cos (xkm1 2%nat)) in
  let H := rset H 2 2 1 in
  rdivs (rneg H) T.
Definition motion_jacobian_xkm1 (T : R) (xkm1 xk : rvec) : rmat :=
  let H := rzero in
  let H := rset H 0 0 (- cos (xkm1 2%nat)) in
  let H := rset H 0 1 (- sin (xkm1 2%nat)) in
  let H := rset H 0 2 (- sin (xkm1 2%nat) * (xk 0%nat - xkm1 0%nat) + cos (xkm1 2%nat) * (xk 1%nat - xkm1 1%nat)) in
  let H := rset H 1 0 (sin (xkm1 2%nat)) in
  let H := rset H 1 1 (- cos (xkm1 2%nat)) in
  let H := rset H 1 2 (- cos (xkm1 2%nat) * (xk 0%nat - xkm1 0%nat) - sin (xkm1 2%nat) * (xk 1%nat - xkm1 1%nat)) in
  let H := rset H 2 2 (- 1) in
  rdivs (rneg H) T.

(** ** LRF ErrorTermObservation *)
(** The landmark in the frame of the laser scanner up to rotation: [aa] and [bb], 100-109 (and 122-131). *)
Definition obs_aa (xk xl Theta : rvec) : R :=
  let ct := cos (xk 2%nat) in let st := sin (xk 2%nat) in
  let dxct := Theta 0%nat * ct in let dyst := Theta 1%nat * st in
  xl 0%nat - xk 0%nat - dxct + dyst.
Definition obs_bb (xk xl Theta : rvec) : R :=
  let ct := cos (xk 2%nat) in let st := sin (xk 2%nat) in
  let dxst := Theta 0%nat * st in let dyct := Theta 1%nat * ct in
  xl 1%nat - xk 1%nat - dxst - dyct.
(** evaluateErrorImplementation, 99-118 *)
Definition obs_error (angleMod : R -> R) (r b : R) (xk xl Theta : rvec) : rvec :=
  let aa := obs_aa xk xl Theta in let bb := obs_bb xk xl Theta in
  let temp1 := aa * aa + bb * bb in let temp2 := sqrt temp1 in
  fun i => match i with
           | O => r - temp2
           | _ => angleMod (b - (atan2 bb aa - xk 2%nat - Theta 2%nat))
           end.
(** evaluateJacobiansImplementation, 120-155 *)
Definition obs_jacobian_xk (xk xl Theta : rvec) : rmat :=
  let ct := cos (xk 2%nat) in let st := sin (xk 2%nat) in
  let dxct := Theta 0%nat * ct in let dxst := Theta 0%nat * st in
  let dyct := Theta 1%nat * ct in let dyst := Theta 1%nat * st in
  let aa := obs_aa xk xl Theta in let bb := obs_bb xk xl Theta in
  let temp1 := aa * aa + bb * bb in let temp2 := sqrt temp1 in
  let G := rzero in
  let G := rset G 0 0 (- aa / temp2) in
  let G := rset G 0 1 (- bb / temp2) in
  let G := rset G 0 2 ((aa * (dxst + dyct) + bb * (- dxct + dyst)) / temp2) in
  let G := rset G 1 0 (bb / temp1) in
  let G := rset G 1 1 (- aa / temp1) in
  let G := rset G 1 2 ((aa * (- dxct + dyst) - bb * (dxst + dyct)) / temp1 - 1) in
  rneg G.
Definition obs_jacobian_xl (xk xl Theta : rvec) : rmat :=
  let aa := obs_aa xk xl Theta in let bb := obs_bb xk xl Theta in
  let temp1 := aa * aa + bb * bb in let temp2 := sqrt temp1 in
  let G := rzero in
  let G := rset G 0 0 (aa / temp2) in
  let G := rset G 0 1 (bb / temp2) in
  let G := rset G 1 0 (- bb / temp1) in
  let G := rset G 1 1 (aa / temp1) in
  rneg G.
Definition obs_jacobian_Theta (xk xl Theta : rvec) : rmat :=
  let ct := cos (xk 2%nat) in let st := sin (xk 2%nat) in
  let aa := obs_aa xk xl Theta in let bb := obs_bb xk xl Theta in
  let temp1 := aa * aa + bb * bb in let temp2 := sqrt temp1 in
  let G := rzero in
  let G := rset G 0 0 (- (aa * ct + bb * st) / temp2) in
  let G := rset G 0 1 ((aa * st - bb * ct) / temp2) in
  let G := rset G 1 0 ((- aa * st + bb * ct) / temp1) in
  let G := rset G 1 1 (- (aa * ct + bb * st) / temp1) in
  let G := rset G 1 2 (- 1) in
  rneg G.

(** ** CAR ErrorTermSteering *)
(** evaluateErrorImplementation, 86-100; [v]: value of the velocity expression, [a]: steering coefficients *)
Definition steering_error (angleMod : R -> R) (m : R) (a v : rvec) : rvec :=
  let phi := atan2 (v 1%nat) (v 0%nat) in
  fun _ => angleMod (a 0%nat + a 1%nat * m + a 2%nat * m * m + a 3%nat * m * m * m - phi).
(** evaluateJacobiansImplementation, 102-117: for the coefficients and for the velocity expression.  Division by zero
    (v0 = 0) is not meaningful here, see the property. *)
Definition steering_jacobian_a (m : R) : rmat :=
  let J := rzero in
  let J := rset J 0 0 1 in let J := rset J 0 1 m in let J := rset J 0 2 (m * m) in rset J 0 3 (m * m * m).
Definition steering_jacobian_v (v : rvec) : rmat :=
  let v0 := v 0%nat in let v1 := v 1%nat in
  let J := rzero in
  let J := rset J 0 0 (- v1 / (v0 * v0 * (v1 * v1 / (v0 * v0) + 1))) in
  let J := rset J 0 1 (1 / (v0 * (v1 * v1 / (v0 * v0) + 1))) in
  rneg J.

(** ** CAR ErrorTermWheel *)
(** evaluateErrorImplementation, 92-111 *)
Definition wheel_error (front : bool) (m : R) (k : R) (v : rvec) : rvec :=
  let v0 := v 0%nat in let v1 := v 1%nat in let v2 := v 2%nat in
  if front then
    let temp := sqrt (v1 * v1 / (v0 * v0) + 1) in
    fun i => match i with O => m - k * (v0 / temp + v1 * v1 / (v0 * temp)) | 1%nat => 0 | _ => - v2 end
  else
    fun i => match i with O => m - k * v0 | 1%nat => - v1 | _ => - v2 end.
(** evaluateJacobiansImplementation, 113-131: for the velocity and for the coefficient k *)
Definition wheel_jacobian_v (front : bool) (k : R) (v : rvec) : rmat :=
  let v0 := v 0%nat in
  let J := rset (rset (rset rzero 0 0 k) 1 1 1) 2 2 1 in
  let J := if front then
             let v1 := v 1%nat in
             let temp1 := sqrt (v0 * v0 + v1 * v1) in
             let J := rset J 0 0 (k * v0 / temp1) in
             let J := rset J 0 1 (k * v1 / temp1) in
             rset J 1 1 0
           else J in
  rneg J.
Definition wheel_jacobian_k (front : bool) (v : rvec) : rmat :=
  let v0 := v 0%nat in
  let J := rset rzero 0 0 v0 in
  let J := if front then
             let v1 := v 1%nat in
             let temp2 := sqrt (v1 * v1 / (v0 * v0) + 1) in
             rset J 0 0 (v0 / temp2 + v1 * v1 / (v0 * temp2))
           else J in
  rneg J.

(** ** CAR ErrorTermVelocities *)
(** evaluateErrorImplementation, 69-75; entries 0-2 for the velocity, 3-5 for the angular velocity *)
Definition velocities_error (vm omm v om : rvec) : rvec :=
  fun i => if Nat.ltb i 3 then vm i - v i else omm (i - 3)%nat - om (i - 3)%nat.
(** evaluateJacobiansImplementation, 77-85 *)
Definition velocities_jacobian_v : rmat := rneg (fun i j => if Nat.ltb i 3 then rident i j else 0).
Definition velocities_jacobian_om : rmat := rneg (fun i j => if Nat.ltb i 3 then 0 else rident (i - 3)%nat j).

(** ** Weighting: the covariance and the information matrix (invR) of an error term.  Constructors (LRF ErrorTermMotion
    22-31, ErrorTermObservation 21-32, CAR ErrorTermPose 18-29, ErrorTermWheel 21-33) set both; setCovariance (and
    setVariance of ErrorTermSteering 78-80) only stores the covariance.  [M]: type of matrices, [inv]: inversion. *)
Record weighting (M : Type) := Weighting { w_cov : M; w_invR : M }.
Arguments Weighting {M}. Arguments w_cov {M}. Arguments w_invR {M}.
Definition weighting_new {M} (inv : M -> M) (Q : M) : weighting M := Weighting Q (inv Q).
Definition setCovariance {M} (w : weighting M) (Q : M) : weighting M := Weighting Q (w_invR w).
Definition getCovariance {M} (w : weighting M) : M := w_cov w.
(** evaluateChiSquaredError of the library: e^T invR e, for n x n matrices *)
Definition chi_squared (n : nat) (invR : rmat) (e : rvec) : R := rsum n (fun i => e i * rmul n invR e i).
