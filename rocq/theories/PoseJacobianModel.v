(** Model of the Jacobian of the pose error term: incremental_calibration_examples/incremental_calibration_examples_car/src/error-terms/ErrorTermPose.cpp
    102-113 (time_delay/src/error-terms/ErrorTermPose.cpp is the same).  Exact arithmetic.  The error itself is [pose_error] of KinematicsModel.v. *)
From Coq Require Import Reals.
From Verif Require Import GeodeticModel Spec_Geodetic SimEngineModel.
Local Open Scope R_scope.

(** sm::kinematics::crossMx (library): crossMx(a) * b = a x b *)
Definition crossMx (a : v3) : m3 := M3 (V3 0 (- vz a) (vy a)) (V3 (vz a) 0 (- vx a)) (V3 (- vy a) (vx a) 0).
(** EulerAnglesYawPitchRoll::parametersToSMatrix (library), for angles (yaw, pitch, roll) and the rotation Rz(yaw) Ry(pitch) Rx(roll).
    [s_matrix_defining] and [s_matrix_unique] of Properties_PoseJacobian.v: it is the one matrix the documentation asks for. *)
Definition s_matrix (a : v3) : m3 :=
  M3 (V3 0 (sin (vx a)) (- (cos (vx a) * cos (vy a))))
     (V3 0 (- cos (vx a)) (- (sin (vx a) * cos (vy a))))
     (V3 (- 1) 0 (sin (vy a))).
(** Eigen's inverse() of a 3x3 matrix: cofactors over the determinant; [None]: division by zero, no finite result *)
Definition inverse3 (M : m3) : option m3 :=
  let d := det3 M in
  if Req_EM_T d 0 then None else
  let c1 := scale3 (/ d) (cross3 (r2 M) (r3 M)) in
  let c2 := scale3 (/ d) (cross3 (r3 M) (r1 M)) in
  let c3 := scale3 (/ d) (cross3 (r1 M) (r2 M)) in
  Some (M3 (V3 (vx c1) (vx c2) (vx c3)) (V3 (vy c1) (vy c2) (vy c3)) (V3 (vz c1) (vz c2) (vz c3))).
(** A 6x6 matrix in blocks, and its product with (u, phi) *)
Record m6 := M6 { top_left : m3; top_right : m3; bottom_left : m3; bottom_right : m3 }.
Definition mul6 (M : m6) (x : v3 * v3) : v3 * v3 :=
  (add3 (mulv (top_left M) (fst x)) (mulv (top_right M) (snd x)), add3 (mulv (bottom_left M) (fst x)) (mulv (bottom_right M) (snd x))).
Definition eye3 : m3 := M3 (V3 1 0 0) (V3 0 1 0) (V3 0 0 1).
Definition zero3 : m3 := M3 (V3 0 0 0) (V3 0 0 0) (V3 0 0 0).
Definition neg3 (M : m3) : m3 := M3 (scale3 (- 1) (r1 M)) (scale3 (- 1) (r2 M)) (scale3 (- 1) (r3 M)).
Definition neg6 (M : m6) : m6 := M6 (neg3 (top_left M)) (neg3 (top_right M)) (neg3 (bottom_left M)) (neg3 (bottom_right M)).
(** evaluateJacobiansImplementation, 102-113: the matrix handed to the transformation expression *)
Definition pose_jacobian (unypr : m3 -> v3) (T : v3 * m3) : option m6 :=
  match inverse3 (s_matrix (unypr (snd T))) with
  | Some Si => Some (neg6 (M6 eye3 (crossMx (fst T)) zero3 Si))
  | None => None
  end.
