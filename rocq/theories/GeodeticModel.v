(** Model of incremental_calibration_examples/incremental_calibration_examples_car/src/algo/bestQuat.cpp (identical copies
    in the time_delay and egomotion_sensors examples) and of src/geo/geodetic.cpp of the same example, with exact
    arithmetic.  A sm::kinematics::Transformation is modelled by the rotation matrix and the translation it was built
    from (r2quat and the quaternion inside are library code). *)
From Coq Require Import Reals List.
Import ListNotations.
Local Open Scope R_scope.

Record quat := Quat { q0 : R; q1 : R; q2 : R; q3 : R }.
Definition q_opp (q : quat) : quat := Quat (- q0 q) (- q1 q) (- q2 q) (- q3 q).
Definition q_add (p q : quat) : quat := Quat (q0 p + q0 q) (q1 p + q1 q) (q2 p + q2 q) (q3 p + q3 q).
Definition q_sub (p q : quat) : quat := Quat (q0 p - q0 q) (q1 p - q1 q) (q2 p - q2 q) (q3 p - q3 q).
(** Eigen's norm() of a 4-vector *)
Definition q_norm (q : quat) : R := sqrt (q0 q * q0 q + q1 q * q1 q + q2 q * q2 q + q3 q * q3 q).
(** bestQuat.cpp 15-21 *)
Definition bestQuat (pquat cquat : quat) : quat :=
  if Rlt_dec (q_norm (q_add pquat cquat)) (q_norm (q_sub pquat cquat)) then q_opp cquat else cquat.
(** The loop of the spline initialisation: car/src/algo/CarCalibrator.cpp 422-440 (time_delay/src/algo/Calibrator.cpp and
    egomotion_sensors/src/algo/Calibrator.cpp 165-190 likewise): every rotation is compared with the previous one as
    stored.  [rotPoses]: the vector filled by the loop. *)
Definition rotPoses (qs : list quat) : list quat :=
  fold_left (fun rot q => match rot with [] => [q] | _ => rot ++ [bestQuat (last rot q) q] end) qs [].

Record v3 := V3 { vx : R; vy : R; vz : R }.
Record m3 := M3 { r1 : v3; r2 : v3; r3 : v3 }.
Definition dot3 (a b : v3) : R := vx a * vx b + vy a * vy b + vz a * vz b.
Definition add3 (a b : v3) : v3 := V3 (vx a + vx b) (vy a + vy b) (vz a + vz b).
Definition scale3 (s : R) (a : v3) : v3 := V3 (s * vx a) (s * vy a) (s * vz a).
Definition mulv (M : m3) (p : v3) : v3 := V3 (dot3 (r1 M) p) (dot3 (r2 M) p) (dot3 (r3 M) p).
Definition transpose (M : m3) : m3 :=
  M3 (V3 (vx (r1 M)) (vx (r2 M)) (vx (r3 M))) (V3 (vy (r1 M)) (vy (r2 M)) (vy (r3 M))) (V3 (vz (r1 M)) (vz (r2 M)) (vz (r3 M))).
(** A rigid transformation: rotation, then translation; its inverse. *)
Record transf := Transf { rot : m3; trans : v3 }.
Definition apply_T (T : transf) (p : v3) : v3 := add3 (mulv (rot T) p) (trans T).
Definition inverse_T (T : transf) : transf := Transf (transpose (rot T)) (scale3 (- 1) (mulv (transpose (rot T)) (trans T))).

(** enu2ecef, 28-43 *)
Definition enu2ecef (x y z latitude longitude : R) : transf :=
  let slat := sin latitude in let clat := cos latitude in let slong := sin longitude in let clong := cos longitude in
  let enu_R_ecef := M3 (V3 (- slong) clong 0)
                       (V3 (- slat * clong) (- slat * slong) clat)
                       (V3 (clat * clong) (clat * slong) slat) in
  Transf (transpose enu_R_ecef) (V3 x y z).
(** ecef2enu, 23-26 *)
Definition ecef2enu (x y z latitude longitude : R) : transf := inverse_T (enu2ecef x y z latitude longitude).
(** ned2ecef, 50-65 *)
Definition ned2ecef (x y z latitude longitude : R) : transf :=
  let slat := sin latitude in let clat := cos latitude in let slong := sin longitude in let clong := cos longitude in
  let ned_R_ecef := M3 (V3 (- slat * clong) (- slat * slong) clat)
                       (V3 (- slong) clong 0)
                       (V3 (- clat * clong) (- clat * slong) (- slat)) in
  Transf (transpose ned_R_ecef) (V3 x y z).
(** ecef2ned, 45-48 *)
Definition ecef2ned (x y z latitude longitude : R) : transf := inverse_T (ned2ecef x y z latitude longitude).
(** wgs84ToEcef, 67-80 *)
Definition wgs84_a : R := 6378137.
Definition wgs84_e2 : R := 6694380004260827 / 10 ^ 18.
Definition wgs84ToEcef (latitude longitude altitude : R) : v3 :=
  let slat := sin latitude in let clat := cos latitude in let slong := sin longitude in let clong := cos longitude in
  let N := wgs84_a / sqrt (1 - wgs84_e2 * slat * slat) in
  V3 ((N + altitude) * clat * clong) ((N + altitude) * clat * slong) ((N * (1 - wgs84_e2) + altitude) * slat).
