(** Theorems written against mutants that survived: runs without any batch (C85), first entries of the simulated data (C82, C86),
    the threshold below which a rotation is ignored (C86). *)
From stdpp Require Import prelude list.
From Coq Require Import Reals Lra.
From Verif Require Import Base LrfDriverModel LrfSimModel GeodeticModel KinematicsModel SimEngineModel.

(** No data: no batch is kept, the result is the initial guess and the determinant 0 that the program starts with. *)
Theorem online_run_no_data {C} fuel B miTol (solve : list nat -> C * R) guess : 0 < fuel ->
  online_run fuel 0 B miTol solve guess = Ret (Online [] guess 0%R).
Proof. intros H. destruct fuel; [lia|]. reflexivity. Qed.

(** The simulated data start at the initial pose, for the true and the integrated trajectory, with zero inputs and observations. *)
Theorem lrf_simulate_first am T x0 Theta xls us wu wr wb : let d := lrf_simulate am T x0 Theta xls us wu wr wb in
  d_true d !! 0 = Some x0 /\ d_odom d !! 0 = Some x0 /\
  (exists u, d_u d !! 0 = Some u /\ u 0 = 0%R /\ u 1 = 0%R /\ u 2 = 0%R) /\
  (exists r, d_r d !! 0 = Some r /\ length r = length xls /\ forall j, j < length xls -> nth_error r j = Some 0%R) /\
  (exists b, d_b d !! 0 = Some b /\ length b = length xls /\ forall j, j < length xls -> nth_error b j = Some 0%R).
Proof.
  assert (H : forall n j, j < n -> nth_error (repeat 0%R n) j = Some 0%R).
  { intros n. induction n; intros j Hj; [lia|]. destruct j; [done|]. apply IHn. lia. }
  cbn. split_and!; [done|done| | |].
  - eexists. split; [reflexivity|]. done.
  - eexists. split; [reflexivity|]. split; [apply repeat_length|]. apply H.
  - eexists. split; [reflexivity|]. split; [apply repeat_length|]. apply H.
Qed.

(** The vehicle is at rest at the initial pose in the first entry of the trajectory. *)
Theorem td_simulate_first sec ypr P nl nr np nq fuel d : td_simulate sec ypr P nl nr np nq fuel = Some d ->
  td_T d !! 0 = Some (tp_q0 P, tp_p0 P) /\ td_v d !! 0 = Some (V3 0 0 0) /\ td_om d !! 0 = Some (V3 0 0 0).
Proof.
  unfold td_simulate. destruct (td_loop _ _ _ _ _ _ _ _ _ _ _ _ _) as [e|]; [|done]. intros [= <-]. done.
Qed.

(** The threshold is the machine precision of double, 2^-52. *)
Theorem integrate_threshold w v om dt :
  (sqrt (dot3 om om) * 4503599627370496 <= 1 -> fst (integrateMotionModel w v om dt) = quatInv (quatInv (fst w)))%R /\
  (1 < sqrt (dot3 om om) * 4503599627370496 ->
     let n := sqrt (dot3 om om) in
     fst (integrateMotionModel w v om dt) =
     quatInv (qplus (Quat (vx om / n * sin (n / 2 * dt)) (vy om / n * sin (n / 2 * dt)) (vz om / n * sin (n / 2 * dt)) (cos (n / 2 * dt)))
               (quatInv (fst w))))%R.
Proof.
  assert (He : epsilon = (/ 4503599627370496)%R) by (unfold epsilon; f_equal; lra).
  unfold integrateMotionModel. rewrite He. cbn zeta. cbn [fst]. split; intros H.
  - destruct (Rlt_dec _ _) as [H'|]; [|done]. exfalso. lra.
  - destruct (Rlt_dec _ _) as [|H']; [done|]. exfalso. apply H'. lra.
Qed.

(** Non-vacuity *)
Example integrate_threshold_example :
  (sqrt (dot3 (V3 0 0 0) (V3 0 0 0)) * 4503599627370496 <= 1)%R /\ (1 < sqrt (dot3 (V3 0 0 1) (V3 0 0 1)) * 4503599627370496)%R.
Proof.
  unfold dot3. cbn [vx vy vz]. replace (0 * 0 + 0 * 0 + 0 * 0)%R with 0%R by ring. replace (0 * 0 + 0 * 0 + 1 * 1)%R with 1%R by ring.
  rewrite sqrt_0, sqrt_1. split; lra.
Qed.
Example online_run_no_data_example : online_run 1 0 5 0.5%R (fun _ => (tt, 1%R)) tt = Ret (Online [] tt 0%R).
Proof. by apply online_run_no_data; lia. Qed.
