(** C95, C97: predictions of the time-delay calibrator as a whole, and its error terms against the window model. *)
From stdpp Require Import prelude list.
From Coq Require Import Reals Lra.
From Flocq Require Import Core.Raux Core.Generic_fmt.
From Verif Require Import Base GeodeticModel Spec_Geodetic Properties_Geodetic SimEngineModel ErrorTermModel CalibratorModel CarDriverModel Spec_CarDriver
  Properties_CarDriver KinematicsModel Spec_Kinematics Spec_SimEngine Properties_SimEngine Properties_Kinematics.
Local Open Scope R_scope.

Definition no_preds : td_preds := TdPreds [] [] [].

(** ** The error terms are those of the window model, to which C46 and C69-C71 apply *)
Section agree.
  Context (P : td_cparams) (o : td_opts) (s : splines).
  Inductive td_meas := TMPose (m : pose_meas) | TMWheel (m : R).
  Definition td_store_of (st : td_store) (k : td_kind) : list (Z * td_meas) :=
    match k with
    | TdPose => map (fun x => (fst x, TMPose (snd x))) (tds_pose st)
    | TdLeft => map (fun x => (fst x, TMWheel (snd x))) (tds_left st)
    | TdRight => map (fun x => (fst x, TMWheel (snd x))) (tds_right st)
    end.
  Definition td_delay_of (k : td_kind) : Z := match k with TdPose => 0 | TdLeft => c_tl P | TdRight => c_tr P end.
  Definition td_term_of (x : td_kind * (Z * td_meas)) : option eterm :=
    match x with
    | (TdPose, (t, TMPose m)) => Some (EPose (pose_value s (c_mount P) t) (m_r_mr m) (m_R_r m) (sigma2_m_r_mr m) (sigma2_m_R_r m))
    | (TdLeft, (t, TMWheel m)) => Some (EWheel (point_velocity s (c_tl P + t) (V3 0 (c_b P) 0)) (c_kl P) m (V3 (td_lw o) (td_vy o) (td_vz o)) false)
    | (TdRight, (t, TMWheel m)) => Some (EWheel (point_velocity s (c_tr P + t) (V3 0 (- c_b P) 0)) (c_kr P) m (V3 (td_rw o) (td_vy o) (td_vz o)) false)
    | _ => None
    end.
  Theorem td_terms_agree st (e : unit) :
    map Some (td_error_terms P o s st)
    = map td_term_of (td_terms (fun _ => sp_min s) (fun _ => sp_max s) (fun _ => td_delay_of) (td_bound o) e (td_store_of st)).
  Proof.
    unfold td_error_terms, td_terms, td_wheel. rewrite !map_app. f_equal; [|f_equal].
    - unfold td_pose_terms. cbn [td_store_of]. induction (tds_pose st) as [|[t m] l IH]; [reflexivity|]. cbn [map fst snd td_term_of]. f_equal. exact IH.
    - unfold td_left_terms. cbn [td_store_of]. induction (tds_left st) as [|[t m] l IH]; [reflexivity|]. rewrite flat_cons. cbn [map List.filter fst snd].
      rewrite map_app, IH. unfold td_in. cbn [td_delay_of]. destruct (in_spline _ _ _ _); [|reflexivity]. cbn [negb map app td_term_of]. rewrite left_point_eq. reflexivity.
    - unfold td_right_terms. cbn [td_store_of]. induction (tds_right st) as [|[t m] l IH]; [reflexivity|]. rewrite flat_cons. cbn [map List.filter fst snd].
      rewrite map_app, IH. unfold td_in. cbn [td_delay_of]. destruct (in_spline _ _ _ _); [|reflexivity]. cbn [negb map app td_term_of]. rewrite right_point_eq. reflexivity.
  Qed.
End agree.

Section whole.
  Context (ypr : v3 -> m3) (unypr : m3 -> v3) (r2quat : m3 -> quat) (angleMod : R -> R).
  Context (fit : list Z -> list v3 * list quat -> Z -> result splines).
  Local Notation predict := (td_predict ypr unypr r2quat angleMod fit).
  Local Notation eval := (eval_term unypr angleMod).
  Local Notation errs l := (concat (map pr_error l)).
  Local Notation errs2 l := (rsum_l (map pr_error2 l)).
  (** The splines of predict() and of addMeasurements() for the same stored measurements. *)
  Local Notation window_splines P o st :=
    (fit_splines ypr r2quat fit (td_knots o) (c_mount P) (map fst (tds_pose st)) (map (fun x => (m_r_mr (snd x), m_R_r (snd x))) (tds_pose st))).
  (** The errors predict() reports, and the sum of the squared errors, are those of the error terms that addMeasurements() puts into
      the batch for the same measurements. *)
  Theorem td_predict_reports_batch_errors P o st d : predict P o st no_preds = Ret d ->
    exists s, window_splines P o st = Ret s /\
      errs (tpd_pose d) ++ errs (tpd_left d) ++ errs (tpd_right d) = concat (map (fun x => fst (eval x)) (td_error_terms P o s st)) /\
      errs2 (tpd_pose d) + errs2 (tpd_left d) + errs2 (tpd_right d) = rsum_l (map (fun x => snd (eval x)) (td_error_terms P o s st)).
  Proof.
    unfold td_predict. destruct (window_splines P o st) as [s| | |]; try discriminate. cbn [rbind]. intros H. injection H as <-.
    exists s. split; [reflexivity|]. cbn [tpd_pose tpd_left tpd_right no_preds app]. unfold td_error_terms.
    destruct (td_predictions_errors P o s unypr angleMod (tds_pose st)) as ((A1 & B1 & _) & HL & HR).
    destruct (HL (tds_left st)) as [A2 B2]. destruct (HR (tds_right st)) as [A3 B3].
    rewrite !map_app, !concat_app, !rsum_app, A1, A2, A3, B1, B2, B3. split; [reflexivity|]. ring.
  Qed.
  (** One prediction for every pose, and for exactly the wheel measurements whose delayed time is far enough inside the splines; each
      carries the time stamp of its measurement. *)
  Theorem td_predict_times P o st d : predict P o st no_preds = Ret d ->
    exists s, window_splines P o st = Ret s /\
      map pr_time (tpd_pose d) = map fst (tds_pose st) /\
      map pr_time (tpd_left d) = map fst (List.filter (fun x => in_spline (sp_min s) (sp_max s) (td_bound o) (c_tl P + fst x)) (tds_left st)) /\
      map pr_time (tpd_right d) = map fst (List.filter (fun x => in_spline (sp_min s) (sp_max s) (td_bound o) (c_tr P + fst x)) (tds_right st)).
  Proof.
    unfold td_predict. destruct (window_splines P o st) as [s| | |]; try discriminate. cbn [rbind]. intros H. injection H as <-.
    exists s. split; [reflexivity|]. cbn [tpd_pose tpd_left tpd_right no_preds app]. split; [|split].
    - unfold td_predictPoses. rewrite map_map. apply map_ext. by intros [t m].
    - unfold td_predictLeftWheel. induction (tds_left st) as [|[t m] l IH]; [reflexivity|]. rewrite flat_cons, map_app, IH. cbn [List.filter fst].
      unfold td_in. destruct (in_spline _ _ _ _); reflexivity.
    - unfold td_predictRightWheel. induction (tds_right st) as [|[t m] l IH]; [reflexivity|]. rewrite flat_cons, map_app, IH. cbn [List.filter fst].
      unfold td_in. destruct (in_spline _ _ _ _); reflexivity.
  Qed.
  (** Predictions accumulate: they are appended to those of earlier calls until clearPredictions(). *)
  Theorem td_predict_accumulates P o st d d' : predict P o st d = Ret d' ->
    exists n, predict P o st no_preds = Ret n /\
      d' = TdPreds (tpd_pose d ++ tpd_pose n) (tpd_left d ++ tpd_left n) (tpd_right d ++ tpd_right n).
  Proof.
    unfold td_predict. destruct (window_splines P o st) as [s| | |]; try discriminate. cbn [rbind]. intros H. injection H as <-.
    eexists. split; reflexivity.
  Qed.
  (** Expected: predict() copes with too few poses like addMeasurements(), which just returns.  It is undefined. *)
  Theorem td_predict_few_poses_refuted P o st d : (length (tds_pose st) < 2)%nat -> predict P o st d = UB.
  Proof.
    intros L. unfold td_predict, fit_splines.
    destruct (tds_pose st) as [|[t m] [|? ?]]; [reflexivity| |simpl in L; lia]. cbn [map fst numSegments List.last].
    rewrite Z.sub_diag. destruct (Req_EM_T (0 / 10 ^ 9) 0) as [_|N]; [reflexivity|]. exfalso. apply N. unfold Rdiv. ring.
  Qed.
End whole.

(** ** A prediction on the circle of Properties_Kinematics.v: two poses and one measurement of each wheel; the left wheel, half a metre from the
    centre of the axle, moves at half a metre per second, the right one at one and a half. *)
Definition ex_td_params : td_cparams := TdCParams (1 / 2) 2 5 2 7 (Mounting (V3 0 0 1) (yaw 0)).
Definition ex_td_opts : td_opts := TdOpts 1000 5 1 1 1 1.
Lemma circle_right_wheel t : body_velocity circle_r circle_A t (V3 0 (- (1 / 2)) 0) (V3 (3 / 2) 0 0).
Proof.
  apply (body_velocity_is circle); [apply circle_represented|]. unfold point_velocity, v_v_mv, v_om_mv, circle, circle_A, yaw, transpose, mulv, scale3, cross3, add3, dot3.
  cbn [sp_R sp_v sp_av r1 r2 r3 vx vy vz]. pose proof (sin2_cos2 (seconds t)) as H. unfold Rsqr in H. set (s := sin (seconds t)) in *. set (c := cos (seconds t)) in *.
  f_equal; lra.
Qed.
Example ex_td_predict ml mr : exists d,
  td_predict euler_ypr angles_of quat_of (fun x => x) (fun _ _ _ => Ret circle) ex_td_params ex_td_opts
    (TdStore [(0%Z, ex_pose 0); (1000000000%Z, ex_pose 1)] [(1000000%Z, ml)] [(2000000%Z, mr); (100%Z, mr)]) no_preds = Ret d /\
  map pr_time (tpd_pose d) = [0%Z; 1000000000%Z] /\
  (exists p, tpd_left d = [p] /\ pr_time p = 1000000%Z /\ pr_error p = [ml - 1; 0; 0]) /\
  (exists p, tpd_right d = [p] /\ pr_time p = 2000000%Z /\ pr_error p = [mr - 3; 0; 0]).
Proof.
  unfold td_predict, fit_splines.
  assert (Hn : numSegments 5 [0%Z; 1000000000%Z] = Some 2%Z).
  { unfold numSegments. simpl List.last. change (1000000000 - 0)%Z with 1000000000%Z.
    replace (1000000000 / 10 ^ 9) with 1 by (simpl; field). destruct (Req_EM_T 1 0) as [H|_]; [exfalso; lra|].
    replace (IZR (Z.of_nat (length [0%Z; 1000000000%Z])) / 1) with (IZR 2) by (cbn [length]; change (Z.of_nat 2) with 2%Z; field).
    rewrite (Zrnd_IZR ZnearestA 2). reflexivity. }
  cbn [tds_pose map fst ex_td_opts td_knots]. rewrite Hn. cbn [rbind]. eexists. split; [reflexivity|].
  cbn [tpd_pose tpd_left tpd_right tds_pose tds_left tds_right no_preds app]. split; [reflexivity|].
  assert (E : V3 (1 / 2) 0 0 = point_velocity circle (5 + 1000000) (left_point (1 / 2))).
  { rewrite left_point_eq. apply (body_velocity_is circle circle_r circle_A); [apply circle_represented|apply circle_wheel]. }
  assert (E' : V3 (3 / 2) 0 0 = point_velocity circle (7 + 2000000) (right_point (1 / 2))).
  { rewrite right_point_eq. apply (body_velocity_is circle circle_r circle_A); [apply circle_represented|apply circle_right_wheel]. }
  split.
  - unfold td_predictLeftWheel. cbn [flat_map ex_td_params c_tl c_b c_kl]. replace (td_in _ _ _ _) with true by reflexivity. cbn [negb app]. rewrite <- E.
    eexists. split; [reflexivity|]. cbn [pr_time pr_error eval_term fst]. split; [reflexivity|]. unfold coords, v3_of, wheel_error, rvec_of. cbn [vx vy vz].
    f_equal; [field|]. f_equal; [ring|]. f_equal; ring.
  - unfold td_predictRightWheel. cbn [flat_map ex_td_params c_tr c_b c_kr].
    replace (td_in _ _ 7 2000000) with true by reflexivity. replace (td_in _ _ 7 100) with false by reflexivity. cbn [negb app]. rewrite <- E'.
    eexists. split; [reflexivity|]. cbn [pr_time pr_error eval_term fst]. split; [reflexivity|]. unfold coords, v3_of, wheel_error, rvec_of. cbn [vx vy vz].
    f_equal; [field|]. f_equal; [ring|]. f_equal; ring.
Qed.
Print Assumptions td_terms_agree.
Print Assumptions td_predict_reports_batch_errors.
