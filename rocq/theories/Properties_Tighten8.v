(** Theorems written against mutants that survived: outcome of every call on a vector design variable (C15-C17), the camera's documented defaults (C112),
    the car's active variables and null splines (C47, C76). *)
From stdpp Require Import prelude list gmap strings.
From Coq Require Import Reals.
From Verif Require Import Base VectorDVModel OptionsModel Spec_Options Properties_Options CameraOptionsModel OptProblemModel DesignVarsModel.
Local Open Scope string_scope.

(** ** Vector design variables: which calls come back, and how *)
Theorem vector_dv_outcome {A : Type} (add : A -> A -> A) (d : vdv) (c : vcall) :
  match c with
  | CSetValue _ | CRevert | CAssign _ => snd (vstep add d c) = Ret tt
  | CUpdate dp => (List.length dp = List.length (getValue d) -> snd (vstep add d c) = Ret tt) /\
                  (List.length dp <> List.length (getValue d) -> snd (vstep add d c) = UB)
  | CSetParameters p => (m_cols p = 1 /\ m_rows p = List.length (getValue d) -> snd (vstep add d c) = Ret tt) /\
                        (~ (m_cols p = 1 /\ m_rows p = List.length (getValue d)) -> snd (vstep add d c) = Throw OutOfBound /\ fst (vstep add d c) = d)
  end.
Proof.
  destruct c as [v|dp| |p|o]; try done; cbn [vstep].
  - unfold update, getValue. destruct (Nat.eqb_spec (List.length dp) (List.length (v_value d))); split; done.
  - unfold setParameters, getValue. destruct (Nat.eqb_spec (m_cols p) 1), (Nat.eqb_spec (m_rows p) (List.length (v_value d))); cbn; split; tauto.
Qed.
Example vector_dv_outcome_ex :
  snd (vstep Nat.add (vdv_new [1; 2]) (CUpdate [3; 4])) = Ret tt /\ snd (vstep Nat.add (vdv_new [1; 2]) (CUpdate [3])) = UB /\
  snd (vstep Nat.add (vdv_new [1; 2]) (CSetParameters (Mat 2 1 [5; 6]))) = Ret tt /\
  snd (vstep Nat.add (vdv_new [1; 2]) (CSetParameters (Mat 1 2 [5; 6]))) = Throw OutOfBound.
Proof. done. Qed.

(** ** Camera: what a key that is left out stands for *)
Theorem cam_option_default (fl : R -> R) (t : tree) (o : cam_options) : cam_options_of fl t = Ret o ->
  (t_int t "rows" = Missing -> cm_rows o = 6%Z) /\ (t_int t "cols" = Missing -> cm_cols o = 7%Z) /\
  (t_double t "rowSpacingMeters" = Missing -> cm_rowSpacing o = 0.06%R) /\ (t_double t "colSpacingMeters" = Missing -> cm_colSpacing o = 0.06%R) /\
  (t_bool t "useAdaptiveThreshold" = Missing -> cm_adaptive o = true) /\ (t_bool t "normalizeImage" = Missing -> cm_normalize o = true) /\
  (t_bool t "filterQuads" = Missing -> cm_quads o = false) /\ (t_bool t "doSubpixelRefinement" = Missing -> cm_subpixel o = true) /\
  (t_bool t "showExtractionVideo" = Missing -> cm_video o = false) /\
  (t_string t "cameraProjectionType" = Missing -> cm_type o = "pinhole") /\
  (t_bool t "estimateLandmarks" = Missing -> cm_landmarks o = false) /\ (t_int t "landmarksGroupId" = Missing -> cm_landmarksGroup o = 2%Z) /\
  (t_int t "calibrationGroupId" = Missing -> cm_calibrationGroup o = 0%Z) /\ (t_int t "transformationsGroupId" = Missing -> cm_transformationsGroup o = 1%Z) /\
  (t_int t "batchNumImages" = Missing -> cm_batchNumImages o = 1%Z) /\
  (t_bool t "useMEstimator" = Missing -> cm_mEstimator o = false) /\ (t_double t "sigma2" = Missing -> cm_sigma2 o = 1%R) /\
  (t_bool t "verbose" = Missing -> cm_verbose o = false).
Proof.
  intros H. unfold cam_options_of, getDouble, getBool, getDoubleOr, getBoolOr, getIntOr, getStringOr in H. invert_reads H. injection H as <-. cbn.
  split_and!; intros M; match type of M with ?x = _ => match goal with E : x = Value _ \/ _ |- _ => rewrite M in E; destruct E as [E|[_ E]]; [discriminate E|rewrite E; reflexivity] end end.
Qed.
Theorem camv_option_default (fl : R -> R) (t : tree) (o : camv_options) : camv_options_of fl t = Ret o ->
  (t_int t "rows" = Missing -> vm_rows o = 6%Z) /\ (t_int t "cols" = Missing -> vm_cols o = 7%Z) /\
  (t_double t "rowSpacingMeters" = Missing -> vm_rowSpacing o = 0.06%R) /\ (t_double t "colSpacingMeters" = Missing -> vm_colSpacing o = 0.06%R) /\
  (t_bool t "useAdaptiveThreshold" = Missing -> vm_adaptive o = true) /\ (t_bool t "normalizeImage" = Missing -> vm_normalize o = true) /\
  (t_bool t "filterQuads" = Missing -> vm_quads o = false) /\ (t_bool t "doSubpixelRefinement" = Missing -> vm_subpixel o = true) /\
  (t_bool t "showExtractionVideo" = Missing -> vm_video o = false) /\
  (t_string t "cameraProjectionType" = Missing -> vm_type o = "pinhole") /\
  (t_double t "sigma2" = Missing -> vm_sigma2 o = 1%R) /\ (t_bool t "verbose" = Missing -> vm_verbose o = false).
Proof.
  intros H. unfold camv_options_of, getDouble, getBool, getDoubleOr, getBoolOr, getIntOr, getStringOr in H. invert_reads H. injection H as <-. cbn.
  split_and!; intros M; match type of M with ?x = _ => match goal with E : x = Value _ \/ _ |- _ => rewrite M in E; destruct E as [E|[_ E]]; [discriminate E|rewrite E; reflexivity] end end.
Qed.
(** A calibrator or validator constructed without a configuration has these detector options (those the configuration cannot leave out). *)
Theorem cam_default_options :
  (cm_plot cam_options0, cm_stepping cam_options0, cm_outliers cam_options0, cm_sigmaThreshold cam_options0, cm_minReproj cam_options0) = (false, false, false, 2%R, 0.2%R) /\
  (vm_plot camv_options0, vm_stepping camv_options0, vm_outliers camv_options0, vm_sigmaThreshold camv_options0, vm_minReproj camv_options0) = (false, false, false, 2%R, 0.2%R).
Proof. done. Qed.

(** ** Design variables *)
(** The car calibrator marks as active the wheel, steering and axle parameters always, the delays as configured, the mounting and any other variable never. *)
Theorem car_active_exactly delays (v : car_vars) (d : nat) :
  NoDup [cv_e_r v; cv_e_f v; cv_L v; cv_a v; cv_k_rl v; cv_k_rr v; cv_k_fl v; cv_k_fr v; cv_k_dmi v; cv_v_r_vr v; cv_v_R_r v; cv_t_r v; cv_t_f v; cv_t_s v; cv_t_dmi v] ->
  car_active delays v d = true <->
  d ∈ [cv_e_r v; cv_e_f v; cv_L v; cv_a v; cv_k_rl v; cv_k_rr v; cv_k_fl v; cv_k_fr v; cv_k_dmi v] \/
  (d ∈ [cv_t_r v; cv_t_f v; cv_t_s v; cv_t_dmi v] /\ delays = true).
Proof.
  intros Hnd. change [cv_e_r v; cv_e_f v; cv_L v; cv_a v; cv_k_rl v; cv_k_rr v; cv_k_fl v; cv_k_fr v; cv_k_dmi v; cv_v_r_vr v; cv_v_R_r v; cv_t_r v; cv_t_f v; cv_t_s v; cv_t_dmi v]
    with (app [cv_e_r v; cv_e_f v; cv_L v; cv_a v; cv_k_rl v; cv_k_rr v; cv_k_fl v; cv_k_fr v; cv_k_dmi v] (app [cv_v_r_vr v; cv_v_R_r v] [cv_t_r v; cv_t_f v; cv_t_s v; cv_t_dmi v])) in Hnd.
  unfold car_active.
  set (l1 := [cv_e_r v; cv_e_f v; cv_L v; cv_a v; cv_k_rl v; cv_k_rr v; cv_k_fl v; cv_k_fr v; cv_k_dmi v]) in *.
  set (l2 := [cv_v_r_vr v; cv_v_R_r v]) in *. set (l3 := [cv_t_r v; cv_t_f v; cv_t_s v; cv_t_dmi v]) in *. clearbody l1 l2 l3.
  apply NoDup_app in Hnd as (_ & H1 & Hnd). apply NoDup_app in Hnd as (_ & H2 & _).
  destruct (decide (d ∈ l1)) as [D1|D1]; [tauto|]. destruct (decide (d ∈ l2)) as [D2|D2].
  - split; [done|]. intros [?|[D3 _]]; [done|]. by destruct (H2 d D2).
  - destruct (decide (d ∈ l3)) as [D3|D3]; split; try tauto; done.
Qed.
Example car_active_ex : car_active false (CarVars 0 1 2 3 4 5 6 7 8 9 10 11 12 13 14) 3 = true /\ car_active false (CarVars 0 1 2 3 4 5 6 7 8 9 10 11 12 13 14) 14 = false /\
  car_active true (CarVars 0 1 2 3 4 5 6 7 8 9 10 11 12 13 14) 14 = true /\ car_active true (CarVars 0 1 2 3 4 5 6 7 8 9 10 11 12 13 14) 9 = false.
Proof. done. Qed.
(** A null spline is dereferenced, whatever the problem; a spline that is there never leads to undefined behaviour by itself. *)
Theorem addSpline_null {V} (s : sprob V) (k : spkind) (g : nat) : sp_step s (SpAdd k None g) = (s, UB).
Proof. done. Qed.
Print Assumptions cam_option_default.
