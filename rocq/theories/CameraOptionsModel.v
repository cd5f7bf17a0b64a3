(** Model of the camera configurations (E = incremental_calibration_examples/incremental_calibration_examples_camera):
    - E/include/aslam/calibration/camera/CameraCalibrator.h 100-172 and CameraValidator.h (Options), E/src/camera/CameraCalibrator.cpp 77-127,
      E/src/camera/CameraValidator.cpp 51-87: the constructors that read a property tree.
    The property tree is that of OptionsModel.v.  Doubles are reals; [fl]: conversion of a double to float. *)
From stdpp Require Import prelude list gmap strings pretty.
From Coq Require Import Reals.
From Verif Require Import Base OptionsModel.
Local Open Scope string_scope.

Definition getStringOr (t : tree) (k d : string) : result string := need_or (t_string t k) d.

(** CameraCalibrator::Options *)
Record cam_options := CamOptions {
  cm_rows : Z; cm_cols : Z; cm_rowSpacing : R; cm_colSpacing : R; cm_adaptive : bool; cm_normalize : bool; cm_quads : bool; cm_subpixel : bool;
  cm_video : bool; cm_plot : bool; cm_stepping : bool; cm_outliers : bool; cm_sigmaThreshold : R; cm_minReproj : R; cm_type : string;
  cm_landmarks : bool; cm_landmarksGroup : Z; cm_calibrationGroup : Z; cm_transformationsGroup : Z; cm_batchNumImages : Z; cm_mEstimator : bool;
  cm_sigma2 : R; cm_verbose : bool }.
(** CameraCalibrator.h 102-125 *)
Definition cam_options0 : cam_options :=
  CamOptions 6 7 0.06 0.06 true true false true false false false false 2 0.2 "pinhole" false 2 0 1 1 false 1 false.
(** CameraCalibrator.cpp 82-117: the calibrator's options from the tree; the int's become size_t *)
Definition cam_options_of (fl : R -> R) (t : tree) : result cam_options :=
  let d := cam_options0 in
  rbind (getIntOr t "rows" (cm_rows d)) (fun rows =>
  rbind (getIntOr t "cols" (cm_cols d)) (fun cols =>
  rbind (getDoubleOr t "rowSpacingMeters" (cm_rowSpacing d)) (fun rs =>
  rbind (getDoubleOr t "colSpacingMeters" (cm_colSpacing d)) (fun cs =>
  rbind (getBoolOr t "useAdaptiveThreshold" (cm_adaptive d)) (fun ad =>
  rbind (getBoolOr t "normalizeImage" (cm_normalize d)) (fun no =>
  rbind (getBoolOr t "filterQuads" (cm_quads d)) (fun qu =>
  rbind (getBoolOr t "doSubpixelRefinement" (cm_subpixel d)) (fun su =>
  rbind (getBoolOr t "showExtractionVideo" (cm_video d)) (fun vi =>
  rbind (getBool t "plotCornerReprojection") (fun pl =>
  rbind (getBool t "imageStepping") (fun st =>
  rbind (getBool t "filterCornerOutliers") (fun ou =>
  rbind (getDouble t "filterCornerSigmaThreshold") (fun th =>
  rbind (getDouble t "filterCornerMinReprojError") (fun mi =>
  rbind (getStringOr t "cameraProjectionType" (cm_type d)) (fun ty =>
  rbind (getBoolOr t "estimateLandmarks" (cm_landmarks d)) (fun la =>
  rbind (getIntOr t "landmarksGroupId" (cm_landmarksGroup d)) (fun lg =>
  rbind (getIntOr t "calibrationGroupId" (cm_calibrationGroup d)) (fun cg =>
  rbind (getIntOr t "transformationsGroupId" (cm_transformationsGroup d)) (fun tg =>
  rbind (getIntOr t "batchNumImages" (cm_batchNumImages d)) (fun bn =>
  rbind (getBoolOr t "useMEstimator" (cm_mEstimator d)) (fun me =>
  rbind (getDoubleOr t "sigma2" (cm_sigma2 d)) (fun s2 =>
  rbind (getBoolOr t "verbose" (cm_verbose d)) (fun ve =>
  Ret (CamOptions (size_of_int rows) (size_of_int cols) rs cs ad no qu su vi pl st ou (fl th) (fl mi) ty la (size_of_int lg) (size_of_int cg)
         (size_of_int tg) (size_of_int bn) me s2 ve)))))))))))))))))))))))).
(** CameraCalibrator.cpp 77-127: the calibrator and its estimator ([initVisionFramework], 311-321: the type is checked before the estimator is made) *)
Definition cam_calibrator_of {O} (fl : R -> R) (d : tsvd_options) (optimizer : tree -> result O) (t : tree) : result (cam_options * est_config O) :=
  rbind (cam_options_of fl t) (fun o =>
  if decide (cm_type o = "omni") then rbind (estimator_of d optimizer (subtree t "estimator")) (fun e => Ret (o, e))
  else if decide (cm_type o = "pinhole") then rbind (estimator_of d optimizer (subtree t "estimator")) (fun e => Ret (o, e))
  else Throw BadArgument).

(** CameraValidator::Options (CameraValidator.h 77-96) *)
Record camv_options := CamvOptions {
  vm_rows : Z; vm_cols : Z; vm_rowSpacing : R; vm_colSpacing : R; vm_adaptive : bool; vm_normalize : bool; vm_quads : bool; vm_subpixel : bool;
  vm_video : bool; vm_plot : bool; vm_stepping : bool; vm_outliers : bool; vm_sigmaThreshold : R; vm_minReproj : R; vm_type : string;
  vm_sigma2 : R; vm_verbose : bool }.
Definition camv_options0 : camv_options := CamvOptions 6 7 0.06 0.06 true true false true false false false false 2 0.2 "pinhole" 1 false.
(** CameraValidator.cpp 56-83 *)
Definition camv_options_of (fl : R -> R) (t : tree) : result camv_options :=
  let d := camv_options0 in
  rbind (getIntOr t "rows" (vm_rows d)) (fun rows =>
  rbind (getIntOr t "cols" (vm_cols d)) (fun cols =>
  rbind (getDoubleOr t "rowSpacingMeters" (vm_rowSpacing d)) (fun rs =>
  rbind (getDoubleOr t "colSpacingMeters" (vm_colSpacing d)) (fun cs =>
  rbind (getBoolOr t "useAdaptiveThreshold" (vm_adaptive d)) (fun ad =>
  rbind (getBoolOr t "normalizeImage" (vm_normalize d)) (fun no =>
  rbind (getBoolOr t "filterQuads" (vm_quads d)) (fun qu =>
  rbind (getBoolOr t "doSubpixelRefinement" (vm_subpixel d)) (fun su =>
  rbind (getBoolOr t "showExtractionVideo" (vm_video d)) (fun vi =>
  rbind (getBool t "plotCornerReprojection") (fun pl =>
  rbind (getBool t "imageStepping") (fun st =>
  rbind (getBool t "filterCornerOutliers") (fun ou =>
  rbind (getDouble t "filterCornerSigmaThreshold") (fun th =>
  rbind (getDouble t "filterCornerMinReprojError") (fun mi =>
  rbind (getStringOr t "cameraProjectionType" (vm_type d)) (fun ty =>
  rbind (getDoubleOr t "sigma2" (vm_sigma2 d)) (fun s2 =>
  rbind (getBoolOr t "verbose" (vm_verbose d)) (fun ve =>
  Ret (CamvOptions (size_of_int rows) (size_of_int cols) rs cs ad no qu su vi pl st ou (fl th) (fl mi) ty s2 ve)))))))))))))))))).
