(** Model of validateCamera (incremental_calibration_examples/incremental_calibration_examples_camera/src/camera/validateCamera.cpp 66-120), the program around
    the validator of CameraModel.v.  The printed mean and standard deviation are functions of the list of errors (statistics of the library's estimator) and
    left out; the text of the numbers is not modelled. *)
From stdpp Require Import prelude list.
From Coq Require Import Reals.
From Verif Require Import Base CameraModel Spec_Camera.

(** An image of the log: its time stamp and what the detector finds. *)
Record vimage := VImg { vi_stamp : Z; vi_det : option (obs * list corner) }.
Record vrun := VRun {
  vr_val : cval;
  vr_shown : list obs;             (* images shown in the window *)
  vr_files : list (Z * obs)        (* images/<camera>-<stamp>.png with the observation drawn in it *)
}.
(** 72-92.  [vis]: camera/validator/visualization, [save]: camera/validator/saveImages; [empty_write]: what cv::imwrite does for an image without data *)
Definition v_image (vis save : bool) (empty_write : result unit) (s : vrun) (i : vimage) : vrun * result unit :=
  let v := (cvl_addImage (vr_val s) (vi_det i)).1 in                                          (* 75 *)
  if vis then
    let shown := match last (cvl_obs v) with Some o => vr_shown s ++ [o] | None => vr_shown s end in  (* 77-82 *)
    if save then
      match last (cvl_obs v) with
      | Some o => (VRun v shown (vr_files s ++ [(vi_stamp i, o)]), Ret tt)                    (* 83-90 *)
      | None => (VRun v shown (vr_files s), empty_write)
      end
    else (VRun v shown (vr_files s), Ret tt)
  else (VRun v (vr_shown s) (vr_files s), Ret tt).
(** 69-93 *)
Fixpoint v_loop (vis save : bool) (ew : result unit) (s : vrun) (l : list vimage) : vrun * result unit :=
  match l with
  | [] => (s, Ret tt)
  | i :: l => match v_image vis save ew s i with
              | (s', Ret _) => v_loop vis save ew s' l
              | (s', r) => (s', r)
              end
  end.
(** What is reported, 95-120: the maxima, the number of outliers, the two error files. *)
Record vreport := VReport { rp_max : R * R; rp_outliers : nat; rp_errors : list (R * R); rp_md2 : list R }.
Definition v_program (vis save output : bool) (ew : result unit) (sigma2 q : R) (l : list vimage) : vrun * result vreport :=
  match v_loop vis save ew (VRun (cvl_new sigma2) [] []) l with
  | (s, Ret _) =>
    let v := vr_val s in
    (s, Ret (VReport (cvl_max v) (cvl_numOutliers v q) (if output then cvl_errors v else []) (if output then cvl_md2 v else [])))
  | (s, Throw e) => (s, Throw e)
  | (s, UB) => (s, UB)
  | (s, Diverge) => (s, Diverge)
  end.
