(** Model of the camera programs and of the calibration file (E = incremental_calibration_examples/incremental_calibration_examples_camera):
    - E/src/camera/calibrateCamera.cpp 63-100 (main loop; progress output and the printed results left out);
    - E/src/camera/CameraCalibrator.cpp 162-197 (standard deviations), 311-321 (choice of the geometry), 512-592 (write);
    - E/src/camera/validateCamera.cpp 67-96 (main loop) and E/src/camera/CameraValidator.cpp 259-271 (choice of the geometry).
    The calibrator and the validator are those of CameraModel.v. *)
From stdpp Require Import prelude list.
From Coq Require Import Reals String.
From Verif Require Import Base CameraModel.

(** ** calibrateCamera *)
(** An image of the log: whether the geometry can be initialised from it, whether the target is found in it, how the estimator ends if this image
    completes a batch, its time stamp in nanoseconds.  Messages on other topics are not in the view (topic query, 61). *)
Record cimage := CImg { ci_init : bool; ci_found : bool; ci_out : outcome; ci_stamp : Z }.
(** 65-72 *)
Fixpoint cam_init (c : ccal) (l : list cimage) : ccal :=
  match l with
  | [] => c
  | i :: l => match cc_initGeometry c (ci_init i) with
              | (c1, Ret true) => c1
              | (c1, _) => cam_init c1 l
              end
  end.
(** 77-99; [save]: saveEstimatorImages; the saved files: time stamp in the name and the observation shown (getLastCheckerboardImage) *)
Fixpoint cam_loop (save : bool) (c : ccal) (l : list cimage) : ccal * list (Z * option nat) * result unit :=
  match l with
  | [] => (c, [], Ret tt)
  | i :: l =>
    match cc_addImage c (ci_found i) (ci_out i) with
    | (c1, Ret _) =>
      let files := if save && negb (Nat.eqb (List.length (cc_eobs c1)) (List.length (cc_eobs c))) then [(ci_stamp i, cc_last c1)] else [] in
      let '(c2, fs, r) := cam_loop save c1 l in (c2, files ++ fs, r)
    | (c1, Throw e) => (c1, [], Throw e)
    | (c1, UB) => (c1, [], UB)
    | (c1, Diverge) => (c1, [], Diverge)
    end
  end.
(** 63-100; [last]: how the estimator ends for the last batch *)
Definition cam_program (save : bool) (limit : nat) (l : list cimage) (last : outcome) : ccal * list (Z * option nat) * result unit :=
  match cam_loop save (cam_init (cc_new limit) l) l with
  | (c, fs, Ret _) => let '(c', r) := cc_processBatch c last in (c', fs, r)
  | (c, fs, r) => (c, fs, r)
  end.

(** ** The calibration file *)
(** The number of parameters of the two projection models and of the distortion (library): xi, fu, fv, cu, cv or fu, fv, cu, cv; k1, k2, p1, p2. *)
Definition dim_projection (omni : bool) : nat := if omni then 5 else 4.
Definition dim_distortion : nat := 4.
(** CameraCalibrator.cpp 311-321: the geometry for a configured type; CameraValidator.cpp 259-271 for the type in the calibration file *)
Definition cam_geometry (type : string) : result bool :=
  if String.eqb type "omni" then Ret true else if String.eqb type "pinhole" then Ret false else Throw BadArgument.
(** getProjectionVariance/StandardDeviation 162-175: the first entries of the diagonal of the covariance; [None]: Eigen's head reads out of range *)
Definition proj_std (numBatches : nat) (diag : list R) (dim : nat) : option (list R) :=
  if Nat.eqb numBatches 0 then Some []
  else if Nat.leb dim (List.length diag) then Some (List.map sqrt (List.firstn dim diag)) else None.
(** getDistortionVariance/StandardDeviation 183-197: the last ones *)
Definition dist_std (numBatches : nat) (diag : list R) (dim : nat) : option (list R) :=
  if Nat.eqb numBatches 0 then Some []
  else if Nat.leb dim (List.length diag) then Some (List.map sqrt (List.skipn (List.length diag - dim) diag)) else None.

Inductive value := VReal (x : R) | VInt (z : Z) | VString (s : string).
(** setDouble(key, v(i)): reading entry i outside of the vector is undefined *)
Definition put (key : string) (v : list R) (i : nat) : option (list (string * value)) :=
  match nth_error v i with Some x => Some [(key, VReal x)] | None => None end.
Fixpoint puts (l : list (option (list (string * value)))) : option (list (string * value)) :=
  match l with
  | [] => Some []
  | Some a :: l => match puts l with Some b => Some (a ++ b)%list | None => None end
  | None :: _ => None
  end.
(** One parameter with its standard deviation. *)
Definition put2 (dir name : string) (v s : list R) (i : nat) : list (option (list (string * value))) :=
  [put (dir ++ name) v i; put (dir ++ "sigma_" ++ name) s i].
(** 562-589: a matrix, given by its columns, and a vector, under numbered keys; [num]: decimal representation *)
Definition put_basis (num : nat -> string) (dir : string) (cols : list (list R)) : list (string * value) :=
  List.concat (imap (fun c col => imap (fun r x => ((dir ++ "/c" ++ num c ++ "/r" ++ num r)%string, VReal x)) col) cols).
Definition put_vector (num : nat -> string) (dir : string) (v : list R) : list (string * value) :=
  imap (fun i x => ((dir ++ "/x" ++ num i)%string, VReal x)) v.
(** The estimator's results the file contains. *)
Record cam_result := CamResult {
  cr_batches : nat; cr_diag : list R;
  cr_proj : list R; cr_dist : list R; cr_ru : Z; cr_rv : Z;
  cr_nobs : list (list R); cr_nobsS : list (list R); cr_sv : list R; cr_svS : list R; cr_eps : R; cr_delta : R }.
(** write 512-592 for option cameraProjectionType = [type]; any type other than "omni" is written like "pinhole" *)
Definition cam_write (num : nat -> string) (type : string) (w : cam_result) : option (list (string * value)) :=
  let omni := String.eqb type "omni" in
  match proj_std (cr_batches w) (cr_diag w) (dim_projection omni), dist_std (cr_batches w) (cr_diag w) dim_distortion with
  | Some ps, Some ds =>
    let p := "projection/"%string in let d := "projection/distortion/"%string in
    puts ((if omni
           then put2 p "xi" (cr_proj w) ps 0 ++ put2 p "fu" (cr_proj w) ps 1 ++ put2 p "fv" (cr_proj w) ps 2 ++
                put2 p "cu" (cr_proj w) ps 3 ++ put2 p "cv" (cr_proj w) ps 4
           else put2 p "fu" (cr_proj w) ps 0 ++ put2 p "fv" (cr_proj w) ps 1 ++ put2 p "cu" (cr_proj w) ps 2 ++ put2 p "cv" (cr_proj w) ps 3) ++
          [Some [("projection/ru", VInt (cr_ru w)); ("projection/rv", VInt (cr_rv w)); ("projection/type", VString type)]] ++
          put2 d "k1" (cr_dist w) ds 0 ++ put2 d "k2" (cr_dist w) ds 1 ++ put2 d "p1" (cr_dist w) ds 2 ++ put2 d "p2" (cr_dist w) ds 3 ++
          [Some ([("shutter/line-delay", VReal 0); ("mask/mask-file", VString "")] ++
                 put_basis num "nobsBasis" (cr_nobs w) ++ put_basis num "nobsBasisScaled" (cr_nobsS w) ++
                 put_vector num "singularValues" (cr_sv w) ++ put_vector num "scaledSingularValues" (cr_svS w) ++
                 [("epsSVD", VReal (cr_eps w)); ("infoGainDelta", VReal (cr_delta w))])])%list%string
  | _, _ => None
  end.

(** The camera's two variables in the order in which the set of design variables (a hash set of pointers) enumerates them in initBatch, 369-375, and the
    diagonal of the covariance of their group. *)
Definition cam_group_diag (projection_first : bool) (vp vd : list R) : list R := (if projection_first then vp ++ vd else vd ++ vp)%list.
