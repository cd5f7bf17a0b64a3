(** Model of the camera example (E = incremental_calibration_examples/incremental_calibration_examples_camera):
    E/src/camera/CameraCalibrator.cpp and E/src/camera/CameraValidator.cpp.
    Not modelled: the detector, camera geometry and reprojection errors (library), printing (option verbose = false),
    write(). The answers of the detector and of the estimator are part of the calls, so that every behaviour of theirs is
    covered. An observation is identified by its number in the sequence of observations made by the detector. *)
From stdpp Require Import prelude list.
From Coq Require Import Reals.
From Verif Require Import Base.

(** ** CameraCalibrator *)
Notation obs := nat (only parsing).
(** How IncrementalEstimator::addBatch (incremental_calibration/src/core/IncrementalEstimator.cpp, 319-452) ends: the batch
    is kept; it is removed; an exception leaves while the batch is in the problem (out of optimize() or analyzeMarginal(),
    lines 344-371); an exception leaves while the batch is not in the problem (before line 325 or in
    restoreLinearSolver(), line 444). *)
Inductive outcome := Accepted | Rejected | FailedIn | FailedOut.
Record ccal := CCal {
  cc_geom  : bool;              (* _geometryInitialized *)
  cc_batch : option (list obs); (* _batch: the observations whose poses and error terms are in it *)
  cc_num   : nat;               (* _batchNumImages *)
  cc_bobs  : list obs;          (* _batchObservations *)
  cc_eobs  : list obs;          (* _estimatorObservations *)
  cc_last  : option obs;        (* _lastObservation *)
  cc_limit : nat;               (* _options.batchNumImages, writable through getOptions() *)
  cc_inprob : bool;             (* the estimator's problem contains the current batch (after an exception) *)
  cc_group : list obs;          (* the observations whose two pose variables are in the group of transformations of the
                                   estimator's problem, in the order of insertion *)
  cc_next  : nat;               (* ghost: number of observations made so far *)
  cc_given : list (list obs)    (* ghost: all batches handed to the estimator so far *)
}.
(** Constructors, 64-127 *)
Definition cc_new (limit : nat) : ccal := CCal false None 0 [] [] None limit false [] 0 [].
(** initGeometry, 348-357; [ok]: the result of the detector *)
Definition cc_initGeometry (c : ccal) (ok : bool) : ccal * result bool :=
  if cc_geom c then (c, Ret true)
  else if ok then (CCal true (cc_batch c) (cc_num c) (cc_bobs c) (cc_eobs c) (cc_last c) (cc_limit c) (cc_inprob c) (cc_group c)
                        (cc_next c) (cc_given c), Ret true)
  else (c, Ret false).
(** initBatch, 359-379: a new batch with the landmark and camera variables but no observation *)
Definition cc_initBatch (c : ccal) : ccal :=
  CCal (cc_geom c) (Some []) (cc_num c) [] (cc_eobs c) (cc_last c) (cc_limit c) false (cc_group c) (cc_next c) (cc_given c).
(** addObservation, 381-429: two pose variables (and the error terms) are added to the batch *)
Definition cc_addObservation (c : ccal) (o : obs) : ccal :=
  let c := match cc_batch c with None => cc_initBatch c | Some _ => c end in
  CCal (cc_geom c) (Some (default [] (cc_batch c) ++ [o])) (S (cc_num c)) (cc_bobs c) (cc_eobs c) (cc_last c) (cc_limit c)
       (cc_inprob c) (cc_group c) (cc_next c) (cc_given c).
(** The effect of addBatch on the problem: IncrementalOptimizationProblem::add (173-210 of
    incremental_calibration/src/core/IncrementalOptimizationProblem.cpp) puts the new variables into their groups and then
    refuses a batch with error terms that are there already; a batch without observations has no error terms.
    Simplification: every observation has at least one visible corner, hence an error term.
    remove() takes the variables of the batch out of the groups. *)
Definition est_addBatch (inprob : bool) (group b : list obs) (out : outcome) : bool * list obs * result bool :=
  let group' := group ++ filter (fun o => o ∉ group) b in
  if inprob && negb (Nat.eqb (length b) 0) then (true, group', Throw InvalidOperation)
  else match out with
       | Accepted => (true, group', Ret true)
       | Rejected => (inprob, filter (fun o => o ∉ b) group', Ret false)
       | FailedIn => (true, group', Throw External)
       | FailedOut => (inprob, filter (fun o => o ∉ b) group', Throw External)
       end.
(** processBatch, 465-510 *)
Definition cc_processBatch (c : ccal) (out : outcome) : ccal * result unit :=
  match cc_batch c with
  | None => (c, Ret tt)
  | Some b =>
    match est_addBatch (cc_inprob c) (cc_group c) b out with
    | (ip, g, r) =>
      let c := CCal (cc_geom c) (cc_batch c) (cc_num c) (cc_bobs c) (cc_eobs c) (cc_last c) (cc_limit c) ip g (cc_next c)
                    (cc_given c ++ [b]) in
      match r with
      | Ret accepted =>
        let c := if accepted
                 then CCal (cc_geom c) (cc_batch c) (cc_num c) (cc_bobs c) (cc_bobs c ++ cc_eobs c) (cc_last c) (cc_limit c)
                           (cc_inprob c) (cc_group c) (cc_next c) (cc_given c)
                 else c in
        let c := cc_initBatch c in
        (CCal (cc_geom c) (cc_batch c) 0 (cc_bobs c) (cc_eobs c) (cc_last c) (cc_limit c) (cc_inprob c) (cc_group c)
              (cc_next c) (cc_given c), Ret tt)
      | Throw e => (c, Throw e)
      | UB => (c, UB)
      | Diverge => (c, Diverge)
      end
    end
  end.
(** addImage, 431-463; [det]: the detector finds the target; [out]: what the estimator will do if the batch is processed *)
Definition cc_addImage (c : ccal) (det : bool) (out : outcome) : ccal * result bool :=
  if negb (cc_geom c) then (c, Throw InvalidOperation)
  else if negb det then (c, Ret false)
  else
    let o := cc_next c in
    let c := cc_addObservation c o in
    let c := CCal (cc_geom c) (cc_batch c) (cc_num c) (cc_bobs c ++ [o]) (cc_eobs c) (Some o) (cc_limit c) (cc_inprob c)
                  (cc_group c) (S o) (cc_given c) in
    if Nat.eqb (cc_num c) (cc_limit c)
    then match cc_processBatch c out with
         | (c, Ret _) => (c, Ret true)
         | (c, Throw e) => (c, Throw e)
         | (c, UB) => (c, UB)
         | (c, Diverge) => (c, Diverge)
         end
    else (c, Ret true).
(** getOptions().batchNumImages = n, 139-141 *)
Definition cc_setLimit (c : ccal) (n : nat) : ccal :=
  CCal (cc_geom c) (cc_batch c) (cc_num c) (cc_bobs c) (cc_eobs c) (cc_last c) n (cc_inprob c) (cc_group c) (cc_next c) (cc_given c).
(** getTransformation, 216-231: entries 2 idx and 2 idx + 1 of the group of the transformations *)
Inductive posevar := PoseQ (o : obs) | PoseT (o : obs).
Definition cc_poseGroup (c : ccal) : list posevar := flat_map (fun o => [PoseQ o; PoseT o]) (cc_group c).
Definition cc_getTransformation (c : ccal) (idx : nat) : result (posevar * posevar) :=
  if Nat.leb (length (cc_eobs c)) idx then Throw OutOfBound
  else match cc_poseGroup c !! (idx * 2), cc_poseGroup c !! (idx * 2 + 1) with
       | Some q, Some t => Ret (q, t)
       | _, _ => Throw StdOutOfRange
       end.
(** The calls of a user and histories of calls *)
Inductive ccop := CInit (ok : bool) | CImage (det : bool) (out : outcome) | CProcess (out : outcome) | CLimit (n : nat).
Definition cc_step (c : ccal) (op : ccop) : ccal :=
  match op with
  | CInit ok => (cc_initGeometry c ok).1
  | CImage det out => (cc_addImage c det out).1
  | CProcess out => (cc_processBatch c out).1
  | CLimit n => cc_setLimit c n
  end.
Definition cc_run (c : ccal) (ops : list ccop) : ccal := fold_left cc_step ops c.

(** ** Statistics over reprojection errors *)
Local Open Scope R_scope.
(** getStatistics, 247-262 (the branch for valid statistics): the loop for the maxima and std::count_if *)
Definition max_abs (l : list R) : R := fold_left (fun m x => if Rlt_dec m (Rabs x) then Rabs x else m) l 0.
Definition count_above (q : R) (l : list R) : nat := length (List.filter (fun x => if Rlt_dec q x then true else false) l).

(** ** CameraValidator *)
Record cval := CVal {
  cvl_max : R * R;                 (* _maxXError, _maxYError *)
  cvl_errors : list (R * R);       (* _errors; also the points given to _reprojectionErrorsStatistics *)
  cvl_md2 : list R;                (* _errorsMd2 *)
  cvl_obs : list obs;              (* _observations *)
  cvl_sigma2 : R                   (* _options.sigma2 *)
}.
Definition cvl_new (sigma2 : R) : cval := CVal (0, 0) [] [] [] sigma2.
(** The loop over the corners of addImage, 309-331: a corner is given by the observed and the predicted point (None if the
    library reports failure). *)
Definition cvl_corner (v : cval) (k : option (R * R) * option (R * R)) : cval :=
  match k with
  | (Some o, Some p) =>
    let ex := p.1 - o.1 in let ey := p.2 - o.2 in
    let mx := if Rlt_dec (cvl_max v).1 (Rabs ex) then Rabs ex else (cvl_max v).1 in
    let my := if Rlt_dec (cvl_max v).2 (Rabs ey) then Rabs ey else (cvl_max v).2 in
    CVal (mx, my) (cvl_errors v ++ [(ex, ey)]) (cvl_md2 v ++ [1 / cvl_sigma2 v * (ex * ex + ey * ey)]) (cvl_obs v) (cvl_sigma2 v)
  | _ => v
  end.
(** addImage, 285-337 *)
Definition cvl_addImage (v : cval) (det : option (obs * list (option (R * R) * option (R * R)))) : cval * bool :=
  match det with
  | None => (v, false)
  | Some (o, corners) =>
    let v := fold_left cvl_corner corners v in
    (CVal (cvl_max v) (cvl_errors v) (cvl_md2 v) (cvl_obs v ++ [o]) (cvl_sigma2 v), true)
  end.
(** getNumOutliers, 233-238; [q]: the quantile of the chi-square distribution *)
Definition cvl_numOutliers (v : cval) (q : R) : nat := count_above q (cvl_md2 v).
(** getLastImage, 140-222: the average printed for the last image: the sum of the norms of the errors of the corners that
    could be compared, divided by the number of all corners of the target *)
Definition cvl_average (corners : list (option (R * R) * option (R * R))) : R :=
  fold_left (fun s k => match k with
                        | (Some o, Some p) => s + sqrt ((p.1 - o.1) * (p.1 - o.1) + (p.2 - o.2) * (p.2 - o.2))
                        | _ => s
                        end) corners 0 / INR (length corners).
