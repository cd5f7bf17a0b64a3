(** Model of incremental_calibration_vision/src/vision/VisionDataAssociation.cpp.
    Not modelled: the synchronisation pipeline, the matcher and the key points (library): what they deliver is part of the
    calls, so that every behaviour of theirs is covered; logging; addToProblem (an empty loop, 135-165).
    _disparityKeyframeThreshold and _numTracksThreshold are never initialised by the code: the model takes arbitrary values. *)
From stdpp Require Import prelude list.
From Coq Require Import Reals.
From Verif Require Import Base.
Local Open Scope R_scope.

(** A multi-frame: [fr_uid] identifies the object, [fr_id] is the id that it carries. *)
Record frame := Frame { fr_uid : nat; fr_id : Z }.
(** KeypointIdentifierMatch: the ids of the two frames; [m_from], [m_to]: ghost, the frames that were matched *)
Record vmatch := VMatch { m_a : Z; m_b : Z; m_from : nat; m_to : nat }.
Record vision := Vision {
  vi_next : Z;                       (* _nextFrameId *)
  vi_prev : option frame;            (* _previousFrame *)
  vi_frames : list (Z * frame);      (* _frames, in the order of insertion *)
  vi_matches : list vmatch;          (* _matches *)
  vi_disp_thr : R;                   (* _disparityKeyframeThreshold *)
  vi_num_thr : Z                     (* _numTracksThreshold *)
}.
(** Constructor, 9-23 *)
Definition vi_new (disp_thr : R) (num_thr : Z) : vision := Vision 0 None [] [] disp_thr num_thr.
(** std::partial_sort by insertion *)
Fixpoint insert_sorted (x : R) (l : list R) : list R :=
  match l with [] => [x] | y :: l' => if Rle_dec x y then x :: l else y :: insert_sorted x l' end.
Fixpoint sort (l : list R) : list R := match l with [] => [] | x :: l => insert_sorted x (sort l) end.
(** What the libraries deliver for an image: a complete multi-frame with the id [p_id] it was created with; the disparities
    of the tracks from the previous frame; the number of matches between overlapping cameras of the frame *)
Record delivery := Delivery { p_uid : nat; p_id : Z; p_disparities : list R; p_ofov : nat }.
(** std::map: operator[] overwrites *)
Definition frames_set (l : list (Z * frame)) (k : Z) (f : frame) : list (Z * frame) := List.filter (fun e => negb (Z.eqb e.1 k)) l ++ [(k, f)].
(** doOfovMatching, 180-214 *)
Definition vi_ofov (v : vision) (f : frame) (n : nat) : vision :=
  Vision (vi_next v) (vi_prev v) (vi_frames v) (vi_matches v ++ repeat (VMatch (fr_id f) (fr_id f) (fr_uid f) (fr_uid f)) n) (vi_disp_thr v) (vi_num_thr v).
(** addImage, 33-107. The tracks get _nextFrameId as the id of the new frame (line 49). *)
Definition vi_addImage (v : vision) (d : option delivery) : vision * result unit :=
  match d with
  | None => (v, Ret tt)
  | Some d =>
    let f := Frame (p_uid d) (p_id d) in
    match vi_prev v with
    | Some p =>
      let f2f := repeat (VMatch (fr_id p) (vi_next v) (fr_uid p) (p_uid d)) (length (p_disparities d)) in
      if Z.ltb (vi_num_thr v) (Z.of_nat (length f2f)) then
        let mid := (length (p_disparities d) / 2)%nat in
        match sort (p_disparities d) !! mid with
        | None => (v, UB)        (* no track at all: the iterator [middle] is beyond the end *)
        | Some median =>
          if Rlt_dec (vi_disp_thr v) median then
            let f := Frame (p_uid d) (vi_next v) in
            let v := Vision (vi_next v + 1) (Some f) (frames_set (vi_frames v) (vi_next v) f) (vi_matches v ++ f2f) (vi_disp_thr v) (vi_num_thr v) in
            (vi_ofov v f (p_ofov d), Ret tt)
          else (v, Ret tt)
        end
      else (Vision (vi_next v) (Some f) (vi_frames v) (vi_matches v) (vi_disp_thr v) (vi_num_thr v), Ret tt)
    | None => (Vision (vi_next v) (Some f) (vi_frames v) (vi_matches v) (vi_disp_thr v) (vi_num_thr v), Ret tt)
    end
  end.
(** reset, 120-129 *)
Definition vi_reset (v : vision) : vision := Vision (vi_next v) None [] [] (vi_disp_thr v) (vi_num_thr v).
Inductive vop := VImage (d : option delivery) | VReset.
Definition vi_step (v : vision) (op : vop) : vision :=
  match op with VImage d => (vi_addImage v d).1 | VReset => vi_reset v end.
Definition vi_run (v : vision) (ops : list vop) : vision := fold_left vi_step ops v.
