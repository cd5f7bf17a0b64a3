(** Model of the egomotion calibrator's dead reckoning, error terms and predictions:
    EGO = incremental_calibration_examples/incremental_calibration_examples_egomotion_sensors/src/algo/Calibrator.cpp.
    Exact arithmetic.  A sm::kinematics::Transformation is its quaternion and translation.  Arguments, since they belong to libraries or to
    other parts: the spline fit, the estimator, the error of ErrorTermTransformation (aslam_backend_expressions), and the current
    calibration (delay, transformation) of the sensors.  An expression is modelled by its value.  The order in which the unordered maps are
    traversed is arbitrary: each traversal is given a list of the sensors with measurements. *)
From stdpp Require Import prelude list.
From Coq Require Import Reals.
From Flocq Require Import Core.
From Verif Require Import Base GeodeticModel SimEngineModel CalibratorModel KinematicsModel.
Local Open Scope R_scope.

(** sm::kinematics::Transformation: q(), t(); operator*; as a map of points *)
Definition pose : Type := quat * v3.
Definition mul_P (a b : pose) : pose := (qplus (fst a) (fst b), add3 (quatRotate (fst a) (snd b)) (snd a)).
Definition T_of (a : pose) : transf := Transf (quat2r (fst a)) (snd a).
(** data/MotionMeasurement.h 33-48; [C]: the type of the covariance *)
Record motion_meas (C : Type) := MotionMeas { mm_motion : pose; mm_duration : Z; mm_sigma2 : C }.
Global Arguments MotionMeas {C}. Global Arguments mm_motion {C}. Global Arguments mm_duration {C}. Global Arguments mm_sigma2 {C}.
(** What an ErrorTermTransformation is given: predicted and measured motion, covariance. *)
Record motion_term (C : Type) := MotionTerm { mt_pred : transf; mt_meas : transf; mt_cov : C }.
Global Arguments MotionTerm {C}. Global Arguments mt_pred {C}. Global Arguments mt_meas {C}. Global Arguments mt_cov {C}.

Section ego.
  Context {C : Type}.
  Local Notation meas := (Z * motion_meas C)%type.
  Context (ref : nat) (knots : Z) (bound : Z) (window : R).   (* options_: referenceSensor, splineKnotsPerSecond, delayBound, windowDuration *)
  Context (fit : list Z -> list v3 * list quat -> Z -> result splines).
  (** What std::lround returns for a value that does not fit (unspecified). *)
  Context (lround_big : Z).

  (** initSplines 164-182: the poses from the second on *)
  Fixpoint integrate (prev : pose) (l : list meas) : list pose :=
    match l with
    | [] => []
    | (_, m) :: l' => let cur := mul_P prev (mm_motion m) in cur :: integrate cur l'
    end.
  (** 164-182: timestamps, and the poses before the signs of the quaternions are chosen *)
  Definition dead_reckoning (prev : pose) (l : list meas) : list Z * list pose :=
    match l with
    | [] => ([], [])
    | (t, m) :: _ => ((t - mm_duration m)%Z :: map fst l, prev :: integrate prev l)
    end.
  (** 184-191.  [None]: undefined (conversion to int) *)
  Definition ego_numSegments (timestamps : list Z) (numMeasurements : nat) : option Z :=
    match timestamps with
    | [] => None
    | t0 :: _ =>
      let elapsedTime := IZR (List.last timestamps t0 - t0) / 10 ^ 9 in
      let n := Z.of_nat numMeasurements in
      let measPerSec := if Req_EM_T elapsedTime 0 then lround_big
                        else let z := ZnearestA (IZR n / elapsedTime) in
                             if ((- 2 ^ 63 <=? z) && (z <? 2 ^ 63))%Z then z else lround_big in
      if Z.ltb knots measPerSec then to_int (Zceil (IZR knots * elapsedTime)) else to_int n
    end.

  (** The calibrator; [es_pred k]: motionMeasurementsPred_ with its two error vectors *)
  Record ego_pred := EgoPred { ep_time : Z; ep_motion : transf; ep_error : list R; ep_error2 : R }.
  Record ego_state := EgoState {
    es_prev : pose;                       (* prevTransformation_ *)
    es_meas : nat -> list meas;           (* motionMeasurements_: a sensor has an entry iff its list is not empty *)
    es_start : Z; es_last : Z;            (* currentBatchStartTimestamp_, lastTimestamp_ *)
    es_pred : nat -> list ego_pred;
    es_sent : list (list (motion_term C)) (* ghost: the batches given to the estimator *) }.
  Definition set_prev (p : pose) (s : ego_state) : ego_state := EgoState p (es_meas s) (es_start s) (es_last s) (es_pred s) (es_sent s).

  (** initSplines 154-203: prevTransformation_ is moved on before anything can fail but the lookup *)
  Definition ego_initSplines (s : ego_state) : ego_state * result splines :=
    match es_meas s ref with
    | [] => (s, Throw StdOutOfRange)
    | l =>
      let '(timestamps, poses) := dead_reckoning (es_prev s) l in
      let s1 := set_prev (List.last poses (es_prev s)) s in
      match ego_numSegments timestamps (length l) with
      | None => (s1, UB)
      | Some n => (s1, fit timestamps (map snd poses, rotPoses (map fst poses)) n)
      end
    end.

  (** The splines as a transformation: TransformationExpression(rotation, translation), 215-219 *)
  Definition spline_T (sp : splines) (t : Z) : transf := Transf (sp_R sp t) (sp_r sp t).
  Section terms.
    Context (cal : nat -> option (Z * transf)) (sp : splines).
    (** 211-219, 232-262: currentTransformation for a measurement of sensor [k]; [Ret None]: continue *)
    Definition current (k : nat) (timestamp : Z) : result (option transf) :=
      if Nat.eqb k ref then Ret (Some (spline_T sp timestamp))
      else match cal k with
           | None => Throw StdOutOfRange
           | Some (delay, r_T_s) =>
             let t := (timestamp - delay)%Z in
             if ((sp_max sp <? bound + t) || (- bound + t <? sp_min sp))%Z then Ret None
             else Ret (Some (compose_T (spline_T sp t) r_T_s))
           end.
    (** The loop of addMotionErrorTerms 209-274 *)
    Fixpoint motion_terms_of (k : nat) (prev : option transf) (l : list meas) : result (list (motion_term C)) :=
      match l with
      | [] => Ret []
      | (t, m) :: l' =>
        rbind (current k t) (fun cur =>
        match cur with
        | None => motion_terms_of k prev l'
        | Some cur =>
          rbind (motion_terms_of k (Some cur) l') (fun rest =>
          Ret (match prev with
               | None => rest
               | Some p => MotionTerm (compose_T (inverse_T p) cur) (T_of (mm_motion m)) (mm_sigma2 m) :: rest
               end))
        end)
      end.
    (** The loop 107-108 *)
    Fixpoint all_terms (store : nat -> list meas) (order : list nat) : result (list (motion_term C)) :=
      match order with
      | [] => Ret []
      | k :: order =>
        rbind (motion_terms_of k None (store k)) (fun l => rbind (all_terms store order) (fun l' => Ret (l ++ l')))
      end.
    (** The loop of predictMotion 277-367; what was pushed before an exception stays *)
    Context (err : motion_term C -> list R * R).
    Fixpoint predictMotion (k : nat) (prev : option transf) (l : list meas) : list ego_pred * result unit :=
      match l with
      | [] => ([], Ret tt)
      | (t, m) :: l' =>
        match current k t with
        | Ret None => predictMotion k prev l'
        | Ret (Some cur) =>
          let '(rest, r) := predictMotion k (Some cur) l' in
          (match prev with
           | None => rest
           | Some p => let e := MotionTerm (compose_T (inverse_T p) cur) (T_of (mm_motion m)) (mm_sigma2 m) in
                       EgoPred t (mt_pred e) (fst (err e)) (snd (err e)) :: rest
           end, r)
        | Throw e => ([], Throw e) | UB => ([], UB) | Diverge => ([], Diverge)
        end
      end.
    (** The loop 80-81 *)
    Fixpoint predict_all (store : nat -> list meas) (order : list nat) (d : nat -> list ego_pred) : (nat -> list ego_pred) * result unit :=
      match order with
      | [] => (d, Ret tt)
      | k :: order =>
        let '(l, r) := predictMotion k None (store k) in
        let d' := fun j => if Nat.eqb j k then d j ++ l else d j in
        match r with Ret _ => predict_all store order d' | r => (d', r) end
      end.
  End terms.

  (** predict 78-82 *)
  Definition ego_predict cal err (order : list nat) (s : ego_state) : ego_state * result unit :=
    match ego_initSplines s with
    | (s1, Ret sp) =>
      let '(d, r) := predict_all cal sp err (es_meas s1) order (es_pred s1) in
      (EgoState (es_prev s1) (es_meas s1) (es_start s1) (es_last s1) d (es_sent s1), r)
    | (s1, Throw e) => (s1, Throw e) | (s1, UB) => (s1, UB) | (s1, Diverge) => (s1, Diverge)
    end.
  (** addMeasurements 100-148; [r]: how addBatch ends *)
  Definition ego_addMeasurements cal (order : list nat) (r : result unit) (s : ego_state) : ego_state * result unit :=
    match ego_initSplines s with
    | (s1, Ret sp) =>
      match all_terms cal sp (es_meas s1) order with
      | Ret batch => (EgoState (es_prev s1) (fun _ => []) (es_last s1) (es_last s1) (es_pred s1) (es_sent s1 ++ [batch]), r)
      | Throw e => (s1, Throw e) | UB => (s1, UB) | Diverge => (s1, Diverge)
      end
    | (s1, Throw e) => (s1, Throw e) | (s1, UB) => (s1, UB) | (s1, Diverge) => (s1, Diverge)
    end.
  (** addMotionMeasurement 84-89, addMeasurement 91-98 *)
  Definition ego_add cal (order : list nat) (r : result unit) (s : ego_state) (k : nat) (t : Z) (m : motion_meas C) : ego_state * result unit :=
    let start := if Z.eqb (es_start s) (-1) then t else es_start s in
    let s1 := EgoState (es_prev s) (es_meas s) start t (es_pred s) (es_sent s) in
    let '(s2, r2) := if Rle_dec window (IZR (t - start) / 10 ^ 9) then ego_addMeasurements cal order r s1 else (s1, Ret tt) in
    match r2 with
    | Ret _ => (EgoState (es_prev s2) (fun j => if Nat.eqb j k then es_meas s2 j ++ [(t, m)] else es_meas s2 j) (es_start s2) (es_last s2) (es_pred s2) (es_sent s2), Ret tt)
    | r2 => (s2, r2)
    end.
  (** clearPredictions 72-76, clearMeasurements 150-152 *)
  Definition ego_clearPredictions (s : ego_state) : ego_state := EgoState (es_prev s) (es_meas s) (es_start s) (es_last s) (fun _ => []) (es_sent s).
  Definition ego_clearMeasurements (s : ego_state) : ego_state := EgoState (es_prev s) (fun _ => []) (es_start s) (es_last s) (es_pred s) (es_sent s).
End ego.
Global Arguments ego_state : clear implicits.
Global Arguments EgoState {C}.
