(** Model of the two simulators' main loops (below incremental_calibration_examples/) and of the spline writers:
    - TD: incremental_calibration_examples_time_delay/src/simulation/simulator.cpp 74-85
    - EGO: incremental_calibration_examples_egomotion_sensors/src/simulation/simulator.cpp 80-108
    - splinesToFile.cpp of the car (30-66), time-delay (30-66) and egomotion (31-81) examples, which agree.
    The calibrators are those of CalibratorModel.v, the simulated data those of SimEngineModel.v.  Files and printing are left out,
    except for the points the spline writers output. *)
From stdpp Require Import prelude list.
From Coq Require Import Reals.
From Verif Require Import Base CalibratorModel.

Section td.
Context {D E P : Type} (h : hooks td_kind D E (td_kind * (Z * D)) P).
Local Notation cal := (cal td_kind D E (td_kind * (Z * D)) P).
(** TD 75-82.  The container positions at(i) of the three lists are the heads of what is left of them. *)
Fixpoint td_feed (c : cal) (rw lw pose : list (Z * D)) : cal * result unit :=
  match rw with
  | [] => (c, Ret tt)
  | (tr, r) :: rw' =>
    match addOne h c TdRight tr r with
    | (c1, Ret _) =>
      match lw with
      | [] => (c1, Throw StdOutOfRange)                  (* data.lwData_n.at(...) *)
      | (tl, l) :: lw' =>
        match addOne h c1 TdLeft tl l with
        | (c2, Ret _) =>
          match pose with
          | [] => (c2, Throw StdOutOfRange)              (* data.poseData_n.at(...) *)
          | (tp, p) :: pose' =>
            match addOne h c2 TdPose tp p with
            | (c3, Ret _) => td_feed c3 rw' lw' pose'
            | (c3, r) => (c3, r)
            end
          end
        | (c2, r) => (c2, r)
        end
      end
    | (c1, r) => (c1, r)
    end
  end.
(** time_delay Calibrator.cpp 107-111 *)
Definition td_unprocessed (c : cal) : bool :=
  existsb (fun k => negb (Nat.eqb (length (c_meas c k)) 0)) [TdPose; TdLeft; TdRight].
(** TD 74-85 *)
Definition td_program (c : cal) (rw lw pose : list (Z * D)) : cal * result unit :=
  match td_feed c rw lw pose with
  | (c1, Ret _) => if td_unprocessed c1 then addMeasurements h c1 else (c1, Ret tt)
  | (c1, r) => (c1, r)
  end.
End td.

Section ego.
Context {D E B P : Type} (h : hooks nat D E B P).
Local Notation cal := (cal nat D E B P).
(** EGO 89-94 (and 99-104): position i of every sensor, in the order of the map *)
Fixpoint ego_feed_round (data : nat -> list (Z * D)) (i : nat) (c : cal) (sensors : list nat) : cal * result unit :=
  match sensors with
  | [] => (c, Ret tt)
  | k :: sensors' =>
    match data k !! i with
    | None => (c, Throw StdOutOfRange)                   (* motionData.second.at(...) *)
    | Some (t, m) => match addOne h c k t m with
                     | (c1, Ret _) => ego_feed_round data i c1 sensors'
                     | (c1, r) => (c1, r)
                     end
    end
  end.
(** EGO 87-95 (and 97-105): [n] more rounds from position [i] *)
Fixpoint ego_feed (data : nat -> list (Z * D)) (sensors : list nat) (n i : nat) (c : cal) : cal * result unit :=
  match n with
  | O => (c, Ret tt)
  | S n' => match ego_feed_round data i c sensors with
            | (c1, Ret _) => ego_feed data sensors n' (S i) c1
            | (c1, r) => (c1, r)
            end
  end.
(** Calibrator.h 134-136: the map has entries for the sensors with pending measurements, all of them among [sensors] *)
Definition ego_unprocessed (sensors : list nat) (c : cal) : bool :=
  existsb (fun k => negb (Nat.eqb (length (c_meas c k)) 0)) sensors.
(** EGO 82-108; [sensors]: the keys of the map of the simulated data, in its order; at(referenceSensor) throws without such a key *)
Definition ego_program (ref : nat) (data : nat -> list (Z * D)) (sensors : list nat) (c : cal) : cal * result unit :=
  if bool_decide (ref ∈ sensors) then
    match ego_feed data sensors (length (data ref)) 0 c with
    | (c1, Ret _) => if ego_unprocessed sensors c1 then addMeasurements h c1 else (c1, Ret tt)
    | (c1, r) => (c1, r)
    end
  else (c, Throw StdOutOfRange).
End ego.

(** ** Spline writers *)
Section write.
Context {Pt : Type}.
(** A pair of splines: time range (nanoseconds) of the translation spline, value of both at a time. *)
Record spline := Spline { sp_min : Z; sp_max : Z; sp_at : Z -> Pt }.
(** writeSplines(transSpline, rotSpline, dt, stream); [step]: secToNsec(dt).  [None]: still running after [fuel] rounds. *)
Fixpoint write_spline (fuel : nat) (s : spline) (step t : Z) : option (list (Z * Pt)) :=
  match fuel with
  | O => None
  | S fuel => if (t <? sp_max s)%Z
              then match write_spline fuel s step (t + step) with Some l => Some ((t, sp_at s t) :: l) | None => None end
              else Some []
  end.
(** A batch as the writer sees it: translation splines with time range and values, rotation splines with values; [None]: not an
    OptimizationProblemSpline (the dynamic_cast gives a null pointer, which is dereferenced). *)
Record spline_batch {A B : Type} := SplineBatch { sb_trans : list (Z * Z * (Z -> A)); sb_rot : list (Z -> B) }.
End write.
Global Arguments spline : clear implicits. Global Arguments spline_batch : clear implicits.
Global Arguments SplineBatch {A B} _ _.
Section write_all.
Context {A B : Type}.
(** the inner loop over the translation splines, from position [i] *)
Fixpoint write_batch (fuel : nat) (step : Z) (rots : list (Z -> B)) (trs : list (Z * Z * (Z -> A))) (i : nat)
  : option (list (Z * (A * B)) * result unit) :=
  match trs with
  | [] => Some ([], Ret tt)
  | (lo, hi, f) :: trs' =>
    match rots !! i with
    | None => Some ([], Throw StdOutOfRange)             (* rotSplines.at(...) *)
    | Some g =>
      match write_spline fuel (Spline lo hi (fun t => (f t, g t))) step lo with
      | None => None
      | Some l => match write_batch fuel step rots trs' (S i) with
                  | None => None
                  | Some (l', r) => Some (l ++ l', r)
                  end
      end
    end
  end.
(** writeSplines(estimator, dt, stream) *)
Fixpoint write_all (fuel : nat) (step : Z) (batches : list (option (spline_batch A B))) : option (list (Z * (A * B)) * result unit) :=
  match batches with
  | [] => Some ([], Ret tt)
  | None :: _ => Some ([], UB)
  | Some b :: bs =>
    match write_batch fuel step (sb_rot b) (sb_trans b) 0 with
    | None => None
    | Some (l, Ret _) => match write_all fuel step bs with None => None | Some (l', r) => Some (l ++ l', r) end
    | Some (l, r) => Some (l, r)
    end
  end.
End write_all.
