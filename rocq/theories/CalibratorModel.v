(** Model of the measurement windows of the three example calibrators:
    - TD: incremental_calibration_examples_time_delay/src/algo/Calibrator.cpp
    - CAR: incremental_calibration_examples_car/src/algo/CarCalibrator.cpp
    - EGO: incremental_calibration_examples_egomotion_sensors/src/algo/Calibrator.cpp
    (all below incremental_calibration_examples/).

    The three share the code that collects measurements and hands windows to the estimator; it is modelled once, with
    the parts in which they differ as [hooks].  Times are integers (nanoseconds; overflow of 64 bits is not modelled),
    the window test is exact.  The estimator with the design variables is a type [E]: [h_addBatch] is
    IncrementalEstimator::addBatch, [h_params] the parameters saved in the history.  Building and fitting splines and
    evaluating expressions belong to libraries: parameters.  Printing and predictions are not modelled. *)
From stdpp Require Import prelude list.
From Coq Require Import Reals.
From Flocq Require Import Core.
From Verif Require Import Base.
Local Open Scope R_scope.

Section calibrator.
  Context {K D E B P : Type} `{EqDecision K}.
  Local Notation store := (K -> list (Z * D)).

  Record hooks := Hooks {
    h_ready : store -> bool;                  (* the check at the top of addMeasurements *)
    h_splines : store -> result unit;         (* initSplines *)
    h_terms : E -> store -> list B;           (* the error terms added to the batch *)
    h_addBatch : E -> list B -> result R * E; (* information gain, estimator afterwards *)
    h_params : E -> P
  }.
  Context (h : hooks).

  (** Ghost: a window handed to the estimator. *)
  Record window := Window {
    w_meas : store; w_terms : list B; w_start : Z; w_end : Z;
    w_returned : bool   (* addBatch returned normally *) }.
  Record cal := Cal {
    c_start : Z;        (* _currentBatchStartTimestamp *)
    c_last : Z;         (* _lastTimestamp *)
    c_meas : store;     (* the stored measurements *)
    c_est : E;
    c_gains : list R;   (* _infoGainHistory *)
    c_hist : list P;    (* _odometryVariablesHistory *)
    c_window : R;       (* _options.windowDuration, which getOptions() lets the user change *)
    c_sent : list window (* ghost *) }.

  (** Constructor: TD 55-72, CAR 61-78, EGO 48-67. *)
  Definition cal_new (e : E) (w : R) : cal := Cal (-1) (-1) (fun _ => []) e [] [h_params h e] w [].

  (** clearMeasurements: TD 616-620, CAR 1078-1085, EGO 150-152. *)
  Definition clearMeasurements (c : cal) : cal :=
    Cal (c_start c) (c_last c) (fun _ => []) (c_est c) (c_gains c) (c_hist c) (c_window c) (c_sent c).

  (** addMeasurements: TD 246-296, CAR 343-411, EGO 100-148 (which has no readiness check). *)
  Definition addMeasurements (c : cal) : cal * result unit :=
    if negb (h_ready h (c_meas c)) then (c, Ret tt) else
    match h_splines h (c_meas c) with
    | Throw e => (c, Throw e) | UB => (c, UB) | Diverge => (c, Diverge)
    | Ret _ =>
      let batch := h_terms h (c_est c) (c_meas c) in
      let w := Window (c_meas c) batch (c_start c) (c_last c) in
      let c1 := clearMeasurements c in
      (* _currentBatchStartTimestamp = _lastTimestamp; *)
      let c2 := Cal (c_last c1) (c_last c1) (c_meas c1) (c_est c1) (c_gains c1) (c_hist c1) (c_window c1) (c_sent c1) in
      match h_addBatch h (c_est c2) batch with
      | (Ret gain, e') =>
        (Cal (c_start c2) (c_last c2) (c_meas c2) e' (c_gains c2 ++ [gain]) (c_hist c2 ++ [h_params h e'])
           (c_window c2) (c_sent c2 ++ [w true]), Ret tt)
      | (r, e') =>
        (Cal (c_start c2) (c_last c2) (c_meas c2) e' (c_gains c2) (c_hist c2) (c_window c2) (c_sent c2 ++ [w false]),
         match r with Throw e => Throw e | Diverge => Diverge | _ => UB end)
      end
    end.

  (** addMeasurement: TD 237-244, CAR 334-341, EGO 91-98; nsecToSec divides by 1e9. *)
  Definition addMeasurement (c : cal) (ts : Z) : cal * result unit :=
    let start := if Z.eqb (c_start c) (-1) then ts else c_start c in
    let c1 := Cal start ts (c_meas c) (c_est c) (c_gains c) (c_hist c) (c_window c) (c_sent c) in
    if Rle_dec (c_window c) (IZR (ts - start) / 10 ^ 9) then addMeasurements c1 else (c1, Ret tt).

  (** add...Measurement of kind [k]: TD 219-235, CAR 298-332, EGO 84-89.  If addMeasurement throws, the push_back after
      it is not executed. *)
  Definition addOne (c : cal) (k : K) (ts : Z) (d : D) : cal * result unit :=
    match addMeasurement c ts with
    | (c1, Ret _) =>
      (Cal (c_start c1) (c_last c1) (fun k' => if decide (k' = k) then c_meas c1 k' ++ [(ts, d)] else c_meas c1 k')
         (c_est c1) (c_gains c1) (c_hist c1) (c_window c1) (c_sent c1), Ret tt)
    | (c1, r) => (c1, r)
    end.

  (** What a user can do. *)
  Inductive event := Add (k : K) (ts : Z) (d : D) | Flush | Clear | SetWindow (w : R).
  Definition cstep (c : cal) (e : event) : cal * result unit :=
    match e with
    | Add k ts d => addOne c k ts d
    | Flush => addMeasurements c
    | Clear => (clearMeasurements c, Ret tt)
    | SetWindow w => (Cal (c_start c) (c_last c) (c_meas c) (c_est c) (c_gains c) (c_hist c) w (c_sent c), Ret tt)
    end.
  (** A sequence of calls; exceptions are caught by the user, undefined behaviour or divergence ends it. *)
  Fixpoint crun (c : cal) (l : list event) : cal * list (result unit) :=
    match l with
    | [] => (c, [])
    | e :: l' => match cstep c e with
                 | (c1, UB) => (c1, [UB]) | (c1, Diverge) => (c1, [Diverge])
                 | (c1, r) => let (c2, rs) := crun c1 l' in (c2, r :: rs)
                 end
    end.
End calibrator.
Global Arguments Hooks {K D E B P}. Global Arguments h_ready {K D E B P}. Global Arguments h_splines {K D E B P}.
Global Arguments h_terms {K D E B P}. Global Arguments h_addBatch {K D E B P}. Global Arguments h_params {K D E B P}.
Global Arguments hooks : clear implicits. Global Arguments cal : clear implicits. Global Arguments event : clear implicits.
Global Arguments window : clear implicits.

(** ** Number of spline segments, initSplines: TD 326-334, CAR 441-449 *)
Definition to_int (z : Z) : option Z := if ((- 2 ^ 31 <=? z) && (z <? 2 ^ 31))%Z then Some z else None.
(** [None]: conversion to int undefined (also for elapsedTime 0, where the quotient is infinite). *)
Definition numSegments (knotsPerSecond : Z) (timestamps : list Z) : option Z :=
  match timestamps with
  | [] => None                                    (* back() of an empty vector *)
  | t0 :: _ =>
    let elapsedTime := IZR (List.last timestamps t0 - t0) / 10 ^ 9 in
    let n := Z.of_nat (length timestamps) in
    if Req_EM_T elapsedTime 0 then None else
    match to_int (ZnearestA (IZR n / elapsedTime)) with
    | None => None
    | Some measPerSec =>
      if Z.ltb knotsPerSecond measPerSec then to_int (Zceil (IZR knotsPerSecond * elapsedTime)) else to_int n
    end
  end.
(** initSplines of TD 298-348 and CAR 413-463, as far as it can fail; [fit] is the library. *)
Definition initSplines (fit : list Z -> Z -> result unit) (knots : Z) (timestamps : list Z) : result unit :=
  match numSegments knots timestamps with None => UB | Some n => fit timestamps n end.

(** The test whether a delayed measurement lies inside the spline: TD 425-433, CAR 611-620 and the like. *)
Definition in_spline (Tmin Tmax bound t : Z) : bool := negb ((Tmax <? bound + t) || (- bound + t <? Tmin))%Z.

(** ** Time-delay calibrator *)
Inductive td_kind := TdPose | TdLeft | TdRight.
Global Instance td_kind_eq : EqDecision td_kind. Proof. solve_decision. Defined.
Section td.
  Context {D E P : Type}.
  (** [tmin], [tmax]: time range of the spline built from the poses; [delay]: current time delay of a wheel, in ns. *)
  Context (tmin tmax : list (Z * D) -> Z) (delay : E -> td_kind -> Z) (bound knots : Z).
  Context (fit : list Z -> Z -> result unit) (addBatch : E -> list (td_kind * (Z * D)) -> result R * E) (params : E -> P).
  (** addPoseErrorTerms 350-378, addLeftWheelErrorTerms 417-459, addRightWheelErrorTerms 516-559: one term each. *)
  Definition td_wheel (e : E) (poses : list (Z * D)) (k : td_kind) (l : list (Z * D)) :=
    map (pair k) (List.filter (fun m => in_spline (tmin poses) (tmax poses) bound (delay e k + fst m)) l).
  Definition td_terms (e : E) (s : td_kind -> list (Z * D)) : list (td_kind * (Z * D)) :=
    map (pair TdPose) (s TdPose) ++ td_wheel e (s TdPose) TdLeft (s TdLeft) ++ td_wheel e (s TdPose) TdRight (s TdRight).
  Definition td_hooks : hooks td_kind D E (td_kind * (Z * D)) P :=
    Hooks (fun s => Nat.leb 2 (length (s TdPose)))
      (fun s => initSplines fit knots (map fst (s TdPose))) td_terms addBatch params.
End td.

(** ** Car calibrator *)
Inductive car_kind := CPose | CVel | CDmi | CFront | CRear | CSteer.
Global Instance car_kind_eq : EqDecision car_kind. Proof. solve_decision. Defined.
(** An error term: its measurement, the measured value (for a pair of wheels one of the two) and the variance. *)
Inductive car_term {D : Type} :=
| CtPose (m : Z * D) | CtVel (m : Z * D)
| CtDmi (m : Z * D) (var : R) | CtFl (m : Z * D) (var : R) | CtFr (m : Z * D) (var : R)
| CtRl (m : Z * D) (var : R) | CtRr (m : Z * D) (var : R) | CtSteer (m : Z * D) (var : R).
Global Arguments car_term : clear implicits.
(** Options used here, CarCalibratorOptions.h: usePose, useVelocities, variances. *)
Record car_options := CarOptions {
  usePose : bool; useVelocities : bool; dmiVariance : R; flwVariance : R; frwVariance : R; rlwVariance : R; rrwVariance : R;
  steeringVariance : R }.
Section car.
  Context {D E P : Type}.
  Context (tmin tmax : list (Z * D) -> Z) (delay : E -> car_kind -> Z) (bound knots : Z).
  (** [below_cutoff]: cut-off test on the two wheel speeds. *)
  Context (below_cutoff : D -> bool) (o : car_options).
  (** Tests on the velocity the spline predicts for a measurement: negative forward speed (733, 879) and forward speed
      of the front axle below linearVelocityTolerance (1012). *)
  Context (backward slow : E -> list (Z * D) -> Z * D -> bool).
  Context (fit : list Z -> Z -> result unit) (addBatch : E -> list (car_term D) -> result R * E) (params : E -> P).
  Definition car_in (e : E) (poses : list (Z * D)) (k : car_kind) (m : Z * D) : bool :=
    in_spline (tmin poses) (tmax poses) bound (delay e k + fst m).
  Definition car_wheels_ok (e : E) (poses : list (Z * D)) (k : car_kind) (m : Z * D) : bool :=
    negb (below_cutoff (snd m)) && car_in e poses k m && negb (backward e poses m).
  (** addMeasurements 352-359 with the six add...ErrorTerms: velocities 532-563, poses 465-494, DMI 605-646, front wheels
      700-760, rear wheels 846-902 (which use the variances of the front wheels, 893 and 898), steering 976-1019. *)
  Definition car_terms (e : E) (s : car_kind -> list (Z * D)) : list (car_term D) :=
    let poses := s CPose in
    (if useVelocities o then map CtVel (List.filter (fun m => negb ((fst m <? tmin poses) || (tmax poses <? fst m))%Z) (s CVel))
     else []) ++
    (if usePose o then map CtPose poses else []) ++
    map (fun m => CtDmi m (dmiVariance o)) (List.filter (car_in e poses CDmi) (s CDmi)) ++
    flat_map (fun m => [CtFl m (flwVariance o); CtFr m (frwVariance o)]) (List.filter (car_wheels_ok e poses CFront) (s CFront)) ++
    flat_map (fun m => [CtRl m (flwVariance o); CtRr m (frwVariance o)]) (List.filter (car_wheels_ok e poses CRear) (s CRear)) ++
    map (fun m => CtSteer m (steeringVariance o))
      (List.filter (fun m => car_in e poses CSteer m && negb (slow e poses m)) (s CSteer)).
  Definition car_hooks : hooks car_kind D E (car_term D) P :=
    Hooks (fun s => Nat.leb 2 (length (s CPose)))
      (fun s => initSplines fit knots (map fst (s CPose))) car_terms addBatch params.
End car.

(** ** Egomotion calibrator: the kinds are the sensor indices *)
Section ego.
  Context {D E B P : Type}.
  Context (ref : nat)                        (* options_.referenceSensor *)
    (fit : list (Z * D) -> result unit)      (* initSplines 154-203 once the measurements are found *)
    (terms : E -> (nat -> list (Z * D)) -> list B) (addBatch : E -> list B -> result R * E) (params : E -> P).
  (** motionMeasurements_.at(idx), 155: the map has an entry for the reference sensor iff it has a measurement
      (operator [] creates it when the first one is pushed, clear() removes all). *)
  Definition ego_splines (s : nat -> list (Z * D)) : result unit :=
    match s ref with [] => Throw StdOutOfRange | l => fit l end.
  Definition ego_hooks : hooks nat D E B P := Hooks (fun _ => true) ego_splines terms addBatch params.

  (** addMotionErrorTerms 205-275 for one sensor: the pairs of measurements that give an error term.  [ok]: not skipped by
      the time bounds (always true for the reference sensor); the first accepted one only becomes prevTransformation. *)
  Fixpoint motion_pairs (ok : Z * D -> bool) (prev : option (Z * D)) (l : list (Z * D)) : list ((Z * D) * (Z * D)) :=
    match l with
    | [] => []
    | m :: l' =>
      if ok m then match prev with
                   | Some p => (p, m) :: motion_pairs ok (Some m) l'
                   | None => motion_pairs ok (Some m) l'
                   end
      else motion_pairs ok prev l'
    end.
End ego.
