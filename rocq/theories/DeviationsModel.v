(** Model of what the calibrator program of the car example writes after the last batch
    (E = incremental_calibration_examples/incremental_calibration_examples_car):
    - E src/realworld/calibrator.cpp 245-266: the file deviations.txt;
    - E src/algo/CarCalibrator.cpp 131-133 (getOdometryVariablesVariance): the entries are the diagonal of the estimator's getSigma2Theta();
    and of the accessors of the spline problem of the egomotion example
    (incremental_calibration_examples/incremental_calibration_examples_egomotion_sensors/include/aslam/calibration/egomotion/algo/OptimizationProblemSpline.h 94-146),
    which, unlike the copies of this class in the two other examples, check the index in debug builds only.
    The text of the numbers (std::fixed, 18 digits) is that of TextModel and is left out here. *)
From stdpp Require Import prelude list gmap.
From Coq Require Import String.
From Verif Require Import Base OptProblemModel DesignVarsModel.
Local Open Scope string_scope.

Section deviations.
Context {X Y : Type} (root : X -> Y).

(** One [devFile << label << std::sqrt(variances(i)) << std::endl] after the other; an entry that does not exist is undefined
    behaviour (an assertion of Eigen in a debug build). *)
Fixpoint write_entries (variances : list X) (lines : list (string * nat)) : list (string * Y) * result unit :=
  match lines with
  | [] => ([], Ret tt)
  | (label, i) :: lines' =>
    match variances !! i with
    | Some x => let rest := write_entries variances lines' in ((label, root x) :: rest.1, rest.2)
    | None => ([], UB)
    end
  end.

(** E src/realworld/calibrator.cpp 248-266 *)
Definition car_deviations (variances : list X) : list (string * Y) * result unit :=
  write_entries variances
    [("e_r: ", 0); ("e_f: ", 1); ("L: ", 2); ("a0: ", 3); ("a1: ", 4); ("a2: ", 5); ("a3: ", 6); ("k_rl: ", 7); ("k_rr: ", 8);
     ("k_fl: ", 9); ("k_fr: ", 10); ("k_dmi: ", 11); ("v_r_vr_1: ", 12); ("v_r_vr_2: ", 13); ("v_r_vr_3: ", 14);
     ("v_R_r_1: ", 15); ("v_R_r_2: ", 16); ("v_R_r_3: ", 17)].
End deviations.

(** getTranslationSpline(idx), getRotationSpline(idx) of the egomotion example, 94-146 (const and not const alike);
    [ndebug]: NDEBUG is defined. *)
Definition getSplineEgo {V : Type} (ndebug : bool) (s : sprob V) (k : spkind) (idx : nat) : result spline :=
  if negb ndebug && Nat.leb (List.length (sp_list s k)) idx then Throw OutOfBound
  else match sp_list s k !! idx with Some sp => Ret sp | None => UB end.
