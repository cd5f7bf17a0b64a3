(** Model of the observability report that the calibrators print when "verbose" is set
    (E = incremental_calibration_examples/incremental_calibration_examples_):
    - E time_delay/src/algo/Calibrator.cpp 271-291, E car/src/algo/CarCalibrator.cpp 376-406,
      E egomotion_sensors/src/algo/Calibrator.cpp 124-143.
    [rows] are the rows of [ret.obsBasisScaled]; [norm] is Eigen's norm of a row.  Only the lines after "observability: "
    are modelled; the text printed before a failing line has already left the program. *)
From stdpp Require Import prelude list gmap.
From Coq Require Import String.
From Verif Require Import Base OptProblemModel DesignVarsModel.
Local Open Scope string_scope.
Local Notation "x ++l y" := (List.app x y) (at level 60, right associativity).

Section report.
Context {A : Type} (norm : list A -> A).

(** One [cout << label << ret.obsBasisScaled.row(i).norm() << endl] after the other; a row that does not exist is undefined
    behaviour (an assertion in a debug build). *)
Fixpoint print_rows (rows : list (list A)) (lines : list (string * nat)) : list (string * A) * result unit :=
  match lines with
  | [] => ([], Ret tt)
  | (label, i) :: lines' =>
    match rows !! i with
    | Some row => let x := print_rows rows lines' in ((label, norm row) :: x.1, x.2)
    | None => ([], UB)
    end
  end.

(** E time_delay/src/algo/Calibrator.cpp 275-291 *)
Definition td_report (rows : list (list A)) : list (string * A) * result unit :=
  print_rows rows
    [("b: ", 0); ("k_l: ", 1); ("t_l: ", 2); ("k_r: ", 3); ("t_r: ", 4); ("v_r_vp_1: ", 5); ("v_r_vp_2: ", 6);
     ("v_r_vp_3: ", 7); ("v_R_p_1: ", 8); ("v_R_p_2: ", 9); ("v_R_p_3: ", 10)].

(** E car/src/algo/CarCalibrator.cpp 377-406 *)
Definition car_report (rows : list (list A)) : list (string * A) * result unit :=
  print_rows rows
    [("e_r: ", 0); ("e_f: ", 1); ("L: ", 2); ("a0: ", 3); ("a1: ", 4); ("a2: ", 5); ("a3: ", 6); ("k_rl: ", 7); ("k_rr: ", 8);
     ("k_fl: ", 9); ("k_fr: ", 10); ("k_dmi: ", 11); ("v_r_vr_1: ", 12); ("v_r_vr_2: ", 13); ("v_r_vr_3: ", 14);
     ("v_R_r_1: ", 15); ("v_R_r_2: ", 16); ("v_R_r_3: ", 17); ("t_r: ", 18); ("t_f: ", 19); ("t_s: ", 20); ("t_dmi: ", 21)].

(** E egomotion_sensors/src/algo/Calibrator.cpp 125-142: [order]: calibrationVariables_ in iteration order; [num]: how a
    size_t is printed; [idx] is the running row index *)
Fixpoint ego_lines (num : nat -> string) (order : list (nat * ego_vars)) (idx : nat) : list (string * nat) :=
  match order with
  | [] => []
  | (s, _) :: order' =>
    [("t_" ++ num s ++ ": ", idx); ("r_" ++ num s ++ "_1 : ", idx + 1); ("r_" ++ num s ++ "_2 : ", idx + 2);
     ("r_" ++ num s ++ "_3 : ", idx + 3); ("R_" ++ num s ++ "_1 : ", idx + 4); ("R_" ++ num s ++ "_2 : ", idx + 5);
     ("R_" ++ num s ++ "_3 : ", idx + 6)] ++l ego_lines num order' (idx + 7)
  end.
Definition ego_report (num : nat -> string) (order : list (nat * ego_vars)) (rows : list (list A)) : list (string * A) * result unit :=
  print_rows rows (ego_lines num order 0).
End report.
