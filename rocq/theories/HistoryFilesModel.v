(** Model of the two history files the programs of the examples write at their end (all below incremental_calibration_examples/):
    - TD: incremental_calibration_examples_time_delay/src/simulation/simulator.cpp 93-103;
    - CAR: incremental_calibration_examples_car/src/realworld/calibrator.cpp 271-281;
    - EGO: incremental_calibration_examples_egomotion_sensors/src/simulation/simulator.cpp 116-130 (one parameter file for every sensor).
    The calibrator is that of CalibratorModel.  How a number and how a row of numbers (Eigen's operator on a transposed vector) are formatted
    are parameters.  Opening the files and errors of the disk are not modelled. *)
From stdpp Require Import prelude list strings pretty.
From Coq Require Import Reals String.
From Verif Require Import Base TextModel CalibratorModel.
Local Open Scope string_scope.

(** The loops [file << x << std::endl] over a history: TD 96-97 and 102-103, CAR 274-275 and 280-281, EGO 119-120 and 127-129. *)
Fixpoint write_lines {X : Type} (show : X -> string) (l : list X) : string :=
  match l with
  | [] => ""
  | x :: l' => show x +:+ nl +:+ write_lines show l'
  end.

Section files.
  Context {K D E B : Type}.
  (** infoGainHist.txt: getInformationGainHistory(), TD 93-97, CAR 271-275, EGO 116-120 *)
  Definition gains_file {P : Type} (show : R -> string) (c : cal K D E B P) : string := write_lines show (c_gains c).
  (** calibHist.txt: getOdometryVariablesHistory(), TD 99-103, CAR 277-281 *)
  Definition hist_file (row : list R -> string) (c : cal K D E B (list R)) : string := write_lines row (c_hist c).
  (** calibHist_<sensor>.txt, EGO 122-130; [order]: the sensors with calibration variables, in the iteration order of the unordered_map.
      The map designVariablesHistory_ gets an entry for every such sensor at the same times (Calibrator.cpp 63-66 and 144-146), so the
      history of the calibrator is modelled as the list of the functions from sensors to parameters. *)
  Definition ego_hist_files (row : list R -> string) (order : list nat) (c : cal K D E B (nat -> list R)) : list (string * string) :=
    map (fun k => ("calibHist_" +:+ pretty k +:+ ".txt", write_lines (fun p => row (p k)) (c_hist c))) order.
End files.
