(** Model of the text an object or an exception is turned into:
    incremental_calibration/src/exceptions/*.cpp, include/aslam/calibration/exceptions/*.h; src/base/Serializable.cpp and the [write]/[read]
    methods of the serialisable classes.  How a number is formatted is a parameter; the classic locale (no digit grouping) is assumed for [size_t]. *)
From stdpp Require Import prelude list strings pretty.
From Coq Require Import ZArith Ascii String.
From Verif Require Import Base GridModel.
Local Open Scope string_scope.
Local Set Warnings "-notation-overridden".

(** ** Exceptions *)
(** The members of [Exception] (Exception.h 55-64). *)
Record exc := Exc { x_msg : string; x_file : string; x_func : string; x_line : N; x_out : string }.
(** [Exception::Exception], Exception.cpp 17-32.  A single blank stands for "not given" (the default arguments of Exception.h 32-33). *)
Definition exc_new (msg file : string) (line : N) (func : string) : exc :=
  Exc msg file func line
    ((if bool_decide (func = " ") then "" else func +:+ ": ") +:+                       (* 24-25 *)
     msg +:+                                                                          (* 26 *)
     (if bool_decide (file = " ") then "" else " [file = " +:+ file +:+ "]") +:+         (* 27-28 *)
     (if bool_decide (line = 0%N) then "" else "[line = " +:+ pretty line +:+ "]")).     (* 29-30 *)
(** [mOutputMessage.append], used by the templates. *)
Definition exc_append (e : exc) (s : string) : exc := Exc (x_msg e) (x_file e) (x_func e) (x_line e) (x_out e +:+ s).
(** InvalidOperationException.cpp 16-19 *)
Definition invalid_operation (msg file : string) (line : N) (func : string) : exc := exc_new msg file line func.
(** NullPointerException.cpp 16-20 *)
Definition null_pointer (name file : string) (line : N) (func : string) : exc := exc_new (name +:+ " is a null pointer") file line func.
(** OutOfBoundException.h 46-53; [arg] is the printed argument *)
Definition out_of_bound (arg msg file : string) (line : N) (func : string) : exc :=
  exc_append (exc_new msg file line func) ("[argument = " +:+ arg +:+ "]").
(** OutOfBoundException.h 55-64 *)
Definition out_of_bound2 (arg bound msg file : string) (line : N) (func : string) : exc :=
  exc_append (exc_new msg file line func) ("[argument = " +:+ arg +:+ "]" +:+ "[bound = " +:+ bound +:+ "]").
(** BadArgumentException.h 43-50 *)
Definition bad_argument (arg msg file : string) (line : N) (func : string) : exc :=
  exc_append (exc_new msg file line func) ("[argument = " +:+ arg +:+ "]").
(** Copy constructor, Exception.cpp 34-40, and assignment, 42-51 (assigning an exception to itself changes nothing, which is what copying it gives). *)
Definition exc_copy (other : exc) : exc := Exc (x_msg other) (x_file other) (x_func other) (x_line other) (x_out other).
Definition exc_assign (self other : exc) : exc := Exc (x_msg other) (x_file other) (x_func other) (x_line other) (x_out other).
(** What a caller of [what()] (62-64: [c_str]) reads: the characters before the first NUL. *)
Fixpoint c_string (s : string) : string :=
  match s with
  | String c s' => if bool_decide (c = Ascii.zero) then "" else String c (c_string s')
  | EmptyString => ""
  end.
Definition what (e : exc) : string := c_string (x_out e).

(** ** Streams *)
(** Serializable.cpp 22-36: the overload is chosen by the static type of the stream; [write(std::ofstream&)] is empty in every class except
    [VectorDesignVariable] (VectorDesignVariable.tpp 61-64), which writes there what it writes to an [std::ostream].
    An insertion of anything else into an [std::ofstream] returns [std::ostream&] (standard library). *)
Inductive static := Ostream | Ofstream.
(** [s]: what is appended to an [std::ostream]; [Vector] is a [VectorDesignVariable], [Object] any other object of the library. *)
Inductive item := Plain (s : string) | Object (s : string) | Vector (s : string).
Definition insert (t : static) (i : item) : static * string :=
  match i, t with
  | Plain s, _ => (Ostream, s)
  | Object s, Ostream => (Ostream, s)
  | Object _, Ofstream => (Ofstream, "")
  | Vector s, _ => (t, s)
  end.
(** [stream << i1 << i2 << ...]: the text appended to the stream. *)
Fixpoint inserts (t : static) (is : list item) : string :=
  match is with [] => "" | i :: is' => let '(t', s) := insert t i in s +:+ inserts t' is' end.
(** Serializable.cpp 27-30, 38-41 with the [read] methods, all empty: object and stream are left alone. *)
Definition extract {O} (stream : string) (o : O) : string * O := (stream, o).
Fixpoint extracts {O} (stream : string) (os : list O) : string * list O :=
  match os with
  | [] => (stream, [])
  | o :: os' => let '(s', o') := extract stream o in let '(s'', os'') := extracts s' os' in (s'', o' :: os'')
  end.

(** ** What [write(std::ostream&)] appends *)
Definition nl : string := String "010"%char "".
Section write.
Context {D : Type} (fmt : D -> string) (row : list D -> string) (rowZ : list Z -> string).
Definition write_normal1 (mean variance : D) : string := "mean: " +:+ fmt mean +:+ nl +:+ "variance: " +:+ fmt variance.      (* NormalDistribution1v.cpp 59-62 *)
Definition write_uniform1 (mn mx : D) : string := "minimum support: " +:+ fmt mn +:+ nl +:+ "maximum support: " +:+ fmt mx.     (* UniformDistribution1v.tpp 55-58 *)
Definition write_gamma (shape inv : D) : string := "shape: " +:+ fmt shape +:+ nl +:+ "inverse scale: " +:+ fmt inv.             (* GammaDistribution.tpp 59-62 *)
Definition write_timestamp (s : D) : string := "seconds: " +:+ fmt s.                                                          (* Timestamp.cpp 42-44 *)
Definition write_incgamma (alpha : D) : string := "alpha: " +:+ fmt alpha.                                                     (* IncompleteGammaP/QFunction.cpp 44-46 *)
Definition write_chi2 (twice_shape : D) : string := "degrees: " +:+ fmt twice_shape.                                            (* ChiSquareDistribution.cpp 42-44 *)
(** EstimatorMLNormal1v.cpp 53-58, EstimatorMLNormalMv.tpp 57-62: the distribution is printed by its own operator on an [std::ostream]. *)
Definition write_estimator (distribution : string) (n : N) (valid : bool) : string :=
  "distribution: " +:+ nl +:+ distribution +:+ nl +:+ "number of points: " +:+ pretty n +:+ nl +:+ "valid: " +:+ (if valid then "1" else "0").
(** Grid.tpp 86-95; histograms are grids. *)
Definition write_cells {C} (cell : C -> string) (cs : list C) : string := foldr (fun c s => cell c +:+ nl +:+ s) "" cs.
Definition write_grid {C} (cell : C -> string) (g : grid D C) : string :=
  "minimum: " +:+ row (g_min g) +:+ nl +:+ "maximum: " +:+ row (g_max g) +:+ nl +:+ "resolution: " +:+ row (g_res g) +:+ nl +:+
  "number of cells per dim: " +:+ rowZ (g_n g) +:+ nl +:+ "total number of cells: " +:+ pretty (Z.to_N (g_tot g)) +:+ nl +:+
  "cells: " +:+ nl +:+ write_cells cell (g_cells g).
End write.
