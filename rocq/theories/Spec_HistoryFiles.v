(** What is in a text file: its lines, each ended by a newline. *)
From stdpp Require Import prelude list strings.
From Coq Require Import String Ascii.
From Verif Require Import Spec_Text.
Local Open Scope string_scope.

(** The lines of a text; text after the last newline counts as a line. *)
Fixpoint lines (s : string) : list string :=
  match s with
  | "" => []
  | String c s' => if Ascii.eqb c newline then "" :: lines s'
                   else match lines s' with [] => [String c ""] | l :: ls => String c l :: ls end
  end.
