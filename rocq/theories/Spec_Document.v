(** The form of the descriptions the library prints: named values, one after the other. *)
From stdpp Require Import prelude list strings.
From Coq Require Import Ascii String.
From Verif Require Import Spec_Text.
Local Open Scope string_scope.

(** A value after its name on the same line, or (matrices, nested descriptions) on the lines below it. *)
Inductive field := Line (name value : string) | Block (name value : string).
Definition line_break : string := String newline "".
Definition show_field (f : field) : string :=
  match f with Line n v => n +:+ ": " +:+ v | Block n v => n +:+ ": " +:+ line_break +:+ v end.
(** Fields separated by line breaks. *)
Fixpoint document (fs : list field) : string :=
  match fs with
  | [] => ""
  | f :: fs' => match fs' with [] => show_field f | _ => show_field f +:+ line_break +:+ document fs' end
  end.
(** Fields each followed by a line break. *)
Fixpoint report (fs : list field) : string :=
  match fs with [] => "" | f :: fs' => show_field f +:+ line_break +:+ report fs' end.
