(** Vocabulary for the statements about texts (C113, C114). *)
From stdpp Require Import prelude list strings.
From Coq Require Import Ascii String.

(** The character does not occur in the text. *)
Fixpoint lacks (c : ascii) (s : string) : Prop :=
  match s with EmptyString => True | String d s' => d <> c /\ lacks c s' end.
(** How often the character occurs. *)
Fixpoint occurrences (c : ascii) (s : string) : nat :=
  match s with EmptyString => 0 | String d s' => (if bool_decide (d = c) then 1 else 0) + occurrences c s' end.
Definition newline : ascii := "010"%char.
Definition nul : ascii := "000"%char.
