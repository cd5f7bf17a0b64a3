(** Notions used in the statements about random sampling. *)
From stdpp Require Import prelude list.
From Coq Require Import Reals ZArith.
Local Open Scope R_scope.

(** A generator: every number it produces lies in [0, RM]. *)
Definition generator {G} (next : G -> Z * G) (RM : Z) : Prop :=
  (0 < RM)%Z /\ forall g, (0 <= fst (next g) <= RM)%Z.
(** The state after [n] numbers, and the [n]-th number from now (counting from 0). *)
Fixpoint advance {G} (next : G -> Z * G) (n : nat) (g : G) : G :=
  match n with O => g | S n' => advance next n' (snd (next g)) end.
Definition number {G} (next : G -> Z * G) (g : G) (n : nat) : Z := fst (next (advance next n g)).
(** The [n]-th number scaled to [0, 1]. *)
Definition unit_number {G} (next : G -> Z * G) (RM : Z) (g : G) (n : nat) : R := IZR (number next g n) / IZR RM.

(** Product of the first [n] values of [f]. *)
Fixpoint prod_first (f : nat -> R) (n : nat) : R :=
  match n with O => 1 | S n' => prod_first f n' * f n' end.
(** Sum of the first [n] entries of a list. *)
Definition sum_first (p : list R) (n : nat) : R := fold_right Rplus 0 (take n p).
