(** Textbook notions for multivariate normal distributions: sums, inverse, Cholesky factor. *)
From Coq Require Import Reals.
Local Open Scope R_scope.

(** Sum and product of f 0, ..., f (n - 1). *)
Fixpoint sumn (n : nat) (f : nat -> R) : R := match n with O => 0 | S n' => sumn n' f + f n' end.
Fixpoint prodn (n : nat) (f : nat -> R) : R := match n with O => 1 | S n' => prodn n' f * f n' end.
Definition delta (i j : nat) : R := if Nat.eqb i j then 1 else 0.
(** [P] is the inverse of the n x n matrix [c]. *)
Definition inverse_of (n : nat) (c P : nat -> nat -> R) : Prop :=
  (forall i j, (i < n)%nat -> (j < n)%nat -> sumn n (fun k => c i k * P k j) = delta i j) /\
  (forall i j, (i < n)%nat -> (j < n)%nat -> sumn n (fun k => P i k * c k j) = delta i j).
(** [L] is the Cholesky factor of [c]: lower triangular, positive diagonal, c = L L^T. *)
Definition cholesky (n : nat) (c L : nat -> nat -> R) : Prop :=
  (forall i j, (i < j)%nat -> L i j = 0) /\ (forall i, (i < n)%nat -> 0 < L i i) /\
  (forall i j, (i < n)%nat -> (j < n)%nat -> c i j = sumn n (fun k => L i k * L j k)).
