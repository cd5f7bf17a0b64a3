(** The volume of a part of the unit cube [[0, 1]^n], as an iterated (Riemann) integral: what the probability of an event is
    when the [n] random numbers it depends on are independent and uniform on [[0, 1]]. *)
From stdpp Require Import prelude list.
From Coq Require Import Reals.
From Coquelicot Require Import Coquelicot.
Local Open Scope R_scope.

(** A region is a set of lists of [n] numbers.  Its volume in dimension 0 is 1 or 0; in dimension [n + 1] it is the integral,
    over the first coordinate, of the volumes of the slices. *)
Fixpoint has_volume (n : nat) (region : list R -> Prop) (v : R) : Prop :=
  match n with
  | O => (region [] /\ v = 1) \/ (~ region [] /\ v = 0)
  | S n' => exists slice : R -> R,
      (forall u, 0 <= u <= 1 -> has_volume n' (fun l => region (u :: l)) (slice u)) /\ is_RInt slice 0 1 v
  end.

(** The first [n] numbers of a sequence. *)
Definition draws (f : nat -> R) (n : nat) : list R := map f (seq 0 n).
(** The product of a list. *)
Definition prod_list (l : list R) : R := fold_right Rmult 1 l.
