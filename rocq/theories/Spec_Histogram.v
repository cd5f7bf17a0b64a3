(** Vocabulary for the statements about [Histogram] (C31, C32). *)
From Coq Require Import ZArith Reals.
From stdpp Require Import prelude list.
From Verif Require Import Base GridModel Spec_Grid.

(** [counts P l n]: exactly [n] elements of [l] satisfy [P]. *)
Inductive counts {A} (P : A -> Prop) : list A -> nat -> Prop :=
| counts_nil : counts P [] 0
| counts_yes x l n : P x -> counts P l n -> counts P (x :: l) (S n)
| counts_no x l n : ~ P x -> counts P l n -> counts P (x :: l) n.

Local Open Scope R_scope.
Definition inside (g : grid R R) (p : list R) : Prop :=
  Forall2 Rle (g_min g) p /\ Forall2 Rle p (g_max g).
(** The sample lies in the half-open bin [idx] (closed at the maximum of the range). *)
Definition in_bin (g : grid R R) (idx : list Z) (p : list R) : Prop :=
  inside g p /\
  forall k a b r x i,
    g_min g !! k = Some a -> g_max g !! k = Some b -> g_res g !! k = Some r ->
    p !! k = Some x -> idx !! k = Some i ->
    a + IZR i * r <= x <= a + (IZR i + 1) * r /\ (x < b -> x < a + (IZR i + 1) * r).
Definition inside_int (g : grid Z R) (p : list Z) : Prop :=
  Forall2 Z.le (g_min g) p /\ Forall2 Z.le p (g_max g).
Definition in_bin_int (g : grid Z R) (idx : list Z) (p : list Z) : Prop :=
  inside_int g p /\
  forall k a r x i, g_min g !! k = Some a -> g_res g !! k = Some r -> p !! k = Some x ->
    idx !! k = Some i -> (a + i * r <= x < a + (i + 1) * r)%Z.

Definition Rsum (l : list R) : R := fold_right Rplus 0 l.
(** [sum_i f i c_i] over a list of bins *)
Definition bin_sum (f : nat -> R -> R) (bins : list R) : R := Rsum (imap f bins).

(** Histograms a program can have: constructed with one dimension [M >= 1], then filled and
    reset. *)
From Verif Require Import HistogramModel.
Inductive hist_reachable {T} (o : coord_ops T) : grid T R -> Prop :=
| hr_new mn mx rs g :
    length mn = length rs -> length mx = length rs -> rs <> [] ->
    hist_new o mn mx rs = Ret g -> hist_reachable o g
| hr_add g p g' :
    hist_reachable o g -> addSample o g p = (g', Ret tt) -> hist_reachable o g'
| hr_reset g : hist_reachable o g -> hist_reachable o (grid_reset 0 g).
