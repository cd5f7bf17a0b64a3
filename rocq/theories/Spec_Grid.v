(** Vocabulary for the statements about [Grid] and [Histogram] (C26-C32). *)
From Coq Require Import ZArith Reals.
From stdpp Require Import prelude list.
From Verif Require Import Base GridModel.
Local Open Scope Z_scope.

(** [0 <= idx_i < n_i] in every dimension. *)
Definition valid_index (n idx : list Z) : Prop := Forall2 (fun i k => 0 <= i < k) idx n.

(** The number of valid indices. *)
Definition product (n : list Z) : Z := fold_right Z.mul 1 n.

(** What the statements need from the arithmetic: once the constructor's three checks passed in
    a dimension, that dimension has at least one cell. *)
Definition counts_positive {T} (o : coord_ops T) : Prop :=
  forall a b r k,
    c_nonpos o r = false -> c_leb o b a = false -> c_ltb o (c_sub o b a) r = false ->
    c_cells o (c_sub o b a) r = Some k -> 1 <= k.

(** Grids a program can have: constructed with vectors of one dimension [M >= 1], then written
    to and reset. *)
Inductive grid_reachable {T C} (o : coord_ops T) (c0 : C) : grid T C -> Prop :=
| gr_new mn mx rs g :
    length mn = length rs -> length mx = length rs -> rs <> [] ->
    grid_new o c0 mn mx rs = Ret g -> grid_reachable o c0 g
| gr_set g idx f g' :
    grid_reachable o c0 g -> setCell g idx f = (g', Ret tt) -> grid_reachable o c0 g'
| gr_reset g :
    grid_reachable o c0 g -> grid_reachable o c0 (grid_reset c0 g).

(** A rounding function as IEEE prescribes it: monotone, and exact on the integers 0 and 1. *)
Definition rounding (rnd : R -> R) : Prop :=
  (forall x y, (x <= y)%R -> (rnd x <= rnd y)%R) /\ rnd 0%R = 0%R /\ rnd 1%R = 1%R.
Definition exact (x : R) : R := x.

(** The arguments of the constructor are sound in every dimension. *)
Definition real_args_ok (mn mx rs : list R) : Prop :=
  forall k a b r, mn !! k = Some a -> mx !! k = Some b -> rs !! k = Some r ->
    (0 < r /\ a < b /\ r <= b - a)%R.
Definition int_args_ok (mn mx rs : list Z) : Prop :=
  forall k a b r, mn !! k = Some a -> mx !! k = Some b -> rs !! k = Some r ->
    0 < r /\ a < b /\ r <= b - a.
