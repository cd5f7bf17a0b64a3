(** C26-C30: [Grid<T, C, M>] (data-structures/Grid.h, Grid.tpp).  Statements only. *)
From Coq Require Import ZArith Lia Reals Lra.
From Flocq Require Import Core.Raux IEEE754.BinarySingleNaN.
From stdpp Require Import prelude list.
From Verif Require Import Base GridModel Spec_Grid GridProofs GridCoordProofs GridDoubleProofs.
Local Open Scope Z_scope.

(** The arithmetics covered by the generic statements: integers, reals under any IEEE-like
    rounding, exact reals, and IEEE doubles with NaN and infinities. *)
Theorem grid_arithmetics_covered :
  counts_positive int_ops /\ counts_positive double_ops /\
  (forall rnd, rounding rnd -> counts_positive (real_ops rnd)) /\ rounding exact.
Proof.
  exact (conj int_counts_positive (conj double_counts_positive
    (conj real_counts_positive exact_rounding))).
Qed.
Print Assumptions grid_arithmetics_covered.

(** C26.  [getCells()] has as many cells as there are valid indices; [getCell] on a valid index
    returns; writing through it changes the cell of that index and of no other valid index; and
    every position of the storage is the cell of a valid index. *)
Theorem grid_cells_one_to_one :
  forall (T C : Type) (o : coord_ops T) (c0 : C) (g : grid T C),
    counts_positive o -> grid_reachable o c0 g ->
    length (g_cells g) = Z.to_nat (product (g_n g)) /\
    (forall idx, valid_index (g_n g) idx -> exists c, getCell g idx = Ret c) /\
    (forall idx f, valid_index (g_n g) idx -> exists c g',
       getCell g idx = Ret c /\ setCell g idx f = (g', Ret tt) /\ g_n g' = g_n g /\
       getCell g' idx = Ret (f c) /\
       forall idx', valid_index (g_n g) idx' -> idx' <> idx ->
         getCell g' idx' = getCell g idx') /\
    (forall k c, g_cells g !! k = Some c ->
       exists idx, valid_index (g_n g) idx /\ getCell g idx = Ret c /\
         forall f g', setCell g idx f = (g', Ret tt) -> g_cells g' = <[k := f c]> (g_cells g)).
Proof. exact @cells_one_to_one. Qed.
Print Assumptions grid_cells_one_to_one.

(** A 3 x 4 x 2 integer grid. *)
Definition gx : grid Z nat :=
  Grid [0; -5; 10] [5; 4; 13] [2; 3; 3] [3; 4; 2] 24 [8; 2; 1] (replicate 24 0%nat).
Example gx_reachable : grid_reachable int_ops 0%nat gx.
Proof. apply (gr_new int_ops 0%nat [0; -5; 10] [5; 4; 13] [2; 3; 3]); [done..|reflexivity]. Qed.
Example grid_cells_case :
  valid_index (g_n gx) [2; 1; 1] /\ getCell gx [2; 1; 1] = Ret 0%nat /\
  getCell (fst (setCell gx [2; 1; 1] (fun _ => 7%nat))) [2; 1; 1] = Ret 7%nat.
Proof. split; [repeat constructor; simpl; lia|]. split; reflexivity. Qed.

(** C27.  [for (i = Index::Zero(M); i != getNumCells(); incrementIndex(i))] ends, and the indices
    it visits are exactly the valid ones, each once. *)
Theorem grid_iteration_complete :
  forall (T C : Type) (o : coord_ops T) (c0 : C) (g : grid T C),
    counts_positive o -> grid_reachable o c0 g ->
    exists visited, NoDup visited /\
      (forall idx, idx ∈ visited <-> valid_index (g_n g) idx) /\
      forall fuel, (Z.to_nat (product (g_n g)) < fuel)%nat ->
        walk fuel g (replicate (length (g_n g)) 0) = Some visited.
Proof. exact @walk_all. Qed.
Print Assumptions grid_iteration_complete.

Example grid_iteration_case :
  walk 25 gx [0; 0; 0] = Some [[0;0;0]; [1;0;0]; [2;0;0]; [0;1;0]; [1;1;0]; [2;1;0]; [0;2;0];
    [1;2;0]; [2;2;0]; [0;3;0]; [1;3;0]; [2;3;0]; [0;0;1]; [1;0;1]; [2;0;1]; [0;1;1]; [1;1;1];
    [2;1;1]; [0;2;1]; [1;2;1]; [2;2;1]; [0;3;1]; [1;3;1]; [2;3;1]].
Proof. vm_compute. reflexivity. Qed.

(** C28, constructor: it returns exactly on sound arguments and throws [BadArgumentException]
    otherwise; the number of cells is the smallest that covers the range (real types) resp. covers
    it including the maximum (integral types). *)
Theorem grid_constructor_real :
  forall (C : Type) (c0 : C) mn mx rs,
    length mn = length rs -> length mx = length rs ->
    (real_args_ok mn mx rs /\ exists g, grid_new (real_ops exact) c0 mn mx rs = Ret g) \/
    (~ real_args_ok mn mx rs /\ grid_new (real_ops exact) c0 mn mx rs = Throw BadArgument).
Proof. exact @real_ctor. Qed.
Print Assumptions grid_constructor_real.
Theorem grid_constructor_int :
  forall (C : Type) (c0 : C) mn mx rs,
    length mn = length rs -> length mx = length rs ->
    (int_args_ok mn mx rs /\ exists g, grid_new int_ops c0 mn mx rs = Ret g) \/
    (~ int_args_ok mn mx rs /\ grid_new int_ops c0 mn mx rs = Throw BadArgument).
Proof. exact @int_ctor. Qed.
Print Assumptions grid_constructor_int.
Theorem grid_counts_real :
  forall (C : Type) (c0 : C) (g : grid R C), grid_reachable (real_ops exact) c0 g ->
    real_args_ok (g_min g) (g_max g) (g_res g) /\
    forall k a b r c, g_min g !! k = Some a -> g_max g !! k = Some b -> g_res g !! k = Some r ->
      g_n g !! k = Some c -> ((IZR c - 1) * r < b - a <= IZR c * r)%R.
Proof. exact @real_counts. Qed.
Print Assumptions grid_counts_real.
Theorem grid_counts_int :
  forall (C : Type) (c0 : C) (g : grid Z C), grid_reachable int_ops c0 g ->
    int_args_ok (g_min g) (g_max g) (g_res g) /\
    forall k a b r c, g_min g !! k = Some a -> g_max g !! k = Some b -> g_res g !! k = Some r ->
      g_n g !! k = Some c -> (c - 1) * r <= b - a < c * r.
Proof. exact @int_counts. Qed.
Print Assumptions grid_counts_int.

(** C28, lookup, exact real coordinates: an in-range point gets a valid index whose cell
    [min + i res, min + (i+1) res) contains it (the upper end included for the maximum); every
    other point throws [OutOfBoundException]. *)
Theorem grid_point_to_cell_real :
  forall (C : Type) (c0 : C) (g : grid R C) (p : list R),
    grid_reachable (real_ops exact) c0 g -> length p = length (g_min g) ->
    (Forall2 Rle (g_min g) p /\ Forall2 Rle p (g_max g) ->
     exists idx, getIndex (real_ops exact) g p = Ret idx /\ valid_index (g_n g) idx /\
       forall k a b r x i,
         g_min g !! k = Some a -> g_max g !! k = Some b -> g_res g !! k = Some r ->
         p !! k = Some x -> idx !! k = Some i ->
         (a + IZR i * r <= x <= a + (IZR i + 1) * r)%R /\
         ((x < b)%R -> (x < a + (IZR i + 1) * r)%R)) /\
    (~ (Forall2 Rle (g_min g) p /\ Forall2 Rle p (g_max g)) ->
     getIndex (real_ops exact) g p = Throw OutOfBound).
Proof. exact @real_index. Qed.
Print Assumptions grid_point_to_cell_real.

(** C28, lookup, integral coordinates. *)
Theorem grid_point_to_cell_int :
  forall (C : Type) (c0 : C) (g : grid Z C) (p : list Z),
    grid_reachable int_ops c0 g -> length p = length (g_min g) ->
    (Forall2 Z.le (g_min g) p /\ Forall2 Z.le p (g_max g) ->
     exists idx, getIndex int_ops g p = Ret idx /\ valid_index (g_n g) idx /\
       forall k a r x i, g_min g !! k = Some a -> g_res g !! k = Some r -> p !! k = Some x ->
         idx !! k = Some i -> a + i * r <= x < a + (i + 1) * r) /\
    (~ (Forall2 Z.le (g_min g) p /\ Forall2 Z.le p (g_max g)) ->
     getIndex int_ops g p = Throw OutOfBound).
Proof. exact @int_index. Qed.
Print Assumptions grid_point_to_cell_int.

Example grid_point_int_case :
  Forall2 Z.le (g_min gx) [5; -1; 12] /\ Forall2 Z.le [5; -1; 12] (g_max gx) /\
  getIndex int_ops gx [5; -1; 12] = Ret [2; 1; 0] /\
  getIndex int_ops gx [6; 0; 10] = Throw OutOfBound.
Proof. repeat split; repeat constructor; simpl; lia. Qed.

(** A real grid: [0, 6/5] in steps of 1 and [-1, 2] in steps of 1/2. *)
Definition rx_args : list R * list R * list R := ([0; -1], [6 / 5; 2], [1; 1 / 2])%R.
Example rx_ok : real_args_ok (fst (fst rx_args)) (snd (fst rx_args)) (snd rx_args).
Proof.
  intros [|[|k]] a b r; simpl; [intros [= <-] [= <-] [= <-]; lra..|]. by rewrite lookup_nil.
Qed.
Lemma rx_exists : exists g : grid R nat, grid_reachable (real_ops exact) 0%nat g /\
  g_min g = fst (fst rx_args) /\ g_max g = snd (fst rx_args) /\ g_res g = snd rx_args /\
  g_n g = [2; 6].
Proof.
  destruct (real_ctor 0%nat (fst (fst rx_args)) (snd (fst rx_args)) (snd rx_args)) as [[_ [g Hg]]|[H _]];
    [done|done| |destruct (H rx_ok)].
  assert (grid_reachable (real_ops exact) 0%nat g) as Hr by (apply (gr_new _ _ (fst (fst rx_args)) (snd (fst rx_args)) (snd rx_args)); done).
  destruct (grid_new_wf (real_ops exact) 0%nat (fst (fst rx_args)) (snd (fst rx_args))
    (snd rx_args) g eq_refl eq_refl ltac:(done) Hg)
    as ((_ & HL & _) & E1 & E2 & E3 & _).
  exists g. do 4 (split; [done|]).
  destruct (real_counts _ _ Hr) as [_ Hc]. rewrite E1, E2, E3 in *. simpl in *.
  destruct (g_n g) as [|c1 [|c2 [|c3 n]]] eqn:En; simpl in HL; try discriminate.
  pose proof (Hc 0%nat _ _ _ c1 eq_refl eq_refl eq_refl eq_refl) as H1.
  pose proof (Hc 1%nat _ _ _ c2 eq_refl eq_refl eq_refl eq_refl) as H2. simpl in *.
  f_equal; [|f_equal].
  - assert (c1 < 3) by (apply lt_IZR; lra). assert (1 < c1) by (apply lt_IZR; lra). lia.
  - assert (c2 < 7) by (apply lt_IZR; lra). assert (5 < c2) by (apply lt_IZR; lra). lia.
Qed.
Example grid_point_real_case : exists (g : grid R nat) p,
  grid_reachable (real_ops exact) 0%nat g /\ length p = length (g_min g) /\
  Forall2 Rle (g_min g) p /\ Forall2 Rle p (g_max g).
Proof.
  destruct rx_exists as (g & Hr & E1 & E2 & _). exists g, [1; 2]%R. split; [done|].
  rewrite E1, E2. simpl. split; [done|]. split; repeat constructor; lra.
Qed.

(** C28 in floating point.  With real IEEE doubles (any bit patterns, including NaN and
    infinities) a constructed grid looks up every point without undefined behaviour: out-of-range
    points throw, in-range ones get an index that exceeds no cell count... *)
Theorem grid_point_to_cell_double :
  forall (C : Type) (c0 : C) (g : grid double C) (p : list double),
    grid_reachable double_ops c0 g -> length p = length (g_min g) ->
    ((isInRange double_ops g p = false /\ getIndex double_ops g p = Throw OutOfBound) \/
     (isInRange double_ops g p = true /\ exists idx, getIndex double_ops g p = Ret idx /\
        Forall2 (fun i c => 0 <= i <= c) idx (g_n g))) /\
    came_back (getCellAt double_ops g p).
Proof.
  exact (fun C c0 g p H HL => conj (double_index c0 g p H HL) (double_lookup_safe c0 g p H HL)).
Qed.
Print Assumptions grid_point_to_cell_double.

(** ... and may be equal to it: in the grid [-1, 2^-60] with resolution 1/2 the in-range point 0
    has no cell, [operator ()] (and [Histogram::addSample]) throws. *)
Definition fx_min := [double_of_Z (-1) 0].
Definition fx_max := [double_of_Z 1 (-60)].
Definition fx_res := [double_of_Z 1 (-1)].
Definition fx : result (grid double nat) :=
  grid_new double_ops 0%nat fx_min fx_max fx_res.
Theorem grid_point_to_cell_double_refuted :
  exists (g : grid double nat) (p : list double),
    grid_reachable double_ops 0%nat g /\ length p = length (g_min g) /\
    isInRange double_ops g p = true /\ getCellAt double_ops g p = Throw OutOfBound.
Proof.
  assert (match fx with
          | Ret g => isInRange double_ops g [double_of_Z 0 0] = true /\
                     getCellAt double_ops g [double_of_Z 0 0] = Throw OutOfBound /\
                     length (g_min g) = 1%nat
          | _ => False end) as H by (vm_compute; done).
  revert H.
  assert (forall r, grid_new double_ops 0%nat fx_min fx_max fx_res = r -> r = fx ->
    match r with
    | Ret g => isInRange double_ops g [double_of_Z 0 0] = true /\
               getCellAt double_ops g [double_of_Z 0 0] = Throw OutOfBound /\
               length (g_min g) = 1%nat
    | _ => False end -> exists (g : grid double nat) (p : list double),
    grid_reachable double_ops 0%nat g /\ length p = length (g_min g) /\
    isInRange double_ops g p = true /\ getCellAt double_ops g p = Throw OutOfBound) as K.
  { intros [g| | |] E _ H; [|destruct H..]. destruct H as (H1 & H2 & H3).
    exists g, [double_of_Z 0 0]. split; [|split; [exact (eq_sym H3)|split; [exact H1|exact H2]]].
    assert (fx_res <> []) as Hne by (intros X; discriminate X).
    exact (gr_new double_ops 0%nat fx_min fx_max fx_res g eq_refl eq_refl Hne E). }
  exact (K fx eq_refl eq_refl).
Qed.
Print Assumptions grid_point_to_cell_double_refuted.

(** C28, constructor, in floating point (violated): NaN or an infinite extent passes all three
    checks and the conversion of the cell count to [int] is undefined. *)
Theorem grid_constructor_double_refuted :
  grid_new double_ops 0%nat [B754_nan] [double_of_Z 1 0] [double_of_Z 1 (-1)] = UB /\
  grid_new double_ops 0%nat [double_of_Z (-1) 1023] [double_of_Z 1 1023] [double_of_Z 1 0] = UB /\
  grid_new double_ops 0%nat [double_of_Z 0 0] [double_of_Z 1 40] [double_of_Z 1 0] = UB.
Proof. repeat split; vm_compute; reflexivity. Qed.
Print Assumptions grid_constructor_double_refuted.

(** C29, what holds: the centre of a valid cell is [min + (i + 1/2) res]; if it does not exceed
    the maximum, [getIndex] maps it back; it never exceeds it when the resolution divides the
    range. *)
Theorem grid_centre_round_trip_real :
  forall (C : Type) (c0 : C) (g : grid R C) idx,
    grid_reachable (real_ops exact) c0 g -> valid_index (g_n g) idx ->
    exists p, getCoordinates (real_ops exact) g idx = Ret p /\ length p = length (g_min g) /\
      (forall k a r i, g_min g !! k = Some a -> g_res g !! k = Some r -> idx !! k = Some i ->
         p !! k = Some (a + (IZR i + 1 / 2) * r)%R) /\
      (Forall2 Rle p (g_max g) -> getIndex (real_ops exact) g p = Ret idx) /\
      ((forall k a b r c, g_min g !! k = Some a -> g_max g !! k = Some b ->
          g_res g !! k = Some r -> g_n g !! k = Some c -> (b - a = IZR c * r)%R) ->
       Forall2 Rle p (g_max g)).
Proof. exact @real_centre. Qed.
Print Assumptions grid_centre_round_trip_real.

(** Integral types: it holds for non-negative minima. *)
Theorem grid_centre_round_trip_int :
  forall (C : Type) (c0 : C) (g : grid Z C) idx,
    grid_reachable int_ops c0 g -> valid_index (g_n g) idx ->
    exists p, getCoordinates int_ops g idx = Ret p /\ length p = length (g_min g) /\
      (Forall (fun a => 0 <= a) (g_min g) -> Forall2 Z.le p (g_max g) ->
       getIndex int_ops g p = Ret idx).
Proof. exact @int_centre. Qed.
Print Assumptions grid_centre_round_trip_int.
Example grid_centre_int_case :
  exists g, grid_new int_ops 0%nat [1; 0] [9; 7] [2; 3] = Ret g /\ valid_index (g_n g) [3; 1] /\
    getCoordinates int_ops g [3; 1] = Ret [8; 4] /\ Forall2 Z.le [8; 4] (g_max g) /\
    getIndex int_ops g [8; 4] = Ret [3; 1].
Proof. eexists. split; [reflexivity|]. repeat split; repeat constructor; simpl; lia. Qed.

(** C29 (violated): the centre of the last cell can lie outside the grid... *)
Theorem grid_centre_round_trip_refuted :
  exists (g : grid R nat) idx p,
    grid_reachable (real_ops exact) 0%nat g /\ valid_index (g_n g) idx /\
    getCoordinates (real_ops exact) g idx = Ret p /\
    getIndex (real_ops exact) g p = Throw OutOfBound.
Proof.
  destruct rx_exists as (g & Hr & E1 & E2 & E3 & En).
  assert (valid_index (g_n g) [1; 2]) as Hv by (rewrite En; repeat constructor; simpl; lia).
  destruct (real_centre _ g [1; 2] Hr Hv) as (p & Hp & HL & Hc & _).
  exists g, [1; 2], p. do 3 (split; [done|]).
  apply (real_index _ g p Hr HL). intros [_ HB].
  specialize (Hc 0%nat). rewrite E1, E3 in Hc. specialize (Hc _ _ _ eq_refl eq_refl eq_refl).
  rewrite E2 in HB. destruct p as [|x p]; [done|]. simpl in Hc. injection Hc as ->.
  inversion HB; subst. lra.
Qed.
Print Assumptions grid_centre_round_trip_refuted.

(** ... and for integral types with a negative minimum the truncation of the centre moves it to
    the neighbouring cell. *)
Theorem grid_centre_round_trip_int_refuted :
  exists g, grid_new int_ops 0%nat [-5] [5] [1] = Ret g /\ valid_index (g_n g) [0] /\
    getCoordinates int_ops g [0] = Ret [-4] /\ getIndex int_ops g [-4] = Ret [1].
Proof. eexists. split; [reflexivity|]. repeat split; repeat constructor; simpl; lia. Qed.
Print Assumptions grid_centre_round_trip_int_refuted.

(** C30, what holds: [getCell] throws exactly if some component is too large... *)
Theorem grid_index_rejected_iff :
  forall (T C : Type) (g : grid T C) idx, length idx = length (g_n g) ->
    getCell g idx = Throw OutOfBound <->
    exists k i c, idx !! k = Some i /\ g_n g !! k = Some c /\ c <= i.
Proof. exact @getCell_throws. Qed.
Print Assumptions grid_index_rejected_iff.
Example grid_large_index_case : getCell gx [0; 4; 0] = Throw OutOfBound.
Proof. reflexivity. Qed.

(** ... (violated for negative components): one negative index reads outside the storage, another
    one is silently the cell of a different, valid index. *)
Theorem grid_negative_index_refuted :
  getCell gx [-1; 0; 0] = UB /\
  (getCell gx [1; -1; 0] = Ret 0%nat /\ ~ valid_index (g_n gx) [1; -1; 0] /\
   forall f, setCell gx [1; -1; 0] f = setCell gx [0; 3; 0] f).
Proof.
  split; [reflexivity|]. split; [reflexivity|]. split; [|reflexivity].
  intros H. inversion H as [|? ? ? ? ? H']; subst. inversion H'; subst. lia.
Qed.
Print Assumptions grid_negative_index_refuted.
