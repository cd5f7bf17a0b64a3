(** Model of [Grid<T, C, M>]
    (incremental_calibration/include/aslam/calibration/data-structures/Grid.h, Grid.tpp).
    Coordinates and indices are lists of length [M].  The arithmetic of the coordinate type [T]
    is a parameter, instantiated three times: integers, reals under a rounding function, and
    IEEE binary64 numbers. *)
From Coq Require Import ZArith Reals.
From Flocq Require Import Core.Raux IEEE754.BinarySingleNaN.
From stdpp Require Import prelude list.
From Verif Require Import Base.
Local Open Scope Z_scope.
Global Instance prec53 : FLX.Prec_gt_0 53 := eq_refl.
Global Instance emax1024 : Prec_lt_emax 53 1024 := eq_refl.

(** What [Grid] does with numbers of type [T]. *)
Record coord_ops (T : Type) := CoordOps {
  c_leb : T -> T -> bool;          (* a <= b                     Grid.tpp 25, 210, 211 *)
  c_ltb : T -> T -> bool;          (* a < b  (res > range)       Grid.tpp 29 *)
  c_eqb : T -> T -> bool;          (* a == b                     Grid.tpp 178 *)
  c_nonpos : T -> bool;            (* x <= 0                     Grid.tpp 21 *)
  c_sub : T -> T -> T;             (* a - b *)
  c_cells : T -> T -> option Z;    (* (int) Traits::ceil(range / res)   Grid.tpp 37-38, 283-293 *)
  c_cell : T -> T -> option Z;     (* (int) (diff / res)         Grid.tpp 181 *)
  c_centre : T -> Z -> T -> T      (* min + (idx + 0.5) * res    Grid.tpp 204 *)
}.
Global Arguments CoordOps {T}.
Global Arguments c_leb {T}. Global Arguments c_ltb {T}. Global Arguments c_eqb {T}.
Global Arguments c_nonpos {T}. Global Arguments c_sub {T}. Global Arguments c_cells {T}.
Global Arguments c_cell {T}. Global Arguments c_centre {T}.

(** Integral [T]: C++ division truncates towards zero, [ceil] of an integer quotient is the
    quotient and one is added (Grid.tpp 290-293); the centre is computed in [double] and
    truncated when stored (Grid.tpp 204).  Overflow is not modelled. *)
Definition int_ops : coord_ops Z :=
  CoordOps Z.leb Z.ltb Z.eqb (fun x => x <=? 0) Z.sub
    (fun r s => Some (Z.quot r s + 1)) (fun d s => Some (Z.quot d s))
    (fun m i s => Z.quot (2 * m + (2 * i + 1) * s) 2).

(** Floating-point [T], as real numbers; [rnd] is the rounding applied to the result of every
    operation ([fun x => x]: exact arithmetic).  Infinities, NaNs and conversions to [int]
    outside its range are not modelled here (they are in [double_ops]). *)
Definition real_ops (rnd : R -> R) : coord_ops R :=
  CoordOps (fun a b => if Rle_dec a b then true else false)
    (fun a b => if Rlt_dec a b then true else false)
    (fun a b => if Req_EM_T a b then true else false)
    (fun x => if Rle_dec x 0 then true else false)
    (fun a b => rnd (a - b)%R)
    (fun r s => Some (Zceil (rnd (r / s)%R)))
    (fun d s => Some (Ztrunc (rnd (d / s)%R)))
    (fun m i s => rnd (m + rnd ((IZR i + / 2) * s))%R).

(** IEEE binary64 numbers, round to nearest even, with infinities and NaNs
    (Flocq's executable definition). *)
Definition double := binary_float 53 1024.
(** [static_cast<int>]: [None] = undefined (NaN, infinity, outside 32-bit [int]). *)
Definition int_range (z : Z) : option Z :=
  if (-2147483648 <=? z) && (z <=? 2147483647) then Some z else None.
Definition double_to_int (f : double) : option Z :=
  if is_finite f then int_range (Btrunc f) else None.
Definition double_ceil_to_int (f : double) : option Z :=
  match f with
  | B754_zero _ => Some 0
  | B754_finite s m e _ =>
      let m' := if s then Zneg m else Zpos m in
      int_range (if 0 <=? e then m' * 2 ^ e else - ((- m') / (2 ^ (- e))))
  | _ => None
  end.
Definition double_of_Z (m e : Z) : double := binary_normalize 53 1024 eq_refl eq_refl mode_NE m e false.
Definition d_sub : double -> double -> double := Bminus mode_NE.
Definition d_add : double -> double -> double := Bplus mode_NE.
Definition d_mul : double -> double -> double := Bmult mode_NE.
Definition d_div : double -> double -> double := Bdiv mode_NE.
Definition double_ops : coord_ops double :=
  CoordOps Bleb Bltb Beqb (fun x => Bleb x (B754_zero false)) d_sub
    (fun r s => double_ceil_to_int (d_div r s)) (fun d s => double_to_int (d_div d s))
    (fun m i s => d_add m (d_mul (d_add (double_of_Z i 0) (double_of_Z 1 (-1))) s)).

(** The data members (Grid.h 150-170). *)
Record grid (T C : Type) := Grid {
  g_min : list T; g_max : list T; g_res : list T;
  g_n : list Z;          (* mNumCells *)
  g_tot : Z;             (* mNumCellsTot *)
  g_lin : list Z;        (* mLinProd *)
  g_cells : list C
}.
Global Arguments Grid {T C}.
Global Arguments g_min {T C}. Global Arguments g_max {T C}. Global Arguments g_res {T C}.
Global Arguments g_n {T C}. Global Arguments g_tot {T C}. Global Arguments g_lin {T C}.
Global Arguments g_cells {T C}.

Section grid.
Context {T C : Type} (o : coord_ops T).

(** Eigen's [(a.array() op b.array()).any()] / [.all()]. *)
Fixpoint any2 (f : T -> T -> bool) (a b : list T) : bool :=
  match a, b with x :: a', y :: b' => f x y || any2 f a' b' | _, _ => false end.
Fixpoint all2 {A} (f : A -> A -> bool) (a b : list A) : bool :=
  match a, b with x :: a', y :: b' => f x y && all2 f a' b' | _, _ => true end.

(** Grid.tpp 36-40: the number of cells in each dimension. *)
Fixpoint cell_counts (mn mx rs : list T) : option (list Z) :=
  match mn, mx, rs with
  | a :: mn', b :: mx', r :: rs' =>
      match c_cells o (c_sub o b a) r, cell_counts mn' mx' rs' with
      | Some k, Some ks => Some (k :: ks)
      | _, _ => None
      end
  | _, _, _ => Some []
  end.

(** Grid.tpp 41-43: [mLinProd(i) = prod_{j > i} mNumCells(j)]. *)
Definition lin_prod (n : list Z) : list Z :=
  map (fun i => fold_left Z.mul (drop (S i) n) 1) (seq 0 (length n)).

(** The constructor, Grid.tpp 17-46.  [c0] is the value-initialised cell [C()]. *)
Definition grid_new (c0 : C) (mn mx rs : list T) : result (grid T C) :=
  if existsb (c_nonpos o) rs then Throw BadArgument                                 (* 21-24 *)
  else if any2 (fun a b => c_leb o b a) mn mx then Throw BadArgument                (* 25-28 *)
  else if any2 (fun r d => c_ltb o d r) rs (zip_with (c_sub o) mx mn)
  then Throw BadArgument                                                            (* 29-32 *)
  else match cell_counts mn mx rs with
       | None => UB
       | Some n =>
         let tot := fold_left Z.mul n 1 in                                          (* 34, 39 *)
         Ret (Grid mn mx rs n tot (lin_prod n) (replicate (Z.to_nat tot) c0))       (* 44 *)
       end.

(** [isInRange], Grid.tpp 209-212. *)
Definition isInRange (g : grid T C) (p : list T) : bool :=
  all2 (c_leb o) p (g_max g) && all2 (fun a b => c_leb o b a) p (g_min g).

(** [isValidIndex], Grid.tpp 215-217. *)
Definition isValidIndex (g : grid T C) (idx : list Z) : bool := all2 Z.ltb idx (g_n g).

(** [computeLinearIndex], Grid.tpp 252-257.  The result is a [size_t]; a value outside
    [0, 2^64) stands for its residue, which is outside every vector. *)
Definition linear (g : grid T C) (idx : list Z) : Z :=
  fold_left Z.add (zip_with Z.mul (g_lin g) idx) 0.

(** [mCells[k]]: an access outside the vector is undefined. *)
Definition vec_get {A} (l : list A) (k : Z) : result A :=
  if decide (0 <= k) then match l !! Z.to_nat k with Some a => Ret a | None => UB end else UB.

(** [getCell] / [operator []], Grid.tpp 145-168. *)
Definition getCell (g : grid T C) (idx : list Z) : result C :=
  if isValidIndex g idx then vec_get (g_cells g) (linear g idx) else Throw OutOfBound.

(** Writing through the reference returned by the non-const [getCell] (Grid.tpp 153-158). *)
Definition setCell (g : grid T C) (idx : list Z) (f : C -> C) : grid T C * result unit :=
  match getCell g idx with
  | Ret a => (Grid (g_min g) (g_max g) (g_res g) (g_n g) (g_tot g) (g_lin g)
                (<[Z.to_nat (linear g idx) := f a]> (g_cells g)), Ret tt)
  | Throw e => (g, Throw e)
  | UB => (g, UB)
  | Diverge => (g, Diverge)
  end.

(** The loop of [getIndex], Grid.tpp 177-182. *)
Fixpoint index_loop (mn mx rs : list T) (n : list Z) (p : list T) : option (list Z) :=
  match mn, mx, rs, n, p with
  | a :: mn', b :: mx', r :: rs', k :: n', x :: p' =>
      match (if c_eqb o x b then Some (k - 1) else c_cell o (c_sub o x a) r),
            index_loop mn' mx' rs' n' p' with
      | Some i, Some is => Some (i :: is)
      | _, _ => None
      end
  | _, _, _, _, _ => Some []
  end.

(** [getIndex], Grid.tpp 171-183. *)
Definition getIndex (g : grid T C) (p : list T) : result (list Z) :=
  if isInRange g p then
    match index_loop (g_min g) (g_max g) (g_res g) (g_n g) p with
    | Some idx => Ret idx
    | None => UB
    end
  else Throw OutOfBound.

(** [operator ()], Grid.tpp 185-194. *)
Definition getCellAt (g : grid T C) (p : list T) : result C := rbind (getIndex g p) (getCell g).

(** The loop of [getCoordinates], Grid.tpp 203-204. *)
Fixpoint centre_loop (mn rs : list T) (idx : list Z) : list T :=
  match mn, rs, idx with
  | a :: mn', r :: rs', i :: idx' => c_centre o a i r :: centre_loop mn' rs' idx'
  | _, _, _ => []
  end.

(** [getCoordinates], Grid.tpp 196-206. *)
Definition getCoordinates (g : grid T C) (idx : list Z) : result (list T) :=
  if isValidIndex g idx then Ret (centre_loop (g_min g) (g_res g) idx) else Throw OutOfBound.

(** [reset], Grid.tpp 260-263. *)
Definition grid_reset (c0 : C) (g : grid T C) : grid T C :=
  Grid (g_min g) (g_max g) (g_res g) (g_n g) (g_tot g) (g_lin g) (map (fun _ => c0) (g_cells g)).

(** [incrementIndex], Grid.tpp 266-281; [i] is the loop variable, [todo] the rounds left. *)
Fixpoint inc_loop (n : list Z) (todo i : nat) (idx : list Z) : list Z :=
  match todo with
  | O => idx
  | S todo' =>
      match idx !! i, n !! i with
      | Some x, Some k =>
          if x + 1 <? k then <[i := x + 1]> idx
          else if Nat.ltb i (length idx - 1) then inc_loop n todo' (S i) (<[i := 0]> idx)
               else n
      | _, _ => idx
      end
  end.
Definition incrementIndex (g : grid T C) (idx : list Z) : list Z :=
  inc_loop (g_n g) (length idx) 0 idx.

(** [for (Index i = Index::Zero(n); i != getNumCells(); incrementIndex(i))], the loop used all
    over Histogram1v.tpp and HistogramMv.tpp (e.g. Histogram1v.tpp 46-48): the indices visited
    from [idx] on; [None]: not finished after [fuel] tests. *)
Fixpoint walk (fuel : nat) (g : grid T C) (idx : list Z) : option (list (list Z)) :=
  match fuel with
  | O => None
  | S f => if decide (idx = g_n g) then Some []
           else match walk f g (incrementIndex g idx) with
                | Some l => Some (idx :: l)
                | None => None
                end
  end.
End grid.
