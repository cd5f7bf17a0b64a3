(** Model of [Histogram<T, 1>] and [Histogram<T, M>], both subclasses of [Grid<T, double, M>]
    (incremental_calibration/include/aslam/calibration/statistics/Histogram1v.tpp,
    HistogramMv.tpp).  Bin contents are doubles in the code; they are modelled as reals (exact for
    counts up to 2^53).  [toR] is the conversion of a coordinate to [double].  Division by zero
    (an empty histogram) gives NaN in the code and is outside the statements. *)
From Coq Require Import ZArith Reals.
From stdpp Require Import prelude list.
From Verif Require Import Base GridModel.

Section histogram.
Context {T : Type} (o : coord_ops T) (toR : T -> R).
Notation hist := (grid T R).

(** The constructors, Histogram1v.tpp 16-20, HistogramMv.tpp 16-20: the base-class grid with
    value-initialised bins. *)
Definition hist_new (mn mx rs : list T) : result hist := grid_new o 0%R mn mx rs.

(** [addSample], Histogram1v.tpp 99-102, HistogramMv.tpp 88-91. *)
Definition addSample (g : hist) (p : list T) : hist * result unit :=
  if isInRange o g p then
    match getIndex o g p with
    | Ret idx => setCell g idx (fun c => (c + 1)%R)
    | Throw e => (g, Throw e)
    | UB => (g, UB)
    | Diverge => (g, Diverge)
    end
  else (g, Ret tt).

(** [addSamples], Histogram1v.tpp 105-108, HistogramMv.tpp 94-97. *)
Fixpoint addSamples (g : hist) (l : list (list T)) : hist * result unit :=
  match l with
  | [] => (g, Ret tt)
  | p :: l' => match addSample g p with
               | (g', Ret _) => addSamples g' l'
               | r => r
               end
  end.

(** [getSum], Histogram1v.tpp 91-96, HistogramMv.tpp 80-85. *)
Definition getSum (g : hist) : R := fold_left Rplus (g_cells g) 0%R.

(** [getNormalized], Histogram1v.tpp 111-117, HistogramMv.tpp 100-106. *)
Definition getNormalized (g : hist) : hist :=
  Grid (g_min g) (g_max g) (g_res g) (g_n g) (g_tot g) (g_lin g)
    (map (fun c => (c / getSum g)%R) (g_cells g)).

(** The index loop [for (i = Zero; i != mNumCells; incrementIndex(i))] with body [f]; a throw in
    the body leaves the loop. *)
Fixpoint loop_body {A} (f : A -> list Z -> result A) (a : A) (l : list (list Z)) : result A :=
  match l with [] => Ret a | i :: l' => rbind (f a i) (fun a' => loop_body f a' l') end.
Definition indices (g : hist) : option (list (list Z)) :=
  walk (S (Z.to_nat (g_tot g))) g (replicate (length (g_n g)) 0%Z).
Definition for_each {A} (g : hist) (f : A -> list Z -> result A) (a0 : A) : result A :=
  match indices g with Some l => loop_body f a0 l | None => Diverge end.

(** [getCoordinates(i)(0)] *)
Definition coord0 (g : hist) (i : list Z) : result R :=
  rbind (getCoordinates o g i) (fun p => match p with x :: _ => Ret (toR x) | [] => UB end).

(** Histogram1v.tpp 44-50. *)
Definition getMean1 (g : hist) : result R :=
  rbind (for_each g (fun m i => rbind (coord0 g i) (fun x => rbind (getCell g i)
           (fun c => Ret (m + x * c)%R))) 0%R)
    (fun m => Ret (m / getSum g)%R).

(** Histogram1v.tpp 53-63. *)
Fixpoint median_loop (g : hist) (sum cur : R) (l : list (list Z)) : result R :=
  match l with
  | [] => match g_min g with x :: _ => Ret (toR x) | [] => UB end
  | i :: l' =>
      rbind (getCell g i) (fun c =>
        let cur' := (cur + c)%R in
        if Rle_dec (sum * / 2) cur' then coord0 g i else median_loop g sum cur' l')
  end.
Definition getMedian1 (g : hist) : result R :=
  match indices g with Some l => median_loop g (getSum g) 0%R l | None => Diverge end.

(** The search of [getMode], Histogram1v.tpp 66-77, HistogramMv.tpp 53-63: [max] starts at minus
    infinity ([None]) with [modeIdx] uninitialised. *)
Definition mode_index (g : hist) : result (option (R * list Z)) :=
  for_each g (fun best i =>
    rbind (getCell g i) (fun c =>
      match best with
      | None => Ret (Some (c, i))
      | Some (m, _) => if Rlt_dec m c then Ret (Some (c, i)) else Ret best
      end)) None.
Definition getMode1 (g : hist) : result R :=
  rbind (mode_index g) (fun b => match b with Some (_, i) => coord0 g i | None => UB end).
(** HistogramMv.tpp 53-64. *)
Definition getModeM (g : hist) : result (list T) :=
  rbind (mode_index g) (fun b => match b with Some (_, i) => getCoordinates o g i | None => UB end).

(** Histogram1v.tpp 80-88. *)
Definition getVariance1 (g : hist) : result R :=
  rbind (getMean1 g) (fun mean =>
    rbind (for_each g (fun v i => rbind (coord0 g i) (fun x => rbind (getCell g i)
             (fun c => Ret (v + (x - mean) * (x - mean) * c)%R))) 0%R)
      (fun v => Ret (v / (getSum g - 1))%R)).

(** Vectors, componentwise. *)
Definition vadd (a b : list R) : list R := zip_with Rplus a b.
Definition vscale (c : R) (a : list R) : list R := map (fun x => (x * c)%R) a.
(** HistogramMv.tpp 43-50. *)
Definition getMeanM (g : hist) : result (list R) :=
  rbind (for_each g (fun m i => rbind (getCoordinates o g i) (fun p => rbind (getCell g i)
           (fun c => Ret (vadd m (vscale c (map toR p)))))) (replicate (length (g_n g)) 0%R))
    (fun m => Ret (map (fun x => (x / getSum g)%R) m)).

(** Entry [(a, b)] of [getCovariance], HistogramMv.tpp 67-77; the matrix is computed
    entry by entry. *)
Definition getCovarianceM (g : hist) (a b : nat) : result R :=
  rbind (getMeanM g) (fun mean =>
    rbind (for_each g (fun v i => rbind (getCoordinates o g i) (fun p => rbind (getCell g i)
             (fun c => match map toR p !! a, map toR p !! b, mean !! a, mean !! b with
                       | Some x, Some y, Some mx, Some my =>
                           Ret (v + (x - mx) * (y - my) * c)%R
                       | _, _, _, _ => UB
                       end))) 0%R)
      (fun v => Ret (v / (getSum g - 1))%R)).
End histogram.
