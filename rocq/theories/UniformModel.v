(** Model of [UniformDistribution<X>]
    (incremental_calibration/include/aslam/calibration/statistics/UniformDistribution1v.tpp) and
    [UniformDistribution<X, M>] (.../statistics/UniformDistributionMv.tpp), for a real [X] (exact arithmetic) and for a
    signed integral [X] of [w] bits (overflow is undefined behaviour). *)
From stdpp Require Import prelude list.
From Coq Require Import Reals ZArith.
From Flocq Require Import Core.
From Verif Require Import Base.

(** What the templates need from [X]. [None] stands for undefined behaviour. *)
Record uops (X : Type) := UOps {
  u_le : X -> X -> bool;
  u_diff : X -> X -> option X;              (* b - a *)
  u_area : X -> X -> option X;              (* Traits::getSupportArea, 1v.tpp 161-173 *)
  u_R : X -> R;                             (* conversion to double *)
  u_var : R -> R;                           (* Traits::getVariance as a function of the area, 1v.tpp 175-191 *)
  u_ofR : R -> option X                     (* conversion of the double product to X, Mv.tpp 166-186 *)
}.
Global Arguments UOps {X}. Global Arguments u_le {X}. Global Arguments u_diff {X}. Global Arguments u_area {X}.
Global Arguments u_R {X}. Global Arguments u_var {X}. Global Arguments u_ofR {X}.

Definition ureal : uops R :=
  UOps (fun a b => if Rle_dec a b then true else false)
    (fun a b => Some (b - a)%R) (fun a b => Some (b - a)%R) (fun x => x)
    (fun s => (s * s / 12)%R) Some.

(** Signed integers of [w] bits. *)
Definition irange (w : Z) (z : Z) : option Z :=
  if ((- 2 ^ (w - 1) <=? z) && (z <? 2 ^ (w - 1)))%Z then Some z else None.
Definition uint (w : Z) : uops Z :=
  UOps Z.leb (fun a b => irange w (b - a)%Z)
    (fun a b => match irange w (b - a)%Z with Some d => irange w (d + 1)%Z | None => None end)
    IZR (fun s => ((s * s - 1) / 12)%R) (fun r => irange w (Ztrunc r)).

Section uniform.
  Context {X : Type} (o : uops X).

  Record unif := Unif { un_min : X; un_max : X; un_area : X }.

  (** setSupport, 1v.tpp 72-85: the bounds are stored before the area is computed. *)
  Definition setSupport (d : unif) (a b : X) : unif * result unit :=
    if u_le o b a then (d, Throw BadArgument) else
    match u_area o a b with
    | Some s => (Unif a b s, Ret tt)
    | None => (Unif a b (un_area d), UB)
    end.
  (** 87-91, 99-103 *)
  Definition setMinSupport (d : unif) (a : X) := setSupport d a (un_max d).
  Definition setMaxSupport (d : unif) (b : X) := setSupport d (un_min d) b.
  (** Constructor 17-21 *)
  Definition unif_new (junk : unif) (a b : X) : result unif :=
    match setSupport junk a b with
    | (d, Ret _) => Ret d | (_, Throw e) => Throw e | (_, UB) => UB | (_, Diverge) => Diverge end.
  (** pdf 116-122, pmf 124-127 *)
  Definition updf (d : unif) (x : X) : R :=
    if u_le o (un_min d) x && u_le o x (un_max d) then (1 / u_R o (un_area d))%R else 0%R.
  Definition upmf (d : unif) (x : X) : R := updf d x.
  (** getMean 136-140, getMedian 142-146; Mean and Median are double. *)
  Definition ugetMean (d : unif) : result R :=
    match u_diff o (un_min d) (un_max d) with Some w => Ret (/ 2 * u_R o w)%R | None => UB end.
  Definition ugetMedian (d : unif) : result R :=
    match u_diff o (un_min d) (un_max d) with Some w => Ret (/ 2 * u_R o w)%R | None => UB end.
  (** getMode 148-153 *)
  Definition ugetMode (d : unif) : result X := Throw InvalidOperation.
  (** getVariance 155-159, 175-191 *)
  Definition ugetVariance (d : unif) : result R :=
    match u_area o (un_min d) (un_max d) with Some s => Ret (u_var o (u_R o s)) | None => UB end.

  Inductive unif_reach : unif -> Prop :=
  | ur_new junk a b d : unif_new junk a b = Ret d -> unif_reach d
  | ur_set d a b d' r : unif_reach d -> setSupport d a b = (d', r) -> came_back r -> unif_reach d'
  | ur_min d a d' r : unif_reach d -> setMinSupport d a = (d', r) -> came_back r -> unif_reach d'
  | ur_max d b d' r : unif_reach d -> setMaxSupport d b = (d', r) -> came_back r -> unif_reach d'.

  (** ** M dimensions: vectors are lists; vectors of different lengths are outside Eigen's contract ([UB]). *)
  Record unifM := UnifM { um_min : list X; um_max : list X; um_area : X }.
  (** getSupportArea, Mv.tpp 166-186: product of the edges in double, converted to X at the end. *)
  Fixpoint area_prod (acc : R) (a b : list X) : option R :=
    match a, b with
    | x :: a', y :: b' => match u_area o x y with Some s => area_prod (acc * u_R o s)%R a' b' | None => None end
    | _, _ => Some acc
    end.
  Definition areaM (a b : list X) : option X :=
    match area_prod 1 a b with Some r => u_ofR o r | None => None end.
  (** setSupport, Mv.tpp 74-86 *)
  Definition setSupportM (d : unifM) (a b : list X) : unifM * result unit :=
    if negb (Nat.eqb (length a) (length b)) then (d, UB) else
    if existsb (fun p => u_le o (snd p) (fst p)) (zip a b) then (d, Throw BadArgument) else
    match areaM a b with
    | Some s => (UnifM a b s, Ret tt)
    | None => (UnifM a b (um_area d), UB)
    end.
  Definition unifM_new (junk : unifM) (a b : list X) : result unifM :=
    match setSupportM junk a b with
    | (d, Ret _) => Ret d | (_, Throw e) => Throw e | (_, UB) => UB | (_, Diverge) => Diverge end.
  (** pdf, Mv.tpp 117-124 *)
  Definition updfM (d : unifM) (x : list X) : R :=
    if forallb (fun p => u_le o (fst p) (snd p)) (zip x (um_max d)) &&
       forallb (fun p => u_le o (snd p) (fst p)) (zip x (um_min d))
    then (1 / u_R o (um_area d))%R else 0%R.
  (** getMean, Mv.tpp 141-145 (getMedian, 154-158, is the same expression) *)
  Definition ugetMeanM (d : unifM) : result (list R) :=
    match mapM (fun p => u_diff o (fst p) (snd p)) (zip (um_min d) (um_max d)) with
    | Some l => Ret (map (fun w => (/ 2 * u_R o w)%R) l) | None => UB end.
  (** getCovariance, Mv.tpp 160-214: entry (i, j). *)
  Definition ugetCovarianceM (d : unifM) : result (nat -> nat -> R) :=
    match areaM (um_min d) (um_max d) with
    | Some s => Ret (fun i j => (u_var o (u_R o s) * (if Nat.eqb i j then 1 else 0))%R)
    | None => UB
    end.

  Inductive unifM_reach : unifM -> Prop :=
  | umr_new junk a b d : unifM_new junk a b = Ret d -> unifM_reach d
  | umr_set d a b d' r : unifM_reach d -> setSupportM d a b = (d', r) -> came_back r -> unifM_reach d'.
End uniform.
Global Arguments Unif {X}. Global Arguments un_min {X}. Global Arguments un_max {X}. Global Arguments un_area {X}.
Global Arguments UnifM {X}. Global Arguments um_min {X}. Global Arguments um_max {X}. Global Arguments um_area {X}.
