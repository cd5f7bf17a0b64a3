(** Which formulas [UniformDistribution<X>] uses for which type, and unsigned integers
    (incremental_calibration/include/aslam/calibration/tpl/IsReal.h, IsInteger.h, Not.h, IfThenElse.h;
    statistics/UniformDistribution1v.tpp, UniformDistributionMv.tpp; the operations themselves are in UniformModel.v). *)
From stdpp Require Import prelude list.
From Coq Require Import Reals ZArith.
From Flocq Require Import Core.
From Verif Require Import Base UniformModel.

(** Arithmetic types of the language. *)
Inductive ctype := TFloat | TDouble | TLongDouble | TSigned (w : Z) | TUnsigned (w : Z).
(** IsReal.h 21-44: only float and double are specialised. *)
Definition is_real (t : ctype) : bool := match t with TFloat | TDouble => true | _ => false end.
(** IsInteger.h 21-24, Not.h *)
Definition is_integer (t : ctype) : bool := negb (is_real t).

(** Operations on values of a floating type, in exact arithmetic: the template picks the area and variance by [is_real] and [is_integer]
    (UniformDistribution1v.tpp 161-191). *)
Definition ufloating (t : ctype) : uops R :=
  if is_real t then ureal
  else UOps (fun a b => if Rle_dec a b then true else false)
         (fun a b => Some (b - a)%R) (fun a b => Some (b - a + 1)%R) (fun x => x)
         (fun s => ((s * s - 1) / 12)%R) Some.
(** Unsigned integers of [w] bits, at least as wide as int: arithmetic modulo 2^w; a double outside the range has no defined conversion. *)
Definition uunsigned (w : Z) : uops Z :=
  UOps Z.leb (fun a b => Some ((b - a) mod 2 ^ w)%Z) (fun a b => Some (((b - a) mod 2 ^ w + 1) mod 2 ^ w)%Z)
    IZR (fun s => ((s * s - 1) / 12)%R)
    (fun r => if ((0 <=? Ztrunc r) && (Ztrunc r <? 2 ^ w))%Z then Some (Ztrunc r) else None).
