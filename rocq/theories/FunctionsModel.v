(** Model of incremental_calibration/src/functions/LogFactorialFunction.cpp, LogGammaFunction.cpp and
    incremental_calibration/include/aslam/calibration/functions/LogGammaFunction.tpp, in exact arithmetic.
    [size_t] arguments are natural numbers: none of the size_t computations here can wrap. *)
From stdpp Require Import prelude list.
From Coq Require Import Reals.
From Verif Require Import Base.
Local Open Scope R_scope.

(** LogFactorialFunction::getValue, LogFactorialFunction.cpp 27-36: the loop counter x runs over 1 .. argument - 1. *)
Definition logFactorial (argument : nat) : R :=
  if Nat.eqb argument 0 then 0
  else fold_left (fun value x => value + ln (INR (x + 1))) (seq 1 (argument - 1)) 0.

(** LogGammaFunction<size_t>::getValue, LogGammaFunction.cpp 31-39. *)
Definition logGammaNat (argument : nat) : result R :=
  if Nat.eqb argument 0 then Throw BadArgument else Ret (logFactorial (argument - 1)).

(** LogGammaFunction<X>::getValue with dimension [dim], LogGammaFunction.tpp 64-72; [lgamma] is the one of <cmath>. *)
Definition logGammaDim (lgamma : R -> R) (dim : nat) (argument : R) : R :=
  fold_left (fun sum i => sum + lgamma (argument - / 2 * INR i)) (seq 0 dim) 0
  + INR (dim * (dim - 1)) * / 4 * ln PI.
