(** Model of incremental_calibration/include/aslam/calibration/tpl: Boolean.h, And.h, Or.h, Not.h, If.h, IfThenElse.h, Equals.h, IsVoid.h, IsReal.h,
    IsInteger.h, IsNumeric.h.  A type expression is evaluated as the compiler instantiates it: the specialisation that matches the arguments, otherwise the
    primary template; None: the type has no such member or the template is not defined for these arguments (substitution failure). *)
From stdpp Require Import prelude.

(** Types: those the headers name, const-qualified ones, and all others, numbered. *)
Inductive ty : Type := TFalse | TTrue | TBool | TVoid | TFloat | TDouble | TInt | TUInt | TLong | TULong | TConst (t : ty) | TOther (n : nat).
Global Instance ty_eq_dec : EqDecision ty. Proof. solve_decision. Defined.

Inductive texpr : Type :=
| Ty (t : ty)
| RAnd (a b : texpr) | ROr (a b : texpr) | RNot (a : texpr)        (* typename And<a, b>::Result ... *)
| RIf (c : texpr) | RIfThenElse (c a b : texpr)
| REquals (a b : texpr) | RIsVoid (a : texpr) | RIsReal (a : texpr) | RIsInteger (a : texpr) | RIsNumeric (a : texpr)
| RResult (a : texpr) | RNumeric (a : texpr).                      (* typename a::Result, typename a::Numeric *)

(** And.h 21-34 *)
Definition t_and (a b : ty) : option ty := match a, b with TTrue, TTrue => Some TTrue | _, _ => Some TFalse end.
(** Or.h 21-34 *)
Definition t_or (a b : ty) : option ty := match a, b with TFalse, TFalse => Some TFalse | _, _ => Some TTrue end.
(** Not.h 21-39: the primary template is declared only *)
Definition t_not (a : ty) : option ty := match a with TFalse => Some TTrue | TTrue => Some TFalse | _ => None end.
(** If.h 21-31: the primary template is empty *)
Definition t_if (c : ty) : option ty := match c with TTrue => Some TTrue | _ => None end.
(** IfThenElse.h 21-39: the primary template is declared only *)
Definition t_ite (c a b : ty) : option ty := match c with TTrue => Some a | TFalse => Some b | _ => None end.
(** Equals.h 21-34 *)
Definition t_equals (a b : ty) : option ty := if decide (a = b) then Some TTrue else Some TFalse.
(** IsVoid.h 21-34 *)
Definition t_isvoid (a : ty) : option ty := match a with TVoid => Some TTrue | _ => Some TFalse end.
(** IsReal.h 21-43 *)
Definition t_isreal (a : ty) : option ty := match a with TFloat => Some TTrue | TDouble => Some TTrue | _ => Some TFalse end.
(** IsInteger.h 22-24: derived from Not<typename IsReal<T>::Result> *)
Definition t_isinteger (a : ty) : option ty := r ← t_isreal a; t_not r.
(** IsNumeric.h 21-79 *)
Definition t_isnumeric (a : ty) : option ty :=
  match a with
  | TFloat => Some TTrue | TDouble => Some TTrue | TInt => Some TTrue | TUInt => Some TTrue | TLong => Some TTrue | TULong => Some TTrue
  | _ => Some TFalse
  end.
(** Boolean.h 19-34: the members Result and Numeric of True and False *)
Definition t_result (a : ty) : option ty := match a with TFalse => Some TFalse | TTrue => Some TTrue | _ => None end.
Definition t_numeric (a : ty) : option ty := match a with TTrue => Some TBool | _ => None end.

Fixpoint teval (e : texpr) : option ty :=
  match e with
  | Ty t => Some t
  | RAnd a b => x ← teval a; y ← teval b; t_and x y
  | ROr a b => x ← teval a; y ← teval b; t_or x y
  | RNot a => x ← teval a; t_not x
  | RIf c => x ← teval c; t_if x
  | RIfThenElse c a b => z ← teval c; x ← teval a; y ← teval b; t_ite z x y
  | REquals a b => x ← teval a; y ← teval b; t_equals x y
  | RIsVoid a => x ← teval a; t_isvoid x
  | RIsReal a => x ← teval a; t_isreal x
  | RIsInteger a => x ← teval a; t_isinteger x
  | RIsNumeric a => x ← teval a; t_isnumeric x
  | RResult a => x ← teval a; t_result x
  | RNumeric a => x ← teval a; t_numeric x
  end.

(** Two overloads template <typename Z, typename IsReal<Z>::Result::Numeric> and template <typename Z, typename IsInteger<Z>::Result::Numeric>
    (UniformDistribution1v.h, UniformDistributionMv.h 62-69, Randomizer.h 36-41): those that substitution leaves. *)
Inductive overload := RealVersion | IntegerVersion.
Definition viable (z : ty) : list overload :=
  (match teval (RNumeric (RIsReal (Ty z))) with Some _ => [RealVersion] | None => [] end) ++
  (match teval (RNumeric (RIsInteger (Ty z))) with Some _ => [IntegerVersion] | None => [] end).
