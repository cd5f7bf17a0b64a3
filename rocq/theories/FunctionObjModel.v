(** Model of the function objects of incremental_calibration/include/aslam/calibration/functions (Function.h/.tpp, IncompleteGammaPFunction,
    IncompleteGammaQFunction, LogGammaFunction<double>, LogGammaFunction<size_t>, LogFactorialFunction, DigammaFunction): objects with their parameters,
    copies, assignments, setters, getValue and operator(), over a growing list of objects.  Arithmetic is exact; gamma_p, gamma_q and digamma are those of
    Boost, lgamma the one of <cmath>. *)
From stdpp Require Import prelude list.
From Coq Require Import Reals.
From Verif Require Import Base FunctionsModel.

(** The members of an object: mAlpha (IncompleteGammaPFunction.h 82, IncompleteGammaQFunction.h 82), mDim (LogGammaFunction.h 82); the other classes have
    none. *)
Inductive fobj : Type := OP (mAlpha : R) | OQ (mAlpha : R) | OLogGamma (mDim : nat) | OLogGammaN | OLogFactorial | ODigamma.

(** What is written after the class name when an object is made: constructors (IncompleteGammaPFunction.cpp 17-19, IncompleteGammaQFunction.cpp 17-19,
    LogGammaFunction.tpp 18-20 and its default argument LogGammaFunction.h 41, LogGammaFunction.cpp 19-20, LogFactorialFunction.cpp 17-18,
    DigammaFunction.tpp 16-17). *)
Inductive fctor : Type := NewP (alpha : R) | NewQ (alpha : R) | NewLogGamma (dim : option nat) | NewLogGammaN | NewLogFactorial | NewDigamma.

Definition construct (c : fctor) : fobj :=
  match c with
  | NewP alpha => OP alpha
  | NewQ alpha => OQ alpha
  | NewLogGamma dim => OLogGamma (match dim with Some d => d | None => 1 end)
  | NewLogGammaN => OLogGammaN
  | NewLogFactorial => OLogFactorial
  | NewDigamma => ODigamma
  end.

(** Copy constructors, IncompleteGammaPFunction.cpp 21-24, IncompleteGammaQFunction.cpp 21-24, LogGammaFunction.tpp 22-25; those of the other classes are
    private or absent from the histories here: None. *)
Definition copy_obj (other : fobj) : option fobj :=
  match other with
  | OP a => Some (OP a)
  | OQ a => Some (OQ a)
  | OLogGamma d => Some (OLogGamma d)
  | _ => None
  end.

(** Assignment, IncompleteGammaPFunction.cpp 26-32, IncompleteGammaQFunction.cpp 26-32, LogGammaFunction.tpp 27-34, between objects of one class; [this] and
    [other] may be one object, which leaves it unchanged. *)
Definition assign_obj (this other : fobj) : option fobj :=
  match this, other with
  | OP _, OP a => Some (OP a)
  | OQ _, OQ a => Some (OQ a)
  | OLogGamma _, OLogGamma d => Some (OLogGamma d)
  | _, _ => None
  end.

(** setAlpha, IncompleteGammaPFunction.cpp 67-69, IncompleteGammaQFunction.cpp 67-69. *)
Definition setAlpha (this : fobj) (alpha : R) : option fobj :=
  match this with OP _ => Some (OP alpha) | OQ _ => Some (OQ alpha) | _ => None end.

(** setDim, LogGammaFunction.tpp 79-82. *)
Definition setDim (this : fobj) (dim : nat) : option fobj :=
  match this with OLogGamma _ => Some (OLogGamma dim) | _ => None end.

(** getAlpha, IncompleteGammaPFunction.cpp 63-65, IncompleteGammaQFunction.cpp 63-65. *)
Definition getAlpha (this : fobj) : option R := match this with OP a => Some a | OQ a => Some a | _ => None end.

(** getDim, LogGammaFunction.tpp 74-77. *)
Definition getDim (this : fobj) : option nat := match this with OLogGamma d => Some d | _ => None end.

(** An argument: a floating point number or a size_t, according to the class. *)
Inductive farg : Type := AR (x : R) | AN (n : nat).

Section lib.
  Variables (gamma_p gamma_q : R -> R -> R) (digamma lgamma : R -> R).

  (** LogFactorialFunction::getValue, called without dispatch or on an object of this very class. *)
  Definition logfact_getValue (n : nat) : result R := Ret (logFactorial n).

  (** getValue, a virtual function: the one of the class of the object is called, also through a reference to a base class. IncompleteGammaPFunction.cpp
      58-61, IncompleteGammaQFunction.cpp 58-61, LogGammaFunction.tpp 64-72, LogGammaFunction.cpp 31-39, LogFactorialFunction.cpp 27-36,
      DigammaFunction.tpp 28-31. None: the argument has the wrong type. *)
  Definition getValue (this : fobj) (argument : farg) : option (result R) :=
    match this, argument with
    | OP a, AR x => Some (Ret (gamma_p a x))
    | OQ a, AR x => Some (Ret (gamma_q a x))
    | OLogGamma d, AR x => Some (Ret (logGammaDim lgamma d x))
    | OLogGammaN, AN n => Some (if Nat.eqb n 0 then Throw BadArgument else logfact_getValue (n - 1))
    | OLogFactorial, AN n => Some (logfact_getValue n)
    | ODigamma, AR x => Some (Ret (digamma x))
    | _, _ => None
    end.

  (** Function::operator(), Function.tpp 21-24. *)
  Definition op_call (this : fobj) (argument : farg) : option (result R) := getValue this argument.

  (** A line of a program. *)
  Inductive fop : Type :=
  | FNew (c : fctor) | FCopy (i : nat) | FAssign (i j : nat) | FSetAlpha (i : nat) (a : R) | FSetDim (i d : nat)
  | FGetAlpha (i : nat) | FGetDim (i : nat) | FValue (i : nat) (x : farg) | FCall (i : nat) (x : farg).

  (** What the line returns. *)
  Inductive fobs : Type := ONothing | ONumber (r : R) | ODim (n : nat) | OResult (r : result R).

  (** One line of a program on the list of the objects made so far; None: it does not compile or names an object which does not exist. *)
  Definition fstep (s : list fobj) (c : fop) : option (list fobj * fobs) :=
    match c with
    | FNew k => Some (s ++ [construct k], ONothing)
    | FCopy i => o ← s !! i; o' ← copy_obj o; Some (s ++ [o'], ONothing)
    | FAssign i j => o ← s !! i; o2 ← s !! j; o' ← assign_obj o o2; Some (<[i := o']> s, ONothing)
    | FSetAlpha i a => o ← s !! i; o' ← setAlpha o a; Some (<[i := o']> s, ONothing)
    | FSetDim i d => o ← s !! i; o' ← setDim o d; Some (<[i := o']> s, ONothing)
    | FGetAlpha i => o ← s !! i; a ← getAlpha o; Some (s, ONumber a)
    | FGetDim i => o ← s !! i; d ← getDim o; Some (s, ODim d)
    | FValue i x => o ← s !! i; r ← getValue o x; Some (s, OResult r)
    | FCall i x => o ← s !! i; r ← op_call o x; Some (s, OResult r)
    end.

  (** A program from its first line. *)
  Fixpoint frun (s : list fobj) (h : list fop) : option (list fobj * list fobs) :=
    match h with
    | [] => Some (s, [])
    | c :: h' => r ← fstep s c; r' ← frun r.1 h'; Some (r'.1, r.2 :: r'.2)
    end.
End lib.
