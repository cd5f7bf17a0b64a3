(** What a function object is, read off the program that made it, without any state: its kind, and the parameter written last. *)
From stdpp Require Import prelude list.
From Coq Require Import Reals.
From Verif Require Import Base FunctionObjModel.
Local Open Scope R_scope.

Inductive kind : Type := KGammaP | KGammaQ | KLogGamma | KLogGammaInt | KLogFactorial | KDigamma.

Definition ctor_kind (c : fctor) : kind :=
  match c with NewP _ => KGammaP | NewQ _ => KGammaQ | NewLogGamma _ => KLogGamma | NewLogGammaN => KLogGammaInt | NewLogFactorial => KLogFactorial
  | NewDigamma => KDigamma end.

(** The lines of the past are listed newest first.  Objects are numbered in the order in which they were made. *)
Fixpoint made (past : list fop) : nat :=
  match past with [] => 0 | FNew _ :: p => S (made p) | FCopy _ :: p => S (made p) | _ :: p => made p end.

Fixpoint kind_of (past : list fop) (i : nat) : option kind :=
  match past with
  | [] => None
  | FNew c :: p => if Nat.eqb i (made p) then Some (ctor_kind c) else kind_of p i
  | FCopy j :: p => if Nat.eqb i (made p) then kind_of p j else kind_of p i
  | _ :: p => kind_of p i
  end.

(** The shape parameter of an incomplete gamma function. *)
Fixpoint alpha_of (past : list fop) (i : nat) : R :=
  match past with
  | [] => 0
  | FNew c :: p => if Nat.eqb i (made p) then match c with NewP a => a | NewQ a => a | _ => 0 end else alpha_of p i
  | FCopy j :: p => if Nat.eqb i (made p) then alpha_of p j else alpha_of p i
  | FAssign k j :: p => if Nat.eqb i k then alpha_of p j else alpha_of p i
  | FSetAlpha k a :: p => if Nat.eqb i k then a else alpha_of p i
  | _ :: p => alpha_of p i
  end.

(** The dimension of a multivariate gamma function, one unless given. *)
Fixpoint dim_of (past : list fop) (i : nat) : nat :=
  match past with
  | [] => 0
  | FNew c :: p => if Nat.eqb i (made p) then match c with NewLogGamma (Some d) => d | NewLogGamma None => 1 | _ => 0 end else dim_of p i
  | FCopy j :: p => if Nat.eqb i (made p) then dim_of p j else dim_of p i
  | FAssign k j :: p => if Nat.eqb i k then dim_of p j else dim_of p i
  | FSetDim k d :: p => if Nat.eqb i k then d else dim_of p i
  | _ :: p => dim_of p i
  end.

Section values.
  Variables (gamma_p gamma_q : R -> R -> R) (digamma lgamma : R -> R).

  (** ln of the multivariate gamma function: Gamma_{d+1}(x) = pi^(d/2) Gamma_d(x) Gamma(x - d/2). *)
  Fixpoint mv_log_gamma (d : nat) (x : R) : R :=
    match d with O => 0 | S d' => mv_log_gamma d' x + lgamma (x - INR d' / 2) + INR d' / 2 * ln PI end.

  (** The value of a function of kind k at an argument; the argument's type is that of the function. *)
  Inductive has_value (past : list fop) (i : nat) : farg -> result R -> Prop :=
  | val_P x : kind_of past i = Some KGammaP -> has_value past i (AR x) (Ret (gamma_p (alpha_of past i) x))
  | val_Q x : kind_of past i = Some KGammaQ -> has_value past i (AR x) (Ret (gamma_q (alpha_of past i) x))
  | val_LG x : kind_of past i = Some KLogGamma -> has_value past i (AR x) (Ret (mv_log_gamma (dim_of past i) x))
  | val_D x : kind_of past i = Some KDigamma -> has_value past i (AR x) (Ret (digamma x))
  | val_F n : kind_of past i = Some KLogFactorial -> has_value past i (AN n) (Ret (ln (INR (fact n))))
  | val_LGI n : kind_of past i = Some KLogGammaInt -> has_value past i (AN (S n)) (Ret (ln (INR (fact n))))
  | val_LGI0 : kind_of past i = Some KLogGammaInt -> has_value past i (AN 0) (Throw BadArgument).
End values.
