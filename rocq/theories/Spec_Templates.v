(** Boolean formulas over statements about types, how they are written with the templates, and when they are true. *)
From stdpp Require Import prelude.
From Verif Require Import TemplatesModel.

Inductive formula : Type :=
| FConst (b : bool) | FAnd (p q : formula) | FOr (p q : formula) | FNot (p : formula) | FIte (p q r : formula)
| FEquals (t u : ty) | FIsVoid (t : ty) | FIsReal (t : ty) | FIsInteger (t : ty) | FIsNumeric (t : ty).

Definition boolean (b : bool) : ty := if b then TTrue else TFalse.
Fixpoint written (p : formula) : texpr :=
  match p with
  | FConst b => Ty (boolean b) | FAnd p q => RAnd (written p) (written q) | FOr p q => ROr (written p) (written q) | FNot p => RNot (written p)
  | FIte p q r => RIfThenElse (written p) (written q) (written r)
  | FEquals t u => REquals (Ty t) (Ty u) | FIsVoid t => RIsVoid (Ty t) | FIsReal t => RIsReal (Ty t) | FIsInteger t => RIsInteger (Ty t)
  | FIsNumeric t => RIsNumeric (Ty t)
  end.
(** IsReal means float or double, IsInteger means neither of these, IsNumeric one of six types. *)
Fixpoint holds (p : formula) : Prop :=
  match p with
  | FConst b => b = true
  | FAnd p q => holds p /\ holds q | FOr p q => holds p \/ holds q | FNot p => ~ holds p
  | FIte p q r => (holds p -> holds q) /\ (~ holds p -> holds r)
  | FEquals t u => t = u | FIsVoid t => t = TVoid | FIsReal t => t = TFloat \/ t = TDouble | FIsInteger t => t <> TFloat /\ t <> TDouble
  | FIsNumeric t => In t [TFloat; TDouble; TInt; TUInt; TLong; TULong]
  end.
