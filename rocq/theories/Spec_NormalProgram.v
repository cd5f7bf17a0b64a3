(** Programs with several one-dimensional normal distributions, and what is known about each from the lines of the program alone. *)
From stdpp Require Import prelude list.
From Coq Require Import Reals.
From Verif Require Import Base NormalModel.
Local Open Scope R_scope.

(** A constructor, an assignment i = j, setMean and setVariance; objects are numbered in the order in which they were made. *)
Inductive nline : Type := NNew (m v : R) | NAssign (i j : nat) | NSetMean (i : nat) (m : R) | NSetVar (i : nat) (v : R).

(** One line on the distributions made so far with the functions of the model; an exception leaves what it leaves and the program goes on.  None: the line
    names a distribution that does not exist. *)
Definition nstep (junk : R) (s : list (@normal1 R)) (c : nline) : option (list (@normal1 R) * result unit) :=
  match c with
  | NNew m v => match normal1_new real_sops junk m v with
                | Ret d => Some (s ++ [d], Ret tt)
                | Throw e => Some (s, Throw e) | UB => Some (s, UB) | Diverge => Some (s, Diverge)
                end
  | NAssign i j => d ← s !! i; d2 ← s !! j; Some (<[i := normal1_assign d d2]> s, Ret tt)
  | NSetMean i m => d ← s !! i; Some (<[i := setMean d m]> s, Ret tt)
  | NSetVar i v => d ← s !! i; Some (<[i := fst (setVariance real_sops d v)]> s, snd (setVariance real_sops d v))
  end.
Fixpoint nrun (junk : R) (s : list (@normal1 R)) (h : list nline) : option (list (@normal1 R) * list (result unit)) :=
  match h with
  | [] => Some (s, [])
  | c :: h' => r ← nstep junk s c; r' ← nrun junk r.1 h'; Some (r'.1, r.2 :: r'.2)
  end.

(** The lines of the past, newest first: the number of distributions made, the mean written last, the last positive variance. *)
Fixpoint n_made (past : list nline) : nat :=
  match past with
  | [] => 0
  | NNew _ v :: p => if Rlt_dec 0 v then S (n_made p) else n_made p
  | _ :: p => n_made p
  end.
Fixpoint mean_of (past : list nline) (i : nat) : R :=
  match past with
  | [] => 0
  | NNew m v :: p => if Rlt_dec 0 v then (if Nat.eqb i (n_made p) then m else mean_of p i) else mean_of p i
  | NAssign k j :: p => if Nat.eqb i k then mean_of p j else mean_of p i
  | NSetMean k m :: p => if Nat.eqb i k then m else mean_of p i
  | _ :: p => mean_of p i
  end.
Fixpoint var_of (past : list nline) (i : nat) : R :=
  match past with
  | [] => 0
  | NNew m v :: p => if Rlt_dec 0 v then (if Nat.eqb i (n_made p) then v else var_of p i) else var_of p i
  | NAssign k j :: p => if Nat.eqb i k then var_of p j else var_of p i
  | NSetVar k v :: p => if (Nat.eqb i k && (if Rlt_dec 0 v then true else false))%bool then v else var_of p i
  | _ :: p => var_of p i
  end.
