(** Model of [aslam::calibration::OptimizationProblem]
    (incremental_calibration/src/core/OptimizationProblem.cpp,
     include/aslam/calibration/core/OptimizationProblem.h).

    Design variables, error terms and group ids are natural numbers (object identity); a
    [shared_ptr] argument is an [option] ([None] = null).  [V] is the type of the parameter
    matrices returned by [getParameters].  [size_t] sums are unbounded.  Iteration order of
    the unordered containers is not modelled (it is only used where it cannot matter). *)
From stdpp Require Import prelude list gmap.
From Verif Require Import Base PermuteModel.

(** ** Code shared (textually identical) by both problem classes *)

(** OptimizationProblem.cpp 232-246 and IncrementalOptimizationProblem.cpp 335-349: scan of the
    groups ordering.  Returns (groupId, idxGroup). *)
Fixpoint locate (groups : gmap nat (list nat)) (order : list nat) (idx running : nat)
  : result (nat * nat) :=
  match order with
  | [] => Ret (0, idx - running)                       (* loop ran off the end: group id 0 *)
  | g :: rest =>
    match groups !! g with
    | None => Throw StdOutOfRange                      (* _designVariables.at of the group *)
    | Some l => if Nat.ltb idx (running + length l) then Ret (g, idx - running)
                else locate groups rest idx (running + length l)
    end
  end.

(** OptimizationProblem.cpp 168-180/227-247, IncrementalOptimizationProblem.cpp 267-282/330-350;
    [size] is the number of entries of the lookup table. *)
Definition nth_dv (size : nat) (groups : gmap nat (list nat)) (order : list nat) (idx : nat)
  : result nat :=
  if Nat.leb size idx then Throw OutOfBound
  else match locate groups order idx 0 with
       | Ret (g, j) => match groups !! g with
                       | None => Throw StdOutOfRange                 (* .at(groupId) *)
                       | Some l => match l !! j with Some d => Ret d | None => UB end
                       end
       | Throw e => Throw e
       | UB => UB
       | Diverge => Diverge
       end.

(** OptimizationProblem.cpp 64-74, IncrementalOptimizationProblem.cpp 125-135: the loop of
    [setGroupsOrdering]; [seen] is [groupsLookup]. *)
Fixpoint ordering_ok (groups : gmap nat (list nat)) (seen : gset nat) (o : list nat) : bool :=
  match o with
  | [] => true
  | g :: rest =>
    match groups !! g with
    | None => false
    | Some _ => if decide (g ∈ seen) then false else ordering_ok groups ({[g]} ∪ seen) rest
    end
  end.

(** OptimizationProblem.cpp 94-99, IncrementalOptimizationProblem.cpp 156-161. *)
Definition sum_dims (active : nat -> bool) (dim : nat -> nat) (l : list nat) : nat :=
  foldl (fun acc d => if active d then acc + dim d else acc) 0 l.

Section oprob.
Context {V : Type}.

(** Members of the class, OptimizationProblem.h. *)
Record oprob := OProb {
  o_lookup   : gmap nat nat;          (* _designVariablesLookup: variable -> group *)
  o_etlookup : gset nat;              (* _errorTermsLookup *)
  o_groups   : gmap nat (list nat);   (* _designVariables: group -> variables *)
  o_ets      : list nat;              (* _errorTerms *)
  o_order    : list nat;              (* _groupsOrdering *)
  o_backup   : gmap nat V             (* _designVariablesBackup *)
}.

(** Default constructor: all members empty (OptimizationProblem.cpp 25-26). *)
Definition o_empty : oprob := OProb ∅ ∅ ∅ [] [] ∅.

(** 126-129 *)
Definition o_isDVInProblem (s : oprob) (d : nat) : bool := bool_decide (is_Some (o_lookup s !! d)).
(** 150-153 *)
Definition o_isETInProblem (s : oprob) (e : nat) : bool := bool_decide (e ∈ o_etlookup s).
(** 102-104 *)
Definition o_isGroupInProblem (s : oprob) (g : nat) : bool := bool_decide (is_Some (o_groups s !! g)).

(** 40-47 *)
Definition o_getGroup (s : oprob) (g : nat) : result (list nat) :=
  match o_groups s !! g with Some l => Ret l | None => Throw OutOfBound end.
(** 54-56 *)
Definition o_getNumGroups (s : oprob) : nat := length (o_order s).
(** 82-89 *)
Definition o_getGroupId (s : oprob) (d : nat) : result nat :=
  match o_lookup s !! d with Some g => Ret g | None => Throw InvalidOperation end.
(** 91-100; activity flags and minimal dimensions belong to the (external) design variables *)
Definition o_getGroupDim (active : nat -> bool) (dim : nat -> nat) (s : oprob) (g : nat) : result nat :=
  match o_getGroup s g with
  | Ret l => Ret (sum_dims active dim l)
  | Throw e => Throw e | UB => UB | Diverge => Diverge
  end.

(** 58-76 *)
Definition o_setGroupsOrdering (s : oprob) (o : list nat) : oprob * result unit :=
  if negb (Nat.eqb (length o) (length (o_order s))) then (s, Throw OutOfBound)
  else if ordering_ok (o_groups s) ∅ o
       then (OProb (o_lookup s) (o_etlookup s) (o_groups s) (o_ets s) o (o_backup s), Ret tt)
       else (s, Throw OutOfBound).

(** 110-124 *)
Definition o_addDV (s : oprob) (d : option nat) (g : nat) : oprob * result unit :=
  match d with
  | None => (s, Throw NullPointer)
  | Some d =>
    if o_isDVInProblem s d then (s, Throw InvalidOperation)
    else
      (OProb (<[d := g]> (o_lookup s)) (o_etlookup s)
             (<[g := default [] (o_groups s !! g) ++ [d]]> (o_groups s))
             (o_ets s)
             (if o_isGroupInProblem s g then o_order s else o_order s ++ [g])
             (o_backup s), Ret tt)
  end.

(** 131-148; [edv e] are the design variables of error term [e] (external, fixed per term) *)
Definition o_addET (edv : nat -> list nat) (s : oprob) (e : option nat) : oprob * result unit :=
  match e with
  | None => (s, Throw NullPointer)
  | Some e =>
    if o_isETInProblem s e then (s, Throw InvalidOperation)
    else if forallb (o_isDVInProblem s) (edv e)
         then (OProb (o_lookup s) ({[e]} ∪ o_etlookup s) (o_groups s) (o_ets s ++ [e])
                     (o_order s) (o_backup s), Ret tt)
         else (s, Throw InvalidOperation)
  end.

(** 155-162 *)
Definition o_clear (s : oprob) : oprob := o_empty.

(** 164-166 *)
Definition o_numDV (s : oprob) : nat := size (o_lookup s).
(** 168-180, 227-247 *)
Definition o_designVariable (s : oprob) (idx : nat) : result nat :=
  nth_dv (o_numDV s) (o_groups s) (o_order s) idx.
(** 182-185 *)
Definition o_numET (s : oprob) : nat := size (o_etlookup s).
(** 187-203 *)
Definition o_errorTerm (s : oprob) (idx : nat) : result nat :=
  if Nat.leb (length (o_ets s)) idx then Throw OutOfBound
  else match o_ets s !! idx with Some e => Ret e | None => UB end.
(** 205-211: the error terms (stored pointers are never null, see [o_addET]) that use [d] *)
Definition o_getErrors (edv : nat -> list nat) (s : oprob) (d : nat) (out : gset nat) : gset nat :=
  foldl (fun acc e => if decide (d ∈ edv e) then {[e]} ∪ acc else acc) out (o_ets s).

(** 213-216 *)
Definition o_permuteET (s : oprob) (p : list nat) : oprob * result unit :=
  let '(l, r) := permute (o_ets s) p in
  (OProb (o_lookup s) (o_etlookup s) (o_groups s) l (o_order s) (o_backup s), r).

(** 218-225 *)
Definition o_permuteDV (s : oprob) (p : list nat) (g : nat) : oprob * result unit :=
  match o_groups s !! g with
  | None => (s, Throw OutOfBound)
  | Some l =>
    let '(l', r) := permute l p in
    (OProb (o_lookup s) (o_etlookup s) (<[g := l']> (o_groups s)) (o_ets s) (o_order s)
           (o_backup s), r)
  end.

(** 249-254; [vals] = current parameters of the design variables *)
Definition o_save (s : oprob) (vals : nat -> V) : oprob :=
  OProb (o_lookup s) (o_etlookup s) (o_groups s) (o_ets s) (o_order s)
        (map_imap (fun d _ => Some (vals d)) (o_lookup s) ∪ o_backup s).

(** 256-260: [setParameters] on every variable of a backup *)
Definition write_back (backup : gmap nat V) (vals : nat -> V) : nat -> V :=
  fun d => match backup !! d with Some v => v | None => vals d end.
Definition o_restore (s : oprob) (vals : nat -> V) : nat -> V := write_back (o_backup s) vals.

(** ** Histories of API calls *)
Inductive oop :=
| OAddDV (d : option nat) (g : nat) | OAddET (e : option nat) | OClear
| OSetOrdering (o : list nat) | OPermuteET (p : list nat) | OPermuteDV (p : list nat) (g : nat)
| OSave (vals : nat -> V) | ORestore.

Definition ostep (edv : nat -> list nat) (s : oprob) (op : oop) : oprob * result unit :=
  match op with
  | OAddDV d g => o_addDV s d g
  | OAddET e => o_addET edv s e
  | OClear => (o_clear s, Ret tt)
  | OSetOrdering o => o_setGroupsOrdering s o
  | OPermuteET p => o_permuteET s p
  | OPermuteDV p g => o_permuteDV s p g
  | OSave vals => (o_save s vals, Ret tt)
  | ORestore => (s, Ret tt)          (* changes the variables, not the problem *)
  end.

(** States an object can be in after any sequence of calls that came back (with or without
    an exception). *)
Inductive o_reachable (edv : nat -> list nat) : oprob -> Prop :=
| or_init : o_reachable edv o_empty
| or_step s op s' r :
    o_reachable edv s -> ostep edv s op = (s', r) -> came_back r -> o_reachable edv s'.

End oprob.
Global Arguments oprob : clear implicits.
Global Arguments oop : clear implicits.
