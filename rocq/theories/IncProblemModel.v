(** Model of [aslam::calibration::IncrementalOptimizationProblem]
    (incremental_calibration/src/core/IncrementalOptimizationProblem.cpp).

    Batches are [shared_ptr<OptimizationProblem>]: a batch is a pointer (natural number) into a
    heap [h : nat -> oprob V]; the functions take the current heap, so a batch may be mutated
    between calls.  Conventions as in OptProblemModel.v. *)
From stdpp Require Import prelude list gmap.
From Verif Require Import Base PermuteModel OptProblemModel.

(** [v.erase(std::find(v.begin(), v.end(), x))]; [None]: x not found, erase(end()) is UB *)
Fixpoint erase_first (x : nat) (l : list nat) : option (list nat) :=
  match l with
  | [] => None
  | y :: l' => if Nat.eqb y x then Some l' else cons y <$> erase_first x l'
  end.

(** index of the first occurrence, [std::find] *)
Fixpoint find_index (x : nat) (l : list nat) : option nat :=
  match l with
  | [] => None
  | y :: l' => if Nat.eqb y x then Some 0 else S <$> find_index x l'
  end.

(** [size_t] decrement wraps; increments are not wrapped (fewer than 2^64 batches). *)
Definition wrap_pred (c : N) : N := if (c =? 0)%N then (2 ^ 64 - 1)%N else (c - 1)%N.

Section inc.
Context {V : Type}.

(** Members, IncrementalOptimizationProblem.h. *)
Record inc := Inc {
  i_probs  : list nat;                 (* _optimizationProblems *)
  i_counts : gmap nat (N * nat);       (* _designVariablesCounts: variable -> (count, group) *)
  i_groups : gmap nat (list nat);      (* _designVariables: group -> variables *)
  i_order  : list nat;                 (* _groupsOrdering *)
  i_backup : gmap nat V                (* _designVariablesBackup *)
}.

(** Default constructor, 28-29. *)
Definition i_empty : inc := Inc [] ∅ ∅ [] ∅.

(** 38-40 *)
Definition i_numProblems (s : inc) : nat := length (i_probs s).
(** 42-71 (all four overloads reduce to an index) *)
Definition i_getProblem (s : inc) (idx : nat) : result nat :=
  if Nat.leb (length (i_probs s)) idx then Throw OutOfBound
  else match i_probs s !! idx with Some b => Ret b | None => Throw StdOutOfRange end.
(** 78-81 *)
Definition i_isDVInProblem (s : inc) (d : nat) : bool := bool_decide (is_Some (i_counts s !! d)).
(** 83-90 *)
Definition i_isETInProblem (h : nat -> oprob V) (s : inc) (e : nat) : bool :=
  existsb (fun b => o_isETInProblem (h b) e) (i_probs s).
(** 164-167 *)
Definition i_isGroupInProblem (s : inc) (g : nat) : bool := bool_decide (is_Some (i_groups s !! g)).
(** 97-105 *)
Definition i_getGroup (s : inc) (g : nat) : result (list nat) :=
  match i_groups s !! g with Some l => Ret l | None => Throw OutOfBound end.
(** 107-113 *)
Definition i_getErrorTerms (h : nat -> oprob V) (s : inc) (idx : nat) : result (list nat) :=
  if Nat.leb (length (i_probs s)) idx then Throw OutOfBound
  else match i_probs s !! idx with Some b => Ret (o_ets (h b)) | None => Throw StdOutOfRange end.
(** 115-117 *)
Definition i_getNumGroups (s : inc) : nat := size (i_groups s).
(** 119-137 *)
Definition i_setGroupsOrdering (s : inc) (o : list nat) : inc * result unit :=
  if negb (Nat.eqb (length o) (length (i_order s))) then (s, Throw OutOfBound)
  else if ordering_ok (i_groups s) ∅ o
       then (Inc (i_probs s) (i_counts s) (i_groups s) o (i_backup s), Ret tt)
       else (s, Throw OutOfBound).
(** 144-151 *)
Definition i_getGroupId (s : inc) (d : nat) : result nat :=
  match i_counts s !! d with Some (_, g) => Ret g | None => Throw InvalidOperation end.
(** 153-162 *)
Definition i_getGroupDim (active : nat -> bool) (dim : nat -> nat) (s : inc) (g : nat) : result nat :=
  match i_getGroup s g with
  | Ret l => Ret (sum_dims active dim l)
  | Throw e => Throw e | UB => UB | Diverge => Diverge
  end.

(** Body of the first loop of [add], 183-196, for variable [d] of group [g]. *)
Definition add_dv (s : inc) (d g : nat) : inc * result unit :=
  let order1 := if i_isGroupInProblem s g then i_order s else i_order s ++ [g] in   (* 184-185 *)
  match i_counts s !! d with
  | None =>                                                                         (* 186-190 *)
    (Inc (i_probs s) (<[d := (1%N, g)]> (i_counts s))
         (<[g := default [] (i_groups s !! g) ++ [d]]> (i_groups s)) order1 (i_backup s), Ret tt)
  | Some (c, g') =>
    if Nat.eqb g' g then                                                            (* 195 *)
      (Inc (i_probs s) (<[d := ((c + 1)%N, g')]> (i_counts s)) (i_groups s) order1 (i_backup s), Ret tt)
    else                                                                            (* 192-194 *)
      (Inc (i_probs s) (i_counts s) (i_groups s) order1 (i_backup s), Throw InvalidOperation)
  end.

(** First loop of [add], 181-197. *)
Fixpoint add_dvs (b : oprob V) (todo i : nat) (s : inc) : inc * result unit :=
  match todo with
  | 0 => (s, Ret tt)
  | S todo' =>
    match rbind (o_designVariable b i) (fun d => rbind (o_getGroupId b d) (fun g => Ret (d, g))) with
    | Ret (d, g) => match add_dv s d g with
                    | (s', Ret _) => add_dvs b todo' (S i) s'
                    | (s', r) => (s', r)
                    end
    | Throw e => (s, Throw e)
    | UB => (s, UB)
    | Diverge => (s, Diverge)
    end
  end.

(** Second loop of [add], 200-206. *)
Fixpoint add_check_ets (h : nat -> oprob V) (b : oprob V) (todo i : nat) (s : inc) : result unit :=
  match todo with
  | 0 => Ret tt
  | S todo' =>
    match o_errorTerm b i with
    | Ret e => if i_isETInProblem h s e then Throw InvalidOperation
               else add_check_ets h b todo' (S i) s
    | Throw e => Throw e | UB => UB | Diverge => Diverge
    end
  end.

(** 173-210 *)
Definition i_add (h : nat -> oprob V) (s : inc) (p : option nat) : inc * result unit :=
  match p with
  | None => (s, Throw NullPointer)
  | Some p =>
    match add_dvs (h p) (o_numDV (h p)) 0 s with
    | (s1, Ret _) =>
      match add_check_ets h (h p) (o_numET (h p)) 0 s1 with
      | Ret _ => (Inc (i_probs s1 ++ [p]) (i_counts s1) (i_groups s1) (i_order s1) (i_backup s1), Ret tt)
      | Throw e => (s1, Throw e) | UB => (s1, UB) | Diverge => (s1, Diverge)
      end
    | (s1, r) => (s1, r)
    end
  end.

(** Body of the loop of [remove], 229-243, for variable [d].  [operator[]] on an absent key
    inserts (0, 0). *)
Definition remove_dv (s : inc) (d : nat) : inc * result unit :=
  let '(c, g) := default (0%N, 0) (i_counts s !! d) in
  let c' := wrap_pred c in                                                    (* 229 *)
  let counts1 := <[d := (c', g)]> (i_counts s) in
  if (c' =? 0)%N then                                                         (* 230 *)
    match erase_first d (default [] (i_groups s !! g)) with                   (* 233-235 *)
    | None => (Inc (i_probs s) (delete d counts1) (i_groups s) (i_order s) (i_backup s), UB)
    | Some l' =>
      match l' with
      | [] =>                                                                 (* 236-241 *)
        match erase_first g (i_order s) with
        | None => (Inc (i_probs s) (delete d counts1) (delete g (i_groups s)) (i_order s) (i_backup s), UB)
        | Some o' => (Inc (i_probs s) (delete d counts1) (delete g (i_groups s)) o'
                          (delete d (i_backup s)), Ret tt)
        end
      | _ => (Inc (i_probs s) (delete d counts1) (<[g := l']> (i_groups s)) (i_order s)
                  (delete d (i_backup s)), Ret tt)                            (* 242 *)
      end
    end
  else (Inc (i_probs s) counts1 (i_groups s) (i_order s) (i_backup s), Ret tt).

(** Loop of [remove], 227-244. *)
Fixpoint remove_dvs (b : oprob V) (todo i : nat) (s : inc) : inc * result unit :=
  match todo with
  | 0 => (s, Ret tt)
  | S todo' =>
    match o_designVariable b i with
    | Ret d => match remove_dv s d with
               | (s', Ret _) => remove_dvs b todo' (S i) s'
               | (s', r) => (s', r)
               end
    | Throw e => (s, Throw e) | UB => (s, UB) | Diverge => (s, Diverge)
    end
  end.

(** 212-249 and 251-253 (an iterator is an index; [begin() + idx] beyond the end is, strictly,
    already UB, modelled as the index test that follows) *)
Definition i_remove_idx (h : nat -> oprob V) (s : inc) (idx : nat) : inc * result unit :=
  match i_probs s !! idx with
  | None => (s, Throw OutOfBound)
  | Some p =>
    match remove_dvs (h p) (o_numDV (h p)) 0 s with
    | (s1, Ret _) => (Inc (delete idx (i_probs s1)) (i_counts s1) (i_groups s1) (i_order s1) (i_backup s1), Ret tt)
    | (s1, r) => (s1, r)
    end
  end.

(** 375-390 *)
Definition i_remove (h : nat -> oprob V) (s : inc) (p : option nat) : inc * result unit :=
  match p with
  | None => (s, Throw InvalidOperation)     (* a null pointer is never stored *)
  | Some p => match find_index p (i_probs s) with
              | Some idx => i_remove_idx h s idx
              | None => (s, Throw InvalidOperation)
              end
  end.

(** 255-260: the backup is not cleared *)
Definition i_clear (s : inc) : inc := Inc [] ∅ ∅ [] (i_backup s).

(** 262-265 *)
Definition i_numDV (s : inc) : nat := size (i_counts s).
(** 267-282, 330-350 *)
Definition i_designVariable (s : inc) (idx : nat) : result nat :=
  nth_dv (i_numDV s) (i_groups s) (i_order s) idx.
(** 284-291 *)
Definition i_numET (h : nat -> oprob V) (s : inc) : nat :=
  foldl (fun acc b => acc + o_numET (h b)) 0 (i_probs s).
(** 354-367: the loop of [getErrorIdx]; result (batchIdx, idxBatch) if found *)
Fixpoint locate_et (h : nat -> oprob V) (probs : list nat) (idx running batchIdx : nat)
  : option (nat * nat) :=
  match probs with
  | [] => None
  | b :: rest =>
    if Nat.ltb idx (running + o_numET (h b)) then Some (batchIdx, idx - running)
    else locate_et h rest idx (running + o_numET (h b)) (S batchIdx)
  end.
(** 293-307, 352-373 *)
Definition i_errorTerm (h : nat -> oprob V) (s : inc) (idx : nat) : result nat :=
  match locate_et h (i_probs s) idx 0 0 with
  | None => Throw OutOfBound
  | Some (bi, j) => match i_probs s !! bi with
                    | None => Throw StdOutOfRange
                    | Some b => o_errorTerm (h b) j
                    end
  end.
(** 309-314 *)
Definition i_getErrors : result unit := Throw InvalidOperation.
(** 316-319 *)
Definition i_permuteProblems (s : inc) (p : list nat) : inc * result unit :=
  let '(l, r) := permute (i_probs s) p in
  (Inc l (i_counts s) (i_groups s) (i_order s) (i_backup s), r).
(** 321-328 *)
Definition i_permuteDV (s : inc) (p : list nat) (g : nat) : inc * result unit :=
  match i_groups s !! g with
  | None => (s, Throw OutOfBound)
  | Some l =>
    let '(l', r) := permute l p in
    (Inc (i_probs s) (i_counts s) (<[g := l']> (i_groups s)) (i_order s) (i_backup s), r)
  end.
(** 402-407 *)
Definition i_save (s : inc) (vals : nat -> V) : inc :=
  Inc (i_probs s) (i_counts s) (i_groups s) (i_order s)
      (map_imap (fun d _ => Some (vals d)) (i_counts s) ∪ i_backup s).
(** 409-413 *)
Definition i_restore (s : inc) (vals : nat -> V) : nat -> V := write_back (i_backup s) vals.

(** ** Histories *)
Inductive iop :=
| IAdd (p : option nat) | IRemoveIdx (idx : nat) | IRemove (p : option nat) | IClear
| ISetOrdering (o : list nat) | IPermuteProblems (p : list nat) | IPermuteDV (p : list nat) (g : nat)
| ISave (vals : nat -> V) | IRestore.

Definition istep (h : nat -> oprob V) (s : inc) (op : iop) : inc * result unit :=
  match op with
  | IAdd p => i_add h s p
  | IRemoveIdx idx => i_remove_idx h s idx
  | IRemove p => i_remove h s p
  | IClear => (i_clear s, Ret tt)
  | ISetOrdering o => i_setGroupsOrdering s o
  | IPermuteProblems p => i_permuteProblems s p
  | IPermuteDV p g => i_permuteDV s p g
  | ISave vals => (i_save s vals, Ret tt)
  | IRestore => (s, Ret tt)
  end.

Definition is_add (op : iop) : Prop := match op with IAdd _ => True | _ => False end.

(** Histories over a fixed heap of batches in which no [add] threw; every other call may have
    thrown. *)
Inductive i_reachable (h : nat -> oprob V) : inc -> Prop :=
| ir_init : i_reachable h i_empty
| ir_step s op s' r :
    i_reachable h s -> istep h s op = (s', r) -> came_back r ->
    (is_add op -> r = Ret tt) -> i_reachable h s'.

End inc.
Global Arguments inc : clear implicits.
Global Arguments iop : clear implicits.
