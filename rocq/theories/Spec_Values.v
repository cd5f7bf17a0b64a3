(** What it means that objects of a class are values. *)
From stdpp Require Import prelude list.
From Verif Require Import Base ValuesModel.

Section spec.
  Context {O : Type}.
  (** The lines of the past, newest first. *)
  Fixpoint objects_made (past : list (vline O)) : nat :=
    match past with [] => 0 | VNew _ :: p => S (objects_made p) | VCopy _ :: p => S (objects_made p) | _ :: p => objects_made p end.
  (** The biography of an object: how it was constructed and the calls on it, oldest first; copying and assigning take over a biography, a call on one object
      enters no other's. *)
  Fixpoint biography (past : list (vline O)) (i : nat) : option (O * list (O -> O)) :=
    match past with
    | [] => None
    | VNew o :: p => if Nat.eqb i (objects_made p) then Some (o, []) else biography p i
    | VCopy j :: p => if Nat.eqb i (objects_made p) then biography p j else biography p i
    | VAssign k j :: p => if Nat.eqb i k then biography p j else biography p i
    | VDo k f :: p => if Nat.eqb i k then match biography p i with Some (o, fs) => Some (o, fs ++ [f]) | None => None end else biography p i
    end.
  (** Objects are values: in every program each object is what a fresh object makes of its biography. *)
  Definition are_values (copy : O -> O) (assign : O -> O -> O) : Prop :=
    forall (h : list (vline O)) (s : list O), vrun copy assign [] h = Some s ->
      length s = objects_made (rev h) /\
      forall i d, s !! i = Some d -> exists o fs, biography (rev h) i = Some (o, fs) /\ d = fold_left (fun x f => f x) fs o.
End spec.
