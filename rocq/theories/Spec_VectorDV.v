(** Vocabulary for the statements about [VectorDesignVariable]; nothing here runs the implementation. *)
From stdpp Require Import prelude list.
From Verif Require Import Base VectorDVModel.

(** A matrix whose entry list has the size its dimensions announce (an invariant of Eigen). *)
Definition mat_wf {A} (p : matrix A) : Prop := length (m_data p) = (m_rows p * m_cols p)%nat.

(** The reference semantics: an abstract variable is its value and the value that one undo brings back.
    A call's preconditions: an update has the dimension of the value.  [spec_step cur undo c cur' undo'] says
    what a call that succeeds must do. *)
Inductive spec_step {A} (add : A -> A -> A) : list A -> list A -> vcall -> list A -> list A -> Prop :=
| sp_set cur undo v : spec_step add cur undo (CSetValue v) v cur
| sp_update cur undo dp new :
    length dp = length cur -> length new = length cur ->
    (forall i x y, cur !! i = Some x -> dp !! i = Some y -> new !! i = Some (add x y)) ->
    spec_step add cur undo (CUpdate dp) new cur
| sp_revert cur undo : spec_step add cur undo CRevert undo undo
| sp_params cur undo p :
    m_rows p = length cur -> m_cols p = 1%nat -> spec_step add cur undo (CSetParameters p) (m_data p) cur
| sp_params_bad cur undo p :
    ~ (m_rows p = length cur /\ m_cols p = 1%nat) -> spec_step add cur undo (CSetParameters p) cur undo
| sp_assign cur undo v u (* the other variable's value and undo value *) :
    spec_step add cur undo (CAssign (VDV v u)) v u.

Inductive spec_run {A} (add : A -> A -> A) : list A -> list A -> list vcall -> list A -> list A -> Prop :=
| sr_nil cur undo : spec_run add cur undo [] cur undo
| sr_cons cur undo c h cur1 undo1 cur2 undo2 :
    spec_step add cur undo c cur1 undo1 -> spec_run add cur1 undo1 h cur2 undo2 ->
    spec_run add cur undo (c :: h) cur2 undo2.

(** Every update in the history has the dimension the variable has at that moment. *)
Fixpoint updates_fit {A} (add : A -> A -> A) (d : @vdv A) (h : list vcall) : Prop :=
  match h with
  | [] => True
  | c :: h' => (match c with CUpdate dp => length dp = length (getValue d) | _ => True end)
               /\ updates_fit add (fst (vstep add d c)) h'
  end.

(** Calls that change the value (everything but undo and assignment). *)
Definition modifying {A} (c : @vcall A) : Prop :=
  match c with CRevert | CAssign _ => False | _ => True end.
