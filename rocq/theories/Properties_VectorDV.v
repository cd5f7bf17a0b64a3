(** C33: [VectorDesignVariable]. *)
From stdpp Require Import prelude list.
From Verif Require Import Base VectorDVModel Spec_VectorDV.

Lemma vstep_spec {A} (add : A -> A -> A) d c :
  (match c with CUpdate dp => length dp = length (getValue d) | _ => True end) ->
  spec_step add (v_value d) (v_old d) c (v_value (fst (vstep add d c))) (v_old (fst (vstep add d c))).
Proof.
  destruct d as [v o], c as [w|dp| |p|[ov oo]]; simpl; intros H.
  - constructor.
  - unfold update. simpl. unfold getValue in H; simpl in H. rewrite H, Nat.eqb_refl. simpl.
    constructor; try done.
    + rewrite zip_with_length. lia.
    + intros i x y Hx Hy. rewrite lookup_zip_with, Hx. simpl. rewrite Hy. done.
  - constructor.
  - unfold setParameters; simpl.
    destruct (Nat.eqb_spec (m_cols p) 1); simpl; [|constructor; naive_solver].
    destruct (Nat.eqb_spec (m_rows p) (length v)); simpl; [|constructor; naive_solver].
    constructor; done.
  - constructor.
Qed.

(** Every history of calls refines the abstract variable (value, undo value): at every point of every history the
    value is exactly the one the reference semantics gives, for any arithmetic. *)
Theorem vector_dv_refines {A} (add : A -> A -> A) init h :
  updates_fit add (vdv_new init) h ->
  exists cur undo, spec_run add init init h cur undo /\
    getValue (vrun add (vdv_new init) h) = cur /\
    getValue (revertUpdate (vrun add (vdv_new init) h)) = undo.
Proof.
  intros H. exists (v_value (vrun add (vdv_new init) h)), (v_old (vrun add (vdv_new init) h)).
  split; [|done].
  assert (G : forall d, updates_fit add d h ->
    spec_run add (v_value d) (v_old d) h (v_value (vrun add d h)) (v_old (vrun add d h))).
  { clear. induction h as [|c h IH]; intros d Hf; simpl; [constructor|].
    destruct Hf as [Hc Hf]. econstructor; [apply vstep_spec, Hc|]. apply IH, Hf. }
  apply (G _ H).
Qed.

(** Undo: after any history, [revertUpdate] takes back exactly the last successful change of the value. *)
Theorem vector_dv_revert {A} (add : A -> A -> A) init h c d' r :
  modifying c ->
  vstep add (vrun add (vdv_new init) h) c = (d', r) -> r = Ret tt ->
  getValue (revertUpdate d') = getValue (vrun add (vdv_new init) h).
Proof.
  generalize (vrun add (vdv_new init) h) as d. intros [v o] Hm Hs ->.
  destruct c as [w|dp| |p|[ov oo]]; simpl in *; try done.
  - by injection Hs as <-.
  - revert Hs. unfold update; simpl. destruct (Nat.eqb _ _); intros Hs; [|discriminate].
    by injection Hs as <-.
  - revert Hs. unfold setParameters; simpl. destruct (_ || _); intros Hs; [discriminate|].
    by injection Hs as <-.
Qed.

(** Only one level of undo is kept: a second [revertUpdate] does nothing. *)
Theorem vector_dv_revert_once {A} (d : @vdv A) :
  revertUpdate (revertUpdate d) = revertUpdate d.
Proof. done. Qed.

(** Parameters: the exact effect of [setParameters] / [getParameters] in every reachable state. *)
Theorem vector_dv_parameters {A} (add : A -> A -> A) init h (p : matrix A) :
  mat_wf p ->
  let d := vrun add (vdv_new init) h in
  (* a matrix of the wrong shape is rejected and nothing changes *)
  (~ (m_rows p = minimalDimensions d /\ m_cols p = 1%nat) -> setParameters d p = (d, Throw OutOfBound)) /\
  (* a matrix of the right shape is accepted, read back unchanged, and can be undone *)
  (m_rows p = minimalDimensions d -> m_cols p = 1%nat ->
   exists d', setParameters d p = (d', Ret tt) /\ getParameters d' = p /\ getValue d' = m_data p /\
     minimalDimensions d' = minimalDimensions d /\ getValue (revertUpdate d') = getValue d) /\
  (* what getParameters returns is always accepted back and leaves the value as it was *)
  mat_wf (getParameters d) /\
  (exists d', setParameters d (getParameters d) = (d', Ret tt) /\ getValue d' = getValue d).
Proof.
  intros Hp d. clearbody d. destruct d as [v o]; unfold minimalDimensions, setParameters, getParameters,
    getValue, mat_wf in *; simpl in *.
  destruct p as [r c dat]; simpl in *.
  split; [|split; [|split]].
  - intros H. destruct (Nat.eqb_spec c 1); simpl; [|done].
    destruct (Nat.eqb_spec r (length v)); simpl; [|done]. naive_solver.
  - intros -> ->. rewrite !Nat.eqb_refl. simpl. eexists; split; [done|]. simpl.
    assert (length dat = length v) as E by lia. rewrite E. done.
  - lia.
  - rewrite Nat.eqb_refl. simpl. eexists; done.
Qed.

(** The dimension is that of the value and only a dynamic [setValue] or an assignment can change it. *)
Theorem vector_dv_dimension {A} (add : A -> A -> A) d c :
  minimalDimensions d = length (getValue d) /\
  (length (v_old d) = length (v_value d) ->
   (match c with
    | CSetValue v => length v = length (getValue d)
    | CSetParameters p => mat_wf p
    | CAssign o => length (v_value o) = length (getValue d) /\ length (v_old o) = length (getValue d)
    | _ => True end) ->
   minimalDimensions (fst (vstep add d c)) = minimalDimensions d /\
   length (v_old (fst (vstep add d c))) = length (v_value (fst (vstep add d c)))).
Proof.
  split; [done|]. destruct d as [v o], c as [w|dp| |p|[ov oo]]; unfold minimalDimensions, getValue, mat_wf;
    simpl; intros Ho H; simpl in *; try lia.
  - unfold update; simpl. destruct (Nat.eqb_spec (length dp) (length v)); simpl; [|lia].
    rewrite zip_with_length. lia.
  - unfold setParameters; simpl. destruct (Nat.eqb_spec (m_cols p) 1) as [e|]; simpl; [|lia].
    destruct (Nat.eqb_spec (m_rows p) (length v)) as [e'|]; simpl; [|lia]. rewrite e, e' in H. lia.
Qed.

(** A copy behaves like the original, and assignment makes the target equal to the source. *)
Theorem vector_dv_copy {A} (add : A -> A -> A) d o h :
  vrun add (vdv_copy d) h = vrun add d h /\ vrun add (vdv_assign o d) h = vrun add d h.
Proof. destruct d, o; done. Qed.

(** Non-vacuous: two updates and an undo on a two-dimensional variable (integers for scalars). *)
Example vector_dv_example :
  let h := [CUpdate [1;2]; CSetParameters (Mat 2 1 [10;20]); CUpdate [5;5]; CRevert]%Z in
  updates_fit Z.add (vdv_new [0;0]%Z) h /\
  getValue (vrun Z.add (vdv_new [0;0]%Z) h) = [10;20]%Z /\
  setParameters (vrun Z.add (vdv_new [0;0]%Z) h) (Mat 1 2 [1;2]%Z)
    = (vrun Z.add (vdv_new [0;0]%Z) h, Throw OutOfBound).
Proof. repeat split. Qed.
