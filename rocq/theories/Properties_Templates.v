(** C131.  Computing with types. *)
From stdpp Require Import prelude.
From Verif Require Import TemplatesModel Spec_Templates.

Lemma holds_dec p : holds p \/ ~ holds p.
Proof.
  assert (D : forall P : Prop, Decision P -> P \/ ~ P) by (intros P []; auto).
  induction p as [b|p IHp q IHq|p IHp q IHq|p IHp|p IHp q IHq r IHr|t u|t|t|t|t]; simpl; [|tauto|tauto|tauto|tauto|..]; apply D, _.
Qed.
Lemma written_value p : (holds p -> teval (written p) = Some TTrue) /\ (~ holds p -> teval (written p) = Some TFalse).
Proof.
  induction p as [b|p IHp q IHq|p IHp q IHq|p IHp|p IHp q IHq r IHr|t u|t|t|t|t]; simpl.
  - destruct b; split; intros; done.
  - destruct IHp as [P1 P2], IHq as [Q1 Q2], (holds_dec p) as [P|P], (holds_dec q) as [Q|Q];
      rewrite ?(P1 P), ?(P2 P), ?(Q1 Q), ?(Q2 Q) by done; cbn; split; intros; tauto || done.
  - destruct IHp as [P1 P2], IHq as [Q1 Q2], (holds_dec p) as [P|P], (holds_dec q) as [Q|Q];
      rewrite ?(P1 P), ?(P2 P), ?(Q1 Q), ?(Q2 Q) by done; cbn; split; intros; tauto || done.
  - destruct IHp as [P1 P2], (holds_dec p) as [P|P]; rewrite ?(P1 P), ?(P2 P) by done; cbn; split; intros; tauto || done.
  - destruct IHp as [P1 P2], IHq as [Q1 Q2], IHr as [R1 R2], (holds_dec p) as [P|P], (holds_dec q) as [Q|Q], (holds_dec r) as [R|R];
      rewrite ?(P1 P), ?(P2 P), ?(Q1 Q), ?(Q2 Q), ?(R1 R), ?(R2 R) by done; cbn; split; intros; tauto || done.
  - unfold t_equals. destruct (decide (t = u)); split; intros; done.
  - destruct t; cbn; split; intros; done.
  - destruct t; cbn; split; intros H; try done; exfalso; intuition discriminate.
  - destruct t; cbn; split; intros H; try done; exfalso; intuition discriminate.
  - destruct t; cbn; split; intros H; try done; exfalso; intuition discriminate.
Qed.

(** C131.  Every formula over types, however deep, is computed correctly by the templates: it compiles to True if it holds and to False if it does not. *)
Theorem template_formulas p :
  (teval (written p) = Some TTrue <-> holds p) /\ (teval (written p) = Some TFalse <-> ~ holds p).
Proof.
  destruct (written_value p) as [H1 H2], (holds_dec p) as [P|P].
  - rewrite (H1 P). split; split; intros; done || auto.
  - rewrite (H2 P). split; split; intros; done || auto.
Qed.
(** If has a member exactly if the formula holds, so that a declaration which names it exists for exactly these types; IfThenElse gives one of two types,
    whatever these are. *)
Theorem template_selection p a b ta tb : teval a = Some ta -> teval b = Some tb ->
  (teval (RIf (written p)) = Some TTrue <-> holds p) /\ (teval (RIf (written p)) = None <-> ~ holds p) /\
  (teval (RNumeric (written p)) <> None <-> holds p) /\
  (holds p -> teval (RIfThenElse (written p) a b) = Some ta) /\ (~ holds p -> teval (RIfThenElse (written p) a b) = Some tb).
Proof.
  intros Ea Eb. cbn [teval]. rewrite Ea, Eb. destruct (written_value p) as [H1 H2], (holds_dec p) as [P|P].
  - rewrite (H1 P). cbn. split_and!; try split; intros; done || auto.
  - rewrite (H2 P). cbn. split_and!; try split; intros; done || auto.
Qed.
(** For every type exactly one of the two versions of a function (real or integer) is there: never none, never both. *)
Theorem one_overload z : (z = TFloat \/ z = TDouble -> viable z = [RealVersion]) /\ (z <> TFloat -> z <> TDouble -> viable z = [IntegerVersion]).
Proof. destruct z; cbn; split; intros; try done; exfalso; intuition discriminate. Qed.

(** What the names promise and the templates do not keep: void, text and const double are "integers"; an integer type need not be "numeric"; the disjunction of
    two types that are no truth values is True, their conjunction False. *)
Theorem template_names_refuted :
  (forall n, teval (RIsInteger (Ty (TOther n))) = Some TTrue /\ teval (RIsNumeric (Ty (TOther n))) = Some TFalse) /\
  teval (RIsInteger (Ty TVoid)) = Some TTrue /\ teval (RIsInteger (Ty (TConst TDouble))) = Some TTrue /\ viable (TConst TDouble) = [IntegerVersion] /\
  teval (ROr (Ty TInt) (Ty TInt)) = Some TTrue /\ teval (RAnd (Ty TInt) (Ty TInt)) = Some TFalse /\ teval (RNot (Ty TInt)) = None.
Proof. repeat split. Qed.
Example template_example : teval (written (FAnd (FNot (FIsReal TInt)) (FOr (FEquals TInt TLong) (FIsNumeric TULong)))) = Some TTrue
  /\ holds (FAnd (FNot (FIsReal TInt)) (FOr (FEquals TInt TLong) (FIsNumeric TULong))).
Proof. split; [reflexivity|]. apply template_formulas. reflexivity. Qed.
