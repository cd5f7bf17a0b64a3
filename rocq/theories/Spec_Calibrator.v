(** Specification vocabulary for the calibrators' measurement windows, independent of the model's functions: what was
    asked for ([event]s), what the calls answered, and which batches the estimator got. *)
From stdpp Require Import prelude list.
From Coq Require Import Reals.
From Verif Require Import Base CalibratorModel.
Local Open Scope R_scope.

(** The measurements of kind [k] whose add call returned, in the order of the calls. *)
Fixpoint accepted {K D} `{EqDecision K} (l : list (event K D)) (rs : list (result unit)) (k : K) : list (Z * D) :=
  match l, rs with
  | Add k' ts d :: l', Ret _ :: rs' => (if decide (k = k') then [(ts, d)] else []) ++ accepted l' rs' k
  | _ :: l', _ :: rs' => accepted l' rs' k
  | _, _ => []
  end.

(** Processing a list of windows one after the other: estimator, information gains and parameters afterwards. *)
Fixpoint replay {K D E B P} (terms : E -> (K -> list (Z * D)) -> list B) (addBatch : E -> list B -> result R * E)
    (params : E -> P) (e : E) (windows : list (K -> list (Z * D))) : E * list R * list P :=
  match windows with
  | [] => (e, [], [])
  | s :: ss =>
    match addBatch e (terms e s) with
    | (Ret gain, e') => let '(e2, gs, ps) := replay terms addBatch params e' ss in (e2, gain :: gs, params e' :: ps)
    | (_, e') => replay terms addBatch params e' ss
    end
  end.

Definition is_add {K D} (e : event K D) : Prop := match e with Add _ _ _ => True | _ => False end.
Definition is_clear {K D} (e : event K D) : Prop := match e with Clear => True | _ => False end.
Definition is_setWindow {K D} (e : event K D) : Prop := match e with SetWindow _ => True | _ => False end.
(** Time stamps of the add calls. *)
Definition stamps {K D} (l : list (event K D)) : list Z :=
  omap (fun e => match e with Add _ ts _ => Some ts | _ => None end) l.
(** Non-decreasing. *)
Fixpoint sortedZ (l : list Z) : Prop :=
  match l with [] => True | x :: l' => Forall (Z.le x) l' /\ sortedZ l' end.
Definition returned (r : result unit) : Prop := r = Ret tt.
