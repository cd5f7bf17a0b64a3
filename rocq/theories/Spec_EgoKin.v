(** Specification vocabulary for the egomotion calibrator: histories of calls, gauge, sensor poses. *)
From stdpp Require Import prelude list.
From Coq Require Import Reals.
From Verif Require Import Base GeodeticModel SimEngineModel Spec_SimEngine KinematicsModel EgoKinModel.
Local Open Scope R_scope.

Definition identity_P : pose := (Quat 0 0 0 1, V3 0 0 0).
(** The composition of a list of motions, the first one first. *)
Definition total (l : list pose) : pose := fold_left mul_P l identity_P.
Definition unit_pose (p : pose) : Prop := unit_quat (fst p).
Definition motions {C} (l : list (Z * motion_meas C)) : list pose := map (fun x => mm_motion (snd x)) l.

(** What a user does.  The calibration, the order of the sensors in the map and the outcome of the estimator are those at the time of the call. *)
Inductive ego_call (C : Type) :=
| CAdd (cal : nat -> option (Z * transf)) (order : list nat) (r : result unit) (k : nat) (t : Z) (m : motion_meas C)
| CFlush (cal : nat -> option (Z * transf)) (order : list nat) (r : result unit)      (* addMeasurements() *)
| CPredict (cal : nat -> option (Z * transf)) (order : list nat)
| CClearPredictions
| CClearMeasurements.
Global Arguments CAdd {C}. Global Arguments CFlush {C}. Global Arguments CPredict {C}. Global Arguments CClearPredictions {C}. Global Arguments CClearMeasurements {C}.
(** Calls that only concern predictions. *)
Definition about_predictions {C} (c : ego_call C) : bool := match c with CPredict _ _ | CClearPredictions => true | _ => false end.
Definition defined {A} (r : result A) : Prop := match r with Ret _ | Throw _ => True | _ => False end.
Section run.
  Context {C : Type} (ref : nat) (knots bound : Z) (window : R) (fit : list Z -> list v3 * list quat -> Z -> result splines) (lround_big : Z)
    (err : motion_term C -> list R * R).
  Definition ego_call_step (s : ego_state C) (c : ego_call C) : ego_state C * result unit :=
    match c with
    | CAdd cal order r k t m => ego_add ref knots bound window fit lround_big cal order r s k t m
    | CFlush cal order r => ego_addMeasurements ref knots bound fit lround_big cal order r s
    | CPredict cal order => ego_predict ref knots bound fit lround_big cal err order s
    | CClearPredictions => (ego_clearPredictions s, Ret tt)
    | CClearMeasurements => (ego_clearMeasurements s, Ret tt)
    end.
  (** Every call of a history with its outcome; the user catches exceptions. *)
  Fixpoint ego_run (s : ego_state C) (l : list (ego_call C)) : ego_state C * list (ego_call C * result unit) :=
    match l with
    | [] => (s, [])
    | c :: l' => let '(s1, r) := ego_call_step s c in let '(s2, rs) := ego_run s1 l' in (s2, (c, r) :: rs)
    end.
End run.
(** A new calibrator. *)
Definition ego_new {C} : ego_state C := EgoState identity_P (fun _ => []) (-1) (-1) (fun _ => []) [].

(** The pose of the splines at a time: orientation and position at that same time. *)
Definition spline_at (s : splines) (t : Z) : transf := {| rot := sp_R s t; trans := sp_r s t |}.
(** The spline fit commutes with moving everything by a rigid motion. *)
Definition move (G : pose) (ps : list v3 * list quat) : list v3 * list quat :=
  (map (fun p => apply_T (T_of G) p) (fst ps), map (fun q => qplus (fst G) q) (snd ps)).
Definition moved (G : pose) (s s' : splines) : Prop :=
  sp_min s' = sp_min s /\ sp_max s' = sp_max s /\ forall t p, apply_T (spline_at s' t) p = apply_T (T_of G) (apply_T (spline_at s t) p).
Definition fit_commutes (fit : list Z -> list v3 * list quat -> Z -> result splines) : Prop :=
  forall G ts ps n, unit_pose G ->
    match fit ts ps n, fit ts (move G ps) n with
    | Ret s, Ret s' => moved G s s'
    | Throw e, Throw e' => e = e' | UB, UB => True | Diverge, Diverge => True
    | _, _ => False
    end.
(** The rotations of the splines are rotations. *)
Definition proper (s : splines) : Prop := forall t, orthogonal (sp_R s t).

(** Where a point fixed to sensor [k] is, according to the splines and the calibration, at the time the sensor stamps [t]. *)
Definition sensor_at (ref : nat) (cal : nat -> option (Z * transf)) (s : splines) (k : nat) (t : Z) (p : v3) : v3 :=
  if Nat.eqb k ref then apply_T (spline_at s t) p
  else match cal k with None => p | Some (d, r_T_s) => apply_T (spline_at s (t - d)) (apply_T r_T_s p) end.
(** The measurement can be used: always for the reference sensor; otherwise the delayed time and the bound around it lie in the splines' range. *)
Definition usable (ref : nat) (cal : nat -> option (Z * transf)) (bound : Z) (s : splines) (k : nat) (t : Z) : Prop :=
  k = ref \/ exists d T, cal k = Some (d, T) /\ (sp_min s <= t - d - bound /\ t - d + bound <= sp_max s)%Z.
Definition calibrated (ref : nat) (cal : nat -> option (Z * transf)) (k : nat) : Prop :=
  k = ref \/ exists d T, cal k = Some (d, T) /\ orthogonal (rot T).
