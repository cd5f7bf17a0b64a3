(** Specification of the camera example: what a history of calls should have done, without looking at the state of the
    calibrator. *)
From stdpp Require Import prelude list.
From Verif Require Import Base CameraModel.

(** Was the geometry initialised by a history? *)
Definition initialised (ops : list ccop) : bool := existsb (fun op => match op with CInit true => true | _ => false end) ops.
(** Number of images with a target, shown to the calibrator after the initialisation. *)
Fixpoint found (init : bool) (ops : list ccop) : nat :=
  match ops with
  | [] => 0
  | CInit true :: ops => found true ops
  | CImage true _ :: ops => (if init then 1 else 0) + found init ops
  | _ :: ops => found init ops
  end.
(** The estimator does not throw. *)
Definition calm (op : ccop) : Prop :=
  match op with CImage _ out | CProcess out => out = Accepted \/ out = Rejected | _ => True end.
(** The user does not change the size of the batches. *)
Definition keeps_limit (op : ccop) : Prop := match op with CLimit _ => False | _ => True end.
(** The user does not close a batch early. *)
Definition automatic (op : ccop) : Prop := match op with CProcess _ => False | _ => True end.
(** The images waiting for the next batch. *)
Definition pending (c : ccal) : list obs := default [] (cc_batch c).
(** What a user takes getTransformation for: entry i is the pose of the i-th observation in use. *)
Definition transformation_of (c : ccal) (i : nat) : Prop :=
  match cc_eobs c !! i with
  | Some o => cc_getTransformation c i = Ret (PoseQ o, PoseT o)
  | None => cc_getTransformation c i = Throw OutOfBound
  end.

(** ** Validator *)
From Coq Require Import Reals.
Local Open Scope R_scope.
(** A corner of the target: the observed and the predicted image point, if there are such. *)
Notation corner := (option (R * R) * option (R * R))%type (only parsing).
(** The errors (predicted - observed) of the corners that can be compared, in the order of the corners. *)
Definition compared (corners : list corner) : list (R * R) :=
  flat_map (fun k => match k with (Some o, Some p) => [(p.1 - o.1, p.2 - o.2)] | _ => [] end) corners.
Definition image := option (obs * list corner).
Definition images_errors (l : list image) : list (R * R) := flat_map (fun i => match i with Some (_, ks) => compared ks | None => [] end) l.
Definition images_obs (l : list image) : list obs := flat_map (fun i => match i with Some (o, _) => [o] | None => [] end) l.
Definition norm2 (e : R * R) : R := sqrt (e.1 * e.1 + e.2 * e.2).
(** [m] is the largest absolute value in [l]; 0 for the empty list *)
Definition is_max_abs (l : list R) (m : R) : Prop :=
  (forall x, x ∈ l -> Rabs x <= m) /\ (m = 0 /\ l = [] \/ exists x, x ∈ l /\ m = Rabs x).
Definition cvl_run (sigma2 : R) (l : list image) : cval := fold_left (fun v i => (cvl_addImage v i).1) l (cvl_new sigma2).
Definition sumR (l : list R) : R := fold_right Rplus 0 l.
Definition mean (l : list R) : R := sumR l / INR (length l).
