(** Model of the design-variable containers and of the spline problem of the examples
    (E = incremental_calibration_examples/incremental_calibration_examples_):
    - E time_delay/src/design-variables/OdometryDesignVariables.cpp, E car/src/design-variables/OdometryDesignVariables.cpp,
      E egomotion_sensors/src/design-variables/DesignVariables.cpp;
    - E car/src/algo/OptimizationProblemSpline.cpp (the same in time_delay, and in egomotion_sensors but for the accessors,
      see getSplineEgo in DeviationsModel.v).
    The objects are identified by numbers as in OptProblemModel; make_shared yields pairwise different objects. The numbers
    exported for a variable are a parameter: [out d i] is number [i] (0-based) that getParameters() copies out of variable
    [d] (its value; for the rotation the yaw, pitch and roll computed by the library). *)
From stdpp Require Import prelude list gmap.
From Verif Require Import Base OptProblemModel.

Section dvs.
Context {V A : Type}.

(** A loop of addDesignVariable calls: stops at the first exception. *)
Fixpoint add_all (s : oprob V) (ds : list nat) (g : nat) : oprob V * result unit :=
  match ds with
  | [] => (s, Ret tt)
  | d :: ds' => match o_addDV s (Some d) g with
                | (s', Ret _) => add_all s' ds' g
                | r => r
                end
  end.

(** Eigen::VectorXd params(n): uninitialised; assignment of an entry and of a segment. *)
Definition params_new (n : nat) : list (option A) := replicate n None.
Definition params_set (p : list (option A)) (i : nat) (x : A) : list (option A) := <[i := Some x]> p.
Fixpoint params_segment (p : list (option A)) (i : nat) (xs : list A) : list (option A) :=
  match xs with [] => p | x :: xs' => params_segment (params_set p i x) (S i) xs' end.

(** ** Time-delay example *)
Record td_vars := TdVars { td_b : nat; td_k_l : nat; td_k_r : nat; td_v_r_vp : nat; td_v_R_p : nat; td_t_l : nat; td_t_r : nat }.
Record td_config := TdConfig { td_trans_active : bool; td_rot_active : bool; td_delays_active : bool }.
(** Constructor, 35-79: the activity flags *)
Definition td_active (c : td_config) (v : td_vars) (d : nat) : bool :=
  if decide (d = td_b v \/ d = td_k_l v \/ d = td_k_r v) then true
  else if decide (d = td_v_r_vp v) then td_trans_active c
  else if decide (d = td_v_R_p v) then td_rot_active c
  else if decide (d = td_t_l v \/ d = td_t_r v) then td_delays_active c
  else false.
(** addToBatch, 85-94 *)
Definition td_batch_order (v : td_vars) : list nat :=
  [td_b v; td_k_l v; td_t_l v; td_k_r v; td_t_r v; td_v_r_vp v; td_v_R_p v].
Definition td_addToBatch (v : td_vars) (s : oprob V) (g : nat) : oprob V * result unit := add_all s (td_batch_order v) g.
(** getParameters, 96-108 *)
Definition td_getParameters (out : nat -> nat -> A) (v : td_vars) : list (option A) :=
  let p := params_new 11 in
  let p := params_set p 0 (out (td_b v) 0) in
  let p := params_set p 1 (out (td_k_l v) 0) in
  let p := params_set p 2 (out (td_t_l v) 0) in
  let p := params_set p 3 (out (td_k_r v) 0) in
  let p := params_set p 4 (out (td_t_r v) 0) in
  let p := params_segment p 5 [out (td_v_r_vp v) 0; out (td_v_r_vp v) 1; out (td_v_r_vp v) 2] in
  params_segment p 8 [out (td_v_R_p v) 0; out (td_v_R_p v) 1; out (td_v_R_p v) 2].

(** ** Car example *)
Record car_vars := CarVars { cv_e_r : nat; cv_e_f : nat; cv_L : nat; cv_a : nat; cv_k_rl : nat; cv_k_rr : nat; cv_k_fl : nat;
  cv_k_fr : nat; cv_k_dmi : nat; cv_v_r_vr : nat; cv_v_R_r : nat; cv_t_r : nat; cv_t_f : nat; cv_t_s : nat; cv_t_dmi : nat }.
(** Constructor, 35-105 *)
Definition car_active (delays_active : bool) (v : car_vars) (d : nat) : bool :=
  if decide (d ∈ [cv_e_r v; cv_e_f v; cv_L v; cv_a v; cv_k_rl v; cv_k_rr v; cv_k_fl v; cv_k_fr v; cv_k_dmi v]) then true
  else if decide (d ∈ [cv_v_r_vr v; cv_v_R_r v]) then false
  else if decide (d ∈ [cv_t_r v; cv_t_f v; cv_t_s v; cv_t_dmi v]) then delays_active
  else false.
(** addToBatch, 111-128 *)
Definition car_batch_order (v : car_vars) : list nat :=
  [cv_e_r v; cv_e_f v; cv_L v; cv_a v; cv_k_rl v; cv_k_rr v; cv_k_fl v; cv_k_fr v; cv_k_dmi v; cv_v_r_vr v; cv_v_R_r v;
   cv_t_r v; cv_t_f v; cv_t_s v; cv_t_dmi v].
Definition car_addToBatch (v : car_vars) (s : oprob V) (g : nat) : oprob V * result unit := add_all s (car_batch_order v) g.
(** getParameters, 130-150 *)
Definition car_getParameters (out : nat -> nat -> A) (v : car_vars) : list (option A) :=
  let p := params_new 22 in
  let p := params_set p 0 (out (cv_e_r v) 0) in
  let p := params_set p 1 (out (cv_e_f v) 0) in
  let p := params_set p 2 (out (cv_L v) 0) in
  let p := params_set p 3 (out (cv_k_rl v) 0) in
  let p := params_set p 4 (out (cv_k_rr v) 0) in
  let p := params_set p 5 (out (cv_k_fl v) 0) in
  let p := params_set p 6 (out (cv_k_fr v) 0) in
  let p := params_set p 7 (out (cv_k_dmi v) 0) in
  let p := params_segment p 8 [out (cv_a v) 0; out (cv_a v) 1; out (cv_a v) 2; out (cv_a v) 3] in
  let p := params_segment p 12 [out (cv_v_r_vr v) 0; out (cv_v_r_vr v) 1; out (cv_v_r_vr v) 2] in
  let p := params_segment p 15 [out (cv_v_R_r v) 0; out (cv_v_R_r v) 1; out (cv_v_R_r v) 2] in
  let p := params_set p 18 (out (cv_t_r v) 0) in
  let p := params_set p 19 (out (cv_t_f v) 0) in
  let p := params_set p 20 (out (cv_t_s v) 0) in
  params_set p 11 (out (cv_t_dmi v) 0).

(** ** Egomotion example *)
(** One entry of calibrationVariables_: delay, translation, rotation; in the configuration also the activity flags. *)
Record ego_vars := EgoVars { ev_t : nat; ev_r : nat; ev_R : nat }.
(** Constructor, 37-71: [cfg] lists, per configured sensor, its "idx" and the objects made for it; operator[] overwrites. *)
Definition ego_new (cfg : list (nat * ego_vars)) : gmap nat ego_vars :=
  foldl (fun m e => <[e.1 := e.2]> m) ∅ cfg.
(** addToBatch, 77-83; [order]: the entries in the iteration order of the unordered_map *)
Definition ego_batch_order (order : list (nat * ego_vars)) : list nat :=
  flat_map (fun e => [ev_t e.2; ev_r e.2; ev_R e.2]) order.
Definition ego_addToBatch (order : list (nat * ego_vars)) (s : oprob V) (g : nat) : oprob V * result unit :=
  add_all s (ego_batch_order order) g.
(** getParameters, 85-97 *)
Definition ego_getParameters (out : nat -> nat -> A) (m : gmap nat ego_vars) (idx : nat) : result (list (option A)) :=
  match m !! idx with
  | None => Throw OutOfBound
  | Some v => let p := params_new 7 in
              let p := params_set p 0 (out (ev_t v) 0) in
              let p := params_segment p 1 [out (ev_r v) 0; out (ev_r v) 1; out (ev_r v) 2] in
              Ret (params_segment p 4 [out (ev_R v) 0; out (ev_R v) 1; out (ev_R v) 2])
  end.

(** ** OptimizationProblemSpline *)
(** A spline: its identity and its design variables in order. *)
Record spline := Spline { sp_id : nat; sp_dvs : list nat }.
Record sprob := SProb {
  sp_prob   : oprob V;        (* base class *)
  sp_trans  : list spline;    (* _translationSplines *)
  sp_rot    : list spline;    (* _rotationSplines *)
  sp_active : nat -> bool     (* activity flags of the design variables (they belong to the splines) *)
}.
Inductive spkind := SpTrans | SpRot.
(** The loop of addSpline, 91-96 and 102-107 *)
Fixpoint spline_loop (s : oprob V) (act : nat -> bool) (ds : list nat) (g : nat) : oprob V * (nat -> bool) * result unit :=
  match ds with
  | [] => (s, act, Ret tt)
  | d :: ds' => let act' := fun x => if decide (x = d) then true else act x in
                match o_addDV s (Some d) g with
                | (s', Ret _) => spline_loop s' act' ds' g
                | (s', r) => (s', act', r)
                end
  end.
(** addSpline, 89-98 and 100-109; a null pointer is dereferenced *)
Definition addSpline (s : sprob) (k : spkind) (sp : option spline) (g : nat) : sprob * result unit :=
  match sp with
  | None => (s, UB)
  | Some sp =>
    match spline_loop (sp_prob s) (sp_active s) (sp_dvs sp) g with
    | (p, act, Ret _) =>
      (match k with
       | SpTrans => SProb p (sp_trans s ++ [sp]) (sp_rot s) act
       | SpRot => SProb p (sp_trans s) (sp_rot s ++ [sp]) act
       end, Ret tt)
    | (p, act, r) => (SProb p (sp_trans s) (sp_rot s) act, r)
    end
  end.
(** Accessors, 31-83 *)
Definition sp_list (s : sprob) (k : spkind) : list spline := match k with SpTrans => sp_trans s | SpRot => sp_rot s end.
Definition getSpline (s : sprob) (k : spkind) (idx : nat) : result spline :=
  match sp_list s k !! idx with Some sp => Ret sp | None => Throw OutOfBound end.
(** The other members are inherited; in particular clear() only clears the base class. *)
Definition sp_clear (s : sprob) : sprob := SProb (o_clear (sp_prob s)) (sp_trans s) (sp_rot s) (sp_active s).
Definition sp_empty : sprob := SProb o_empty [] [] (fun _ => false).
Inductive spop := SpAdd (k : spkind) (sp : option spline) (g : nat) | SpAddDV (d : option nat) (g : nat) | SpClear.
Definition sp_step (s : sprob) (op : spop) : sprob * result unit :=
  match op with
  | SpAdd k sp g => addSpline s k sp g
  | SpAddDV d g => let r := o_addDV (sp_prob s) d g in (SProb r.1 (sp_trans s) (sp_rot s) (sp_active s), r.2)
  | SpClear => (sp_clear s, Ret tt)
  end.
End dvs.
Global Arguments sprob : clear implicits.
