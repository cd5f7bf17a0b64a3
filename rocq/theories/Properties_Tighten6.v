(** Theorems written against mutants that survived: evaluation of the error terms used by the predictions (C97), activity flags and
    accessors of the time-delay and spline design variables (C47, C76). *)
From stdpp Require Import prelude list gmap.
From Coq Require Import Reals Lra.
From Verif Require Import Base OptProblemModel GeodeticModel ErrorTermModel KinematicsModel DesignVarsModel Properties_DesignVars.

(** ** Error terms *)
(** Weighted squared error for independent components. *)
Definition weighted (es vars : list R) : R := fold_right (fun ev s => ev.1 * ev.1 / ev.2 + s)%R 0%R (combine es vars).
Theorem eval_term_weighted unypr angleMod x :
  (match x with
   | EPose T m_r m_a var_r var_a =>
       snd (eval_term unypr angleMod x) =
       weighted (fst (eval_term unypr angleMod x)) [vx var_r; vy var_r; vz var_r; vx var_a; vy var_a; vz var_a]
   | EVel v om m_v m_om var_v var_om =>
       snd (eval_term unypr angleMod x) =
       weighted (fst (eval_term unypr angleMod x)) [vx var_v; vy var_v; vz var_v; vx var_om; vy var_om; vz var_om]
   | EWheel v k m var front => snd (eval_term unypr angleMod x) = weighted (fst (eval_term unypr angleMod x)) [vx var; vy var; vz var]
   | ESteer v m var a => snd (eval_term unypr angleMod x) = weighted (fst (eval_term unypr angleMod x)) [var]
   end)%R.
Proof.
  destruct x as [T m_r m_a var_r var_a|v om m_v m_om var_v var_om|v k m var front|v m var a];
    cbn [eval_term fst snd]; unfold weighted, coords, chi3; cbn [combine app fold_right fst snd]; lra.
Qed.
(** The errors themselves: measured minus predicted, component by component, in the order x, y, z. *)
Theorem eval_term_errors unypr angleMod x :
  fst (eval_term unypr angleMod x) =
  match x with
  | EPose T m_r m_a _ _ =>
      [vx m_r - vx T.1; vy m_r - vy T.1; vz m_r - vz T.1;
       angleMod (vx m_a - vx (unypr T.2)); angleMod (vy m_a - vy (unypr T.2)); angleMod (vz m_a - vz (unypr T.2))]
  | EVel v om m_v m_om _ _ => [vx m_v - vx v; vy m_v - vy v; vz m_v - vz v; vx m_om - vx om; vy m_om - vy om; vz m_om - vz om]
  | EWheel v k m _ false => [m - k * vx v; - vy v; - vz v]
  | EWheel v k m _ true => let temp := sqrt (vy v * vy v / (vx v * vx v) + 1) in [m - k * (vx v / temp + vy v * vy v / (vx v * temp)); 0; - vz v]
  | ESteer v m _ a => [steering_error angleMod m a (rvec_of v) 0%nat]
  end%R.
Proof. destruct x as [| |v k m var [|]|]; reflexivity. Qed.

(** ** Design variables *)
(** The time-delay calibrator marks as active the wheel parameters always, the mounting and the delays as configured, and no other variable. *)
Theorem td_active_exactly c v d : NoDup [td_b v; td_k_l v; td_k_r v; td_v_r_vp v; td_v_R_p v; td_t_l v; td_t_r v] ->
  td_active c v d = true <->
  d ∈ [td_b v; td_k_l v; td_k_r v] \/ (d = td_v_r_vp v /\ td_trans_active c = true) \/ (d = td_v_R_p v /\ td_rot_active c = true) \/
  (d ∈ [td_t_l v; td_t_r v] /\ td_delays_active c = true).
Proof.
  intros Hnd. destruct v as [b kl kr r q tl tr]. cbn [td_b td_k_l td_k_r td_v_r_vp td_v_R_p td_t_l td_t_r] in *.
  rewrite !NoDup_cons, !not_elem_of_cons in Hnd. destruct_and!.
  rewrite !elem_of_cons, !elem_of_nil. unfold td_active. cbn [td_b td_k_l td_k_r td_v_r_vp td_v_R_p td_t_l td_t_r].
  destruct (decide (d = b \/ d = kl \/ d = kr)) as [D1|D1]; [split; [intros _; left; tauto|done]|].
  destruct (decide (d = r)) as [D2|D2]; [subst d; split; [by auto|]; intros [?|[[_ ?]|[[? _]|[? _]]]]; [tauto|done|congruence|destruct_or!; done || congruence]|].
  destruct (decide (d = q)) as [D3|D3]; [subst d; split; [by auto|]; intros [?|[[? _]|[[_ ?]|[? _]]]]; [tauto|congruence|done|destruct_or!; done || congruence]|].
  destruct (decide (d = tl \/ d = tr)) as [D4|D4]; [split; [intros ?; right; right; right; tauto|]; intros [?|[[? _]|[[? _]|[_ ?]]]]; [tauto|congruence|congruence|done]|].
  split; [done|]. tauto.
Qed.
Section splines.
  Context {V : Type}.
  (** Looking up a spline beyond the end throws OutOfBound; looking up an added one succeeds. *)
  Theorem getSpline_outcome (s : sprob V) k idx :
    (getSpline s k idx = Throw OutOfBound <-> (List.length (sp_list s k) <= idx)%nat) /\
    (forall sp, getSpline s k idx = Ret sp <-> sp_list s k !! idx = Some sp).
  Proof.
    unfold getSpline. destruct (sp_list s k !! idx) as [sp|] eqn:E.
    - split; [split; [done|]; intros H; apply lookup_ge_None_2 in H; congruence|]. intros sp'. split; congruence.
    - split; [split; [|done]; intros _; by apply lookup_ge_None|]. intros sp'. split; done.
  Qed.
  (** Clearing never fails, and a fresh problem lists no spline. *)
  Theorem sp_clear_outcome (s : sprob V) : snd (sp_step s SpClear) = Ret tt.
  Proof. done. Qed.
  (** In every history, an active variable belongs to a spline that was given to addSpline. *)
  Local Lemma spline_loop_active ds : forall (p : oprob V) act g d, snd (fst (spline_loop p act ds g)) d = true -> act d = true \/ d ∈ ds.
  Proof.
    induction ds as [|d0 ds IH]; intros p act g d; cbn [spline_loop]; [by left|].
    destruct (o_addDV p (Some d0) g) as [p' [[]| | |]]; cbn [fst snd]; intros H; [apply IH in H as [H|H]; [|right; by right]|..];
      (destruct (decide (d = d0)) as [->|]; [right; left|by left]).
  Qed.
  Theorem spline_active_added (ops : list spop) d : sp_active (sp_run (sp_empty : sprob V) ops) d = true ->
    exists k sp g, SpAdd k (Some sp) g ∈ ops /\ d ∈ sp_dvs sp.
  Proof.
    assert (H : forall s : sprob V, sp_active (sp_run s ops) d = true ->
      sp_active s d = true \/ exists k sp g, SpAdd k (Some sp) g ∈ ops /\ d ∈ sp_dvs sp).
    { induction ops as [|op ops IH]; intros s Hs; [by left|]. cbn [sp_run fold_left] in Hs.
      destruct (IH (fst (sp_step s op)) Hs) as [H|(k & sp & g & Hin & Hd)]; [|right; exists k, sp, g; split; [by right|done]].
      destruct op as [k [sp|] g|x g|]; cbn [sp_step] in H; [|by left..].
      unfold addSpline in H. pose proof (spline_loop_active (sp_dvs sp) (sp_prob s) (sp_active s) g d) as Hl.
      destruct (spline_loop (sp_prob s) (sp_active s) (sp_dvs sp) g) as [[p act] [[]| | |]]; cbn [fst snd] in Hl;
        destruct k; cbn [fst sp_active] in H; (destruct (Hl H) as [?|Hd]; [by left|right; do 3 eexists; split; [left|exact Hd]]). }
    intros Hs. by destruct (H _ Hs).
  Qed.
End splines.
Example td_active_example :
  let v := TdVars 0 1 2 3 4 5 6 in
  NoDup [td_b v; td_k_l v; td_k_r v; td_v_r_vp v; td_v_R_p v; td_t_l v; td_t_r v] /\ td_active (TdConfig true false true) v 5 = true /\
  td_active (TdConfig true false true) v 4 = false /\ td_active (TdConfig true false true) v 7 = false.
Proof. cbn zeta. cbn [td_b td_k_l td_k_r td_v_r_vp td_v_R_p td_t_l td_t_r]. split; [repeat (constructor; [set_solver|]); constructor|]. split_and!; reflexivity. Qed.
