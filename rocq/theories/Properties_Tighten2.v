(** Further theorems added because wrong programs survived the others (seeded/LOG.jsonl): C92, C94 (car programs). *)
From stdpp Require Import prelude list.
From Coq Require Import Reals String Lra.
From Verif Require Import Base GeodeticModel Spec_Geodetic CalibratorModel CarDriverModel Spec_CarDriver Properties_CarDriver.
Local Open Scope R_scope.

(** C92: the four variances every navigation solution is given to the calibrator with: the squares of the six errors the last performance message reports,
    in the order north, east, down for position and velocity, heading, pitch, roll for the orientation and roll, pitch, heading for the rates. *)
Theorem car_variances {C} (c0 : C) correct secToNsec ypr unypr cfg bag calls sols :
  topics_ok cfg -> Forall (typed cfg) bag -> read_bag c0 correct secToNsec ypr unypr cfg bag = Ret calls -> solutions cfg None bag = sols ->
  exists tr : list (pose_meas * vel_meas * Z),
    of_kinds [CPose; CVel] calls = flat_map (fun '(pose, vel, t) => [Call (MPose pose) t; Call (MVel vel) t]) tr /\
    Forall2 (fun '(_, p) '(pose, vel, _) =>
      sigma2_m_r_mr pose = V3 (sqr (northPositionRMSError p)) (sqr (eastPositionRMSError p)) (sqr (downPositionRMSError p)) /\
      sigma2_m_R_r pose = V3 (sqr (rad (headingRMSError p))) (sqr (rad (pitchRMSError p))) (sqr (rad (rollRMSError p))) /\
      sigma2_r_v_mr vel = V3 (sqr (northVelocityRMSError p)) (sqr (eastVelocityRMSError p)) (sqr (downVelocityRMSError p)) /\
      sigma2_r_om_mr vel = V3 (sqr (rad (rollRMSError p))) (sqr (rad (pitchRMSError p))) (sqr (rad (headingRMSError p)))) sols tr.
Proof.
  intros N T E <-. destruct (P_vns_holds c0 correct secToNsec ypr unypr cfg bag calls N T E) as (tr & E1 & E2 & E3).
  exists tr. cbn [lastVnp driver_init corVns] in *. split.
  - rewrite E1. apply flat_map_ext. by intros [[? ?] ?].
  - eapply Forall2_impl; [exact E2|]. intros [v p] [[pose vel] t]. cbn [fst snd]. intros [-> ->].
    unfold make_pose, make_vel. cbn [sigma2_m_r_mr sigma2_m_R_r sigma2_r_v_mr sigma2_r_om_mr]. rewrite <- !rad_deg2rad. split_and!; reflexivity.
Qed.

(** The five sensors that give measurements, their topics, and whether a message is of their type. *)
Inductive reader := RdVns | RdFws | RdRws | RdSt | RdDmi.
Definition rd_topic (cfg : car_config) (r : reader) : string :=
  match r with RdVns => t_vns cfg | RdFws => t_fws cfg | RdRws => t_rws cfg | RdSt => t_st cfg | RdDmi => t_dmi cfg end.
Definition rd_used (cfg : car_config) (r : reader) : bool :=
  match r with RdVns => true | RdFws => useFw cfg | RdRws => useRw cfg | RdSt => useSt cfg | RdDmi => useDMI cfg end.
Lemma bag_first {C} (c0 : C) correct secToNsec ypr unypr cfg m rest :
  read_bag c0 correct secToNsec ypr unypr cfg (m :: rest) =
  rbind (loop correct secToNsec ypr unypr cfg (driver_init c0) (m :: rest)) (fun '(_, l) => Ret l).
Proof. unfold read_bag. by rewrite loop_filter. Qed.
(** C94: when two of the sensors in use share a topic, the first message on it that is read undoes the program, whatever its type. *)
Theorem car_shared_topic_undefined {C} (c0 : C) correct secToNsec ypr unypr (cfg : car_config) p pl r1 r2 rest :
  r1 <> r2 -> rd_used cfg r1 = true -> rd_used cfg r2 = true -> rd_topic cfg r1 = rd_topic cfg r2 -> (forall r, rd_topic cfg r <> t_vnp cfg) ->
  read_bag c0 correct secToNsec ypr unypr cfg (Message (t_vnp cfg) (Vnp p) :: Message (rd_topic cfg r1) pl :: rest) = UB.
Proof.
  intros Hr U1 U2 Ht Hn. rewrite bag_first. cbn [loop].
  assert (E1 : exists s, loop_body correct secToNsec ypr unypr cfg (driver_init c0) (Message (t_vnp cfg) (Vnp p)) = Ret (s, []) /\ lastVnp s = Some p).
  { unfold loop_body. cbn [topic content]. rewrite String.eqb_refl.
    rewrite (proj2 (String.eqb_neq _ (t_vns cfg))) by (apply not_eq_sym, (Hn RdVns)). rewrite (proj2 (String.eqb_neq _ (t_fws cfg))) by (apply not_eq_sym, (Hn RdFws)).
    rewrite (proj2 (String.eqb_neq _ (t_rws cfg))) by (apply not_eq_sym, (Hn RdRws)). rewrite (proj2 (String.eqb_neq _ (t_st cfg))) by (apply not_eq_sym, (Hn RdSt)).
    rewrite (proj2 (String.eqb_neq _ (t_dmi cfg))) by (apply not_eq_sym, (Hn RdDmi)). cbn. eexists. split; reflexivity. }
  destruct E1 as (s & -> & Hs). cbn [rbind].
  assert (E2 : loop_body correct secToNsec ypr unypr cfg s (Message (rd_topic cfg r1) pl) = UB).
  { unfold loop_body. cbn [topic content]. set (t := rd_topic cfg r1) in *. rewrite (proj2 (String.eqb_neq t (t_vnp cfg))) by apply Hn.
    assert (H1 : String.eqb t (rd_topic cfg r1) && rd_used cfg r1 = true) by (rewrite U1; unfold t; by rewrite String.eqb_refl).
    assert (H2 : String.eqb t (rd_topic cfg r2) && rd_used cfg r2 = true) by (rewrite U2, Ht; by rewrite String.eqb_refl).
    clearbody t. clear -Hr H1 H2 Hs.
    replace (String.eqb t (t_vns cfg)) with (String.eqb t (rd_topic cfg RdVns) && rd_used cfg RdVns) by (cbn; apply andb_true_r).
    change (String.eqb t (t_fws cfg) && useFw cfg) with (String.eqb t (rd_topic cfg RdFws) && rd_used cfg RdFws).
    change (String.eqb t (t_rws cfg) && useRw cfg) with (String.eqb t (rd_topic cfg RdRws) && rd_used cfg RdRws).
    change (String.eqb t (t_st cfg) && useSt cfg) with (String.eqb t (rd_topic cfg RdSt) && rd_used cfg RdSt).
    change (String.eqb t (t_dmi cfg) && useDMI cfg) with (String.eqb t (rd_topic cfg RdDmi) && rd_used cfg RdDmi).
    set (f r := String.eqb t (rd_topic cfg r) && rd_used cfg r) in *. change (f r1 = true) in H1. change (f r2 = true) in H2. fold (f RdVns) (f RdFws) (f RdRws) (f RdSt) (f RdDmi).
    clearbody f. unfold do_blocks, block_vns, block_fws, block_rws, block_st, block_dmi. rewrite Hs.
    destruct r1, r2; try (by destruct Hr); rewrite H1, H2; clear H1 H2; destruct pl; cbn [as_vnp as_vns as_fws as_rws as_st as_dmi];
    repeat match goal with |- context [f ?x] => destruct (f x) end;
    repeat first [reflexivity | match goal with |- context [correct ?a ?b ?c] => destruct (correct a b c) end; cbn [rbind] | case_decide |
      match goal with |- context [Req_EM_T ?a ?b] => destruct (Req_EM_T a b) end; cbn [rbind] | progress cbn [rbind]]. }
  rewrite E2. done.
Qed.
(** C94, refuted: if the two topics of the navigation system are the same, a proper performance message undoes the program; without one, every solution is
    skipped silently. *)
Theorem car_same_navigation_topic_refuted {C} (c0 : C) correct secToNsec ypr unypr (cfg : car_config) p rest sols :
  t_vns cfg = t_vnp cfg -> (forall r, r <> RdVns -> rd_topic cfg r <> t_vnp cfg) ->
  read_bag c0 correct secToNsec ypr unypr cfg (Message (t_vnp cfg) (Vnp p) :: rest) = UB /\
  read_bag c0 correct secToNsec ypr unypr cfg (map (fun v => Message (t_vns cfg) (Vns v)) sols) = Ret [].
Proof.
  intros Ht Hn. split.
  - rewrite bag_first. cbn [loop]. unfold loop_body. cbn [topic content]. rewrite Ht, String.eqb_refl. reflexivity.
  - unfold read_bag. rewrite loop_filter.
    assert (L : forall s, exists s', loop correct secToNsec ypr unypr cfg s (map (fun v => Message (t_vns cfg) (Vns v)) sols) = Ret (s', [])).
    { induction sols as [|v sols IH]; intros s; [by exists s|]. cbn [map loop]. unfold loop_body. cbn [topic content]. rewrite Ht, String.eqb_refl. rewrite Ht in IH.
      cbn -[loop]. match goal with |- context [loop _ _ _ _ _ ?x _] => destruct (IH x) as [s' E] end. setoid_rewrite E. by exists s'. }
    destruct (L (driver_init c0)) as [s' ->]. done.
Qed.
(** C94, refuted: a sensor that shares its topic with the navigation solutions is ignored, silently, as long as there is no performance message. *)
Theorem car_solution_topic_shared_refuted {C} (c0 : C) correct secToNsec ypr unypr (cfg : car_config) (l : list payload) :
  t_vns cfg <> t_vnp cfg -> read_bag c0 correct secToNsec ypr unypr cfg (map (Message (t_vns cfg)) l) = Ret [].
Proof.
  intros Hn. unfold read_bag. rewrite loop_filter.
  assert (L : forall s, lastVnp s = None -> loop correct secToNsec ypr unypr cfg s (map (Message (t_vns cfg)) l) = Ret (s, [])).
  { intros s Hs. induction l as [|v l IH]; [done|]. cbn [map loop]. unfold loop_body. cbn [topic content]. rewrite String.eqb_refl.
    rewrite (proj2 (String.eqb_neq _ _) Hn). cbn [do_blocks]. unfold block_vns. rewrite Hs. cbn [rbind]. rewrite IH. done. }
  by rewrite L.
Qed.
(** A configuration in which the rear wheels share the topic of the front wheels. *)
Example car_shared_topic_example : let cfg := CarConfig true true true true "w" "w" "st" "dmi" "vns" "vnp" in
  RdFws <> RdRws /\ rd_used cfg RdFws = true /\ rd_used cfg RdRws = true /\ rd_topic cfg RdFws = rd_topic cfg RdRws /\ (forall r, rd_topic cfg r <> t_vnp cfg).
Proof. cbn. split_and!; try done. intros []; done. Qed.
Print Assumptions car_shared_topic_undefined.
