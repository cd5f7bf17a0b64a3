(** C127: the data files of the real-world programs of the car example. *)
From stdpp Require Import prelude list.
From Coq Require Import Reals String Lra.
From Verif Require Import Base GeodeticModel CalibratorModel CarDriverModel Spec_CarDriver Properties_CarDriver CarFilesModel.
Local Open Scope R_scope.

(** ** What a line should be *)
(** The file and the numbers of a measurement. *)
Definition file_of (m : meas) : car_file :=
  match m with MPose _ => PoseData | MVel _ => VelData | MFront _ _ => FwData | MRear _ _ => RwData | MSteer _ => StData | MDmi _ => DmiData end.
Definition numbers_of (m : meas) : list R :=
  let n3 (p : v3) := [vx p; vy p; vz p] in
  match m with
  | MPose p => n3 (m_r_mr p) ++ n3 (m_R_r p) ++ n3 (sigma2_m_r_mr p) ++ n3 (sigma2_m_R_r p)
  | MVel v => n3 (r_v_mr v) ++ n3 (r_om_mr v) ++ n3 (sigma2_r_v_mr v) ++ n3 (sigma2_r_om_mr v)
  | MFront l r => [l; r] | MRear l r => [l; r] | MSteer x => [x] | MDmi x => [x]
  end.
(** The time stamp in the header of a message; performance messages have one too, but nothing is written for them. *)
Definition header_stamp (p : payload) : Z :=
  match p with Vns m => vns_stamp m | Fws m | Rws m => wh_stamp m | St m => st_stamp m | Dmi m => dmi_stamp m | Vnp _ | OtherMsg => 0%Z end.
Definition lines_of (f : car_file) (ls : list line) : list line :=
  List.filter (fun l => match l_file l, f with
    | RwData, RwData | FwData, FwData | StData, StData | DmiData, DmiData | PoseData, PoseData | VelData, VelData => true | _, _ => false end) ls.
Definition line_for (stamp : Z) (c : call) : line := Line (file_of (c_meas_of c)) stamp (numbers_of (c_meas_of c)).

Section files.
  Context {C : Type} (c0 : C) (correct : C -> Z -> Z -> C * Z) (secToNsec : R -> Z) (ypr : v3 -> m3) (unypr : m3 -> v3) (cfg : car_config).
  Local Notation body := (loop_body correct secToNsec ypr unypr cfg).
  Local Notation wbody := (write_body correct secToNsec ypr unypr cfg).
  Local Notation loop := (loop correct secToNsec ypr unypr cfg).
  Local Notation wloop := (write_loop correct secToNsec ypr unypr cfg).
  Local Notation read_bag := (read_bag c0 correct secToNsec ypr unypr cfg).
  Local Notation write_files := (write_files c0 correct secToNsec ypr unypr cfg).
  Local Notation step_of := (step_of correct secToNsec ypr unypr cfg).
  Local Notation dstate := (@dstate C).
  Local Notation block := (dstate -> payload -> result (dstate * list call * bool)).

  Definition agrees (b : block) (w : dstate -> payload -> list line) : Prop :=
    forall s p s1 l cont, b s p = Ret (s1, l, cont) -> w s p = map (line_for (header_stamp p)) l.
  Lemma agrees_vnp : agrees block_vnp write_vnp.
  Proof. intros s p s1 l cont [= _ <- _]. reflexivity. Qed.
  Lemma agrees_vns : agrees (block_vns correct secToNsec ypr unypr) (write_vns ypr unypr).
  Proof.
    intros s p s1 l cont. unfold block_vns, write_vns. destruct (lastVnp s) as [q|]; [|by intros [= _ <- _]].
    destruct p; cbn [as_vns]; try done. cbv zeta. destruct (correct _ _ _) as [cor ts]. intros [= _ <- _]. reflexivity.
  Qed.
  Lemma agrees_fws : agrees (block_fws correct) write_fws.
  Proof.
    intros s p s1 l cont. unfold block_fws, write_fws. destruct p; cbn [as_fws]; try done. destruct (correct _ _ _) as [cor ts].
    intros [= _ <- _]. reflexivity.
  Qed.
  Lemma agrees_rws : agrees (block_rws correct) write_rws.
  Proof.
    intros s p s1 l cont. unfold block_rws, write_rws. destruct p; cbn [as_rws]; try done. destruct (correct _ _ _) as [cor ts].
    intros [= _ <- _]. reflexivity.
  Qed.
  Lemma agrees_st : agrees (block_st correct) write_st.
  Proof.
    intros s p s1 l cont. unfold block_st, write_st. destruct p; cbn [as_st]; try done. destruct (correct _ _ _) as [cor ts].
    intros [= _ <- _]. reflexivity.
  Qed.
  Lemma agrees_dmi : agrees (block_dmi correct secToNsec) write_dmi.
  Proof.
    intros s p s1 l cont. unfold block_dmi, write_dmi. destruct p; cbn [as_dmi]; try done.
    destruct (Req_EM_T _ _); [by intros [= _ <- _]|]. destruct (correct _ _ _) as [cor ts]. intros [= _ <- _]. reflexivity.
  Qed.

  Lemma blocks_agree (bs : list (bool * block * (dstate -> payload -> list line))) : Forall (fun b => agrees b.1.2 b.2) bs -> forall s p,
    write_blocks bs s p = rbind (do_blocks (map fst bs) s p) (fun '(s1, l) => Ret (s1, map (line_for (header_stamp p)) l)).
  Proof.
    induction 1 as [|[[[] b] w] bs Hb Hbs IH]; intros s p; [reflexivity| |].
    - cbn [write_blocks map fst do_blocks]. destruct (b s p) as [[[s1 l] cont]| | |] eqn:E; try reflexivity.
      cbn [fst snd] in Hb. rewrite (Hb _ _ _ _ _ E). simpl. destruct cont; [reflexivity|]. rewrite IH.
      destruct (do_blocks (map fst bs) s1 p) as [[s2 l']| | |]; try reflexivity. simpl. by rewrite List.map_app.
    - cbn [write_blocks map fst do_blocks]. apply IH.
  Qed.
  Lemma body_agrees s m : wbody s m = rbind (body s m) (fun '(s1, l) => Ret (s1, map (line_for (header_stamp (content m))) l)).
  Proof.
    unfold write_body, loop_body. cbv zeta. rewrite blocks_agree; [reflexivity|].
    repeat constructor; cbn [fst snd]; auto using agrees_vnp, agrees_vns, agrees_fws, agrees_rws, agrees_st, agrees_dmi.
  Qed.

  (** Whatever the log and the configuration: the lines are the measurements handed to the calibrator, one line each, in the same
      order, in the file of their kind and with all their numbers; and reading fails exactly if it fails without the files. *)
  Theorem car_files_are_calls bag :
    (forall lines, write_files bag = Ret lines -> exists calls, read_bag bag = Ret calls /\
       Forall2 (fun l c => l_file l = file_of (c_meas_of c) /\ l_numbers l = numbers_of (c_meas_of c)) lines calls /\
       Forall (fun l => exists m, m ∈ bag /\ l_stamp l = header_stamp (content m)) lines) /\
    (forall calls, read_bag bag = Ret calls -> exists lines, write_files bag = Ret lines) /\
    (write_files bag = UB <-> read_bag bag = UB).
  Proof.
    assert (K : forall ms (s : dstate), (forall m, m ∈ ms -> m ∈ bag) ->
      (exists s1 lines calls, wloop s ms = Ret (s1, lines) /\ loop s ms = Ret (s1, calls) /\
        Forall2 (fun l c => l_file l = file_of (c_meas_of c) /\ l_numbers l = numbers_of (c_meas_of c)) lines calls /\
        Forall (fun l => exists m, m ∈ bag /\ l_stamp l = header_stamp (content m)) lines) \/
      (wloop s ms = UB /\ loop s ms = UB) \/ (exists e, wloop s ms = Throw e /\ loop s ms = Throw e) \/ (wloop s ms = Diverge /\ loop s ms = Diverge)).
    { induction ms as [|m ms IH]; intros s Hin; [left; exists s, [], []; repeat split; constructor|].
      cbn [write_loop CarDriverModel.loop]. rewrite body_agrees. destruct (body s m) as [[s1 l]|e| |]; simpl; [|right; right; left; eauto|right; left; auto|right; right; right; auto].
      destruct (IH s1) as [(s2 & lines & calls & E1 & E2 & F & G)|[(E1 & E2)|[(e & E1 & E2)|(E1 & E2)]]]; [intros; apply Hin; by right|..];
        rewrite E1, E2; simpl; [left|right; left; auto|right; right; left; eauto|right; right; right; auto].
      eexists _, _, _. split; [reflexivity|]. split; [reflexivity|]. split.
      - apply Forall2_app; [|exact F]. clear. induction l; constructor; [split; reflexivity|assumption].
      - apply Forall_app. split; [|exact G]. apply Forall_forall. intros x Hx. apply elem_of_list_fmap in Hx as (c & -> & _).
        exists m. split; [apply Hin; left|reflexivity]. }
    unfold CarFilesModel.write_files, CarDriverModel.read_bag.
    destruct (K (List.filter (in_view cfg) bag) (driver_init c0)) as [(s1 & lines & calls & E1 & E2 & F & G)|[(E1 & E2)|[(e & E1 & E2)|(E1 & E2)]]].
    { intros m Hm. apply elem_of_list_In in Hm. apply filter_In in Hm as [Hm _]. by apply elem_of_list_In. }
    all: rewrite E1, E2; simpl; split; [|split]; try (intros; done); try (split; done).
    - intros ls [= <-]. eauto.
    - eauto.
  Qed.

  Lemma wloop_filter ms : forall s : dstate, wloop s (List.filter (in_view cfg) ms) = wloop s ms.
  Proof.
    induction ms as [|m ms IH]; intros s; [reflexivity|]. simpl. destruct (in_view cfg m) eqn:E.
    - simpl. destruct (wbody s m) as [[s1 l]| | |]; try reflexivity. simpl. by rewrite IH.
    - rewrite IH. unfold in_view in E. simpl in E. rewrite !orb_false_iff in E. destruct E as (E1 & E2 & E3 & E4 & E5 & E6 & _).
      unfold write_body. rewrite E1, E2, E3, E4, E5, E6. simpl. destruct (wloop s ms) as [[]| | |]; reflexivity.
  Qed.
  Lemma wloop_steps (P : dstate -> list message -> list line -> Prop) : topics_ok cfg ->
    (forall s, P s [] []) ->
    (forall s m ms s1 l1 l, typed cfg m -> step_of s m s1 l1 -> P s1 ms l -> P s (m :: ms) (map (line_for (header_stamp (content m))) l1 ++ l)) ->
    forall ms s, Forall (typed cfg) ms -> exists s' l, wloop s ms = Ret (s', l) /\ P s ms l.
  Proof.
    intros N P0 P1. induction ms as [|m ms IH]; intros s T; [exists s, []; auto|].
    apply Forall_cons in T as [Tm T]. destruct (body_step c0 correct secToNsec ypr unypr cfg s m N Tm) as (s1 & l1 & E & H). destruct (IH s1 T) as (s' & l & E' & H').
    exists s', (map (line_for (header_stamp (content m))) l1 ++ l). split; [|eauto]. simpl. rewrite body_agrees, E. simpl. rewrite E'. reflexivity.
  Qed.
  Lemma write_steps (P : dstate -> list message -> list line -> Prop) bag lines : topics_ok cfg -> Forall (typed cfg) bag ->
    (forall s, P s [] []) ->
    (forall s m ms s1 l1 l, typed cfg m -> step_of s m s1 l1 -> P s1 ms l -> P s (m :: ms) (map (line_for (header_stamp (content m))) l1 ++ l)) ->
    write_files bag = Ret lines -> P (driver_init c0) bag lines.
  Proof.
    intros N T P0 P1 E. unfold CarFilesModel.write_files in E. rewrite wloop_filter in E.
    destruct (wloop_steps P N P0 P1 bag (driver_init c0) T) as (s' & l & E' & H). rewrite E' in E. simpl in E. by injection E as <-.
  Qed.

  Lemma lines_of_app f a b : lines_of f (a ++ b) = lines_of f a ++ lines_of f b.
  Proof. unfold lines_of. apply List.filter_app. Qed.

  Definition stamps (f : car_file) (ls : list line) : list Z := map l_stamp (lines_of f ls).
  Lemma stamps_app f a b : stamps f (a ++ b) = stamps f a ++ stamps f b.
  Proof. unfold stamps. rewrite lines_of_app. apply List.map_app. Qed.

  Ltac topics N := unfold topics_ok in N; rewrite !NoDup_cons in N; destruct N as (N1 & N2 & N3 & N4 & N5 & _ & _);
    repeat setoid_rewrite not_elem_of_cons in N1; repeat setoid_rewrite not_elem_of_cons in N2; repeat setoid_rewrite not_elem_of_cons in N3;
    repeat setoid_rewrite not_elem_of_cons in N4; repeat setoid_rewrite not_elem_of_cons in N5.

  Definition P_nav (s : dstate) (ms : list message) (l : list line) : Prop :=
    stamps PoseData l = map (fun x => vns_stamp (fst x)) (solutions cfg (lastVnp s) ms) /\
    stamps VelData l = map (fun x => vns_stamp (fst x)) (solutions cfg (lastVnp s) ms).
  Lemma P_nav_step s m ms s1 l1 l : topics_ok cfg -> typed cfg m -> step_of s m s1 l1 -> P_nav s1 ms l ->
    P_nav s (m :: ms) (map (line_for (header_stamp (content m))) l1 ++ l).
  Proof.
    intros N Ty St (E1 & E2). unfold P_nav. rewrite !stamps_app. destruct m as [t p].
    destruct St as [x Ht Hc|x Ht Hc EL|x q T Ht Hc EL ET|x Ht Hc U|x Ht Hc U|x Ht Hc U|x Ht Hc U L|x Ht Hc U L|H1 H2 H3 H4 H5 H6];
      cbn [topic content] in *; try subst p.
    - rewrite solutions_vnp, Ht, String.eqb_refl. split; [exact E1|exact E2].
    - cbn [solutions]. rewrite EL in *. split; [exact E1|exact E2].
    - cbn [solutions lastVnp] in *. rewrite EL in *. rewrite Ht, String.eqb_refl. cbn [map fst].
      rewrite <- E1 at 1. rewrite <- E2. split; reflexivity.
    - split; [exact E1|exact E2].
    - split; [exact E1|exact E2].
    - split; [exact E1|exact E2].
    - split; [exact E1|exact E2].
    - split; [exact E1|exact E2].
    - assert (F : solutions cfg (lastVnp s) (Message t p :: ms) = solutions cfg (lastVnp s) ms).
      { destruct p; cbn [solutions]; rewrite ?(proj2 (String.eqb_neq t _) H1), ?(proj2 (String.eqb_neq t _) H2); try reflexivity.
        by destruct (lastVnp s). }
      rewrite F. split; [exact E1|exact E2].
  Qed.
  Definition P_sens {X : Type} (t : string) (as_x : payload -> option X) (stamp : X -> Z) (f : car_file) (use : bool) (ms : list message) (l : list line) : Prop :=
    stamps f l = if use then map stamp (on_topic t as_x ms) else [].
  Lemma P_fws_lines s m ms s1 l1 l : topics_ok cfg -> typed cfg m -> step_of s m s1 l1 -> P_sens (t_fws cfg) as_fws wh_stamp FwData (useFw cfg) ms l ->
    P_sens (t_fws cfg) as_fws wh_stamp FwData (useFw cfg) (m :: ms) (map (line_for (header_stamp (content m))) l1 ++ l).
  Proof.
    intros N Ty St H. topics N. unfold P_sens in *. rewrite stamps_app.
    destruct St as [x Ht Hc|x Ht Hc EL|x q T Ht Hc EL ET|x Ht Hc U|x Ht Hc U|x Ht Hc U|x Ht Hc U L|x Ht Hc U L|H1 H2 H3 H4 H5 H6];
      try (rewrite on_topic_other by (rewrite Ht; intuition congruence); exact H).
    - rewrite (on_topic_this _ _ m x) by (auto; by rewrite Hc). rewrite U, Hc in *. cbn [map]. rewrite <- H. reflexivity.
    - destruct (String.eqb_spec (topic m) (t_fws cfg)) as [E|E]; [rewrite (H3 E) in *; exact H|rewrite on_topic_other by exact E; exact H].
  Qed.
  Lemma P_rws_lines s m ms s1 l1 l : topics_ok cfg -> typed cfg m -> step_of s m s1 l1 -> P_sens (t_rws cfg) as_rws wh_stamp RwData (useRw cfg) ms l ->
    P_sens (t_rws cfg) as_rws wh_stamp RwData (useRw cfg) (m :: ms) (map (line_for (header_stamp (content m))) l1 ++ l).
  Proof.
    intros N Ty St H. topics N. unfold P_sens in *. rewrite stamps_app.
    destruct St as [x Ht Hc|x Ht Hc EL|x q T Ht Hc EL ET|x Ht Hc U|x Ht Hc U|x Ht Hc U|x Ht Hc U L|x Ht Hc U L|H1 H2 H3 H4 H5 H6];
      try (rewrite on_topic_other by (rewrite Ht; intuition congruence); exact H).
    - rewrite (on_topic_this _ _ m x) by (auto; by rewrite Hc). rewrite U, Hc in *. cbn [map]. rewrite <- H. reflexivity.
    - destruct (String.eqb_spec (topic m) (t_rws cfg)) as [E|E]; [rewrite (H4 E) in *; exact H|rewrite on_topic_other by exact E; exact H].
  Qed.
  Lemma P_st_lines s m ms s1 l1 l : topics_ok cfg -> typed cfg m -> step_of s m s1 l1 -> P_sens (t_st cfg) as_st st_stamp StData (useSt cfg) ms l ->
    P_sens (t_st cfg) as_st st_stamp StData (useSt cfg) (m :: ms) (map (line_for (header_stamp (content m))) l1 ++ l).
  Proof.
    intros N Ty St H. topics N. unfold P_sens in *. rewrite stamps_app.
    destruct St as [x Ht Hc|x Ht Hc EL|x q T Ht Hc EL ET|x Ht Hc U|x Ht Hc U|x Ht Hc U|x Ht Hc U L|x Ht Hc U L|H1 H2 H3 H4 H5 H6];
      try (rewrite on_topic_other by (rewrite Ht; intuition congruence); exact H).
    - rewrite (on_topic_this _ _ m x) by (auto; by rewrite Hc). rewrite U, Hc in *. cbn [map]. rewrite <- H. reflexivity.
    - destruct (String.eqb_spec (topic m) (t_st cfg)) as [E|E]; [rewrite (H5 E) in *; exact H|rewrite on_topic_other by exact E; exact H].
  Qed.
  Definition P_dmi_lines (s : dstate) (ms : list message) (l : list line) : Prop :=
    Forall (fun d => dmi_time1 d <> - 1) (on_topic (t_dmi cfg) as_dmi ms) ->
    stamps DmiData l =
    if useDMI cfg then
      map dmi_stamp (if Req_EM_T (lastDMITimestamp s) (- 1) then tail (on_topic (t_dmi cfg) as_dmi ms) else on_topic (t_dmi cfg) as_dmi ms)
    else [].
  Lemma P_dmi_lines_step s m ms s1 l1 l : topics_ok cfg -> typed cfg m -> step_of s m s1 l1 -> P_dmi_lines s1 ms l ->
    P_dmi_lines s (m :: ms) (map (line_for (header_stamp (content m))) l1 ++ l).
  Proof.
    intros N Ty St H. topics N. unfold P_dmi_lines in *. rewrite stamps_app.
    destruct St as [x Ht Hc|x Ht Hc EL|x q T Ht Hc EL ET|x Ht Hc U|x Ht Hc U|x Ht Hc U|x Ht Hc U L|x Ht Hc U L|H1 H2 H3 H4 H5 H6];
      try (rewrite on_topic_other by (rewrite Ht; intuition congruence); exact H).
    - rewrite (on_topic_this _ _ m x) by (auto; by rewrite Hc). intros F. apply Forall_cons in F as [Fx F]. specialize (H F).
      rewrite U in *. cbn [lastDMITimestamp] in H. rewrite L. destruct (Req_EM_T (-1) (-1)); [|done].
      destruct (Req_EM_T (dmi_time1 x) (-1)); [done|]. exact H.
    - rewrite (on_topic_this _ _ m x) by (auto; by rewrite Hc). intros F. apply Forall_cons in F as [Fx F]. specialize (H F).
      rewrite U in *. cbn [lastDMITimestamp] in H. destruct (Req_EM_T (lastDMITimestamp s) (-1)); [done|].
      destruct (Req_EM_T (dmi_time1 x) (-1)); [done|]. rewrite Hc. cbn [map]. rewrite <- H. reflexivity.
    - destruct (String.eqb_spec (topic m) (t_dmi cfg)) as [E|E]; [|rewrite on_topic_other by exact E; exact H].
      rewrite (H6 E) in *. intros F. apply H. destruct Ty as (_ & _ & _ & _ & _ & T6). destruct (T6 E) as [x Hx].
      rewrite (on_topic_this _ _ m x) in F by (auto; by rewrite Hx). by apply Forall_cons in F as [_ F].
  Qed.

  (** In a proper log, the times in the files are the header stamps of the messages that give a line, in the order of the log: all
      navigation solutions after the first performance message, all messages of an active sensor, and all odometer messages but the first. *)
  Theorem car_files_times bag lines : topics_ok cfg -> Forall (typed cfg) bag -> write_files bag = Ret lines ->
    map l_stamp (lines_of PoseData lines) = map (fun x => vns_stamp (fst x)) (solutions cfg None bag) /\
    map l_stamp (lines_of VelData lines) = map (fun x => vns_stamp (fst x)) (solutions cfg None bag) /\
    map l_stamp (lines_of FwData lines) = (if useFw cfg then map wh_stamp (on_topic (t_fws cfg) as_fws bag) else []) /\
    map l_stamp (lines_of RwData lines) = (if useRw cfg then map wh_stamp (on_topic (t_rws cfg) as_rws bag) else []) /\
    map l_stamp (lines_of StData lines) = (if useSt cfg then map st_stamp (on_topic (t_st cfg) as_st bag) else []) /\
    (Forall (fun d => dmi_time1 d <> - 1) (on_topic (t_dmi cfg) as_dmi bag) ->
     map l_stamp (lines_of DmiData lines) = if useDMI cfg then map dmi_stamp (tail (on_topic (t_dmi cfg) as_dmi bag)) else []).
  Proof.
    intros N T E.
    assert (H1 : P_nav (driver_init c0) bag lines).
    { eapply (write_steps P_nav); try eassumption; [intros; split; reflexivity|]. intros. eapply P_nav_step; eauto. }
    destruct H1 as [H1 H2]. split; [exact H1|]. split; [exact H2|]. split; [|split; [|split]].
    - apply (write_steps (fun _ => P_sens (t_fws cfg) as_fws wh_stamp FwData (useFw cfg)) bag lines N T); [|intros; eapply P_fws_lines; eauto|exact E].
      intros _. unfold P_sens. by destruct (useFw cfg).
    - apply (write_steps (fun _ => P_sens (t_rws cfg) as_rws wh_stamp RwData (useRw cfg)) bag lines N T); [|intros; eapply P_rws_lines; eauto|exact E].
      intros _. unfold P_sens. by destruct (useRw cfg).
    - apply (write_steps (fun _ => P_sens (t_st cfg) as_st st_stamp StData (useSt cfg)) bag lines N T); [|intros; eapply P_st_lines; eauto|exact E].
      intros _. unfold P_sens. by destruct (useSt cfg).
    - intros F. assert (H : P_dmi_lines (driver_init c0) bag lines).
      { apply (write_steps P_dmi_lines bag lines N T); [|intros; eapply P_dmi_lines_step; eauto|exact E].
        intros s _. destruct (useDMI cfg); [|reflexivity]. destruct (Req_EM_T _ _); reflexivity. }
      specialize (H F). cbn [lastDMITimestamp driver_init] in H. destruct (Req_EM_T (-1) (-1)); [exact H|done].
  Qed.
  (** A proper log is written to its end. *)
  Theorem car_files_complete bag : topics_ok cfg -> Forall (typed cfg) bag -> exists lines, write_files bag = Ret lines.
  Proof.
    intros N T. destruct (car_driver_reads_everything c0 correct secToNsec ypr unypr cfg bag N T) as [calls E].
    destruct (car_files_are_calls bag) as (_ & H & _). eauto.
  Qed.
End files.

(** A user who compares the files with what the calibrator used finds other times: with a corrector that shifts every time, no
    measurement of a log has the time its line shows. *)
Theorem car_files_times_refuted {C : Type} (c0 : C) secToNsec ypr unypr cfg m x : topics_ok cfg -> useFw cfg = true ->
  m = Message (t_fws cfg) (Fws x) ->
  exists correct lines calls, write_files c0 correct secToNsec ypr unypr cfg [m] = Ret lines /\ read_bag c0 correct secToNsec ypr unypr cfg [m] = Ret calls /\
    map c_time calls = [(wh_stamp x + 1)%Z] /\ map l_stamp lines = [wh_stamp x].
Proof.
  intros N U ->. exists (fun c _ s => (c, (s + 1)%Z)).
  assert (T : Forall (typed cfg) [Message (t_fws cfg) (Fws x)]).
  { constructor; [|constructor]. unfold topics_ok in N. rewrite !NoDup_cons in N. destruct N as (N1 & N2 & N3 & N4 & N5 & _ & _).
    repeat setoid_rewrite not_elem_of_cons in N1. repeat setoid_rewrite not_elem_of_cons in N2. repeat setoid_rewrite not_elem_of_cons in N3.
    unfold typed. cbn [topic content]. intuition (first [congruence|eauto]). }
  destruct (car_files_complete c0 (fun c _ s => (c, (s + 1)%Z)) secToNsec ypr unypr cfg _ N T) as [lines E].
  destruct (car_files_are_calls c0 (fun c _ s => (c, (s + 1)%Z)) secToNsec ypr unypr cfg [Message (t_fws cfg) (Fws x)]) as (H & _).
  destruct (H lines E) as (calls & Ec & F & _). exists lines, calls. split; [exact E|]. split; [exact Ec|].
  unfold topics_ok in N. rewrite !NoDup_cons in N. destruct N as (N1 & N2 & N3 & N4 & N5 & _ & _).
  repeat setoid_rewrite not_elem_of_cons in N1. repeat setoid_rewrite not_elem_of_cons in N2. repeat setoid_rewrite not_elem_of_cons in N3.
  unfold read_bag in Ec. rewrite loop_filter in Ec. unfold write_files in E. rewrite wloop_filter in E.
  cbn [loop write_loop] in Ec, E. unfold loop_body in Ec. unfold write_body in E. cbn [topic content] in Ec, E.
  rewrite (proj2 (String.eqb_neq (t_fws cfg) (t_vnp cfg))), (proj2 (String.eqb_neq (t_fws cfg) (t_vns cfg))), String.eqb_refl,
    (proj2 (String.eqb_neq (t_fws cfg) (t_rws cfg))), (proj2 (String.eqb_neq (t_fws cfg) (t_st cfg))), (proj2 (String.eqb_neq (t_fws cfg) (t_dmi cfg))), U in Ec, E
    by intuition congruence.
  cbn in Ec, E. injection Ec as <-. injection E as <-. split; reflexivity.
Qed.

(** The log of Properties_CarDriver. *)
Example bag1_lines : exists lines, write_files tt (fun c _ h => (c, h)) (fun _ => 0%Z) euler_ypr angles_of cfg1 bag1 = Ret lines /\
  map l_stamp (lines_of PoseData lines) = [10; 10]%Z /\ map l_stamp (lines_of VelData lines) = [10; 10]%Z /\
  map l_stamp (lines_of FwData lines) = [20]%Z /\ map l_stamp (lines_of RwData lines) = [] /\
  map l_stamp (lines_of StData lines) = [30]%Z /\ map l_stamp (lines_of DmiData lines) = [15]%Z.
Proof.
  destruct (car_files_complete tt (fun c _ h => (c, h)) (fun _ => 0%Z) euler_ypr angles_of cfg1 bag1) as [lines E]; [apply cfg1_ok..|].
  exists lines. split; [exact E|].
  destruct (car_files_times tt (fun c _ h => (c, h)) (fun _ => 0%Z) euler_ypr angles_of cfg1 bag1 lines) as (-> & -> & -> & -> & -> & ->); [apply cfg1_ok|apply cfg1_ok|exact E| |].
  - repeat split; reflexivity.
  - repeat constructor; simpl; lra.
Qed.
Print Assumptions car_files_are_calls.
Print Assumptions car_files_times.
