(** C123: the observability report of the calibrators (C21 and C55 for the order of the rows). *)
From stdpp Require Import prelude list gmap.
From Coq Require Import String.
From Verif Require Import Base PermuteModel OptProblemModel OptProblemProofs IncProblemModel IncProblemProofs IncHistoryProofs IncSpecProofs
  Spec_IncProblem EstimatorModel Spec_Estimator EstimatorProofs EstimatorSpecProofs Spec_OptProblem OptSpecProofs MargOrderProofs DesignVarsModel ReportModel.
Local Open Scope string_scope.
Local Notation "x ++l y" := (List.app x y) (at level 60, right associativity).

(** ** Order of the rows *)
(** A successful add appends to each group exactly the variables that are new, in the order in which the batch lists them. *)
Theorem inc_problem_add_order {V : Type} (h : nat -> oprob V) (edv : nat -> list nat) (s s' : inc V) p g :
  (forall b, o_reachable edv (h b)) -> i_reachable h s -> i_add h s (Some p) = (s', Ret tt) ->
  i_group_or_nil s' g =
  (i_group_or_nil s g ++ filter (fun d => i_isDVInProblem s d = false) (match o_getGroup (h p) g with Ret l => l | _ => [] end))%list.
Proof.
  intros Hr Hs Hadd. assert (Hh : forall b, o_wf edv (h b)) by (intros b; apply o_reachable_wf, Hr).
  pose proof (i_reachable_wf h edv Hh s Hs) as Hwf. pose proof (i_add_order h edv Hr s p s' g Hwf Hadd) as Ho.
  assert (forall q : inc V, i_group_or_nil q g = default [] (i_groups q !! g)) as Hg.
  { intros q. unfold i_group_or_nil, i_getGroup. destruct (i_groups q !! g); done. }
  rewrite !Hg, Ho. f_equal. unfold o_getGroup.
  replace (match match o_groups (h p) !! g with Some l => Ret l | None => Throw OutOfBound end with Ret l => l | _ => [] end)
    with (default [] (o_groups (h p) !! g)) by (destruct (o_groups (h p) !! g); done).
  apply filter_ext_in. intros d _. unfold i_isDVInProblem. rewrite bool_decide_eq_false. split.
  - intros -> [? ?]. done.
  - intros H. destruct (i_counts s !! d); [exfalso; apply H; eauto|done].
Qed.

(** If every batch brings the variables [L], in this order, in the marginalised group, then whatever was added, rejected or
    removed before, each start of the optimizer sees exactly [L] in the marginalised group, and the active ones among them,
    in this order, are the trailing columns. *)
Theorem estimator_marginal_order {V D M : Type} (A : arith D) (nil : M) (h : nat -> oprob V) (edv : nat -> list nat)
    (dim edim : nat -> nat) (L : list nat) (s : est V D M) q act k :
  (forall b, o_reachable edv (h b)) -> e_reachable A nil h dim edim s -> (q, act, k) ∈ e_runs s ->
  (forall b, o_getGroup (h b) (e_marg s) = Ret L) ->
  i_getGroup q (e_marg s) = Ret L /\ active_in_group act q (e_marg s) = filter (fun d => act d = true) L /\
  exists pre, active_variables act q = (pre ++ filter (fun d => act d = true) L)%list /\ k = total dim pre.
Proof.
  intros Hr Hs Hin HL. pose proof (run_group A nil h edv dim edim Hr (e_marg s) L HL s q act k Hs Hin eq_refl) as Hg.
  split; [done|]. assert (active_in_group act q (e_marg s) = filter (fun d => act d = true) L) as Ha.
  { unfold active_in_group, i_group_or_nil. rewrite Hg. done. }
  split; [done|]. destruct (est_marg_block A nil h edv dim edim Hr s q act k Hs Hin) as (pre & _ & _ & Hav & Hk & _).
  eexists. rewrite <- Ha. split; [exact Hav|exact Hk].
Qed.

(** ** Reports *)
Section reports.
Context {X : Type} (norm : list X -> X).

(** The components (variable, index) of the active variables of the list, in order: what the rows stand for. *)
Definition components (act : nat -> bool) (dim : nat -> nat) (L : list nat) : list (nat * nat) :=
  flat_map (fun d => map (pair d) (seq 0 (dim d))) (filter (fun d => act d = true) L).
(** [out] lists exactly the names of [named], each with the norm of the row that stands for its component. *)
Definition reports (comps : list (nat * nat)) (rows : list (list X)) (named : list (string * (nat * nat))) (out : list (string * X)) : Prop :=
  Forall2 (fun n l => l.1 = n.1 /\ exists i row, comps !! i = Some n.2 /\ rows !! i = Some row /\ l.2 = norm row) named out.

Definition td_names (v : td_vars) : list (string * (nat * nat)) :=
  [("b: ", (td_b v, 0)); ("k_l: ", (td_k_l v, 0)); ("t_l: ", (td_t_l v, 0)); ("k_r: ", (td_k_r v, 0)); ("t_r: ", (td_t_r v, 0));
   ("v_r_vp_1: ", (td_v_r_vp v, 0)); ("v_r_vp_2: ", (td_v_r_vp v, 1)); ("v_r_vp_3: ", (td_v_r_vp v, 2));
   ("v_R_p_1: ", (td_v_R_p v, 0)); ("v_R_p_2: ", (td_v_R_p v, 1)); ("v_R_p_3: ", (td_v_R_p v, 2))].

Lemma print_consecutive rows labels k :
  print_rows norm rows (zip labels (seq k (List.length labels))) =
  (zip labels (map norm (drop k rows)), if decide (k + List.length labels <= List.length rows \/ labels = []) then Ret tt else UB).
Proof.
  revert k. induction labels as [|l labels IH]; intros k; cbn [zip zip_with seq List.length print_rows].
  { rewrite decide_True by auto. done. }
  destruct (rows !! k) as [row|] eqn:Hk.
  - rewrite (drop_S _ _ _ Hk). cbn [map zip zip_with]. rewrite IH. cbn [fst snd]. f_equal.
    pose proof (lookup_lt_Some _ _ _ Hk).
    destruct labels as [|l' labels']; [cbn [List.length]; rewrite !decide_True; [done| |]; auto; left; lia|].
    destruct (decide (S k + _ <= _ \/ _)) as [[D|D]|D]; [|done|].
    + rewrite decide_True; [done|]. left. cbn [List.length] in *. lia.
    + rewrite decide_False; [done|]. intros [?|?]; [|done]. apply D. left. cbn [List.length] in *. lia.
  - apply lookup_ge_None in Hk. rewrite drop_ge by done. cbn [map zip zip_with].
    rewrite decide_False; [done|]. intros [?|?]; [lia|done].
Qed.

(** What is printed, whatever the number of rows: the labels in their fixed order, the rows in theirs; undefined behaviour
    when the rows do not suffice. *)
Theorem td_report_content rows :
  td_report norm rows =
  (zip ["b: "; "k_l: "; "t_l: "; "k_r: "; "t_r: "; "v_r_vp_1: "; "v_r_vp_2: "; "v_r_vp_3: "; "v_R_p_1: "; "v_R_p_2: "; "v_R_p_3: "]
       (map norm rows), if decide (11 <= List.length rows) then Ret tt else UB).
Proof.
  pose proof (print_consecutive rows ["b: "; "k_l: "; "t_l: "; "k_r: "; "t_r: "; "v_r_vp_1: "; "v_r_vp_2: "; "v_r_vp_3: "; "v_R_p_1: "; "v_R_p_2: "; "v_R_p_3: "] 0) as E.
  cbn [zip zip_with seq List.length] in E. unfold td_report. rewrite E.
  rewrite drop_0. f_equal. cbn [List.length]. destruct (decide (11 <= _)); [rewrite decide_True by auto|rewrite decide_False by (intros [?|?]; done)]; done.
Qed.
Definition car_labels : list string :=
  ["e_r: "; "e_f: "; "L: "; "a0: "; "a1: "; "a2: "; "a3: "; "k_rl: "; "k_rr: "; "k_fl: "; "k_fr: "; "k_dmi: ";
   "v_r_vr_1: "; "v_r_vr_2: "; "v_r_vr_3: "; "v_R_r_1: "; "v_R_r_2: "; "v_R_r_3: "; "t_r: "; "t_f: "; "t_s: "; "t_dmi: "].
Theorem car_report_content rows :
  car_report norm rows = (zip car_labels (map norm rows), if decide (22 <= List.length rows) then Ret tt else UB).
Proof.
  pose proof (print_consecutive rows car_labels 0) as E. unfold car_labels in E |- *.
  cbn [zip zip_with seq List.length] in E. unfold car_report. rewrite E.
  rewrite drop_0. f_equal. cbn [List.length]. destruct (decide (22 <= _)); [rewrite decide_True by auto|rewrite decide_False by (intros [?|?]; done)]; done.
Qed.

Lemma reports_prefix comps rows (named : list (string * (nat * nat))) labels :
  labels = map fst named -> (exists rest, comps = (map snd named ++ rest)%list) -> List.length named <= List.length rows ->
  reports comps rows named (zip labels (map norm rows)).
Proof.
  intros -> [rest ->] Hl. unfold reports. apply Forall2_same_length_lookup. split.
  { rewrite zip_with_length, !map_length. lia. }
  intros i n l Hn Hz. apply lookup_zip_with_Some in Hz as (a & b & -> & Ha & Hb). cbn [fst snd].
  rewrite list_lookup_fmap in Ha. rewrite list_lookup_fmap in Hb. rewrite Hn in Ha. cbn in Ha. injection Ha as <-. split; [done|].
  destruct (rows !! i) as [row|] eqn:Hr; [|done]. cbn in Hb. injection Hb as <-.
  exists i, row. split; [|done]. apply lookup_app_l_Some. rewrite list_lookup_fmap, Hn. done.
Qed.

(** If all variables are optimised, each line of the time-delay report shows the row of the named parameter. *)
Theorem td_report_correct (v : td_vars) act dim rows :
  map dim (td_batch_order v) = [1; 1; 1; 1; 1; 3; 3] -> (forall d, d ∈ td_batch_order v -> act d = true) ->
  List.length rows = List.length (components act dim (td_batch_order v)) ->
  exists out, td_report norm rows = (out, Ret tt) /\ reports (components act dim (td_batch_order v)) rows (td_names v) out.
Proof.
  intros Hd Ha Hl. assert (components act dim (td_batch_order v) = map snd (td_names v)) as Hc.
  { unfold components. rewrite (filter_id_eq (fun d => act d = true)) by done. unfold td_batch_order in *. simpl in Hd.
    injection Hd as E1 E2 E3 E4 E5 E6 E7. simpl. rewrite E1, E2, E3, E4, E5, E6, E7. done. }
  rewrite Hc in *. cbn [td_names map List.length] in Hl.
  rewrite td_report_content, decide_True by lia. eexists. split; [reflexivity|].
  apply reports_prefix; [done|exists []; rewrite app_nil_r; done|]. cbn [td_names List.length]. lia.
Qed.

(** The number of rows of the time-delay example. *)
Lemma td_components_length (v : td_vars) c dim :
  NoDup (td_batch_order v) -> map dim (td_batch_order v) = [1; 1; 1; 1; 1; 3; 3] ->
  List.length (components (td_active c v) dim (td_batch_order v)) =
  3 + (if td_delays_active c then 2 else 0) + (if td_trans_active c then 3 else 0) + (if td_rot_active c then 3 else 0).
Proof.
  intros ND D. unfold components. destruct v as [b kl kr tr R tl trr]. unfold td_batch_order in *. cbn [td_b td_k_l td_k_r td_v_r_vp td_v_R_p td_t_l td_t_r] in *.
  rewrite !NoDup_cons, !not_elem_of_cons in ND. destruct_and!. simpl in D. injection D as D1 D2 D3 D4 D5 D6 D7.
  unfold td_active. cbn [td_b td_k_l td_k_r td_v_r_vp td_v_R_p td_t_l td_t_r].
  repeat (rewrite filter_cons; cbv beta).
  repeat match goal with |- context [decide (?P \/ ?Q)] =>
    first [rewrite (decide_True (P := P \/ Q)) by auto | rewrite (decide_False (P := P \/ Q)) by (intuition congruence)] end.
  repeat match goal with |- context [decide (?a = ?b :> nat)] =>
    first [rewrite (decide_True (P := a = b)) by auto | rewrite (decide_False (P := a = b)) by (intuition congruence)] end.
  destruct c as [[] [] []]; cbn [td_trans_active td_rot_active td_delays_active]; repeat (rewrite decide_True by done);
    repeat (rewrite decide_False by done); simpl; rewrite ?D1, ?D2, ?D3, ?D4, ?D5, ?D6, ?D7; done.
Qed.
(** ... so it is complete exactly if translation, rotation and delays are all optimised; otherwise the program runs into a row
    that does not exist. *)
Theorem td_report_complete_iff (v : td_vars) c dim rows :
  NoDup (td_batch_order v) -> map dim (td_batch_order v) = [1; 1; 1; 1; 1; 3; 3] ->
  List.length rows = List.length (components (td_active c v) dim (td_batch_order v)) ->
  snd (td_report norm rows) = (if td_trans_active c && td_rot_active c && td_delays_active c then Ret tt else UB).
Proof.
  intros ND D Hl. rewrite td_components_length in Hl by done. rewrite td_report_content. cbn [snd]. rewrite Hl.
  destruct c as [[] [] []]; cbn [td_trans_active td_rot_active td_delays_active andb]; (rewrite decide_True by lia) || (rewrite decide_False by lia); done.
Qed.
(** The labels are fixed: with the delays not optimised, the line of the left delay shows the right wheel's scale factor. *)
Theorem td_report_labels_refuted (v : td_vars) c dim rows :
  NoDup (td_batch_order v) -> map dim (td_batch_order v) = [1; 1; 1; 1; 1; 3; 3] -> td_delays_active c = false ->
  List.length rows = List.length (components (td_active c v) dim (td_batch_order v)) ->
  exists row, components (td_active c v) dim (td_batch_order v) !! 2 = Some (td_k_r v, 0) /\ rows !! 2 = Some row /\
    fst (td_report norm rows) !! 2 = Some ("t_l: ", norm row) /\
    forall i, components (td_active c v) dim (td_batch_order v) !! i <> Some (td_t_l v, 0).
Proof.
  intros ND D Hd Hl. pose proof Hl as Hl'. rewrite td_components_length in Hl' by done.
  destruct rows as [|r0 [|r1 [|r2 rows]]]; cbn [List.length] in Hl'; try lia.
  exists r2. rewrite td_report_content. cbn [fst].
  destruct v as [b kl kr tr R tl trr]. unfold td_batch_order in *. cbn [td_b td_k_l td_k_r td_v_r_vp td_v_R_p td_t_l td_t_r] in *.
  rewrite !NoDup_cons, !not_elem_of_cons in ND. destruct_and!. simpl in D. injection D as D1 D2 D3 D4 D5 D6 D7.
  assert (tl ∉ filter (fun d => td_active c (TdVars b kl kr tr R tl trr) d = true) [b; kl; tl; kr; trr; tr; R]) as Htl.
  { rewrite elem_of_list_filter. intros [Ht _]. unfold td_active in Ht. cbn [td_b td_k_l td_k_r td_v_r_vp td_v_R_p td_t_l td_t_r] in Ht.
    rewrite decide_False in Ht by (intuition congruence). rewrite decide_False in Ht by (intuition congruence).
    rewrite decide_False in Ht by (intuition congruence). rewrite decide_True in Ht by auto. congruence. }
  split; [|split; [done|]; split; [done|]].
  - unfold components. set (act := td_active c (TdVars b kl kr tr R tl trr)) in *.
    assert (act b = true /\ act kl = true /\ act kr = true) as (A1 & A2 & A3).
    { unfold act, td_active. cbn [td_b td_k_l td_k_r td_v_r_vp td_v_R_p td_t_l td_t_r]. rewrite !decide_True by auto. done. }
    assert (act tl <> true) as A4. { intros E. apply Htl. apply elem_of_list_filter. split; [exact E|right; right; left]. }
    rewrite (filter_cons_True (fun d => act d = true) b _ A1), (filter_cons_True (fun d => act d = true) kl _ A2),
      (filter_cons_False (fun d => act d = true) tl _ A4), (filter_cons_True (fun d => act d = true) kr _ A3).
    cbn [flat_map]. rewrite D1, D2, D4. done.
  - intros i Hi. apply elem_of_list_lookup_2 in Hi. unfold components in Hi. apply elem_of_list_In, in_flat_map in Hi as (d & Hd' & Hi).
    apply in_map_iff in Hi as (j & [= -> _] & _). apply Htl, elem_of_list_In, Hd'.
Qed.

(** ** Car example: the lever arm and the mounting are never optimised, so the report never completes. *)
Definition car_names (v : car_vars) (delays : bool) : list (string * (nat * nat)) :=
  [("e_r: ", (cv_e_r v, 0)); ("e_f: ", (cv_e_f v, 0)); ("L: ", (cv_L v, 0)); ("a0: ", (cv_a v, 0)); ("a1: ", (cv_a v, 1));
   ("a2: ", (cv_a v, 2)); ("a3: ", (cv_a v, 3)); ("k_rl: ", (cv_k_rl v, 0)); ("k_rr: ", (cv_k_rr v, 0)); ("k_fl: ", (cv_k_fl v, 0));
   ("k_fr: ", (cv_k_fr v, 0)); ("k_dmi: ", (cv_k_dmi v, 0))] ++l
  if delays then [("v_r_vr_1: ", (cv_t_r v, 0)); ("v_r_vr_2: ", (cv_t_f v, 0)); ("v_r_vr_3: ", (cv_t_s v, 0)); ("v_R_r_1: ", (cv_t_dmi v, 0))]
  else [].
Lemma car_components (v : car_vars) (delays : bool) dim :
  NoDup (car_batch_order v) -> map dim (car_batch_order v) = [1; 1; 1; 4; 1; 1; 1; 1; 1; 3; 3; 1; 1; 1; 1] ->
  components (car_active delays v) dim (car_batch_order v) = map snd (car_names v delays).
Proof.
  intros ND D. unfold components. destruct v as [x0 x1 x2 x3 x4 x5 x6 x7 x8 x9 x10 x11 x12 x13 x14].
  set (v := CarVars _ _ _ _ _ _ _ _ _ _ _ _ _ _ _). unfold car_batch_order in ND, D.
  assert (Forall (fun d => car_active delays v d = true) [x0; x1; x2; x3; x4; x5; x6; x7; x8]) as Hx1.
  { apply Forall_forall. intros d Hd. unfold car_active. rewrite decide_True by exact Hd. done. }
  cbn in ND. rewrite !NoDup_cons, !not_elem_of_cons in ND. destruct_and!.
  assert (car_active delays v x9 = false /\ car_active delays v x10 = false) as [Hx9 Hx10].
  { unfold car_active. cbn. split.
    all: rewrite decide_False by (rewrite !not_elem_of_cons; repeat split; try apply not_elem_of_nil; congruence).
    all: rewrite decide_True by (rewrite !elem_of_cons; auto); done. }
  assert (Forall (fun d => car_active delays v d = delays) [x11; x12; x13; x14]) as Hx11.
  { apply Forall_forall. intros d Hd. unfold car_active. cbn in Hd |- *. rewrite !elem_of_cons, elem_of_nil in Hd.
    rewrite decide_False by (rewrite !not_elem_of_cons; repeat split; try apply not_elem_of_nil; intuition congruence).
    rewrite decide_False by (rewrite !not_elem_of_cons; repeat split; try apply not_elem_of_nil; intuition congruence).
    rewrite decide_True by (rewrite !elem_of_cons, elem_of_nil; intuition). done. }
  assert (car_batch_order v = [x0; x1; x2; x3; x4; x5; x6; x7; x8] ++l ([x9; x10] ++l [x11; x12; x13; x14])) as -> by done.
  rewrite !filter_app. rewrite (filter_id_eq (fun d => car_active delays v d = true) [x0; x1; x2; x3; x4; x5; x6; x7; x8])
    by (intros d Hd; rewrite Forall_forall in Hx1; apply Hx1, Hd).
  rewrite (filter_none_eq (fun d => car_active delays v d = true) [x9; x10]).
  2: { intros d Hd. rewrite !elem_of_cons, elem_of_nil in Hd. destruct Hd as [->|[->|[]]]; congruence. }
  cbn in D. injection D as D0 D1 D2 D3 D4 D5 D6 D7 D8 D9 D10 D11 D12 D13 D14.
  rewrite Forall_forall in Hx11. destruct delays.
  - rewrite (filter_id_eq (fun d => car_active true v d = true) [x11; x12; x13; x14]) by exact Hx11.
    cbn. rewrite D0, D1, D2, D3, D4, D5, D6, D7, D8, D11, D12, D13, D14. done.
  - rewrite (filter_none_eq (fun d => car_active false v d = true) [x11; x12; x13; x14]) by (intros d Hd; rewrite (Hx11 d Hd); done).
    cbn. rewrite D0, D1, D2, D3, D4, D5, D6, D7, D8. done.
Qed.
(** Twelve lines are right; with delays, the four delays then appear under the names of the lever arm and of a rotation
    component; then the program reads a row that does not exist. *)
Theorem car_report_refuted (v : car_vars) (delays : bool) dim rows :
  NoDup (car_batch_order v) -> map dim (car_batch_order v) = [1; 1; 1; 4; 1; 1; 1; 1; 1; 3; 3; 1; 1; 1; 1] ->
  List.length rows = List.length (components (car_active delays v) dim (car_batch_order v)) ->
  exists out, car_report norm rows = (out, UB) /\
    reports (components (car_active delays v) dim (car_batch_order v)) rows
      ([("e_r: ", (cv_e_r v, 0)); ("e_f: ", (cv_e_f v, 0)); ("L: ", (cv_L v, 0)); ("a0: ", (cv_a v, 0)); ("a1: ", (cv_a v, 1));
        ("a2: ", (cv_a v, 2)); ("a3: ", (cv_a v, 3)); ("k_rl: ", (cv_k_rl v, 0)); ("k_rr: ", (cv_k_rr v, 0)); ("k_fl: ", (cv_k_fl v, 0));
        ("k_fr: ", (cv_k_fr v, 0)); ("k_dmi: ", (cv_k_dmi v, 0))] ++l
       if delays then [("v_r_vr_1: ", (cv_t_r v, 0)); ("v_r_vr_2: ", (cv_t_f v, 0)); ("v_r_vr_3: ", (cv_t_s v, 0)); ("v_R_r_1: ", (cv_t_dmi v, 0))]
       else []) out.
Proof.
  intros ND D Hl. rewrite car_components in * by done. fold (car_names v delays).
  rewrite car_report_content. exists (zip (map fst (car_names v delays)) (map norm rows)). split.
  - f_equal.
    + unfold car_labels, car_names in *. destruct delays; cbn [List.app map fst snd List.length] in *.
      * do 16 (destruct rows as [|? rows]; [done|]). destruct rows; done.
      * do 12 (destruct rows as [|? rows]; [done|]). destruct rows; done.
    + rewrite decide_False; [done|]. rewrite Hl. unfold car_names. destruct delays; cbn; lia.
  - apply reports_prefix; [done|exists []; rewrite app_nil_r; done|]. rewrite Hl, map_length. lia.
Qed.

(** ** Egomotion example *)
Definition ego_names (num : nat -> string) (order : list (nat * ego_vars)) : list (string * (nat * nat)) :=
  flat_map (fun e => [("t_" ++ num e.1 ++ ": ", (ev_t e.2, 0)); ("r_" ++ num e.1 ++ "_1 : ", (ev_r e.2, 0));
    ("r_" ++ num e.1 ++ "_2 : ", (ev_r e.2, 1)); ("r_" ++ num e.1 ++ "_3 : ", (ev_r e.2, 2)); ("R_" ++ num e.1 ++ "_1 : ", (ev_R e.2, 0));
    ("R_" ++ num e.1 ++ "_2 : ", (ev_R e.2, 1)); ("R_" ++ num e.1 ++ "_3 : ", (ev_R e.2, 2))]) order.
Lemma ego_names_length num order : List.length (ego_names num order) = 7 * List.length order.
Proof. induction order as [|e order IH]; [done|]. cbn [ego_names flat_map List.length List.app]. fold (ego_names num order). rewrite IH. lia. Qed.
Lemma ego_lines_names num order k :
  ego_lines num order k = zip (map fst (ego_names num order)) (seq k (List.length (map fst (ego_names num order)))).
Proof.
  revert k. induction order as [|[s v] order IH]; intros k; [done|].
  cbn [ego_lines ego_names flat_map fst snd]. rewrite IH. fold (ego_names num order).
  cbn [List.app map fst List.length seq zip zip_with].
  replace (S k) with (k + 1) by lia. replace (S (k + 1)) with (k + 2) by lia. replace (S (k + 2)) with (k + 3) by lia.
  replace (S (k + 3)) with (k + 4) by lia. replace (S (k + 4)) with (k + 5) by lia. replace (S (k + 5)) with (k + 6) by lia.
  replace (S (k + 6)) with (k + 7) by lia. done.
Qed.
(** If all variables are optimised, each line shows the row of the named parameter, for any number of sensors. *)
Theorem ego_report_correct num (order : list (nat * ego_vars)) act dim rows :
  (forall s v, (s, v) ∈ order -> dim (ev_t v) = 1 /\ dim (ev_r v) = 3 /\ dim (ev_R v) = 3) ->
  (forall d, d ∈ ego_batch_order order -> act d = true) ->
  List.length rows = List.length (components act dim (ego_batch_order order)) ->
  exists out, ego_report norm num order rows = (out, Ret tt) /\
    reports (components act dim (ego_batch_order order)) rows
      (flat_map (fun e => [("t_" ++ num e.1 ++ ": ", (ev_t e.2, 0)); ("r_" ++ num e.1 ++ "_1 : ", (ev_r e.2, 0));
         ("r_" ++ num e.1 ++ "_2 : ", (ev_r e.2, 1)); ("r_" ++ num e.1 ++ "_3 : ", (ev_r e.2, 2)); ("R_" ++ num e.1 ++ "_1 : ", (ev_R e.2, 0));
         ("R_" ++ num e.1 ++ "_2 : ", (ev_R e.2, 1)); ("R_" ++ num e.1 ++ "_3 : ", (ev_R e.2, 2))]) order) out.
Proof.
  intros Hd Ha Hl. assert (components act dim (ego_batch_order order) = map snd (ego_names num order)) as Hc.
  { unfold components. rewrite (filter_id_eq (fun d => act d = true)) by done. clear Ha Hl.
    induction order as [|[s v] order IH]; [done|]. cbn [ego_batch_order ego_names flat_map fst snd List.app map].
    destruct (Hd s v) as (E1 & E2 & E3); [left|]. rewrite E1, E2, E3. cbn [seq map List.app].
    unfold ego_batch_order, ego_names in IH. rewrite IH by (intros s' v' H; apply (Hd s' v'); right; exact H). done. }
  rewrite Hc in *. fold (ego_names num order). unfold ego_report. rewrite ego_lines_names, print_consecutive, drop_0.
  rewrite decide_True by (left; rewrite map_length in *; lia). eexists. split; [reflexivity|].
  apply reports_prefix; [done|exists []; rewrite app_nil_r; done|]. rewrite Hl, map_length. lia.
Qed.
(** It is complete exactly if all of them are optimised. *)
Theorem ego_report_complete_iff num (order : list (nat * ego_vars)) act dim rows :
  (forall s v, (s, v) ∈ order -> dim (ev_t v) = 1 /\ dim (ev_r v) = 3 /\ dim (ev_R v) = 3) ->
  List.length rows = List.length (components act dim (ego_batch_order order)) ->
  (snd (ego_report norm num order rows) = Ret tt \/ snd (ego_report norm num order rows) = UB) /\
  (snd (ego_report norm num order rows) = Ret tt <-> forall d, d ∈ ego_batch_order order -> act d = true).
Proof.
  intros Hd Hl. unfold ego_report. rewrite ego_lines_names, print_consecutive. cbn [snd].
  assert (map fst (ego_names num order) = [] <-> order = []) as Hnil.
  { split; [|intros ->; done]. intros E. apply (f_equal List.length) in E. rewrite map_length, ego_names_length in E. destruct order; [done|cbn in E; lia]. }
  assert (List.length (components act dim (ego_batch_order order)) <= 7 * List.length order /\
    (7 * List.length order <= List.length (components act dim (ego_batch_order order)) <-> forall d, d ∈ ego_batch_order order -> act d = true)) as [Hle Hiff].
  { clear Hl Hnil. unfold components. induction order as [|[s v] order IH]; [cbn; split; [lia|]; split; [intros _ d Hx; apply elem_of_nil in Hx; done|lia]|].
    destruct (Hd s v) as (E1 & E2 & E3); [left|]. destruct IH as [IH1 IH2]; [intros s' v' H; apply (Hd s' v'); right; exact H|].
    cbn [ego_batch_order flat_map fst snd List.app]. fold (ego_batch_order order).
    rewrite !filter_cons.
    set (n := List.length (flat_map _ (filter _ (ego_batch_order order)))) in *.
    assert (7 * List.length ((s, v) :: order) = 7 + 7 * List.length order) as -> by (cbn [List.length]; lia).
    destruct (decide (act (ev_t v) = true)) as [A1|A1], (decide (act (ev_r v) = true)) as [A2|A2], (decide (act (ev_R v) = true)) as [A3|A3];
      cbn [flat_map]; rewrite ?app_length, ?map_length, ?seq_length, ?E1, ?E2, ?E3; fold n; (split; [lia|]);
      (split; [intros H; try (exfalso; lia)|intros H; try (exfalso; first [apply A1, H|apply A2, H|apply A3, H]; rewrite !elem_of_cons; auto; fail)]).
    - intros d. rewrite !elem_of_cons. intros [->|[->|[->|Hx]]]; try done. apply IH2; [lia|done].
    - assert (7 * List.length order <= n) by (apply IH2; intros d Hx; apply H; rewrite !elem_of_cons; auto). lia. }
  rewrite map_length, ego_names_length, Nat.add_0_l, Hl. destruct (decide _) as [[D|D]|D]; (split; [auto|]).
  - split; [intros _; apply Hiff, D|done].
  - apply Hnil in D. subst order. split; [intros _ d Hx; cbn in Hx; apply elem_of_nil in Hx; done|done].
  - split; [done|]. intros Hall. exfalso. apply D. left. apply Hiff, Hall.
Qed.
End reports.

(** ** The report after [addBatch] *)
Section verbose.
Context {X V D : Type} (norm : list X -> X) (A : arith D) (h : nat -> oprob V) (edv : nat -> list nat) (dim edim : nat -> nat).

Lemma components_length act L : List.length (components act dim L) = total dim (filter (fun d => act d = true) L).
Proof.
  unfold components, total. induction (filter (fun d => act d = true) L) as [|d l IH]; [done|].
  cbn [flat_map sum_list_with]. rewrite app_length, map_length, seq_length, IH. done.
Qed.
Lemma components_ext act act' L : (forall d, d ∈ L -> act d = act' d) -> components act dim L = components act' dim L.
Proof.
  intros He. unfold components. f_equal. apply filter_ext_in. intros d Hd. rewrite (He d Hd). done.
Qed.

(** The contract of the linear solver used below: the row space has one row for each column of the marginal block. *)
Definition one_row_per_column (s : est V D (list (list X))) (o : solved V D (list (list X))) (s' : est V D (list (list X))) : Prop :=
  forall q k, e_runs s' = (e_runs s ++ [(q, e_active s, k)])%list ->
  List.length (v_rowSpace (o_view o)) = total dim (active_in_group (e_active s) q (e_marg s)).

Lemma returned_rows (s s' : est V D (list (list X))) b force o r L :
  (forall b, o_reachable edv (h b)) -> e_reachable A [] h dim edim s -> (forall b, o_getGroup (h b) (e_marg s) = Ret L) ->
  e_addBatch A [] h dim edim s (Some b) force (OptReturns o) = (s', Ret r) -> one_row_per_column s o s' ->
  rv_obsS r = (if op_columnScaling (e_opts s) then v_rowSpace (o_view o) else []) /\
  List.length (v_rowSpace (o_view o)) = List.length (components (e_active s) dim L).
Proof.
  intros Hr Hs HL Hadd Hrow.
  destruct (add_ret A [] h edv dim edim Hr _ _ _ _ _ _ Hs Hadd) as (b' & [= <-] & Hc & Hres).
  destruct (est_run_logged A [] h edv dim edim Hr _ _ _ _ _ _ Hs Hadd) as (q & k & Hruns & _ & _).
  assert (e_marg s' = e_marg s /\ rv_obsS r = (if op_columnScaling (e_opts s) then v_rowSpace (o_view o) else [])) as [Hm Ho].
  { remember (Ret r) as rr eqn:Hrr. remember (OptReturns o) as oc eqn:Hoc.
    destruct Hres as [|q1 q3 k' new Hprep Hn|q1 q3 k' o' Hprep Ho Hk|q1 q3 k' o' q4 vals l rr' Hprep Ho Hk _ Hq4 Hp4 Hp4' Hc4 Hg4 Ho4 Hb4 Hv Hl]; try congruence.
    - split; [done|]. assert (o' = o) as -> by congruence. injection Hrr as <-. done.
    - split; [done|]. assert (o' = o) as -> by congruence. destruct Hl as [(_ & _ & Hl)|(_ & _ & Hl)].
      + rewrite Hl in Hrr. injection Hrr as <-. done.
      + rewrite Hl in Hrr. destruct (o_rebuilds o); [|done]. injection Hrr as <-. done. }
  split; [exact Ho|]. rewrite (Hrow q k Hruns), components_length.
  assert (e_reachable A [] h dim edim s') as Hs'.
  { eapply (er_step A [] h dim edim s (EAdd (Some b) force (OptReturns o)) s' (Ret (Some r))); [done| |done|].
    - cbn [estep]. rewrite Hadd. done.
    - intros p f oc [= <- _ _]. eauto. }
  assert ((q, e_active s, k) ∈ e_runs s') as Hin by (rewrite Hruns; apply elem_of_app; right; left).
  rewrite <- Hm. destruct (estimator_marginal_order A [] h edv dim edim L s' q (e_active s) k Hr Hs' Hin) as (_ & -> & _); [|done].
  intros b'. rewrite Hm. apply HL.
Qed.

(** Time delay: with column scaling and all variables optimised, each line shows the row that the estimator returned for the
    named parameter; in all other cases the program reads a row that does not exist.  Whatever happened before. *)
Theorem td_verbose_report (s s' : est V D (list (list X))) b force o r c (v : td_vars) :
  (forall b, o_reachable edv (h b)) -> e_reachable A [] h dim edim s ->
  (forall b, o_getGroup (h b) (e_marg s) = Ret (td_batch_order v)) ->
  map dim (td_batch_order v) = [1; 1; 1; 1; 1; 3; 3] -> (forall d, d ∈ td_batch_order v -> e_active s d = td_active c v d) ->
  e_addBatch A [] h dim edim s (Some b) force (OptReturns o) = (s', Ret r) -> one_row_per_column s o s' ->
  (op_columnScaling (e_opts s) = true -> td_trans_active c = true -> td_rot_active c = true -> td_delays_active c = true ->
   exists out, td_report norm (rv_obsS r) = (out, Ret tt) /\
     reports norm (components (e_active s) dim (td_batch_order v)) (v_rowSpace (o_view o))
      [("b: ", (td_b v, 0)); ("k_l: ", (td_k_l v, 0)); ("t_l: ", (td_t_l v, 0)); ("k_r: ", (td_k_r v, 0)); ("t_r: ", (td_t_r v, 0));
       ("v_r_vp_1: ", (td_v_r_vp v, 0)); ("v_r_vp_2: ", (td_v_r_vp v, 1)); ("v_r_vp_3: ", (td_v_r_vp v, 2));
       ("v_R_p_1: ", (td_v_R_p v, 0)); ("v_R_p_2: ", (td_v_R_p v, 1)); ("v_R_p_3: ", (td_v_R_p v, 2))] out) /\
  (op_columnScaling (e_opts s) && td_trans_active c && td_rot_active c && td_delays_active c = false ->
   snd (td_report norm (rv_obsS r)) = UB).
Proof.
  intros Hr Hs HL Hd Ha Hadd Hrow. destruct (returned_rows s s' b force o r _ Hr Hs HL Hadd Hrow) as [Ho Hl].
  assert (NoDup (td_batch_order v)) as ND.
  { pose proof (o_reachable_wf _ _ (Hr 0)) as Hwf. eapply (gwf_lnodup _ _ (ow_groups _ _ Hwf) (e_marg s)).
    specialize (HL 0). unfold o_getGroup in HL. destruct (o_groups (h 0) !! e_marg s); [congruence|done]. }
  rewrite (components_ext _ _ _ Ha) in *. rewrite Ho. split.
  - intros -> H1 H2 H3. apply td_report_correct; [done| |done].
    intros d Hdd. unfold td_active, td_batch_order in *. rewrite !elem_of_cons, elem_of_nil in Hdd. rewrite H1, H2, H3.
    destruct (decide (d = td_b v \/ _)); [done|]. destruct (decide (d = td_v_r_vp v)); [done|]. destruct (decide (d = td_v_R_p v)); [done|].
    destruct (decide (d = td_t_l v \/ d = td_t_r v)); [done|]. exfalso. intuition.
  - destruct (op_columnScaling (e_opts s)); intros H; [|done].
    rewrite (td_report_complete_iff norm v c dim) by done. cbn [andb] in H. rewrite H. done.
Qed.
(** Car: the report never completes. *)
Theorem car_verbose_report_refuted (s s' : est V D (list (list X))) b force o r delays (v : car_vars) :
  (forall b, o_reachable edv (h b)) -> e_reachable A [] h dim edim s ->
  (forall b, o_getGroup (h b) (e_marg s) = Ret (car_batch_order v)) ->
  map dim (car_batch_order v) = [1; 1; 1; 4; 1; 1; 1; 1; 1; 3; 3; 1; 1; 1; 1] ->
  (forall d, d ∈ car_batch_order v -> e_active s d = car_active delays v d) ->
  e_addBatch A [] h dim edim s (Some b) force (OptReturns o) = (s', Ret r) -> one_row_per_column s o s' ->
  snd (car_report norm (rv_obsS r)) = UB.
Proof.
  intros Hr Hs HL Hd Ha Hadd Hrow. destruct (returned_rows s s' b force o r _ Hr Hs HL Hadd Hrow) as [Ho Hl].
  assert (NoDup (car_batch_order v)) as ND.
  { pose proof (o_reachable_wf _ _ (Hr 0)) as Hwf. eapply (gwf_lnodup _ _ (ow_groups _ _ Hwf) (e_marg s)).
    specialize (HL 0). unfold o_getGroup in HL. destruct (o_groups (h 0) !! e_marg s); [congruence|done]. }
  rewrite (components_ext _ _ _ Ha) in *. rewrite Ho. destruct (op_columnScaling (e_opts s)); [|done].
  destruct (car_report_refuted norm v delays dim (v_rowSpace (o_view o)) ND Hd Hl) as (out & -> & _). done.
Qed.
(** Egomotion: as for the time delay, for any number of sensors, in the iteration order of the container. *)
Theorem ego_verbose_report (s s' : est V D (list (list X))) b force o r num (order : list (nat * ego_vars)) :
  (forall b, o_reachable edv (h b)) -> e_reachable A [] h dim edim s ->
  (forall b, o_getGroup (h b) (e_marg s) = Ret (ego_batch_order order)) ->
  (forall i v, (i, v) ∈ order -> dim (ev_t v) = 1 /\ dim (ev_r v) = 3 /\ dim (ev_R v) = 3) ->
  e_addBatch A [] h dim edim s (Some b) force (OptReturns o) = (s', Ret r) -> one_row_per_column s o s' ->
  (op_columnScaling (e_opts s) = true -> (forall d, d ∈ ego_batch_order order -> e_active s d = true) ->
   exists out, ego_report norm num order (rv_obsS r) = (out, Ret tt) /\
     reports norm (components (e_active s) dim (ego_batch_order order)) (v_rowSpace (o_view o))
      (flat_map (fun e => [("t_" ++ num e.1 ++ ": ", (ev_t e.2, 0)); ("r_" ++ num e.1 ++ "_1 : ", (ev_r e.2, 0));
         ("r_" ++ num e.1 ++ "_2 : ", (ev_r e.2, 1)); ("r_" ++ num e.1 ++ "_3 : ", (ev_r e.2, 2)); ("R_" ++ num e.1 ++ "_1 : ", (ev_R e.2, 0));
         ("R_" ++ num e.1 ++ "_2 : ", (ev_R e.2, 1)); ("R_" ++ num e.1 ++ "_3 : ", (ev_R e.2, 2))]) order) out) /\
  (op_columnScaling (e_opts s) = false \/ (exists d, d ∈ ego_batch_order order /\ e_active s d = false) ->
   snd (ego_report norm num order (rv_obsS r)) = UB).
Proof.
  intros Hr Hs HL Hd Hadd Hrow. destruct (returned_rows s s' b force o r _ Hr Hs HL Hadd Hrow) as [Ho Hl].
  assert (order <> []) as Hne.
  { intros ->. pose proof (o_reachable_wf _ _ (Hr 0)) as Hwf. specialize (HL 0). unfold o_getGroup in HL.
    destruct (o_groups (h 0) !! e_marg s) as [l|] eqn:E; [|done]. injection HL as ->. eapply (gwf_ne _ _ (ow_groups _ _ Hwf)); [exact E|done]. }
  rewrite Ho. split.
  - intros -> Hall. apply ego_report_correct; done.
  - destruct (op_columnScaling (e_opts s)).
    + intros [?|(d & Hdd & Hf)]; [done|].
      destruct (ego_report_complete_iff norm num order (e_active s) dim (v_rowSpace (o_view o)) Hd Hl) as [[H|H] Hiff]; [|exact H].
      exfalso. rewrite (proj1 Hiff H d Hdd) in Hf. done.
    + intros _. destruct order as [|[i v] order]; [done|]. done.
Qed.
End verbose.

(** ** A concrete calibration: two batches of the time-delay example (trajectory variables 20+b), the first accepted, the
    second rejected; [1..7] are the calibration variables. *)
Definition rx_v : td_vars := TdVars 1 2 3 6 7 4 5.
Definition rx_ops (b : nat) : list (oop nat) :=
  (map (fun d => OAddDV (Some d) 1) (td_batch_order rx_v) ++
   match b with 0 => [OAddDV (Some 20) 0; OAddET (Some 100)] | _ => [OAddDV (Some 21) 0; OAddET (Some 101)] end)%list.
Definition rx_h (b : nat) : oprob nat := o_run (fun _ => [1]) o_empty (rx_ops b).
Definition rx_dim (d : nat) : nat := if Nat.leb d 5 then 1 else 3.
Definition rx_A : arith Z := Arith Z 0%Z (-1)%Z Z.gtb Z.geb (fun x y => ((x - y) / 2)%Z).
Definition rx_view (rank sum : Z) (rows : list (list Z)) : solver_view Z (list (list Z)) :=
  SolverView [] [] rows [] [] sum 1%Z 2%Z rank 0%Z 3%Z 0%Z 5%N 6%N 7%Z.
Definition rx_rows (n : nat) : list (list Z) := map (fun i => [Z.of_nat i]) (seq 100 n).
Definition rx_solved (n : nat) (rank : Z) : solved nat Z (list (list Z)) :=
  Solved (fun _ => 5) 5 100%Z 50%Z (rx_view rank 20 (rx_rows n)) (rx_view rank 20 []) true.
Definition rx_state (c : td_config) (n : nat) : est nat Z (list (list Z)) :=
  e_run rx_A [] rx_h rx_dim (fun _ => 1)
    (e_init rx_A [] 1 (Opts 2%Z true 20 true) (td_active c rx_v) (fun _ => 0)) [EAdd (Some 0) false (OptReturns (rx_solved n 2))].
Example rx_h_reachable : forall b, o_reachable (fun _ => [1]) (rx_h b).
Proof. intros b. apply o_run_reachable; [constructor|]. destruct b; vm_compute; reflexivity. Qed.
Example rx_groups : forall b, o_getGroup (rx_h b) 1 = Ret (td_batch_order rx_v).
Proof. intros [|b]; vm_compute; reflexivity. Qed.
Example rx_reachable c n : e_reachable rx_A [] rx_h rx_dim (fun _ => 1) (rx_state c n).
Proof.
  unfold rx_state. eapply (e_run_reachable rx_A [] rx_h (fun _ => [1]) rx_dim (fun _ => 1) rx_h_reachable); [apply er_init|].
  destruct c as [[] [] []]; vm_compute; reflexivity.
Qed.
(** All active, 11 rows: after the accepted and after the rejected batch the report is complete. *)
Example rx_complete :
  let s := rx_state (TdConfig true true true) 11 in
  let x := e_addBatch rx_A [] rx_h rx_dim (fun _ => 1) s (Some 1) false (OptReturns (rx_solved 11 2)) in
  match x.2 with
  | Ret r => rv_accepted r = false /\ td_report (fun row => default 0%Z (head row)) (rv_obsS r) =
      ([("b: ", 100%Z); ("k_l: ", 101%Z); ("t_l: ", 102%Z); ("k_r: ", 103%Z); ("t_r: ", 104%Z); ("v_r_vp_1: ", 105%Z);
        ("v_r_vp_2: ", 106%Z); ("v_r_vp_3: ", 107%Z); ("v_R_p_1: ", 108%Z); ("v_R_p_2: ", 109%Z); ("v_R_p_3: ", 110%Z)], Ret tt)
  | _ => False
  end /\ e_active s = td_active (TdConfig true true true) rx_v /\ e_marg s = 1 /\ op_columnScaling (e_opts s) = true /\
  one_row_per_column rx_dim s (rx_solved 11 2) x.1.
Proof.
  cbv zeta. split; [vm_compute; done|]. split; [reflexivity|]. split; [reflexivity|]. split; [reflexivity|].
  intros q k Hq. vm_compute in Hq. apply (f_equal (fun l => last l)) in Hq. injection Hq as <- _. vm_compute. reflexivity.
Qed.
(** Delays not optimised: 9 rows; the third line is labelled t_l and shows k_r's row, and the tenth row is missing. *)
Example rx_incomplete :
  td_report (fun row => default 0%Z (head row)) (rx_rows 9) =
    ([("b: ", 100%Z); ("k_l: ", 101%Z); ("t_l: ", 102%Z); ("k_r: ", 103%Z); ("t_r: ", 104%Z); ("v_r_vp_1: ", 105%Z);
      ("v_r_vp_2: ", 106%Z); ("v_r_vp_3: ", 107%Z); ("v_R_p_1: ", 108%Z)], UB) /\
  components (td_active (TdConfig true true false) rx_v) rx_dim (td_batch_order rx_v) =
    [(1, 0); (2, 0); (3, 0); (6, 0); (6, 1); (6, 2); (7, 0); (7, 1); (7, 2)].
Proof. vm_compute. done. Qed.
(** Car with delays: 16 rows. *)
Definition rx_car : car_vars := CarVars 1 2 3 4 5 6 7 8 9 10 11 12 13 14 15.
Definition rx_car_dim (d : nat) : nat := match d with 4 => 4 | 10 | 11 => 3 | _ => 1 end.
Example rx_car_case :
  map rx_car_dim (car_batch_order rx_car) = [1; 1; 1; 4; 1; 1; 1; 1; 1; 3; 3; 1; 1; 1; 1] /\
  components (car_active true rx_car) rx_car_dim (car_batch_order rx_car) =
    [(1, 0); (2, 0); (3, 0); (4, 0); (4, 1); (4, 2); (4, 3); (5, 0); (6, 0); (7, 0); (8, 0); (9, 0); (12, 0); (13, 0); (14, 0); (15, 0)] /\
  car_report (fun row => default 0%Z (head row)) (rx_rows 16) =
    (zip ["e_r: "; "e_f: "; "L: "; "a0: "; "a1: "; "a2: "; "a3: "; "k_rl: "; "k_rr: "; "k_fl: "; "k_fr: "; "k_dmi: ";
          "v_r_vr_1: "; "v_r_vr_2: "; "v_r_vr_3: "; "v_R_r_1: "] (map Z.of_nat (seq 100 16)), UB).
Proof. vm_compute. done. Qed.
(** Egomotion with two sensors. *)
Example rx_ego_case :
  let order := [(3, EgoVars 1 6 7); (0, EgoVars 2 8 9)] in
  components (fun _ => true) rx_dim (ego_batch_order order) =
    [(1, 0); (6, 0); (6, 1); (6, 2); (7, 0); (7, 1); (7, 2); (2, 0); (8, 0); (8, 1); (8, 2); (9, 0); (9, 1); (9, 2)] /\
  ego_report (fun row => default 0%Z (head row)) (fun n => if Nat.eqb n 3 then "3" else "0") order (rx_rows 14) =
    (zip ["t_3: "; "r_3_1 : "; "r_3_2 : "; "r_3_3 : "; "R_3_1 : "; "R_3_2 : "; "R_3_3 : ";
          "t_0: "; "r_0_1 : "; "r_0_2 : "; "r_0_3 : "; "R_0_1 : "; "R_0_2 : "; "R_0_3 : "] (map Z.of_nat (seq 100 14)), Ret tt).
Proof. vm_compute. done. Qed.
Print Assumptions inc_problem_add_order.
Print Assumptions estimator_marginal_order.
Print Assumptions td_verbose_report.
Print Assumptions car_verbose_report_refuted.
Print Assumptions ego_verbose_report.
