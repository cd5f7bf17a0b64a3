(** C126: the standard deviations that the calibrator program of the car example writes; C76 for the egomotion example. *)
From stdpp Require Import prelude list gmap.
From Coq Require Import String.
From Verif Require Import Base OptProblemModel IncProblemModel IncProblemProofs Spec_IncProblem EstimatorModel Spec_Estimator EstimatorProofs
  EstimatorSpecProofs Spec_OptProblem OptProblemProofs OptSpecProofs DesignVarsModel ReportModel Properties_Report DeviationsModel.
Local Open Scope string_scope.
Local Notation "x ++l y" := (List.app x y) (at level 60, right associativity).

Section deviations.
Context {X Y : Type} (root : X -> Y).

(** [out] lists exactly the names of [named], each with the root of the variance of its component (variable, index). *)
Definition shows (comps : list (nat * nat)) (variances : list X) (named : list (string * (nat * nat))) (out : list (string * Y)) : Prop :=
  Forall2 (fun n l => l.1 = n.1 /\ exists i x, comps !! i = Some n.2 /\ variances !! i = Some x /\ l.2 = root x) named out.

Lemma write_consecutive variances labels k :
  write_entries root variances (zip labels (seq k (List.length labels))) =
  (zip labels (map root (drop k variances)), if decide (k + List.length labels <= List.length variances \/ labels = []) then Ret tt else UB).
Proof.
  revert k. induction labels as [|l labels IH]; intros k; cbn [zip zip_with seq List.length write_entries].
  { rewrite decide_True by auto. done. }
  destruct (variances !! k) as [x|] eqn:Hk.
  - rewrite (drop_S _ _ _ Hk). cbn [map zip zip_with]. rewrite IH. cbn [fst snd]. f_equal.
    pose proof (lookup_lt_Some _ _ _ Hk).
    destruct labels as [|l' labels']; [cbn [List.length]; rewrite !decide_True; [done| |]; auto; left; lia|].
    destruct (decide (S k + _ <= _ \/ _)) as [[D|D]|D]; [|done|].
    + rewrite decide_True; [done|]. left. cbn [List.length] in *. lia.
    + rewrite decide_False; [done|]. intros [?|?]; [|done]. apply D. left. cbn [List.length] in *. lia.
  - apply lookup_ge_None in Hk. rewrite drop_ge by done. cbn [map zip zip_with].
    rewrite decide_False; [done|]. intros [?|?]; [lia|done].
Qed.

(** What is written, whatever the number of variances: the names in a fixed order, the roots in theirs; undefined behaviour
    if there are fewer than 18. *)
Theorem car_deviations_content variances :
  car_deviations root variances =
  (zip ["e_r: "; "e_f: "; "L: "; "a0: "; "a1: "; "a2: "; "a3: "; "k_rl: "; "k_rr: "; "k_fl: "; "k_fr: "; "k_dmi: ";
        "v_r_vr_1: "; "v_r_vr_2: "; "v_r_vr_3: "; "v_R_r_1: "; "v_R_r_2: "; "v_R_r_3: "] (map root variances),
   if decide (18 <= List.length variances) then Ret tt else UB).
Proof.
  pose proof (write_consecutive variances ["e_r: "; "e_f: "; "L: "; "a0: "; "a1: "; "a2: "; "a3: "; "k_rl: "; "k_rr: "; "k_fl: "; "k_fr: "; "k_dmi: ";
    "v_r_vr_1: "; "v_r_vr_2: "; "v_r_vr_3: "; "v_R_r_1: "; "v_R_r_2: "; "v_R_r_3: "] 0) as E.
  cbn [zip zip_with seq List.length] in E. unfold car_deviations. rewrite E.
  rewrite drop_0. f_equal. cbn [List.length]. destruct (decide (18 <= _)); [rewrite decide_True by auto|rewrite decide_False by (intros [?|?]; done)]; done.
Qed.

Lemma shows_names comps variances (named : list (string * (nat * nat))) :
  comps = map snd named -> List.length variances = List.length named ->
  shows comps variances named (zip (map fst named) (map root variances)).
Proof.
  intros -> Hl. unfold shows. apply Forall2_same_length_lookup. split; [rewrite zip_with_length, !map_length; lia|].
  intros i n l Hn Hz. apply lookup_zip_with_Some in Hz as (a & b & -> & Ha & Hb). cbn [fst snd].
  rewrite list_lookup_fmap in Ha. rewrite list_lookup_fmap in Hb. rewrite Hn in Ha. cbn in Ha. injection Ha as <-. split; [done|].
  destruct (variances !! i) as [x|] eqn:Hx; [|done]. cbn in Hb. injection Hb as <-.
  exists i, x. split; [|done]. rewrite list_lookup_fmap, Hn. done.
Qed.

(** One variance for each component that is optimised: twelve lines are right; with delays, the delays' deviations then appear
    under the names of the lever arm and of a rotation component; then an entry that does not exist is read. *)
Theorem car_deviations_refuted (v : car_vars) (delays : bool) dim variances :
  NoDup (car_batch_order v) -> map dim (car_batch_order v) = [1; 1; 1; 4; 1; 1; 1; 1; 1; 3; 3; 1; 1; 1; 1] ->
  List.length variances = List.length (components (car_active delays v) dim (car_batch_order v)) ->
  exists out, car_deviations root variances = (out, UB) /\
    shows (components (car_active delays v) dim (car_batch_order v)) variances
      ([("e_r: ", (cv_e_r v, 0)); ("e_f: ", (cv_e_f v, 0)); ("L: ", (cv_L v, 0)); ("a0: ", (cv_a v, 0)); ("a1: ", (cv_a v, 1));
        ("a2: ", (cv_a v, 2)); ("a3: ", (cv_a v, 3)); ("k_rl: ", (cv_k_rl v, 0)); ("k_rr: ", (cv_k_rr v, 0)); ("k_fl: ", (cv_k_fl v, 0));
        ("k_fr: ", (cv_k_fr v, 0)); ("k_dmi: ", (cv_k_dmi v, 0))] ++l
       if delays then [("v_r_vr_1: ", (cv_t_r v, 0)); ("v_r_vr_2: ", (cv_t_f v, 0)); ("v_r_vr_3: ", (cv_t_s v, 0)); ("v_R_r_1: ", (cv_t_dmi v, 0))]
       else []) out.
Proof.
  intros ND D Hl. rewrite car_components in * by done. fold (car_names v delays). rewrite map_length in Hl.
  rewrite car_deviations_content. exists (zip (map fst (car_names v delays)) (map root variances)). split.
  - f_equal.
    + unfold car_names in *. destruct delays; cbn [List.app map fst snd List.length] in *.
      * do 16 (destruct variances as [|? variances]; [done|]). destruct variances; done.
      * do 12 (destruct variances as [|? variances]; [done|]). destruct variances; done.
    + rewrite decide_False; [done|]. rewrite Hl. unfold car_names. destruct delays; cbn; lia.
  - apply shows_names; done.
Qed.
End deviations.

(** ** After any sequence of batches *)
Section program.
Context {X Y V D M : Type} (root : X -> Y) (A : arith D) (nil : M) (diag : M -> list X) (h : nat -> oprob V) (edv : nat -> list nat) (dim edim : nat -> nat).
Implicit Types s : est V D M.

(** The contract of the linear solver used below: the covariance has one entry on its diagonal for each column of the marginal block. *)
Definition one_entry_per_column s (oc : outcome V D M) s' : Prop :=
  forall o q k, oc = OptReturns o -> e_runs s' = (e_runs s ++ [(q, e_active s, k)])%list ->
  List.length (diag (v_covariance (o_marg_view o))) = total dim (active_in_group (e_active s) q (e_marg s)).

(** The estimator after any number of [addBatch] calls: accepted, rejected or failed, forced or not. *)
Inductive fed : est V D M -> Prop :=
| fed_init m o act vals : fed (e_init A nil m o act vals)
| fed_add s b force oc s' r :
    fed s -> compatible h (e_prob s) b -> e_addBatch A nil h dim edim s (Some b) force oc = (s', r) -> came_back r ->
    one_entry_per_column s oc s' -> fed s'.

Lemma fed_reachable s : fed s -> e_reachable A nil h dim edim s.
Proof.
  induction 1 as [|s b force oc s' r Hs IH Hc Hadd Hb Ho]; [constructor|].
  eapply (er_step A nil h dim edim s (EAdd (Some b) force oc) s' (rbind r (fun x => Ret (Some x)))); [done| | |].
  - cbn [estep]. rewrite Hadd. done.
  - destruct r; done.
  - intros p f oc' [= <- _ _]. eauto.
Qed.

Lemma fed_sigma (L : list nat) s :
  (forall b, o_reachable edv (h b)) -> fed s -> (forall b, o_getGroup (h b) (e_marg s) = Ret L) ->
  st_sigma (e_stats s) = nil \/ List.length (diag (st_sigma (e_stats s))) = List.length (components (e_active s) dim L).
Proof.
  intros Hr Hs. induction Hs as [|s b force oc s' r Hs IH Hc Hadd Hb Ho]; intros HL; [left; done|].
  pose proof (fed_reachable s Hs) as Hre.
  assert (fed s') as Hs' by (eapply fed_add; eauto).
  destruct (add_ret_compatible A nil h edv dim edim Hr _ _ _ _ _ _ Hre Hadd) as [(b' & [= <-] & _ & Hres)|(e & _ & _ & _ & _ & _ & _ & _ & _ & _ & Hn)].
  2: { exfalso. apply Hn. eauto. }
  assert (e_marg s' = e_marg s /\ e_active s' = e_active s) as [Hm Ha] by (destruct Hres; done).
  rewrite Hm in HL. rewrite Ha. specialize (IH HL).
  destruct Hres as [| |q1 q3 k o Hprep Hoc Hk|]; try exact IH.
  right. cbn. specialize (Ho o q3 k Hoc eq_refl). rewrite Ho, components_length.
  destruct (estimator_marginal_order A nil h edv dim edim L _ q3 (e_active s) k Hr (fed_reachable _ Hs')) as (_ & Hag & _); [| |].
  - cbn. apply elem_of_app. right. left.
  - exact HL.
  - cbn [e_marg with_stats with_vals started] in Hag. rewrite Hag. done.
Qed.

(** The program never gets past the standard deviations: either nothing was accepted and the first entry is missing already, or
    the lines written are the twelve of the parameters that are optimised (and, with delays, four of the delays under wrong names) and the
    next entry is missing. *)
Theorem car_program_deviations_refuted s (delays : bool) (v : car_vars) :
  (forall b, o_reachable edv (h b)) -> fed s -> diag nil = [] ->
  (forall b, o_getGroup (h b) (e_marg s) = Ret (car_batch_order v)) ->
  map dim (car_batch_order v) = [1; 1; 1; 4; 1; 1; 1; 1; 1; 3; 3; 1; 1; 1; 1] ->
  (forall d, d ∈ car_batch_order v -> e_active s d = car_active delays v d) ->
  exists out, car_deviations root (diag (st_sigma (e_stats s))) = (out, UB) /\
    (st_sigma (e_stats s) = nil /\ out = [] \/
     shows root (components (car_active delays v) dim (car_batch_order v)) (diag (st_sigma (e_stats s)))
      ([("e_r: ", (cv_e_r v, 0)); ("e_f: ", (cv_e_f v, 0)); ("L: ", (cv_L v, 0)); ("a0: ", (cv_a v, 0)); ("a1: ", (cv_a v, 1));
        ("a2: ", (cv_a v, 2)); ("a3: ", (cv_a v, 3)); ("k_rl: ", (cv_k_rl v, 0)); ("k_rr: ", (cv_k_rr v, 0)); ("k_fl: ", (cv_k_fl v, 0));
        ("k_fr: ", (cv_k_fr v, 0)); ("k_dmi: ", (cv_k_dmi v, 0))] ++l
       if delays then [("v_r_vr_1: ", (cv_t_r v, 0)); ("v_r_vr_2: ", (cv_t_f v, 0)); ("v_r_vr_3: ", (cv_t_s v, 0)); ("v_R_r_1: ", (cv_t_dmi v, 0))]
       else []) out).
Proof.
  intros Hr Hs Hnil HL Hd Ha.
  assert (NoDup (car_batch_order v)) as ND.
  { pose proof (o_reachable_wf _ _ (Hr 0)) as Hwf. eapply (gwf_lnodup _ _ (ow_groups _ _ Hwf) (e_marg s)).
    specialize (HL 0). unfold o_getGroup in HL. destruct (o_groups (h 0) !! e_marg s); [congruence|done]. }
  destruct (fed_sigma _ s Hr Hs HL) as [E|E].
  - rewrite E, Hnil. exists []. split; [reflexivity|left; done].
  - rewrite (components_ext _ _ _ _ Ha) in E.
    destruct (car_deviations_refuted root v delays dim _ ND Hd E) as (out & Ho & Hsh). exists out. split; [exact Ho|right; exact Hsh].
Qed.
End program.

(** ** The spline problem of the egomotion example *)
Section ego.
Context {V : Type}.
(** An index in range: the spline, as in the other examples.  Beyond the end: OutOfBound in debug builds, undefined behaviour in the
    others (where the classes of the other examples throw). *)
Theorem ego_getSpline_outcome (s : sprob V) k idx :
  (forall ndebug sp, getSplineEgo ndebug s k idx = Ret sp <-> sp_list s k !! idx = Some sp) /\
  (getSplineEgo false s k idx = Throw OutOfBound <-> List.length (sp_list s k) <= idx) /\
  (forall e, getSplineEgo true s k idx <> Throw e) /\
  (getSplineEgo true s k idx = UB <-> List.length (sp_list s k) <= idx) /\
  getSplineEgo false s k idx = getSpline s k idx.
Proof.
  unfold getSplineEgo, getSpline. destruct (sp_list s k !! idx) as [sp|] eqn:E.
  - pose proof (lookup_lt_Some _ _ _ E) as Hlt.
    assert (Nat.leb (List.length (sp_list s k)) idx = false) as -> by (apply Nat.leb_gt; exact Hlt).
    rewrite andb_false_r. split; [intros [] sp'; cbn; split; congruence|].
    split; [split; [done|lia]|]. split; [done|]. split; [split; [done|lia]|done].
  - apply lookup_ge_None in E. assert (Nat.leb (List.length (sp_list s k)) idx = true) as -> by (apply Nat.leb_le; exact E).
    split; [intros [] sp'; cbn; split; congruence|]. cbn. done.
Qed.
(** The default argument on a problem without splines, in a build without assertions. *)
Theorem ego_getSpline_refuted : exists (s : sprob V), forall k, getSplineEgo true s k 0 = UB /\ getSpline s k 0 = Throw OutOfBound.
Proof. exists sp_empty. intros []; done. Qed.
End ego.

(** ** Concrete cases *)
Definition dx_ops (b : nat) : list (oop nat) :=
  (map (fun d => OAddDV (Some d) 1) (car_batch_order rx_car) ++
   match b with 0 => [OAddDV (Some 20) 0; OAddET (Some 100)] | _ => [OAddDV (Some 21) 0; OAddET (Some 101)] end)%list.
Definition dx_h (b : nat) : oprob nat := o_run (fun _ => [1]) o_empty (dx_ops b).
Definition dx_dim (d : nat) : nat := if Nat.leb d 15 then rx_car_dim d else 3.
Definition dx_view (cov : list Z) : solver_view Z (list Z) := SolverView [] [] [] cov [] 20%Z 1%Z 2%Z 2%Z 0%Z 3%Z 0%Z 5%N 6%N 7%Z.
Definition dx_solved : solved nat Z (list Z) :=
  Solved (fun _ => 5) 5 100%Z 50%Z (dx_view []) (dx_view (map Z.of_nat (seq 100 16))) true.
Definition dx_init : est nat Z (list Z) := e_init rx_A [] 1 (Opts 2%Z true 20 true) (car_active true rx_car) (fun _ => 0).
Definition dx_state : est nat Z (list Z) := (e_addBatch rx_A [] dx_h dx_dim (fun _ => 1) dx_init (Some 0) false (OptReturns dx_solved)).1.
Example dx_h_reachable : forall b, o_reachable (fun _ => [1]) (dx_h b).
Proof. intros b. apply o_run_reachable; [constructor|]. destruct b; vm_compute; reflexivity. Qed.
Example dx_groups : forall b, o_getGroup (dx_h b) 1 = Ret (car_batch_order rx_car).
Proof. intros [|b]; vm_compute; reflexivity. Qed.
Example dx_fed : fed rx_A [] id dx_h dx_dim (fun _ => 1) dx_state.
Proof.
  eapply (fed_add rx_A [] id dx_h dx_dim (fun _ => 1) dx_init 0 false (OptReturns dx_solved) dx_state
    (e_addBatch rx_A [] dx_h dx_dim (fun _ => 1) dx_init (Some 0) false (OptReturns dx_solved)).2).
  - constructor.
  - split; [intros d g g' _; vm_compute; done|intros e _; vm_compute; done].
  - unfold dx_state. destruct (e_addBatch _ _ _ _ _ _ _ _ _); done.
  - vm_compute. done.
  - intros o q k [= <-] Hq. vm_compute in Hq. injection Hq as <- _. vm_compute. reflexivity.
Qed.
(** Delays optimised, one batch accepted. *)
Example dx_case :
  car_deviations id (st_sigma (e_stats dx_state)) =
    (zip ["e_r: "; "e_f: "; "L: "; "a0: "; "a1: "; "a2: "; "a3: "; "k_rl: "; "k_rr: "; "k_fl: "; "k_fr: "; "k_dmi: ";
          "v_r_vr_1: "; "v_r_vr_2: "; "v_r_vr_3: "; "v_R_r_1: "] (map Z.of_nat (seq 100 16)), UB) /\
  map dx_dim (car_batch_order rx_car) = [1; 1; 1; 4; 1; 1; 1; 1; 1; 3; 3; 1; 1; 1; 1] /\
  e_active dx_state = car_active true rx_car /\ e_marg dx_state = 1.
Proof. vm_compute. done. Qed.
Example ego_spline_case : getSplineEgo true (SProb (V := nat) o_empty [] [Spline 0 [3; 4]] (fun _ => false)) SpRot 0 = Ret (Spline 0 [3; 4]) /\
  getSplineEgo true (SProb (V := nat) o_empty [] [Spline 0 [3; 4]] (fun _ => false)) SpTrans 0 = UB.
Proof. done. Qed.
Print Assumptions car_deviations_content.
Print Assumptions car_program_deviations_refuted.
Print Assumptions ego_getSpline_outcome.
