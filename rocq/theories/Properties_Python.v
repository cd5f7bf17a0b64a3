(** C119: the Python module: which Python programs never touch a C++ object that has been destroyed. *)
From stdpp Require Import prelude list relations.
From Verif Require Import PythonModel.

Local Definition p_inv (s : pstate) : Prop :=
  (forall w wr, py_wrappers s !! w = Some wr -> w_owner wr = false ->
     (exists p, w_obj wr = OProblem p) \/
     (exists w' wr', w_patient wr = Some w' /\ py_wrappers s !! w' = Some wr' /\ w_owner wr' = true /\
        py_keeps s (NO (w_obj wr')) (NO (w_obj wr)))) /\
  (forall c p w, (p, w) ∈ py_batches s c -> exists wr, py_wrappers s !! w = Some wr /\ w_obj wr = OProblem p).

Local Lemma p_obj_Some s w o : py_obj s w = Some o -> w ∈ py_names s /\ exists wr, py_wrappers s !! w = Some wr /\ w_obj wr = o.
Proof.
  unfold py_obj. destruct (decide _) as [H|]; [|done]. intros Hw. split; [done|].
  destruct (py_wrappers s !! w) as [wr|]; [|done]. cbn in Hw. injection Hw as <-. by exists wr.
Qed.
Local Lemma keeps_obj s s' o o' : py_keeps s (NO o) (NO o') -> py_keeps s' (NO o) (NO o').
Proof. intros H. inversion H; subst; constructor. Qed.
Local Lemma remove_first_sub p bs b : b ∈ py_remove_first p bs -> b ∈ bs.
Proof.
  induction bs as [|b0 bs IH]; cbn; [done|]. destruct (decide _); [by right|]. rewrite !elem_of_cons. intros [->|H]; auto.
Qed.
Local Lemma delete_sub {A} k (l : list A) x : x ∈ delete k l -> x ∈ l.
Proof.
  revert k. induction l as [|y l IH]; intros [|k]; cbn; try done; [by right|]. rewrite !elem_of_cons. intros [->|H]; eauto.
Qed.

(** Shape of a step. *)
Local Lemma step_shape s call ts s' : py_step s call = Some (ts, s') ->
  (* a new Python object *)
  (exists wr f, s' = py_bind s wr f /\
     (w_owner wr = true \/
      (exists w wr0, w_patient wr = Some w /\ w ∈ py_names s /\ py_wrappers s !! w = Some wr0 /\
         ((exists c, w_obj wr0 = OEst c /\ (w_obj wr = OInc c \/ w_obj wr = OOptions c)) \/
          (exists l, w_obj wr0 = OSolver l /\ w_obj wr = OSolverOptions l) \/
          (exists c p w' k, call = PGetOptimizationProblem w k /\ w_obj wr0 = OInc c /\ (p, w') ∈ py_batches s c /\ w_obj wr = OProblem p))))) \/
  (* other batches in one incremental problem *)
  (exists c bs, s' = py_set s c bs /\
     forall p w, (p, w) ∈ bs -> (p, w) ∈ py_batches s c \/ py_obj s w = Some (OProblem p)) \/
  (* other names *)
  (exists ns, s' = PState (py_wrappers s) (py_batches s) ns (py_fresh s)).
Proof.
  destruct call as [| | | |w|w|w|w wp kept|w wp out|w k|w k|w|w k|w wp|w|w|w]; cbn; intros H.
  - left. injection H as <- <-. do 2 eexists. split; [done|]. by left.
  - left. injection H as <- <-. do 2 eexists. split; [done|]. by left.
  - left. injection H as <- <-. do 2 eexists. split; [done|]. by left.
  - left. injection H as <- <-. do 2 eexists. split; [done|]. by left.
  - destruct (py_obj s w) as [[]|] eqn:E; try done. injection H as <- <-. apply p_obj_Some in E as (Hn & wr & Hw & Ho).
    left. do 2 eexists. split; [done|]. right. exists w, wr. split_and!; [done..|]. left. eexists. split; [done|]. by left.
  - destruct (py_obj s w) as [[]|] eqn:E; try done. injection H as <- <-. apply p_obj_Some in E as (Hn & wr & Hw & Ho).
    left. do 2 eexists. split; [done|]. right. exists w, wr. split_and!; [done..|]. left. eexists. split; [done|]. by right.
  - destruct (py_obj s w) as [[]|] eqn:E; try done. injection H as <- <-. apply p_obj_Some in E as (Hn & wr & Hw & Ho).
    left. do 2 eexists. split; [done|]. right. exists w, wr. split_and!; [done..|]. right; left. eexists. split; [done|]. done.
  - destruct (py_obj s w) as [[]|] eqn:E; try done. destruct (py_obj s wp) as [[]|] eqn:Ep; try done. injection H as <- <-.
    destruct kept.
    + right; left. do 2 eexists. split; [done|]. intros p0 w0. rewrite elem_of_app, elem_of_list_singleton. intros [|[= -> ->]]; auto.
    + right; right. exists (py_names s). by destruct s.
  - destruct (py_obj s w) as [[]|] eqn:E; try done. destruct (py_obj s wp) as [[]|] eqn:Ep; try done. injection H as <- <-.
    destruct out as [[]|].
    + right; left. do 2 eexists. split; [done|]. intros p0 w0. rewrite elem_of_app, elem_of_list_singleton. intros [|[= -> ->]]; auto.
    + right; left. do 2 eexists. split; [done|]. intros p0 w0 Hin%remove_first_sub. revert Hin.
      rewrite elem_of_app, elem_of_list_singleton. intros [|[= -> ->]]; auto.
    + right; right. exists (py_names s). by destruct s.
  - destruct (py_obj s w) as [[]|] eqn:E; try done. destruct (py_batches s c !! k) as [[p w']|] eqn:Eb; injection H as <- <-.
    + apply p_obj_Some in E as (Hn & wr & Hw & Ho).
      left. do 2 eexists. split; [done|]. right. exists w, wr. split_and!; [done..|]. right; right.
      exists c, p, w', k. split_and!; [done|done| |done]. by eapply elem_of_list_lookup_2.
    + right; right. exists (py_names s). by destruct s.
  - destruct (py_obj s w) as [[]|] eqn:E; try done. destruct (py_batches s c !! k) as [[p w']|] eqn:Eb; injection H as <- <-.
    + right; left. do 2 eexists. split; [done|]. intros p0 w0 Hin%delete_sub. by left.
    + right; right. exists (py_names s). by destruct s.
  - destruct (py_obj s w) as [[]|] eqn:E; try done. injection H as <- <-.
    right; left. do 2 eexists. split; [done|]. intros p0 w0 Hin. by apply elem_of_nil in Hin.
  - destruct (py_obj s w) as [[]|] eqn:E; try done. destruct (py_batches s c !! k) as [[p w']|] eqn:Eb; injection H as <- <-.
    + right; left. do 2 eexists. split; [done|]. intros p0 w0 Hin%delete_sub. by left.
    + right; right. exists (py_names s). by destruct s.
  - destruct (py_obj s w) as [[]|] eqn:E; try done. destruct (py_obj s wp) as [[]|] eqn:Ep; try done.
    destruct (decide _); injection H as <- <-.
    + right; left. do 2 eexists. split; [done|]. intros p0 w0 Hin%remove_first_sub. by left.
    + right; right. exists (py_names s). by destruct s.
  - assert (s' = s) as -> by (destruct (py_obj s w) as [[]|]; try done; by injection H).
    right; right. exists (py_names s). by destruct s.
  - destruct (decide _); [|done]. injection H as <- <-. right; right. by eexists.
  - destruct (decide _); [|done]. injection H as <- <-. right; right. by eexists.
Qed.

(** What a step touches: the object of a name, the incremental problem of an estimator that has a name, or a problem in such an
    incremental problem. *)
Local Lemma touch_shape s call ts s' o : py_step s call = Some (ts, s') -> o ∈ ts ->
  exists w wr, w ∈ py_names s /\ py_wrappers s !! w = Some wr /\
    (o = w_obj wr \/ (exists c, w_obj wr = OEst c /\ o = OInc c) \/
     (exists c p w', (w_obj wr = OInc c \/ w_obj wr = OEst c) /\ (p, w') ∈ py_batches s c /\ o = OProblem p)).
Proof.
  assert (Hterms : forall c o, o ∈ py_terms s c -> exists p w', (p, w') ∈ py_batches s c /\ o = OProblem p).
  { intros c o' H. unfold py_terms in H. apply elem_of_list_fmap in H as ([p w'] & -> & H). by exists p, w'. }
  destruct call as [| | | |w|w|w|w wp kept|w wp out|w k|w k|w|w k|w wp|w|w|w]; cbn; intros H Hin;
    repeat match goal with
           | H : context [decide ?P] |- _ => destruct (decide P); [|try done]
           | H : match py_obj s ?w with _ => _ end = Some _ |- _ => destruct (py_obj s w) as [[]|] eqn:?; try done
           | H : match py_batches s ?c !! ?k with _ => _ end = Some _ |- _ => destruct (py_batches s c !! k) as [[? ?]|] eqn:?
           end; injection H as <- <-;
    repeat match goal with
           | E : py_obj s ?w = Some _ |- _ => apply p_obj_Some in E as (? & ? & ? & ?)
           | E : py_batches s ?c !! ?k = Some _ |- _ => apply elem_of_list_lookup_2 in E
           end;
    repeat (rewrite elem_of_cons in Hin; destruct Hin as [Hin|Hin]);
    try (apply elem_of_nil in Hin; done); try (apply Hterms in Hin as (? & ? & ? & ?)); subst;
    match goal with
    | Hn : ?w ∈ py_names s, Hw : py_wrappers s !! ?w = Some ?wr |- _ =>
        solve [ exists w, wr; split_and!; [exact Hn|exact Hw|]; first
          [ by left | right; left; eexists; split; [eassumption|done]
          | right; right; do 3 eexists; split_and!; [first [left; eassumption|right; eassumption]|eassumption|done] ] ]
    end.
Qed.

Local Lemma bind_lookup s wr f w wr' : py_wrappers (py_bind s wr f) !! w = Some wr' ->
  py_wrappers s !! w = Some wr' \/ (w = List.length (py_wrappers s) /\ wr' = wr).
Proof.
  cbn. intros H. apply lookup_app_Some in H as [H|[Hl H]]; [by left|]. right.
  destruct (w - List.length (py_wrappers s))%nat eqn:E; [|done]. cbn in H. injection H as <-. split; [lia|done].
Qed.
Local Lemma bind_lookup_old s wr f w wr' : py_wrappers s !! w = Some wr' -> py_wrappers (py_bind s wr f) !! w = Some wr'.
Proof. cbn. apply lookup_app_l_Some. Qed.
Local Lemma bind_lookup_new s wr f : py_wrappers (py_bind s wr f) !! List.length (py_wrappers s) = Some wr.
Proof. cbn. rewrite lookup_app_r by lia. by rewrite Nat.sub_diag. Qed.

(** More edges keep what is kept. *)
Local Lemma keeps_mono s s' x y :
  (forall w wr, py_wrappers s !! w = Some wr -> py_wrappers s' !! w = Some wr) ->
  (forall c b, b ∈ py_batches s c -> b ∈ py_batches s' c) ->
  py_keeps s x y -> py_keeps s' x y.
Proof.
  intros Hw Hb H. inversion H; subst; [eapply k_owner|eapply k_patient|eapply k_batch|constructor..]; eauto.
Qed.
Local Lemma rtc_mono s s' x y :
  (forall w wr, py_wrappers s !! w = Some wr -> py_wrappers s' !! w = Some wr) ->
  (forall c b, b ∈ py_batches s c -> b ∈ py_batches s' c) ->
  rtc (py_keeps s) x y -> rtc (py_keeps s') x y.
Proof. intros Hw Hb. apply rtc_subrel. intros. by eapply keeps_mono. Qed.

Local Lemma p_inv_owner s w wr c : p_inv s -> py_wrappers s !! w = Some wr -> (w_obj wr = OEst c \/ w_obj wr = OSolver c) -> w_owner wr = true.
Proof.
  intros [Ha _] Hw Ho. destruct (w_owner wr) eqn:E; [done|]. destruct (Ha _ _ Hw E) as [[p Hp]|(w' & wr' & _ & _ & _ & Hk)].
  - rewrite Hp in Ho. by destruct Ho.
  - destruct Ho as [Ho|Ho]; rewrite Ho in Hk; inversion Hk.
Qed.
Local Lemma p_inv_step s call ts s' : p_inv s -> py_step s call = Some (ts, s') -> p_inv s'.
Proof.
  intros Hi Hs. pose proof Hi as [Ha Hb]. destruct (step_shape _ _ _ _ Hs) as [(wr & f & -> & Hwr)|[(c & bs & -> & Hbs)|(ns & ->)]].
  - split.
    + intros w wr' Hw Ho. apply bind_lookup in Hw as [Hw|[-> ->]].
      * destruct (Ha _ _ Hw Ho) as [?|(w' & wr'' & H1 & H2 & H3 & H4)]; [by left|]. right. exists w', wr''.
        split_and!; [done|by apply bind_lookup_old|done|by eapply keeps_obj].
      * destruct Hwr as [?|(w & wr0 & H1 & H2 & H3 & H4)]; [congruence|].
        destruct H4 as [(c & Hc & Hc')|[(l & Hl & Hl')|(c & p & w' & k & _ & _ & _ & Hp)]]; [right|right|left; by exists p].
        -- exists w, wr0. split_and!; [done|by apply bind_lookup_old|eapply p_inv_owner; eauto|].
           rewrite Hc. destruct Hc' as [-> | ->]; constructor.
        -- exists w, wr0. split_and!; [done|by apply bind_lookup_old|eapply p_inv_owner; eauto|]. rewrite Hl, Hl'. constructor.
    + intros c p w Hin. destruct (Hb _ _ _ Hin) as (wr' & H1 & H2). exists wr'. split; [by apply bind_lookup_old|done].
  - split.
    + intros w wr Hw Ho. destruct (Ha _ _ Hw Ho) as [?|(w' & wr'' & H1 & H2 & H3 & H4)]; [by left|]. right. exists w', wr''.
      split_and!; [done|done|done|by eapply keeps_obj].
    + intros c' p w Hin. cbn in Hin. destruct (decide (c' = c)) as [->|]; [|by eapply Hb].
      destruct (Hbs _ _ Hin) as [?|Ho]; [by eapply Hb|]. apply p_obj_Some in Ho as (_ & H). done.
  - split; [|done]. intros w wr Hw Ho. destruct (Ha _ _ Hw Ho) as [?|(w' & wr'' & H1 & H2 & H3 & H4)]; [by left|]. right. exists w', wr''.
    split_and!; [done|done|done|by eapply keeps_obj].
Qed.
Local Lemma p_inv_start : p_inv py_start.
Proof. split; [done|]. intros c p w H. by apply elem_of_nil in H. Qed.
Local Lemma p_inv_run s calls s' : p_inv s -> py_run s calls s' -> p_inv s'.
Proof. intros H Hr. induction Hr as [|s call ts s' calls s'' Hs _ IH]; [done|]. apply IH. by eapply p_inv_step. Qed.

(** A Python object that holds its object, or refers to anything but a problem, keeps that object alive. *)
Local Lemma p_inv_supports s w wr : p_inv s -> py_wrappers s !! w = Some wr -> (w_owner wr = true \/ forall p, w_obj wr <> OProblem p) ->
  rtc (py_keeps s) (NW w) (NO (w_obj wr)).
Proof.
  intros [Ha _] Hw Hc. destruct (w_owner wr) eqn:Eo; [apply rtc_once; by apply k_owner|].
  destruct (Ha _ _ Hw Eo) as [[p Hp]|(w' & wr' & H1 & H2 & H3 & H4)]; [destruct Hc as [?|Hc]; [done|by destruct (Hc p)]|].
  eapply rtc_l; [by eapply k_patient|]. eapply rtc_l; [by eapply k_owner|]. by apply rtc_once.
Qed.

(** In every history: no call touches an estimator, an incremental problem, a linear solver or options that have been destroyed, and
    neither does one that uses a problem made by the program. *)
Theorem python_no_dangling_owner s calls call ts s' o : py_run py_start calls s -> py_step s call = Some (ts, s') -> o ∈ ts ->
  (forall p, o <> OProblem p) -> py_alive s (NO o).
Proof.
  intros Hr Hs Hin Ho. pose proof (p_inv_run _ _ _ p_inv_start Hr) as Hi.
  destruct (touch_shape _ _ _ _ _ Hs Hin) as (w & wr & Hn & Hw & [->|[(c & Hc & ->)|(c & p & w' & _ & _ & ->)]]).
  - exists w. split; [done|]. apply p_inv_supports; auto.
  - exists w. split; [done|]. eapply rtc_r; [apply p_inv_supports; [done|done|]|].
    + right. intros p. by rewrite Hc.
    + rewrite Hc. constructor.
  - by destruct (Ho p).
Qed.
(** A problem made by the program is alive while its Python object has a name, or is held (as that object) by an incremental problem
    that is alive. *)
Theorem python_problem_kept s calls w p : py_run py_start calls s ->
  py_wrappers s !! w = Some (Wrapper (OProblem p) true None) ->
  (w ∈ py_names s \/ exists c, py_alive s (NO (OInc c)) /\ (p, w) ∈ py_batches s c) -> py_alive s (NO (OProblem p)).
Proof.
  intros Hr Hw [Hn|(c & (w' & Hn & Ha) & Hb)].
  - exists w. split; [done|]. apply rtc_once. by apply (k_owner _ _ _ Hw).
  - exists w'. split; [done|]. eapply rtc_r; [eapply rtc_r; [exact Ha|by eapply k_batch]|]. by apply (k_owner _ _ _ Hw).
Qed.

Local Definition supported (s : pstate) : Prop :=
  forall w wr, py_wrappers s !! w = Some wr -> rtc (py_keeps s) (NW w) (NO (w_obj wr)).
Local Lemma supported_touch s call ts s' o : p_inv s -> supported s -> py_step s call = Some (ts, s') -> o ∈ ts -> py_alive s (NO o).
Proof.
  intros [Ha Hb] Hsup Hs Hin.
  destruct (touch_shape _ _ _ _ _ Hs Hin) as (w & wr & Hn & Hw & [->|[(c & Hc & ->)|(c & p & w' & Hc & Hp & ->)]]); exists w; (split; [done|]).
  - by apply Hsup.
  - eapply rtc_r; [by apply Hsup|]. rewrite Hc. constructor.
  - destruct (Hb _ _ _ Hp) as (wr' & Hw' & <-).
    assert (rtc (py_keeps s) (NW w) (NO (OInc c))) as Hi.
    { destruct Hc as [Hc|Hc]; [rewrite <-Hc; by apply Hsup|]. eapply rtc_r; [by apply Hsup|]. rewrite Hc. constructor. }
    etrans; [exact Hi|]. eapply rtc_l; [by eapply k_batch|]. by apply Hsup.
Qed.

(** A program that never calls getOptimizationProblem never touches a destroyed object, whatever it adds, removes and drops. *)
Theorem python_no_references_safe s calls call ts s' o : py_run py_start calls s -> (forall w k, PGetOptimizationProblem w k ∉ calls) ->
  py_step s call = Some (ts, s') -> o ∈ ts -> py_alive s (NO o).
Proof.
  intros Hr Hno Hs Hin. pose proof (p_inv_run _ _ _ p_inv_start Hr) as Hi. eapply supported_touch; [done| |done|done].
  assert (forall s0, py_run s0 calls s -> (forall w wr, py_wrappers s0 !! w = Some wr -> w_owner wr = true \/ forall p, w_obj wr <> OProblem p) ->
    forall w wr, py_wrappers s !! w = Some wr -> w_owner wr = true \/ forall p, w_obj wr <> OProblem p) as H.
  { clear -Hno. intros s0 Hr. induction Hr as [|s call ts s' calls s'' Hs _ IH]; [done|]. intros H0. apply IH.
    - intros w k Hin. apply (Hno w k). by right.
    - destruct (step_shape _ _ _ _ Hs) as [(wr & f & -> & Hwr)|[(c & bs & -> & Hbs)|(ns & ->)]]; [|done|done].
      intros w wr' Hw. apply bind_lookup in Hw as [Hw|[-> ->]]; [by eapply H0|].
      destruct Hwr as [?|(w & wr0 & H1 & H2 & H3 & [(c & Hc & Hc')|[(l & Hl & Hl')|(c & p & w' & k & -> & _)]])]; [by left|right..|].
      + intros p. by destruct Hc' as [-> | ->].
      + intros p. by rewrite Hl'.
      + exfalso. apply (Hno w k). left. }
  intros w wr Hw. apply p_inv_supports; [done|done|]. eapply (H py_start); [done|done|done].
Qed.

(** Histories in which no batch ever leaves an incremental problem. *)
Inductive py_run_growing : pstate -> list pcall -> pstate -> Prop :=
| pg_nil s : py_run_growing s [] s
| pg_cons s call ts s' calls s'' : py_step s call = Some (ts, s') -> (forall c b, b ∈ py_batches s c -> b ∈ py_batches s' c) ->
    py_run_growing s' calls s'' -> py_run_growing s (call :: calls) s''.
(** Such a program never touches a destroyed object either, whatever it looks up, adds elsewhere and drops. *)
Theorem python_growing_safe s calls call ts s' o : py_run_growing py_start calls s ->
  py_step s call = Some (ts, s') -> o ∈ ts -> py_alive s (NO o).
Proof.
  intros Hr Hs Hin.
  assert (forall s0, py_run_growing s0 calls s -> p_inv s0 -> supported s0 -> p_inv s /\ supported s) as H.
  { clear. intros s0 Hr. induction Hr as [|s call ts s' calls s'' Hs Hb _ IH]; [done|]. intros Hi Hsup. pose proof Hi as [Ha Hb'].
    apply IH; [by eapply p_inv_step|].
    destruct (step_shape _ _ _ _ Hs) as [(wr & f & -> & Hwr)|[(c & bs & -> & Hbs)|(ns & ->)]].
    - assert (Hm : forall x y, rtc (py_keeps s) x y -> rtc (py_keeps (py_bind s wr f)) x y).
      { intros x y. apply rtc_mono; [|done]. intros. by apply bind_lookup_old. }
      intros w wr' Hw. apply bind_lookup in Hw as [Hw|[-> ->]]; [by apply Hm, Hsup|].
      destruct Hwr as [Ho|(w & wr0 & H1 & H2 & H3 & H4)].
      + apply rtc_once. apply k_owner; [apply bind_lookup_new|done].
      + eapply rtc_l; [eapply k_patient; [apply bind_lookup_new|done]|]. apply Hm.
        destruct H4 as [(c & Hc & Hc')|[(l & Hl & Hl')|(c & p & w' & k & -> & Hc & Hp & ->)]].
        * eapply rtc_r; [by apply Hsup|]. rewrite Hc. destruct Hc' as [-> | ->]; constructor.
        * eapply rtc_r; [by apply Hsup|]. rewrite Hl, Hl'. constructor.
        * etrans; [by apply Hsup|]. rewrite Hc. eapply rtc_l; [by eapply k_batch|]. destruct (Hb' _ _ _ Hp) as (wr' & Hw' & <-). by apply Hsup.
    - intros w wr Hw. apply (rtc_mono s); [done|done|]. by apply Hsup.
    - intros w wr Hw. apply (rtc_mono s); [done|done|]. by apply Hsup. }
  destruct (H _ Hr p_inv_start) as [Hi Hsup]; [done|]. by eapply supported_touch.
Qed.
(** A rejected batch that was not in the problem before does not count as one that leaves it. *)
Theorem python_rejected_batch_growing s w wp c p ts s' : py_obj s w = Some (OEst c) -> py_obj s wp = Some (OProblem p) ->
  p ∉ (py_batches s c).*1 -> py_step s (PAddBatch w wp (Some false)) = Some (ts, s') -> forall c', py_batches s' c' = py_batches s c'.
Proof.
  intros Hw Hp Hni Hs c'. cbn in Hs. rewrite Hw, Hp in Hs. injection Hs as <- <-. cbn. destruct (decide (c' = c)) as [->|]; [|done].
  induction (py_batches s c) as [|[p0 w0] bs IH]; cbn; [by rewrite decide_True|].
  rewrite fmap_cons, not_elem_of_cons in Hni. cbn in Hni. destruct Hni as [Hne Hni]. rewrite decide_False by congruence. by rewrite IH.
Qed.

(** ** What goes wrong when both happen.  A user expects no Python program to touch a destroyed C++ object: *)
Definition python_program_safe (calls : list pcall) : Prop :=
  forall pre call post s ts s', calls = pre ++ call :: post -> py_run py_start pre s -> py_step s call = Some (ts, s') ->
    forall o, o ∈ ts -> py_alive s (NO o).

Fixpoint py_exec (s : pstate) (calls : list pcall) : option pstate :=
  match calls with
  | [] => Some s
  | call :: calls => match py_step s call with Some (_, s') => py_exec s' calls | None => None end
  end.
Local Lemma py_exec_run calls : forall s s', py_exec s calls = Some s' -> py_run s calls s'.
Proof.
  induction calls as [|call calls IH]; cbn; intros s s' H; [injection H as <-; constructor|].
  destruct (py_step s call) as [[ts s1]|] eqn:E; [|done]. econstructor; [exact E|]. by apply IH.
Qed.
(** A set of nodes that contains the names and is closed under [py_keeps] contains everything alive. *)
Local Lemma alive_closed s (P : node -> Prop) x : (forall w, w ∈ py_names s -> P (NW w)) -> (forall y z, P y -> py_keeps s y z -> P z) ->
  py_alive s x -> P x.
Proof.
  intros Hn Hc (w & Hw & Hr). specialize (Hn _ Hw). revert Hn. induction Hr as [|y z x Hyz _ IH]; [done|]. eauto.
Qed.

(** [inc = IncrementalOptimizationProblem(); p = CalibrationOptimizationProblem(); inc.add(p); del p; q = inc.getOptimizationProblem(0);
    inc.remove(0); q.clear()]: q refers to a destroyed problem. *)
Definition python_remove_program : list pcall :=
  [PNewInc; PNewProblem; PAdd 0 1 true; PDel 1; PGetOptimizationProblem 0 0; PRemove 0 0].
Theorem python_reference_after_remove_refuted :
  exists s, py_run py_start python_remove_program s /\
    (exists s', py_step s (PUse 2) = Some ([OProblem 1], s')) /\ ~ py_alive s (NO (OProblem 1)) /\
    ~ python_program_safe (python_remove_program ++ [PUse 2]).
Proof.
  assert (exists s, py_exec py_start python_remove_program = Some s /\ py_names s = [0; 2]%nat /\
    py_wrappers s = [Wrapper (OInc 0) true None; Wrapper (OProblem 1) true None; Wrapper (OProblem 1) false (Some 0%nat)] /\
    (forall c, py_batches s c = []) /\ (exists s', py_step s (PUse 2) = Some ([OProblem 1], s'))) as (s & He & Hn & Hw & Hb & s' & Hs).
  { eexists. split; [reflexivity|]. split; [reflexivity|]. split; [reflexivity|]. split.
    - intros c. cbn. destruct (decide (c = 0%nat)) as [->|]; reflexivity.
    - eexists. reflexivity. }
  assert (~ py_alive s (NO (OProblem 1))) as Hdead.
  { intros Ha. pose (P n := match n with NW w => w = 0%nat \/ w = 2%nat | NO o => o = OInc 0 end).
    assert (P (NO (OProblem 1))) as [=]. eapply alive_closed; [| |exact Ha].
    - rewrite Hn. intros w Hin. cbn. set_solver.
    - intros y z Hy Hk. inversion Hk as [w wr Hl Ho|w wr w' Hl Hp|c p w Hin| | | ]; subst; cbn in Hy |- *.
      + rewrite Hw in Hl. destruct Hy as [-> | ->]; cbn in Hl; injection Hl as <-; done.
      + rewrite Hw in Hl. destruct Hy as [-> | ->]; cbn in Hl; injection Hl as <-; cbn in Hp; [done|]. injection Hp as <-. by left.
      + rewrite Hb in Hin. by apply elem_of_nil in Hin.
      + done.
      + done.
      + done. }
  apply py_exec_run in He. exists s. split; [done|]. split; [by eexists|]. split; [done|]. intros Hsafe. apply Hdead.
  eapply (Hsafe python_remove_program (PUse 2) []); [done|done|exact Hs|]. left.
Qed.
(** The same after adding the reference to a second incremental problem: that problem now has a batch that is destroyed. *)
Definition python_two_problems_program : list pcall :=
  [PNewInc; PNewProblem; PAdd 0 1 true; PDel 1; PGetOptimizationProblem 0 0; PNewInc; PAdd 3 2 true; PDel 2; PRemove 0 0].
Theorem python_batch_dangles_refuted :
  exists s, py_run py_start python_two_problems_program s /\
    (exists ts s', py_step s (PUse 3) = Some (ts, s') /\ OProblem 1 ∈ ts) /\ ~ py_alive s (NO (OProblem 1)) /\
    py_alive s (NO (OInc 2)).
Proof.
  assert (exists s, py_exec py_start python_two_problems_program = Some s /\ py_names s = [0; 3]%nat /\
    py_wrappers s = [Wrapper (OInc 0) true None; Wrapper (OProblem 1) true None; Wrapper (OProblem 1) false (Some 0%nat); Wrapper (OInc 2) true None] /\
    (forall c b, b ∈ py_batches s c -> c = 2%nat /\ b = (1, 2)%nat) /\
    (exists s', py_step s (PUse 3) = Some ([OInc 2; OProblem 1], s'))) as (s & He & Hn & Hw & Hb & s' & Hs).
  { eexists. split; [reflexivity|]. split; [reflexivity|]. split; [reflexivity|]. split.
    - intros c b. cbn. destruct (decide (c = 0%nat)) as [->|].
      + intros H. by apply elem_of_nil in H.
      + destruct (decide (c = 2%nat)) as [->|]; [|intros H; by apply elem_of_nil in H].
        intros H. change (b ∈ [(1, 2)%nat]) in H. by apply elem_of_list_singleton in H as ->.
    - eexists. reflexivity. }
  assert (~ py_alive s (NO (OProblem 1))) as Hdead.
  { intros Ha. pose (P n := match n with NW w => w = 0%nat \/ w = 2%nat \/ w = 3%nat | NO o => o = OInc 0 \/ o = OInc 2 end).
    assert (P (NO (OProblem 1))) as [[=]|[=]]. eapply alive_closed; [| |exact Ha].
    - rewrite Hn. intros w Hin. cbn. set_solver.
    - intros y z Hy Hk. inversion Hk as [w wr Hl Ho|w wr w' Hl Hp|c p w Hin| | | ]; subst; cbn in Hy |- *.
      + rewrite Hw in Hl. destruct Hy as [->|[-> | ->]]; cbn in Hl; injection Hl as <-; cbn; auto. done.
      + rewrite Hw in Hl. destruct Hy as [->|[-> | ->]]; cbn in Hl; injection Hl as <-; cbn in Hp; try done. injection Hp as <-. by left.
      + apply Hb in Hin as [-> [= -> ->]]. auto.
      + by destruct Hy.
      + by destruct Hy.
      + by destruct Hy. }
  apply py_exec_run in He. exists s. split; [done|]. split; [|split; [done|]].
  - do 2 eexists. split; [exact Hs|]. set_solver.
  - exists 3%nat. split; [rewrite Hn; set_solver|]. apply rtc_once.
    change (OInc 2) with (w_obj (Wrapper (OInc 2) true None)). apply k_owner; [by rewrite Hw|done].
Qed.
(** And with the estimator alone: a batch without error terms that is in the estimator, looked up and offered again is rejected; the entry that
    held the problem is the one removed, the one that only refers to it stays. *)
Definition python_rejected_program : list pcall :=
  [PNewEst; PNewProblem; PAddBatch 0 1 (Some true); PDel 1; PGetProblem 0; PGetOptimizationProblem 2 0; PAddBatch 0 3 (Some false)].
Theorem python_rejected_again_dangles_refuted :
  exists s, py_run py_start python_rejected_program s /\
    (exists ts s', py_step s (PUse 0) = Some (ts, s') /\ OProblem 1 ∈ ts) /\ ~ py_alive s (NO (OProblem 1)).
Proof.
  assert (exists s, py_exec py_start python_rejected_program = Some s /\ py_names s = [0; 2; 3]%nat /\
    py_wrappers s = [Wrapper (OEst 0) true None; Wrapper (OProblem 1) true None; Wrapper (OInc 0) false (Some 0%nat);
                     Wrapper (OProblem 1) false (Some 2%nat)] /\
    (forall c b, b ∈ py_batches s c -> c = 0%nat /\ b = (1, 3)%nat) /\
    (exists s', py_step s (PUse 0) = Some ([OEst 0; OInc 0; OProblem 1], s'))) as (s & He & Hn & Hw & Hb & s' & Hs).
  { eexists. split; [reflexivity|]. split; [reflexivity|]. split; [reflexivity|]. split.
    - intros c b. cbn. destruct (decide (c = 0%nat)) as [->|].
      + intros H. change (b ∈ [(1, 3)%nat]) in H. by apply elem_of_list_singleton in H as ->.
      + intros H. by apply elem_of_nil in H.
    - eexists. reflexivity. }
  assert (~ py_alive s (NO (OProblem 1))) as Hdead.
  { intros Ha. pose (P n := match n with NW w => w = 0%nat \/ w = 2%nat \/ w = 3%nat | NO o => o = OInc 0 \/ o = OEst 0 \/ o = OOptions 0 end).
    assert (P (NO (OProblem 1))) as [[=]|[[=]|[=]]]. eapply alive_closed; [| |exact Ha].
    - rewrite Hn. intros w Hin. cbn. set_solver.
    - intros y z Hy Hk. inversion Hk as [w wr Hl Ho|w wr w' Hl Hp|c p w Hin|c|c| ]; subst; cbn in Hy |- *.
      + rewrite Hw in Hl. destruct Hy as [->|[-> | ->]]; cbn in Hl; injection Hl as <-; cbn; auto; done.
      + rewrite Hw in Hl. destruct Hy as [->|[-> | ->]]; cbn in Hl; injection Hl as <-; cbn in Hp; try done; injection Hp as <-; auto.
      + apply Hb in Hin as [-> [= -> ->]]. auto.
      + destruct Hy as [[=]|[[= ->]|[=]]]. by left.
      + destruct Hy as [[=]|[[= ->]|[=]]]. auto.
      + destruct Hy as [[=]|[[=]|[=]]]. }
  apply py_exec_run in He. exists s. split; [done|]. split; [|done].
  do 2 eexists. split; [exact Hs|]. set_solver.
Qed.

(** Calls that take no batch out of an incremental problem. *)
Definition python_call_removes (call : pcall) : Prop :=
  match call with
  | PRemove _ _ | PClear _ | PRemoveBatch _ _ | PRemoveBatchOf _ _ | PAddBatch _ _ (Some false) => True
  | _ => False
  end.
Local Lemma set_grows s c b0 c' b : b ∈ py_batches s c' -> b ∈ py_batches (py_set s c (py_batches s c ++ [b0])) c'.
Proof. cbn. destruct (decide (c' = c)) as [->|]; [|done]. rewrite elem_of_app. by left. Qed.
Local Lemma step_grows s call ts s' : ~ python_call_removes call -> py_step s call = Some (ts, s') ->
  forall c b, b ∈ py_batches s c -> b ∈ py_batches s' c.
Proof.
  intros Hn H c0 b.
  destruct call as [| | | |w|w|w|w wp kept|w wp [[]|]|w k|w k|w|w k|w wp|w|w|w]; cbn in H; try (by destruct Hn);
    repeat match goal with
           | H : context [decide ?P] |- _ => destruct (decide P); [|try done]
           | H : match py_obj s ?w with _ => _ end = Some _ |- _ => destruct (py_obj s w) as [[]|] eqn:?; try done
           | H : match py_batches s ?c !! ?k with _ => _ end = Some _ |- _ => destruct (py_batches s c !! k) as [[? ?]|] eqn:?
           end; injection H as <- <-; try done; try (by apply set_grows).
  destruct kept; [by apply set_grows|done].
Qed.
(** In particular: a program that never removes, and has no batch rejected, never touches a destroyed object. *)
Theorem python_no_removal_safe s calls call ts s' o : py_run py_start calls s -> (forall cl, cl ∈ calls -> ~ python_call_removes cl) ->
  py_step s call = Some (ts, s') -> o ∈ ts -> py_alive s (NO o).
Proof.
  intros Hr Hno. apply (python_growing_safe _ calls). revert Hno. induction Hr as [|s0 cl ts0 s1 calls s2 Hs _ IH]; intros Hno; [constructor|].
  econstructor; [exact Hs| |].
  - apply (step_grows _ cl ts0); [|done]. apply Hno. left.
  - apply IH. intros cl' Hin. apply Hno. by right.
Qed.

(** Non-vacuity: a history without removal in which every name but the second incremental problem is dropped. *)
Example python_growing_example :
  exists s, py_run py_start [PNewEst; PNewProblem; PAddBatch 0 1 (Some true); PDel 1; PGetProblem 0; PDel 0;
                             PGetOptimizationProblem 2 0; PNewInc; PAdd 4 3 true; PDel 3; PDel 2] s /\
    py_names s = [4%nat] /\ (exists s', py_step s (PUse 4) = Some ([OInc 2; OProblem 1], s')) /\ py_alive s (NO (OProblem 1)).
Proof.
  set (calls := [PNewEst; _; _; _; _; _; _; _; _; _; _]).
  assert (exists s, py_exec py_start calls = Some s /\ py_names s = [4%nat] /\
    (exists s', py_step s (PUse 4) = Some ([OInc 2; OProblem 1], s'))) as (s & He & Hn & s' & Hs).
  { assert (exists s, py_exec py_start calls = Some s) as [s He].
    { destruct (py_exec py_start calls) as [s|] eqn:E; [by exists s|]. vm_compute in E. discriminate. }
    assert (py_names <$> py_exec py_start calls = Some [4%nat]) as H1 by (vm_compute; reflexivity).
    assert ((py_exec py_start calls ≫= fun s => fst <$> py_step s (PUse 4)) = Some [OInc 2; OProblem 1]) as H2 by (vm_compute; reflexivity).
    rewrite He in H1, H2. exists s. split; [done|]. split; [by apply (inj Some) in H1|].
    change (fst <$> py_step s (PUse 4) = Some [OInc 2; OProblem 1]) in H2.
    apply fmap_Some in H2 as ([ts s'] & H2 & H3). cbn in H3. subst ts. by exists s'. }
  apply py_exec_run in He. exists s. split_and!; [done|done|by eexists|].
  eapply (python_no_removal_safe s calls (PUse 4)); [done| |exact Hs|set_solver].
  intros cl Hin. unfold calls in Hin. repeat (apply elem_of_cons in Hin as [->|Hin]; [by intros []|]). by apply elem_of_nil in Hin.
Qed.
