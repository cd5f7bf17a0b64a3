(** Proofs about the camera example. *)
From stdpp Require Import prelude list.
From Verif Require Import Base CameraModel Spec_Camera.

Record inv (c : ccal) : Prop := {
  iv_bobs : cc_bobs c = pending c;
  iv_num : cc_num c = length (pending c);
  iv_nd_g : NoDup (cc_group c);
  iv_nd_b : NoDup (pending c);
  iv_nd_e : NoDup (cc_eobs c);
  iv_sub : cc_eobs c ⊆ cc_group c;
  iv_be : forall o, o ∈ pending c -> o ∉ cc_eobs c;
  iv_lt_g : forall o, o ∈ cc_group c -> o < cc_next c;
  iv_lt_b : forall o, o ∈ pending c -> o < cc_next c;
  iv_out : cc_inprob c = false \/ pending c = [] -> (forall o, o ∈ pending c -> o ∉ cc_group c) /\ cc_group c ⊆ cc_eobs c;
  iv_none : cc_batch c = None -> cc_inprob c = false
}.
Lemma inv_new L : inv (cc_new L).
Proof. split; simpl; try (apply NoDup_nil_2); try set_solver; auto. Qed.
Lemma inv_init c ok : inv c -> inv (cc_initGeometry c ok).1.
Proof. intros H. unfold cc_initGeometry. destruct (cc_geom c); [exact H|]. destruct ok; [|exact H]. destruct H. split; assumption. Qed.
Lemma inv_limit c n : inv c -> inv (cc_setLimit c n).
Proof. intros H. destruct H. split; assumption. Qed.
Lemma NoDup_app_filter (g b : list nat) : NoDup g -> NoDup b -> NoDup (g ++ filter (fun o => o ∉ g) b).
Proof.
  intros Hg Hb. apply NoDup_app. split; [exact Hg|]. split; [|by apply NoDup_filter].
  intros o Ho [Hn _]%elem_of_list_filter. done.
Qed.
Lemma pending_obs c o : pending (cc_addObservation c o) = pending c ++ [o].
Proof. unfold pending, cc_addObservation. destruct (cc_batch c) eqn:E; simpl; rewrite ?E; reflexivity. Qed.
Lemma est_group_sub ip g b out : g ⊆ (est_addBatch ip g b out).1.2 \/ (exists o, o ∈ g /\ o ∈ b).
Proof.
  destruct (decide (Exists (fun o => o ∈ b) g)) as [He|He].
  - right. apply Exists_exists in He as (o & H1 & H2). eauto.
  - left. assert (Hn : forall o, o ∈ g -> o ∉ b). { intros o H1 H2. apply He. apply Exists_exists. eauto. }
    unfold est_addBatch. destruct (_ && _); [simpl; set_solver|]. destruct out; simpl; try set_solver.
    + intros o Ho. apply elem_of_list_filter. set_solver.
    + intros o Ho. apply elem_of_list_filter. set_solver.
Qed.
Lemma inv_process c out : inv c -> inv (cc_processBatch c out).1.
Proof.
  intros H. unfold cc_processBatch. destruct (cc_batch c) as [b|] eqn:Eb; [|exact H].
  assert (Hp : pending c = b) by (unfold pending; rewrite Eb; reflexivity).
  destruct H as [H1 H2 H3 H4 H5 H6 H7 H8 H9 H10 H11]. rewrite Hp in *.
  assert (Hg' : NoDup (cc_group c ++ filter (fun o => o ∉ cc_group c) b)) by (by apply NoDup_app_filter).
  assert (Hlt : forall o, o ∈ cc_group c ++ filter (fun o => o ∉ cc_group c) b -> o < cc_next c).
  { intros o [Ho|[_ Ho]%elem_of_list_filter]%elem_of_app; auto. }
  assert (Hbin : forall o, o ∈ b -> o ∈ cc_group c ++ filter (fun o => o ∉ cc_group c) b).
  { intros o Ho. apply elem_of_app. destruct (decide (o ∈ cc_group c)); [by left|right]. by apply elem_of_list_filter. }
  assert (Hsub : cc_eobs c ⊆ filter (fun o => o ∉ b) (cc_group c ++ filter (fun o => o ∉ cc_group c) b)).
  { intros o Ho. apply elem_of_list_filter. split; [intros Hb; exact (H7 o Hb Ho)|]. apply elem_of_app. left. auto. }
  unfold est_addBatch.
  destruct (cc_inprob c && negb (Nat.eqb (length b) 0)) eqn:Ei.
  - apply andb_true_iff in Ei as [Ei En]. simpl.
    split; unfold pending; cbn [cc_geom cc_batch cc_num cc_bobs cc_eobs cc_last cc_limit cc_inprob cc_group cc_next cc_given]; rewrite ?Eb; cbn [default from_option]; unfold id; try done.
    + intros o Ho. apply elem_of_app. left. auto.
    + intros [Hf|Hf]; [discriminate Hf|]. unfold id in Hf. rewrite Hf in En. discriminate En.
  - assert (Hx : cc_inprob c = false \/ b = []).
    { apply andb_false_iff in Ei as [?|Ei]; [by left|right]. destruct b; [done|discriminate]. }
    specialize (H10 Hx) as [Hd Hge].
    destruct out; simpl.
    + split; unfold pending; simpl; try done; try (apply NoDup_nil_2).
      * rewrite H1. apply NoDup_app. split; [done|]. split; [auto|done].
      * rewrite H1. intros o [Ho|Ho]%elem_of_app; [auto|]. apply elem_of_app. auto.
      * set_solver.
      * set_solver.
      * intros _. split; [set_solver|]. rewrite H1. intros o [Ho|[_ Ho]%elem_of_list_filter]%elem_of_app; apply elem_of_app; auto.
    + split; unfold pending; simpl; try done; try (apply NoDup_nil_2).
      * by apply NoDup_filter.
      * set_solver.
      * intros o [_ Ho]%elem_of_list_filter. auto.
      * set_solver.
      * intros _. split; [set_solver|]. intros o [Hb [Ho|[_ Ho]%elem_of_list_filter]%elem_of_app]%elem_of_list_filter; [auto|done].
    + split; unfold pending; cbn [cc_geom cc_batch cc_num cc_bobs cc_eobs cc_last cc_limit cc_inprob cc_group cc_next cc_given]; rewrite ?Eb; cbn [default from_option]; unfold id; try done.
      * intros o Ho. apply elem_of_app. left. auto.
      * intros [?| ->]; [done|]. split; [set_solver|]. simpl. rewrite app_nil_r. auto.
    + split; unfold pending; cbn [cc_geom cc_batch cc_num cc_bobs cc_eobs cc_last cc_limit cc_inprob cc_group cc_next cc_given]; rewrite ?Eb; cbn [default from_option]; unfold id; try done.
      * by apply NoDup_filter.
      * intros o [_ Ho]%elem_of_list_filter. auto.
      * intros _. split; [intros o Ho [Hn _]%elem_of_list_filter; done|].
        intros o [Hb [Ho|[_ Ho]%elem_of_list_filter]%elem_of_app]%elem_of_list_filter; [auto|done].
Qed.
(** addImage in one piece: the observation is appended, then the batch is processed if it is full *)
Definition cc_push (c : ccal) : ccal :=
  CCal (cc_geom c) (Some (pending c ++ [cc_next c])) (S (cc_num c)) (match cc_batch c with None => [] | Some _ => cc_bobs c end ++ [cc_next c])
       (cc_eobs c) (Some (cc_next c)) (cc_limit c) (match cc_batch c with None => false | Some _ => cc_inprob c end) (cc_group c)
       (S (cc_next c)) (cc_given c).
Lemma addImage_push c out : cc_geom c = true ->
  cc_addImage c true out =
  (if Nat.eqb (S (cc_num c)) (cc_limit c)
   then ((cc_processBatch (cc_push c) out).1, match (cc_processBatch (cc_push c) out).2 with Ret _ => Ret true | Throw e => Throw e | UB => UB | Diverge => Diverge end)
   else (cc_push c, Ret true)).
Proof.
  intros Hg. unfold cc_addImage. rewrite Hg. cbn [negb].
  assert (Hc : CCal (cc_geom (cc_addObservation c (cc_next c))) (cc_batch (cc_addObservation c (cc_next c)))
        (cc_num (cc_addObservation c (cc_next c))) (cc_bobs (cc_addObservation c (cc_next c)) ++ [cc_next c])
        (cc_eobs (cc_addObservation c (cc_next c))) (Some (cc_next c)) (cc_limit (cc_addObservation c (cc_next c)))
        (cc_inprob (cc_addObservation c (cc_next c))) (cc_group (cc_addObservation c (cc_next c))) (S (cc_next c))
        (cc_given (cc_addObservation c (cc_next c))) = cc_push c).
  { unfold cc_addObservation, cc_push, pending. destruct (cc_batch c) eqn:E; simpl; rewrite ?E, ?Hg; reflexivity. }
  cbv zeta. rewrite Hc.
  change (cc_num (cc_push c)) with (S (cc_num c)). change (cc_limit (cc_push c)) with (cc_limit c).
  destruct (Nat.eqb _ _); [|reflexivity]. destruct (cc_processBatch (cc_push c) out) as [c' [| | |]]; reflexivity.
Qed.
Lemma inv_push c : inv c -> inv (cc_push c).
Proof.
  intros H. pose proof (iv_none _ H) as Hn. pose proof (iv_bobs _ H) as Hb.
  assert (Hip : cc_inprob (cc_push c) = cc_inprob c) by (simpl; destruct (cc_batch c); [done|by rewrite Hn]).
  assert (Hbo : cc_bobs (cc_push c) = pending c ++ [cc_next c]).
  { simpl. rewrite <-Hb. destruct (cc_batch c) eqn:E; [done|]. rewrite Hb. unfold pending. rewrite E. done. }
  destruct H as [H1 H2 H3 H4 H5 H6 H7 H8 H9 H10 H11].
  split; rewrite ?Hip, ?Hbo; unfold cc_push, pending; simpl; fold (pending c); try done.
  - rewrite H2, app_length. simpl. lia.
  - apply NoDup_app. split; [done|]. split; [|by apply NoDup_singleton].
    intros o Ho Ho'%elem_of_list_singleton. specialize (H9 o Ho). lia.
  - intros o [Ho|Ho%elem_of_list_singleton]%elem_of_app; [auto|]. intros He. specialize (H8 o (H6 o He)). lia.
  - intros o Ho. specialize (H8 o Ho). lia.
  - intros o [Ho|Ho%elem_of_list_singleton]%elem_of_app; [|lia]. specialize (H9 o Ho). lia.
  - intros [Hf|Hf]; [|by destruct (pending c)]. destruct (H10 (or_introl Hf)) as [Ha Hs]. split; [|done].
    intros o [Ho|Ho%elem_of_list_singleton]%elem_of_app; [auto|]. intros He. specialize (H8 o He). lia.
Qed.
Lemma inv_image c det out : inv c -> inv (cc_addImage c det out).1.
Proof.
  intros H. destruct (cc_geom c) eqn:Hg; [|unfold cc_addImage; rewrite Hg; exact H].
  destruct det; [|unfold cc_addImage; rewrite Hg; exact H].
  rewrite addImage_push by done. destruct (Nat.eqb _ _); simpl; [|by apply inv_push].
  apply inv_process, inv_push, H.
Qed.
Lemma inv_step c op : inv c -> inv (cc_step c op).
Proof. intros H. destruct op; simpl; auto using inv_init, inv_image, inv_process, inv_limit. Qed.
Lemma run_app c ops1 ops2 : cc_run c (ops1 ++ ops2) = cc_run (cc_run c ops1) ops2.
Proof. apply fold_left_app. Qed.
Lemma inv_run_from c ops : inv c -> inv (cc_run c ops).
Proof. revert c. induction ops as [|op ops IH]; intros c H; [exact H|]. apply IH, inv_step, H. Qed.
Lemma inv_run L ops : inv (cc_run (cc_new L) ops).
Proof. apply inv_run_from, inv_new. Qed.

(** Histories *)
Lemma process_geom c out : cc_geom (cc_processBatch c out).1 = cc_geom c /\ cc_next (cc_processBatch c out).1 = cc_next c
  /\ cc_limit (cc_processBatch c out).1 = cc_limit c /\ cc_last (cc_processBatch c out).1 = cc_last c.
Proof.
  unfold cc_processBatch. destruct (cc_batch c); [|done].
  destruct (est_addBatch _ _ _ _) as [[ip g] [[]|e| |]]; done.
Qed.
Lemma step_geom c op : cc_geom (cc_step c op) = cc_geom c || match op with CInit true => true | _ => false end.
Proof.
  destruct op as [ok|det out|out|n]; simpl.
  - unfold cc_initGeometry. destruct (cc_geom c) eqn:E; [simpl; exact E|]. simpl. destruct ok; simpl; [done|exact E].
  - rewrite orb_false_r. destruct (cc_geom c) eqn:E; [|unfold cc_addImage; rewrite E; exact E].
    destruct det; [|unfold cc_addImage; rewrite E; exact E]. rewrite addImage_push by done.
    destruct (Nat.eqb _ _); simpl; [|exact E]. rewrite (proj1 (process_geom _ _)). exact E.
  - rewrite orb_false_r. apply process_geom.
  - by rewrite orb_false_r.
Qed.
Lemma run_geom c ops : cc_geom (cc_run c ops) = cc_geom c || initialised ops.
Proof.
  revert c. induction ops as [|op ops IH]; intros c; simpl; [by rewrite orb_false_r|].
  rewrite IH, step_geom. rewrite <-orb_assoc. reflexivity.
Qed.
Lemma step_next c op : cc_next (cc_step c op) = cc_next c + match op with CImage true _ => if cc_geom c then 1 else 0 | _ => 0 end.
Proof.
  destruct op as [ok|det out|out|n]; simpl.
  - unfold cc_initGeometry. destruct (cc_geom c); simpl; [lia|]. destruct ok; simpl; lia.
  - destruct (cc_geom c) eqn:E; [|unfold cc_addImage; rewrite E; destruct det; simpl; lia].
    destruct det; [|unfold cc_addImage; rewrite E; simpl; lia]. rewrite addImage_push by done.
    destruct (Nat.eqb _ _); simpl; [|lia]. destruct (process_geom (cc_push c) out) as (_ & -> & _). simpl. lia.
  - destruct (process_geom c out) as (_ & -> & _). lia.
  - lia.
Qed.
Lemma run_next c ops : cc_next (cc_run c ops) = cc_next c + found (cc_geom c) ops.
Proof.
  revert c. induction ops as [|op ops IH]; intros c; simpl; [lia|].
  rewrite IH, step_next, step_geom. destruct op as [[]|[] o|o|n]; simpl; rewrite ?orb_true_r, ?orb_false_r; lia.
Qed.
Lemma step_limit c op : keeps_limit op -> cc_limit (cc_step c op) = cc_limit c.
Proof.
  destruct op as [ok|det out|out|n]; simpl; intros H.
  - unfold cc_initGeometry. destruct (cc_geom c); simpl; [done|]. by destruct ok.
  - destruct (cc_geom c) eqn:E; [|unfold cc_addImage; rewrite E; done].
    destruct det; [|unfold cc_addImage; rewrite E; done]. rewrite addImage_push by done.
    destruct (Nat.eqb _ _); simpl; [|done]. by destruct (process_geom (cc_push c) out) as (_ & _ & -> & _).
  - by destruct (process_geom c out) as (_ & _ & -> & _).
  - done.
Qed.
(** Processing without exceptions *)
Record calm_inv (c : ccal) : Prop := {
  ci_inv : inv c;
  ci_ip : cc_inprob c = false;
  ci_all : concat (cc_given c) ++ pending c = seq 0 (cc_next c);
  ci_acc : exists acc, acc `sublist_of` cc_given c /\ cc_group c = concat acc /\ cc_eobs c = concat (reverse acc)
}.
Lemma calm_new L : calm_inv (cc_new L).
Proof. split; [apply inv_new|done|done|]. exists []. done. Qed.
Lemma filter_keep (P : nat -> Prop) `{forall x, Decision (P x)} (l : list nat) : (forall o, o ∈ l -> P o) -> filter P l = l.
Proof.
  induction l as [|x l IH]; intros Hl; [done|]. rewrite filter_cons_True by (apply Hl; set_solver).
  rewrite IH; [done|]. intros o Ho. apply Hl. set_solver.
Qed.
Lemma filter_drop (P : nat -> Prop) `{forall x, Decision (P x)} (l : list nat) : (forall o, o ∈ l -> ~ P o) -> filter P l = [].
Proof.
  induction l as [|x l IH]; intros Hl; [done|]. rewrite filter_cons_False by (apply Hl; set_solver).
  apply IH. intros o Ho. apply Hl. set_solver.
Qed.
Lemma concat_snoc {A} (l : list (list A)) b : concat (l ++ [b]) = concat l ++ b.
Proof. rewrite concat_app. simpl. by rewrite app_nil_r. Qed.
Lemma calm_process c out : calm_inv c -> out = Accepted \/ out = Rejected ->
  calm_inv (cc_processBatch c out).1 /\ (cc_processBatch c out).2 = Ret tt
  /\ match cc_batch c with
     | None => (cc_processBatch c out).1 = c
     | Some b => cc_given (cc_processBatch c out).1 = cc_given c ++ [b] /\ cc_batch (cc_processBatch c out).1 = Some []
     end.
Proof.
  intros Hc Ho. destruct Hc as [Hi Hip Hall (acc & Ha1 & Ha2 & Ha3)].
  pose proof (inv_process c out Hi) as Hi'. unfold cc_processBatch in *.
  destruct (cc_batch c) as [b|] eqn:Eb; [|split; [|split; done]; split; eauto].
  assert (Hp : pending c = b) by (unfold pending; rewrite Eb; reflexivity).
  destruct (iv_out _ Hi (or_introl Hip)) as [Hd _]. rewrite Hp in Hd.
  assert (F1 : filter (fun o => o ∉ cc_group c) b = b) by (apply filter_keep; auto).
  assert (F2 : filter (fun o => o ∉ b) (cc_group c ++ b) = cc_group c).
  { rewrite filter_app, filter_keep, filter_drop; [by rewrite app_nil_r|..]; [intros o Hx Hy; done|].
    intros o Hg Hb. exact (Hd o Hb Hg). }
  pose proof (iv_bobs _ Hi) as Hbo. rewrite Hp in Hbo.
  unfold est_addBatch in *. rewrite Hip in *. cbn [andb] in *. rewrite F1 in *.
  destruct Ho as [-> | ->]; simpl in *.
  - split; [|by split]. split; [done|done| |]; unfold pending; simpl.
    + rewrite concat_snoc, app_nil_r, <-Hp. exact Hall.
    + exists (acc ++ [b]). split; [by apply sublist_app|]. rewrite concat_snoc, Ha2. split; [done|].
      rewrite reverse_snoc. simpl. by rewrite Hbo, Ha3.
  - rewrite F2 in *. split; [|by split]. split; [done|done| |]; unfold pending; simpl.
    + rewrite concat_snoc, app_nil_r, <-Hp. exact Hall.
    + exists acc. split; [|done]. by apply sublist_inserts_r.
Qed.
Lemma calm_push c : calm_inv c -> calm_inv (cc_push c).
Proof.
  intros [Hi Hip Hall (acc & Ha1 & Ha2 & Ha3)]. split.
  - by apply inv_push.
  - simpl. by destruct (cc_batch c).
  - unfold cc_push, pending. simpl. fold (pending c). rewrite app_assoc, Hall. change (0 :: seq 1 (cc_next c)) with (seq 0 (S (cc_next c))). rewrite seq_S. done.
  - eauto.
Qed.
Lemma calm_step c op : calm op -> calm_inv c -> calm_inv (cc_step c op).
Proof.
  intros Hop H. destruct op as [ok|det out|out|n]; simpl in *.
  - unfold cc_initGeometry. destruct (cc_geom c) eqn:E; [done|]. destruct ok; [|done]. destruct H as [Hi ? ? ?].
    split; [|done..]. pose proof (inv_init c true Hi) as X. unfold cc_initGeometry in X. by rewrite E in X.
  - destruct (cc_geom c) eqn:E; [|unfold cc_addImage; rewrite E; done].
    destruct det; [|unfold cc_addImage; rewrite E; done]. rewrite addImage_push by done.
    destruct (Nat.eqb _ _); simpl; [|by apply calm_push]. by apply calm_process; [apply calm_push|].
  - by apply calm_process.
  - destruct H as [Hi ? ? ?]. split; [by apply inv_limit|done..].
Qed.
Lemma calm_run_from c ops : Forall calm ops -> calm_inv c -> calm_inv (cc_run c ops).
Proof. revert c. induction ops as [|op ops IH]; intros c Hf H; [exact H|]. inversion Hf; subst. apply IH; [done|]. by apply calm_step. Qed.
Lemma calm_run L ops : Forall calm ops -> calm_inv (cc_run (cc_new L) ops).
Proof. intros H. apply calm_run_from; [done|apply calm_new]. Qed.
(** Size of the batches *)
Lemma sizes_step L c op : calm op -> keeps_limit op -> 1 <= L -> calm_inv c -> cc_limit c = L ->
  Forall (fun b => length b <= L) (cc_given c) -> length (pending c) < L ->
  Forall (fun b => length b <= L) (cc_given (cc_step c op)) /\ length (pending (cc_step c op)) < L
  /\ (automatic op -> Forall (fun b => length b = L) (cc_given c) -> Forall (fun b => length b = L) (cc_given (cc_step c op))).
Proof.
  intros Hcalm Hk HL Hc Hl Hg Hp. destruct op as [ok|det out|out|n]; simpl in *.
  - unfold cc_initGeometry. destruct (cc_geom c); [done|]. destruct ok; done.
  - destruct (cc_geom c) eqn:E; [|unfold cc_addImage; rewrite E; done].
    destruct det; [|unfold cc_addImage; rewrite E; done]. rewrite addImage_push by done.
    pose proof (iv_num _ (ci_inv _ Hc)) as Hn.
    destruct (Nat.eqb_spec (S (cc_num c)) (cc_limit c)) as [He|He]; simpl.
    + destruct (calm_process (cc_push c) out (calm_push c Hc) Hcalm) as (_ & _ & Hx). simpl in Hx. destruct Hx as [Hx1 Hx2].
      rewrite Hx1. unfold pending at 2. rewrite Hx2. simpl.
      assert (Hlen : length (pending c ++ [cc_next c]) = L) by (rewrite app_length; simpl; lia).
      split; [|split; [lia|]].
      * apply Forall_app. split; [done|]. constructor; [lia|constructor].
      * intros _ Hg'. apply Forall_app. split; [done|]. constructor; [lia|constructor].
    + unfold cc_push, pending. simpl. fold (pending c). rewrite app_length. simpl. split; [done|]. split; [lia|]. done.
  - destruct (calm_process c out Hc Hcalm) as (_ & _ & Hx). unfold pending in *. destruct (cc_batch c) as [b|] eqn:Eb; simpl in Hp.
    + destruct Hx as [-> ->]. simpl. split; [|split; [lia|done]]. apply Forall_app. split; [done|]. constructor; [lia|constructor].
    + rewrite Hx, Eb. simpl. done.
  - done.
Qed.
Lemma sizes_run_from L c ops : Forall calm ops -> Forall keeps_limit ops -> 1 <= L -> calm_inv c -> cc_limit c = L ->
  Forall (fun b => length b <= L) (cc_given c) -> length (pending c) < L ->
  Forall (fun b => length b <= L) (cc_given (cc_run c ops)) /\ length (pending (cc_run c ops)) < L
  /\ (Forall automatic ops -> Forall (fun b => length b = L) (cc_given c) -> Forall (fun b => length b = L) (cc_given (cc_run c ops))).
Proof.
  revert c. induction ops as [|op ops IH]; intros c Hf Hk HL Hc Hl Hg Hp; [simpl; done|].
  inversion Hf; inversion Hk; subst. change (cc_run c (op :: ops)) with (cc_run (cc_step c op) ops).
  destruct (sizes_step (cc_limit c) c op) as (Ha & Hb & Hd); try done.
  destruct (IH (cc_step c op)) as (Ha' & Hb' & Hd'); try done.
  - by apply calm_step.
  - by apply step_limit.
  - split; [done|]. split; [done|]. intros Hau Hg'. inversion Hau; subst. apply Hd'; [done|]. by apply Hd.
Qed.
(** After an exception with the batch left in the problem *)
Record stuck (e : list obs) (c : ccal) : Prop := {
  sk_ip : cc_inprob c = true;
  sk_b : pending c <> [];
  sk_e : cc_eobs c = e
}.
Lemma stuck_process e c out : stuck e c -> stuck e (cc_processBatch c out).1 /\ (cc_processBatch c out).2 = Throw InvalidOperation.
Proof.
  intros [H1 H2 H3]. unfold cc_processBatch, pending in *. destruct (cc_batch c) as [b|] eqn:Eb; simpl in H2; [|done].
  unfold est_addBatch. rewrite H1. destruct b as [|x b]; [done|]. simpl. split; [|done]. split; unfold pending; simpl; rewrite ?Eb; done.
Qed.
Lemma stuck_push e c : stuck e c -> stuck e (cc_push c).
Proof.
  intros [H1 H2 H3]. split; simpl; try done.
  - unfold pending in H2. by destruct (cc_batch c).
  - unfold pending. simpl. intros Hf. apply app_nil in Hf as [_ Hf]. discriminate Hf.
Qed.
Lemma stuck_step e c op : stuck e c -> stuck e (cc_step c op).
Proof.
  intros H. destruct op as [ok|det out|out|n]; simpl.
  - unfold cc_initGeometry. destruct (cc_geom c); [done|]. destruct ok; [|done]. by destruct H.
  - destruct (cc_geom c) eqn:E; [|unfold cc_addImage; rewrite E; done].
    destruct det; [|unfold cc_addImage; rewrite E; done]. rewrite addImage_push by done.
    destruct (Nat.eqb _ _); simpl; [|by apply stuck_push]. by apply stuck_process, stuck_push.
  - by apply stuck_process.
  - by destruct H.
Qed.
Lemma stuck_run e c ops : stuck e c -> stuck e (cc_run c ops).
Proof. revert c. induction ops as [|op ops IH]; intros c H; [exact H|]. apply IH, stuck_step, H. Qed.
(** Beyond the limit *)
Lemma beyond_step c op : keeps_limit op -> automatic op -> cc_limit c <= cc_num c ->
  cc_limit (cc_step c op) <= cc_num (cc_step c op) /\ cc_given (cc_step c op) = cc_given c /\ cc_eobs (cc_step c op) = cc_eobs c.
Proof.
  intros Hk Ha H. destruct op as [ok|det out|out|n]; simpl in *; try done.
  - unfold cc_initGeometry. destruct (cc_geom c); [done|]. by destruct ok.
  - destruct (cc_geom c) eqn:E; [|unfold cc_addImage; rewrite E; done].
    destruct det; [|unfold cc_addImage; rewrite E; done]. rewrite addImage_push by done.
    destruct (Nat.eqb_spec (S (cc_num c)) (cc_limit c)) as [He|He]; [lia|]. simpl. split; [lia|done].
Qed.
Lemma beyond_run c ops : Forall keeps_limit ops -> Forall automatic ops -> cc_limit c <= cc_num c ->
  cc_given (cc_run c ops) = cc_given c /\ cc_eobs (cc_run c ops) = cc_eobs c.
Proof.
  revert c. induction ops as [|op ops IH]; intros c Hk Ha H; [done|]. inversion Hk; inversion Ha; subst.
  change (cc_run c (op :: ops)) with (cc_run (cc_step c op) ops).
  destruct (beyond_step c op) as (Hx1 & Hx2 & Hx3); try done. destruct (IH (cc_step c op)) as [Hy1 Hy2]; try done. rewrite Hy1, Hy2. done.
Qed.
(** Poses *)
Lemma poseGroup_lookup (g : list obs) i :
  flat_map (fun o => [PoseQ o; PoseT o]) g !! (i * 2) = PoseQ <$> g !! i
  /\ flat_map (fun o => [PoseQ o; PoseT o]) g !! (i * 2 + 1) = PoseT <$> g !! i.
Proof.
  revert i. induction g as [|o g IH]; intros i; [done|].
  destruct i as [|i]; [done|]. simpl. destruct (IH i) as [H1 H2]. split; [exact H1|].
  exact H2.
Qed.
Lemma getTransformation_eq c i : cc_getTransformation c i =
  if Nat.leb (length (cc_eobs c)) i then Throw OutOfBound
  else match cc_group c !! i with Some o => Ret (PoseQ o, PoseT o) | None => Throw StdOutOfRange end.
Proof.
  unfold cc_getTransformation, cc_poseGroup. destruct (Nat.leb _ _); [done|].
  destruct (poseGroup_lookup (cc_group c) i) as [-> ->]. by destruct (cc_group c !! i).
Qed.
Lemma eobs_le_group c : inv c -> length (cc_eobs c) <= length (cc_group c).
Proof. intros H. apply submseteq_length, NoDup_submseteq; [apply H|]. apply (iv_sub _ H). Qed.
