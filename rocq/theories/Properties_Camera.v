(** C48 and C77 - C80: the camera example. *)
From stdpp Require Import prelude list.
From Coq Require Import Reals Lra.
From Verif Require Import Base CameraModel Spec_Camera CameraProofs.

(** * C48: batching and observations *)
(** An image is refused exactly if the geometry has not been initialised before, and then nothing changes. *)
Theorem camera_refuses_uninitialised L ops det out :
  let c := cc_run (cc_new L) ops in
  (initialised ops = false -> cc_addImage c det out = (c, Throw InvalidOperation))
  /\ (initialised ops = true -> cc_inprob c = false ->
        out = Accepted \/ out = Rejected ->
        (cc_addImage c det out).2 = Ret det).
Proof.
  intros c. assert (Hg : cc_geom c = initialised ops) by (unfold c; rewrite run_geom; reflexivity). split.
  - intros Hi. unfold cc_addImage. rewrite Hg, Hi. reflexivity.
  - intros Hi Hip Ho. rewrite Hi in Hg. destruct det; [|unfold cc_addImage; rewrite Hg; reflexivity].
    rewrite addImage_push by done. destruct (Nat.eqb _ _); [|reflexivity]. simpl.
    unfold cc_processBatch. simpl. unfold est_addBatch.
    replace (match cc_batch c with Some _ => cc_inprob c | None => false end) with false by (by destruct (cc_batch c)).
    simpl. by destruct Ho as [-> | ->].
Qed.
(** Initialisation is for ever: once initGeometry has returned true it returns true again, whatever happens and whatever
    the detector says, and it never changes the calibrator again. *)
Theorem camera_initialisation_is_permanent L ops ops' ok :
  initialised ops = true -> let c := cc_run (cc_new L) (ops ++ ops') in cc_initGeometry c ok = (c, Ret true).
Proof.
  intros Hi c. unfold cc_initGeometry. replace (cc_geom c) with true; [done|]. unfold c. rewrite run_geom. simpl.
  unfold initialised in *. by rewrite existsb_app, Hi.
Qed.

(** As long as the estimator does not throw: every image with a target that came after the initialisation is in exactly one
    batch, in the order of arrival: the batches handed to the estimator, followed by the images waiting, are all images.
    Batches have at most the required size and fewer images than that wait; if the user does not close batches early every
    batch has exactly the required size. *)
Theorem camera_batches L ops : 1 <= L -> Forall calm ops -> Forall keeps_limit ops ->
  let c := cc_run (cc_new L) ops in
  concat (cc_given c) ++ pending c = seq 0 (found false ops)
  /\ Forall (fun b => length b <= L) (cc_given c)
  /\ length (pending c) < L
  /\ (Forall automatic ops -> Forall (fun b => length b = L) (cc_given c)
       /\ length (cc_given c) = found false ops / L).
Proof.
  intros HL Hc Hk c. pose proof (calm_run L ops Hc) as Hi. fold c in Hi.
  assert (Hn : cc_next c = found false ops) by (unfold c; rewrite run_next; reflexivity).
  destruct (sizes_run_from L (cc_new L) ops) as (H1 & H2 & H3); try done.
  { apply calm_new. } { simpl. constructor. }
  fold c in H1, H2, H3.
  assert (Hall : concat (cc_given c) ++ pending c = seq 0 (found false ops)) by (rewrite <-Hn; apply Hi).
  split; [exact Hall|]. split; [done|]. split; [done|]. intros Ha.
  assert (H4 : Forall (fun b => length b = L) (cc_given c)) by (apply H3; [done|constructor]). split; [exact H4|].
  assert (Hlen : length (concat (cc_given c)) = length (cc_given c) * L).
  { clear -H4. induction (cc_given c) as [|b l IH]; [done|]. inversion H4; subst. simpl. rewrite app_length, IH by done. lia. }
  apply (f_equal length) in Hall. rewrite app_length, seq_length, Hlen in Hall.
  apply Nat.div_unique with (length (pending c)); lia.
Qed.
(** Conservation alone does not need a constant size of the batches. *)
Theorem camera_conservation L ops : Forall calm ops ->
  let c := cc_run (cc_new L) ops in concat (cc_given c) ++ pending c = seq 0 (found false ops).
Proof.
  intros Hc c. pose proof (calm_run L ops Hc) as Hi. fold c in Hi.
  replace (found false ops) with (cc_next c) by (unfold c; rewrite run_next; reflexivity). apply Hi.
Qed.
Local Ltac alls := repeat first [apply List.Forall_nil | apply List.Forall_cons; [simpl; auto|]].
Definition img (out : outcome) : ccop := CImage true out.
Lemma camera_batches_example :
  let ops := [CInit false; img Accepted; CInit true; img Accepted; CImage false Accepted; img Accepted; img Rejected; img Rejected; img Accepted] in
  Forall calm ops /\ Forall keeps_limit ops /\ Forall automatic ops
  /\ cc_given (cc_run (cc_new 2) ops) = [[0; 1]; [2; 3]] /\ pending (cc_run (cc_new 2) ops) = [4]
  /\ cc_eobs (cc_run (cc_new 2) ops) = [0; 1].
Proof. cbv zeta. split_and!; try (by alls); try reflexivity; simpl; auto. Qed.

(** The observations listed as in use are, up to the order, those whose poses are estimated; each is listed once. *)
Theorem camera_observations_in_use L ops : Forall calm ops ->
  let c := cc_run (cc_new L) ops in
  cc_eobs c ≡ₚ cc_group c /\ NoDup (cc_eobs c)
  /\ exists acc, acc `sublist_of` cc_given c /\ cc_group c = concat acc /\ cc_eobs c = concat (reverse acc).
Proof.
  intros Hc c. destruct (calm_run L ops Hc) as [Hi Hip _ Hacc]. fold c in Hi, Hip, Hacc.
  split; [|split; [apply Hi|exact Hacc]].
  apply NoDup_Permutation; [apply Hi|apply Hi|]. intros o. split; [apply (iv_sub _ Hi)|].
  apply (iv_out _ Hi). by left.
Qed.
(** getTransformation: in every history, also with exceptions, an index is refused exactly if there is no such observation,
    and a legal index gets a pose. *)
Theorem getTransformation_bounds L ops i :
  let c := cc_run (cc_new L) ops in
  (length (cc_eobs c) <= i -> cc_getTransformation c i = Throw OutOfBound)
  /\ (i < length (cc_eobs c) -> exists o, cc_getTransformation c i = Ret (PoseQ o, PoseT o)).
Proof.
  intros c. rewrite getTransformation_eq. split; intros H.
  - by rewrite (proj2 (Nat.leb_le _ _) H).
  - rewrite (proj2 (Nat.leb_gt _ _) H). pose proof (eobs_le_group c (inv_run L ops)) as Hl.
    destruct (lookup_lt_is_Some_2 (cc_group c) i) as [o Ho]; [lia|]. exists o. by rewrite Ho.
Qed.
(** That the i-th transformation belongs to the i-th observation in use holds while at most one batch has been accepted ... *)
Theorem getTransformation_one_batch L ops : Forall calm ops ->
  length (List.filter (fun op => match op with CImage _ Accepted | CProcess Accepted => true | _ => false end) ops) <= 1 ->
  forall i, transformation_of (cc_run (cc_new L) ops) i.
Proof.
  intros Hc Hone.
  (* at most one acceptance: the list of accepted batches has at most one element *)
  set (acceptance := fun op => match op with CImage _ Accepted | CProcess Accepted => true | _ => false end) in Hone.
  assert (Hind : forall c, calm_inv c -> cc_eobs c = cc_group c ->
            (cc_eobs c = [] \/ List.filter acceptance ops = []) -> cc_eobs (cc_run c ops) = cc_group (cc_run c ops)).
  2:{ intros i. assert (He : cc_eobs (cc_run (cc_new L) ops) = cc_group (cc_run (cc_new L) ops)).
      { apply Hind; [apply calm_new|done|by left]. }
      unfold transformation_of. rewrite getTransformation_eq, <-He.
      destruct (cc_eobs (cc_run (cc_new L) ops) !! i) as [o|] eqn:E.
      - pose proof (lookup_lt_Some _ _ _ E). by rewrite (proj2 (Nat.leb_gt _ _)).
      - apply lookup_ge_None in E. by rewrite (proj2 (Nat.leb_le _ _)). }
  assert (Hproc : forall c out, calm_inv c -> out = Accepted \/ out = Rejected -> cc_eobs c = cc_group c ->
            (out = Rejected -> cc_eobs (cc_processBatch c out).1 = cc_eobs c /\ cc_group (cc_processBatch c out).1 = cc_eobs c)
            /\ (cc_eobs c = [] -> cc_eobs (cc_processBatch c out).1 = cc_group (cc_processBatch c out).1)).
  { intros c out Hi Ho He. unfold cc_processBatch. destruct (cc_batch c) as [b|] eqn:Eb; [|done].
    pose proof (ci_ip _ Hi) as Hip. pose proof (iv_bobs _ (ci_inv _ Hi)) as Hb.
    destruct (iv_out _ (ci_inv _ Hi) (or_introl Hip)) as [Hd _].
    assert (Hp : pending c = b) by (unfold pending; rewrite Eb; reflexivity). rewrite Hp in *.
    assert (F1 : filter (fun o => o ∉ cc_group c) b = b) by (apply filter_keep; auto).
    assert (F2 : filter (fun o => o ∉ b) (cc_group c ++ b) = cc_group c).
    { rewrite filter_app, filter_keep, filter_drop; [by rewrite app_nil_r|..]; [intros o Hx Hy; done|].
      intros o Hg Hbb. exact (Hd o Hbb Hg). }
    unfold est_addBatch. rewrite Hip, F1. cbn [andb]. split.
    - intros ->. simpl. rewrite F2. done.
    - intros Hn. destruct Ho as [-> | ->]; simpl.
      + rewrite Hb, Hn. rewrite <-He, Hn. by rewrite app_nil_r.
      + by rewrite F2. }
  assert (Hstep : forall c op, calm op -> calm_inv c -> cc_eobs c = cc_group c ->
            (acceptance op = false -> cc_eobs (cc_step c op) = cc_eobs c /\ cc_group (cc_step c op) = cc_eobs c)
            /\ (cc_eobs c = [] -> cc_eobs (cc_step c op) = cc_group (cc_step c op))).
  { intros c op Hop Hi He. destruct op as [ok|det out|out|n]; simpl in *.
    - unfold cc_initGeometry. destruct (cc_geom c); [done|]. by destruct ok.
    - destruct (cc_geom c) eqn:E; [|unfold cc_addImage; rewrite E; done].
      destruct det; [|unfold cc_addImage; rewrite E; done]. rewrite addImage_push by done.
      destruct (Nat.eqb _ _); simpl; [|done].
      destruct (Hproc (cc_push c) out (calm_push c Hi) Hop He) as [Ha Hb]. split; [|exact Hb].
      intros Hn. apply Ha. by destruct Hop as [-> | ->].
    - destruct (Hproc c out Hi Hop He) as [Ha Hb]. split; [|exact Hb]. intros Hn. apply Ha. by destruct Hop as [-> | ->].
    - done. }
  clear Hproc. revert Hc Hone. induction ops as [|op ops IH]; intros Hc Hone c Hi He Hd; [exact He|].
  inversion Hc as [|? ? Hop Hc']; subst. change (cc_run c (op :: ops)) with (cc_run (cc_step c op) ops).
  destruct (Hstep c op Hop Hi He) as [H1 H2]. simpl in Hone, Hd. destruct (acceptance op) eqn:Ea.
  - destruct Hd as [Hd|Hd]; [|discriminate]. simpl in Hone.
    apply IH; [done|lia|by apply calm_step|by apply H2|]. right. destruct (List.filter acceptance ops); [done|simpl in Hone; lia].
  - destruct (H1 eq_refl) as [H3 H4]. apply IH; [done|lia|by apply calm_step|congruence|]. rewrite H3. exact Hd.
Qed.
Lemma getTransformation_partial_example :
  let ops := [CInit true; img Rejected; img Rejected; CImage true Rejected; img Accepted; img Rejected] in
  Forall calm ops /\ length (List.filter (fun op => match op with CImage _ Accepted | CProcess Accepted => true | _ => false end) ops) <= 1
  /\ cc_eobs (cc_run (cc_new 2) ops) = [2; 3] /\ cc_getTransformation (cc_run (cc_new 2) ops) 1 = Ret (PoseQ 3, PoseT 3).
Proof. cbv zeta. split_and!; try (by alls); try reflexivity; simpl; auto. Qed.
(** ... and is false as soon as two batches with images have been accepted, in every history: entry 0 is then the pose of
    another observation. *)
Theorem getTransformation_refuted L ops acc b1 b2 : Forall calm ops ->
  let c := cc_run (cc_new L) ops in
  acc `sublist_of` cc_given c -> cc_group c = concat acc -> cc_eobs c = concat (reverse acc) ->
  b1 <> [] -> b2 <> [] -> [b1; b2] `sublist_of` acc ->
  ~ transformation_of c 0.
Proof.
  intros Hc c _ Hg He H1 H2 Hs Ht. destruct (calm_run L ops Hc) as [Hi _ _ _]. fold c in Hi.
  assert (Hhead : forall l : list (list nat), forall x, head (concat l) = Some x <-> exists l1 b l2, l = l1 ++ b :: l2 /\ Forall (fun z => z = []) l1 /\ head b = Some x).
  { induction l as [|b l IH]; intros x; simpl.
    - split; [done|]. intros (l1 & b & l2 & Hl & _). by destruct l1.
    - destruct b as [|y b]; simpl.
      + rewrite IH. split.
        * intros (l1 & b & l2 & -> & Hf & Hb). exists ([] :: l1), b, l2. by split; [|split; [constructor|]].
        * intros (l1 & b & l2 & Hl & Hf & Hb). destruct l1 as [|z l1]; [by simplify_eq/=|]. injection Hl as _ Hl. apply Forall_cons in Hf as [_ Hf]. eauto 6.
      + split.
        * intros [= ->]. exists [], (x :: b), l. by split; [|split; [constructor|]].
        * intros (l1 & b' & l2 & Hl & Hf & Hb). destruct l1 as [|z l1]; [by simplify_eq/=|]. injection Hl as Hl _. apply Forall_cons in Hf as [Hf _]. by rewrite Hf in Hl. }
  unfold transformation_of in Ht. rewrite getTransformation_eq in Ht.
  destruct (cc_eobs c !! 0) as [o|] eqn:Eo.
  2:{ (* eobs cannot be empty *)
    apply lookup_ge_None in Eo. assert (Hnil : concat (reverse acc) = []) by (rewrite <-He; destruct (cc_eobs c); [done|simpl in Eo; lia]).
    assert (Hin : b1 ∈ acc) by (apply (elem_of_submseteq [b1; b2] _ b1); [left|by apply sublist_submseteq]).
    destruct b1 as [|x b1]; [done|]. assert (x ∈ concat (reverse acc)); [|rewrite Hnil in *; set_solver].
    apply elem_of_list_In, in_concat. exists (x :: b1). split; [|by left]. apply elem_of_list_In. by apply elem_of_reverse. }
  pose proof (lookup_lt_Some _ _ _ Eo) as Hlt. rewrite (proj2 (Nat.leb_gt _ _) Hlt) in Ht.
  destruct (cc_group c !! 0) as [o'|] eqn:Eg; [|done]. injection Ht as ->. 
  assert (Hh1 : head (concat acc) = Some o) by (rewrite <-Hg; destruct (cc_group c); [done|exact Eg]).
  assert (Hh2 : head (concat (reverse acc)) = Some o) by (rewrite <-He; destruct (cc_eobs c); [done|exact Eo]).
  apply Hhead in Hh1 as (l1 & b & l2 & Hl & Hf & Hb). apply Hhead in Hh2 as (r1 & b' & r2 & Hr & Hf' & Hb').
  (* the two batches with o at their heads are the same position: otherwise o would be twice in the group *)
  apply (f_equal reverse) in Hr. rewrite reverse_involutive, reverse_app, reverse_cons, <-app_assoc in Hr. simpl in Hr.
  assert (Hnd : NoDup (concat acc)) by (rewrite <-Hg; apply Hi).
  destruct b as [|x b]; [done|]. injection Hb as ->. destruct b' as [|x b']; [done|]. injection Hb' as ->.
  (* acc = l1 ++ (o::b) :: l2 = rr ++ (o::b') :: reverse r1, l1 and r1 all empty *)
  assert (Hpos : l2 = [] \/ Forall (fun z => z = []) l2).
  { destruct (decide (length l1 = length (reverse r2))) as [Hlen|Hlen].
    - rewrite Hl in Hr. apply app_inj_1 in Hr as [_ Hr]; [|done]. injection Hr as _ ->. right. by apply Forall_reverse.
    - exfalso. rewrite Hl in Hr, Hnd. destruct (lt_dec (length l1) (length (reverse r2))) as [Hlt'|Hge].
      + (* o::b' lies in l2 *)
        apply (f_equal (drop (length l1))) in Hr. rewrite drop_app, drop_app_le in Hr by lia.
        destruct (drop (length l1) (reverse r2)) as [|z zs] eqn:Ez.
        { apply (f_equal length) in Ez. rewrite drop_length in Ez. simpl in Ez. lia. }
        injection Hr as _ Hr. rewrite Hr in Hnd. rewrite concat_app in Hnd. simpl in Hnd. rewrite concat_app in Hnd. simpl in Hnd.
        apply NoDup_app in Hnd as (_ & _ & Hnd). inversion Hnd as [|? ? Hn _]; subst. apply Hn.
        apply elem_of_app. right. apply elem_of_app. right. left.
      + (* o::b' lies in l1, which has only empty batches *)
        apply (f_equal (fun l => l !! length (reverse r2))) in Hr. rewrite lookup_app_l in Hr by lia.
        rewrite list_lookup_middle in Hr by done. eapply Forall_lookup_1 in Hf; [|exact Hr]. done. }
  assert (Hf2 : Forall (fun z => z = []) l2) by (destruct Hpos as [-> |?]; [constructor|done]).
  (* then at most one batch in acc has images *)
  assert (Hsub : length (List.filter (fun z : list nat => negb (Nat.eqb (length z) 0)) [b1; b2]) <= length (List.filter (fun z : list nat => negb (Nat.eqb (length z) 0)) acc)).
  { clear -Hs. induction Hs as [|x k1 k2 Hs IH|x k1 k2 Hs IH]; simpl; [lia|..]; destruct (negb _); simpl; lia. }
  rewrite Hl, List.filter_app, app_length in Hsub. simpl in Hsub.
  assert (Hz : forall l : list (list nat), Forall (fun z => z = []) l -> List.filter (fun z => negb (Nat.eqb (length z) 0)) l = []).
  { induction l as [|z l IH]; intros Hall; [done|]. inversion Hall; subst. simpl. by apply IH. }
  rewrite (Hz l1 Hf), (Hz l2 Hf2) in Hsub. destruct b1 as [|? b1]; [done|]. destruct b2 as [|? b2]; [done|]. simpl in Hsub. lia.
Qed.
Lemma getTransformation_refuted_example :
  let c := cc_run (cc_new 2) [CInit true; img Accepted; img Accepted; img Accepted; img Accepted] in
  cc_eobs c = [2; 3; 0; 1] /\ cc_group c = [0; 1; 2; 3] /\ cc_group c = concat [[0;1];[2;3]] /\ cc_eobs c = concat (reverse [[0;1];[2;3]])
  /\ cc_given c = [[0;1];[2;3]] /\ cc_getTransformation c 0 = Ret (PoseQ 0, PoseT 0) /\ ~ transformation_of c 0.
Proof. repeat split. unfold transformation_of. vm_compute. discriminate. Qed.

(** * C77: exceptions of the estimator *)
(** If the estimator throws during the optimisation of a batch with images, the calibrator is dead: whatever is called
    afterwards, no observation is ever accepted again and every attempt to process a batch ends with
    InvalidOperationException. *)
Theorem estimator_exception_is_fatal L ops ops' :
  let c := cc_run (cc_new L) ops in
  pending c <> [] -> cc_inprob c = false ->
  let c1 := (cc_processBatch c FailedIn).1 in
  (cc_processBatch c FailedIn).2 = Throw External
  /\ let c' := cc_run c1 ops' in
     cc_eobs c' = cc_eobs c /\ forall out, (cc_processBatch c' out).2 = Throw InvalidOperation.
Proof.
  intros c Hp Hip c1.
  assert (Hs : stuck (cc_eobs c) c1 /\ (cc_processBatch c FailedIn).2 = Throw External).
  { unfold c1, cc_processBatch, pending in *. destruct (cc_batch c) as [b|] eqn:Eb; [|done]. simpl in Hp.
    unfold est_addBatch. rewrite Hip. simpl. split; [|done]. split; unfold pending; simpl; rewrite ?Eb; done. }
  destruct Hs as [Hs Hr]. split; [exact Hr|]. cbv zeta.
  pose proof (stuck_run _ _ ops' Hs) as Hs'. split; [apply Hs'|]. intros out. exact (proj2 (stuck_process _ _ out Hs')).
Qed.
(** If an exception leaves after the batch has been taken out of the problem again, the images are kept, but a full batch is
    not tried again by adding images: the user has to call processBatch. *)
Theorem full_batch_not_retried L ops ops' :
  let c := cc_run (cc_new L) ops in
  cc_limit c <= length (pending c) -> Forall keeps_limit ops' -> Forall automatic ops' ->
  cc_given (cc_run c ops') = cc_given c /\ cc_eobs (cc_run c ops') = cc_eobs c.
Proof.
  intros c Hl Hk Ha. apply beyond_run; [done..|]. pose proof (iv_num _ (inv_run L ops)) as Hn. fold c in Hn. lia.
Qed.
Lemma full_batch_not_retried_example :
  let c := cc_run (cc_new 2) [CInit true; img Accepted; img FailedOut] in
  cc_limit c <= length (pending c) /\ pending c = [0; 1] /\ cc_given (cc_run c [img Accepted; img Accepted; img Accepted]) = [[0; 1]].
Proof. simpl. split; [lia|done]. Qed.
(** The same happens when the batch size is set to zero, or lowered to the number of images waiting or below. *)
Theorem lowered_limit_never_processes L ops n ops' :
  let c := cc_run (cc_new L) ops in
  n <= length (pending c) -> Forall keeps_limit ops' -> Forall automatic ops' ->
  cc_given (cc_run c (CLimit n :: ops')) = cc_given c.
Proof.
  intros c Hl Hk Ha. change (cc_run c (CLimit n :: ops')) with (cc_run (cc_setLimit c n) ops').
  destruct (beyond_run (cc_setLimit c n) ops' Hk Ha) as [-> _]; [|done].
  simpl. pose proof (iv_num _ (inv_run L ops)) as Hn. fold c in Hn. lia.
Qed.
Theorem zero_batch_size_never_processes ops : Forall keeps_limit ops -> Forall automatic ops ->
  cc_given (cc_run (cc_new 0) ops) = [] /\ cc_eobs (cc_run (cc_new 0) ops) = [].
Proof. intros Hk Ha. apply (beyond_run (cc_new 0) ops Hk Ha). simpl. lia. Qed.
Lemma process_given c out b : cc_batch c = Some b -> cc_given (cc_processBatch c out).1 = cc_given c ++ [b].
Proof.
  intros Eb. unfold cc_processBatch. rewrite Eb. destruct (est_addBatch _ _ b out) as [[ip g] [[]|e| |]]; reflexivity.
Qed.
Lemma process_ret_batch c out b : cc_batch c = Some b -> (cc_processBatch c out).2 = Ret tt -> cc_batch (cc_processBatch c out).1 = Some [].
Proof.
  intros Eb. unfold cc_processBatch. rewrite Eb. destruct (est_addBatch _ _ b out) as [[ip g] [[]|e| |]]; simpl; done.
Qed.
(** An explicit processBatch right after another one hands a batch without any image to the estimator; before the first
    image it does nothing. *)
Theorem process_twice_gives_empty_batch L ops out out' :
  let c := cc_run (cc_new L) ops in
  cc_batch c <> None -> (cc_processBatch c out).2 = Ret tt ->
  cc_given (cc_run c [CProcess out; CProcess out']) = cc_given c ++ [pending c; []].
Proof.
  intros c Hb Hr. change (cc_run c [CProcess out; CProcess out']) with (cc_processBatch (cc_processBatch c out).1 out').1.
  generalize dependent c. intros c Hb Hr. destruct (cc_batch c) as [b|] eqn:Eb; [|done].
  rewrite (process_given _ _ []) by (apply (process_ret_batch c out b); done). rewrite (process_given c out b) by done.
  unfold pending. rewrite Eb. by rewrite <-app_assoc.
Qed.
Theorem process_before_images L ops out : found false ops = 0 ->
  let c := cc_run (cc_new L) ops in cc_processBatch c out = (c, Ret tt).
Proof.
  intros Hf c. assert (Hb : cc_batch c = None); [|unfold cc_processBatch; by rewrite Hb].
  unfold c. assert (Hgen : forall c0, cc_batch c0 = None -> found (cc_geom c0) ops = 0 -> cc_batch (cc_run c0 ops) = None).
  { clear. induction ops as [|op ops IH]; intros c0 Hb Hf; [exact Hb|].
    change (cc_run c0 (op :: ops)) with (cc_run (cc_step c0 op) ops). apply IH.
    - destruct op as [ok|det out|out|n]; simpl in *; try done.
      + unfold cc_initGeometry. destruct (cc_geom c0); [done|]. by destruct ok.
      + destruct (cc_geom c0) eqn:E; [|unfold cc_addImage; rewrite E; done].
        destruct det; [simpl in Hf; lia|]. unfold cc_addImage. rewrite E. done.
      + unfold cc_processBatch. by rewrite Hb.
    - rewrite step_geom. destruct op as [[]|[] o|o|n]; simpl in *; rewrite ?orb_true_r, ?orb_false_r; try done. lia. }
  by apply Hgen.
Qed.
