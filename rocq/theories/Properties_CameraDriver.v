(** C110, C111: the camera programs and the calibration file. *)
From stdpp Require Import prelude list.
From Coq Require Import Reals.
From Verif Require Import Base CameraModel Spec_Camera CameraProofs Properties_Camera CameraDriverModel.

(** ** The program *)
Definition calm_image (i : cimage) : Prop := ci_out i = Accepted \/ ci_out i = Rejected.
(** The number of images in which the target is found. *)
Definition targets (l : list cimage) : nat := List.length (filter (fun i => ci_found i = true) l).
Lemma cam_init_geom l : forall c, cc_geom c = false -> cam_init c l = (if existsb ci_init l then (cc_initGeometry c true).1 else c).
Proof.
  induction l as [|i l IH]; intros c Hc; [done|]. cbn [cam_init existsb]. unfold cc_initGeometry. rewrite Hc.
  destruct (ci_init i); [done|]. rewrite IH by done. cbn. unfold cc_initGeometry. by rewrite Hc.
Qed.
(** C110, refuted: a log in which no image initialises the geometry ends the program with an exception at the first image. *)
Theorem cam_program_no_target_refuted save L l last : l <> [] -> existsb ci_init l = false ->
  cam_program save L l last = (cc_new L, [], Throw InvalidOperation).
Proof.
  intros Hl Hi. unfold cam_program. rewrite cam_init_geom by done. rewrite Hi. destruct l as [|i l]; [done|]. done.
Qed.
Definition cam_ops (l : list cimage) : list ccop := map (fun i => CImage (ci_found i) (ci_out i)) l.
(** The files saveEstimatorImages should produce: one for every image that completes an accepted batch, i.e. whose target is the L-th, 2L-th, ... one. *)
Fixpoint completing (L k : nat) (l : list cimage) : list (Z * option nat) :=
  match l with
  | [] => []
  | i :: l => if ci_found i
              then (if (S k mod L =? 0) then match ci_out i with Accepted => [(ci_stamp i, Some k)] | _ => [] end else []) ++ completing L (S k) l
              else completing L k l
  end.
Lemma process_calm c out b : calm_inv c -> out = Accepted \/ out = Rejected -> cc_batch c = Some b ->
  cc_processBatch c out = ((cc_processBatch c out).1, Ret tt)
  /\ cc_eobs (cc_processBatch c out).1 = (match out with Accepted => cc_bobs c | _ => [] end) ++ cc_eobs c
  /\ cc_geom (cc_processBatch c out).1 = cc_geom c /\ cc_limit (cc_processBatch c out).1 = cc_limit c
  /\ cc_last (cc_processBatch c out).1 = cc_last c /\ cc_next (cc_processBatch c out).1 = cc_next c.
Proof.
  intros Hc Ho Hb. destruct (calm_process c out Hc Ho) as (_ & Hr & _). destruct (process_geom c out) as (Hg & Hn & Hl & Hla).
  split; [by destruct (cc_processBatch c out) as [c' r]; simpl in *; subst|]. split; [|done].
  unfold cc_processBatch. rewrite Hb. unfold est_addBatch. rewrite (ci_ip _ Hc). cbn [andb].
  destruct Ho as [-> | ->]; done.
Qed.
Lemma all_length (L : nat) (g : list (list nat)) : Forall (fun b => length b = L) g -> length (concat g) = length g * L.
Proof. induction g as [|b g IH]; intros H; [done|]. apply Forall_cons in H as [H1 H2]. cbn. rewrite app_length, IH by done. lia. Qed.
Lemma cam_loop_eq save L l : 1 <= L -> forall c, Forall calm_image l -> calm_inv c -> cc_geom c = true -> cc_limit c = L ->
  Forall (fun b => length b = L) (cc_given c) -> length (pending c) < L ->
  let c' := cc_run c (cam_ops l) in
  cam_loop save c l = (c', (if save then completing L (cc_next c) l else []), Ret tt)
  /\ length (cc_eobs c') = length (cc_eobs c) + L * length (completing L (cc_next c) l)
  /\ calm_inv c' /\ cc_geom c' = true /\ cc_limit c' = L /\ Forall (fun b => length b = L) (cc_given c') /\ length (pending c') < L
  /\ cc_next c' = cc_next c + targets l.
Proof.
  intros HL. induction l as [|i l IH]; intros c Hl Hc Hg Hlim Hgiv Hpend.
  - cbn. unfold targets. cbn. rewrite Nat.mul_0_r. destruct save; split_and!; done || lia.
  - apply Forall_cons in Hl as [Hi Hl].
    change (cam_ops (i :: l)) with (CImage (ci_found i) (ci_out i) :: cam_ops l).
    change (cc_run c (CImage (ci_found i) (ci_out i) :: cam_ops l)) with (cc_run (cc_step c (CImage (ci_found i) (ci_out i))) (cam_ops l)).
    cbn [cam_loop completing cc_step]. unfold targets. rewrite filter_cons.
    destruct (ci_found i) eqn:Ef.
    2:{ rewrite decide_False by done. unfold cc_addImage. rewrite Hg. cbn [negb fst]. rewrite Nat.eqb_refl. cbn [negb]. rewrite andb_false_r.
        destruct (IH c Hl Hc Hg Hlim Hgiv Hpend) as (E & R). rewrite E. split; [|exact R]. by destruct save. }
    rewrite decide_True by done. cbn [length].
    pose proof (iv_num _ (ci_inv _ Hc)) as Hnum. pose proof (calm_push c Hc) as Hcp.
    assert (Hlen : cc_next c = length (cc_given c) * L + length (pending c)).
    { pose proof (ci_all _ Hc) as Ha. apply (f_equal length) in Ha. rewrite app_length, seq_length, (all_length L) in Ha by done. lia. }
    assert (Hstep : forall c1 files, calm_inv c1 -> cc_geom c1 = true -> cc_limit c1 = L -> Forall (fun b => length b = L) (cc_given c1) ->
              length (pending c1) < L -> cc_next c1 = S (cc_next c) ->
              (if save && negb (length (cc_eobs c1) =? length (cc_eobs c)) then [(ci_stamp i, cc_last c1)] else []) = (if save then files else []) ->
              length (cc_eobs c1) = length (cc_eobs c) + L * length files ->
              (let files := if save && negb (length (cc_eobs c1) =? length (cc_eobs c)) then [(ci_stamp i, cc_last c1)] else [] in
               let '(c2, fs, r) := cam_loop save c1 l in (c2, files ++ fs, r))
              = (cc_run c1 (cam_ops l), if save then files ++ completing L (S (cc_next c)) l else [], Ret tt)
              /\ length (cc_eobs (cc_run c1 (cam_ops l))) = length (cc_eobs c) + L * length (files ++ completing L (S (cc_next c)) l)
              /\ calm_inv (cc_run c1 (cam_ops l)) /\ cc_geom (cc_run c1 (cam_ops l)) = true /\ cc_limit (cc_run c1 (cam_ops l)) = L
              /\ Forall (fun b => length b = L) (cc_given (cc_run c1 (cam_ops l))) /\ length (pending (cc_run c1 (cam_ops l))) < L
              /\ cc_next (cc_run c1 (cam_ops l)) = cc_next c + S (length (filter (fun i => ci_found i = true) l))).
    { intros c1 files A1 A2 A3 A4 A5 A6 A7 A8. destruct (IH c1 Hl A1 A2 A3 A4 A5) as (E & B1 & B2 & B3 & B4 & B5 & B6 & B7).
      rewrite E, A7. split; [destruct save; [by rewrite A6|done]|]. split.
      - rewrite B1, A8, A6, app_length. lia.
      - split_and!; try done. rewrite B7, A6. unfold targets. lia. }
    assert (Hpp : length (pending (cc_push c)) = S (length (pending c))) by (change (pending (cc_push c)) with (pending c ++ [cc_next c]); rewrite app_length; cbn; lia).
    assert (Hbo : length (cc_bobs (cc_push c)) = S (length (pending c))) by (rewrite (iv_bobs _ (ci_inv _ Hcp)); exact Hpp).
    rewrite addImage_push by done. rewrite Hlim.
    assert (Hmod : (S (cc_next c) mod L =? 0) = (S (cc_num c) =? L)).
    { rewrite Hlen, Hnum. destruct (Nat.eqb_spec (S (length (pending c))) L) as [E|E].
      - apply Nat.eqb_eq. replace (S (length (cc_given c) * L + length (pending c))) with (S (length (cc_given c)) * L) by lia. apply Nat.mod_mul. lia.
      - apply Nat.eqb_neq. replace (S (length (cc_given c) * L + length (pending c))) with (S (length (pending c)) + length (cc_given c) * L) by lia.
        rewrite Nat.mod_add by lia. rewrite Nat.mod_small by lia. lia. }
    rewrite Hmod. destruct (Nat.eqb_spec (S (cc_num c)) L) as [E|E].
    + destruct (calm_process (cc_push c) (ci_out i) Hcp Hi) as (Q1 & Q2 & Q3). cbn [cc_batch cc_push] in Q3. destruct Q3 as [Q3 Q4].
      destruct (process_calm (cc_push c) (ci_out i) _ Hcp Hi eq_refl) as (P1 & P2 & P3 & P4 & P5 & P6).
      rewrite Q2. cbn [fst].
      apply Hstep; try done.
      * by rewrite P3.
      * by rewrite P4.
      * rewrite Q3. apply Forall_app. split; [done|]. apply List.Forall_cons; [|by apply List.Forall_nil]. rewrite app_length. cbn. lia.
      * unfold pending. rewrite Q4. cbn. lia.
      * rewrite P2, P5. destruct Hi as [-> | ->]; cbn [cc_last cc_push]; [|cbn [app cc_eobs cc_push]; rewrite Nat.eqb_refl; by destruct save].
        destruct save; [|done]. rewrite app_length. cbn [andb].
        rewrite Hbo.
        destruct (Nat.eqb_spec (S (length (pending c)) + length (cc_eobs (cc_push c))) (length (cc_eobs c))) as [X|X]; [cbn in X; lia|done].
      * rewrite P2, app_length. cbn [cc_eobs cc_push]. destruct Hi as [-> | ->]; cbn [length]; [|lia].
        rewrite Hbo. lia.
    + cbn [fst]. apply (Hstep (cc_push c) []); try done.
      * lia.
      * cbn [cc_eobs cc_push]. rewrite Nat.eqb_refl. by destruct save.
      * cbn [cc_eobs cc_push length]. lia.
Qed.
Lemma process_batch c out : cc_batch (cc_processBatch c out).1 = None <-> cc_batch c = None.
Proof.
  unfold cc_processBatch. destruct (cc_batch c) as [b|] eqn:E; [|cbn; rewrite E; done].
  destruct (est_addBatch _ _ _ _) as [[ip g] [[]|e| |]]; cbn; rewrite ?E; split; done.
Qed.
(** There is a batch as soon as the target has been seen. *)
Lemma batch_next ops : forall c, (cc_batch c = None <-> cc_next c = 0) -> (cc_batch (cc_run c ops) = None <-> cc_next (cc_run c ops) = 0).
Proof.
  induction ops as [|op ops IH]; intros c H; [done|]. change (cc_run c (op :: ops)) with (cc_run (cc_step c op) ops). apply IH.
  destruct op as [ok|det out|out|n]; cbn [cc_step]; [..|done].
  - unfold cc_initGeometry. destruct (cc_geom c); [done|]. by destruct ok.
  - destruct (cc_geom c) eqn:E; [|unfold cc_addImage; rewrite E; done].
    destruct det; [|unfold cc_addImage; rewrite E; done]. rewrite addImage_push by done. destruct (Nat.eqb _ _); cbn [fst].
    + rewrite process_batch. destruct (process_geom (cc_push c) out) as (_ & -> & _). cbn. split; [done|lia].
    + cbn. split; [done|lia].
  - rewrite process_batch. by destruct (process_geom c out) as (_ & -> & _).
Qed.
Lemma init_state L : let c := (cc_initGeometry (cc_new L) true).1 in
  calm_inv c /\ cc_geom c = true /\ cc_limit c = L /\ cc_given c = [] /\ pending c = [] /\ cc_next c = 0 /\ cc_batch c = None /\ cc_eobs c = [].
Proof. split; [apply (calm_step (cc_new L) (CInit true)); [done|apply calm_new]|]. done. Qed.

(** C110: if some image initialises the geometry and the estimator does not fail, the program ends normally; every image in which the target is found is given
    to the estimator once and in order, also the images before the one the geometry was initialised from; all batches but the last have [L] images and the last
    one has the rest. *)
Theorem cam_program_batches save L l last : 1 <= L -> Forall calm_image l -> last = Accepted \/ last = Rejected -> existsb ci_init l = true ->
  exists c fs, cam_program save L l last = (c, fs, Ret tt)
    /\ concat (cc_given c) = seq 0 (targets l)
    /\ (targets l = 0 -> cc_given c = [])
    /\ (0 < targets l -> exists full b, cc_given c = full ++ [b] /\ Forall (fun b => length b = L) full /\ length b = targets l mod L
          /\ length full = targets l / L)
    /\ fs = (if save then completing L 0 l else [])
    /\ length (cc_eobs c) = L * length (completing L 0 l) + (match last with Accepted => targets l mod L | _ => 0 end).
Proof.
  intros HL Hl Hlast Hi. unfold cam_program. rewrite cam_init_geom by done. rewrite Hi.
  destruct (init_state L) as (A1 & A2 & A3 & A4 & A5 & A6 & A7 & A8). set (c0 := (cc_initGeometry (cc_new L) true).1) in *.
  destruct (cam_loop_eq save L l HL c0 Hl A1 A2 A3) as (E & B1 & B2 & B3 & B4 & B5 & B6 & B7).
  { rewrite A4. apply List.Forall_nil. }
  { rewrite A5. cbn. lia. }
  rewrite E. set (c := cc_run c0 (cam_ops l)) in *. rewrite A6 in *. cbn [Nat.add] in B7.
  destruct (calm_process c last B2 Hlast) as (Q1 & Q2 & Q3).
  destruct (cc_processBatch c last) as [c' r] eqn:Ep. cbn [fst snd] in *. subst r.
  exists c', (if save then completing L 0 l else []). split; [done|].
  assert (Hlen : targets l = length (cc_given c) * L + length (pending c)).
  { pose proof (ci_all _ B2) as Ha. apply (f_equal length) in Ha. rewrite app_length, seq_length, (all_length L) in Ha by done. lia. }
  assert (Hmod : targets l mod L = length (pending c)).
  { rewrite Hlen, Nat.add_comm, Nat.mod_add by lia. apply Nat.mod_small. lia. }
  assert (Hdiv : targets l / L = length (cc_given c)).
  { rewrite Hlen, Nat.add_comm, Nat.div_add by lia. rewrite Nat.div_small by lia. lia. }
  pose proof (batch_next (cam_ops l) c0 (conj (fun _ => A6) (fun _ => A7))) as Hb. fold c in Hb. rewrite B7 in Hb.
  pose proof (ci_all _ B2) as Hall. rewrite B7 in Hall.
  destruct (cc_batch c) as [b|] eqn:Eb.
  - destruct Q3 as [Q3 Q4]. assert (Hp : pending c = b) by (unfold pending; by rewrite Eb). rewrite Hp in *.
    assert (Ht : targets l <> 0) by (intros X; apply Hb in X; discriminate X).
    destruct (process_calm c last b B2 Hlast Eb) as (_ & P2 & _). rewrite Ep in P2. cbn [fst] in P2.
    split; [rewrite Q3, concat_snoc; done|]. split; [done|]. split; [|split; [done|]].
    + intros _. exists (cc_given c), b. rewrite Hmod, Hdiv. done.
    + rewrite P2, app_length, B1, A8, Hmod. cbn [length]. pose proof (iv_bobs _ (ci_inv _ B2)) as Hbo. rewrite Hp in Hbo.
      destruct Hlast as [-> | ->]; cbn [length]; [rewrite Hbo|]; lia.
  - subst c'. assert (Ht : targets l = 0) by (by apply Hb). assert (Hp : pending c = []) by (unfold pending; by rewrite Eb).
    rewrite Hp, app_nil_r in Hall. rewrite Ht in *.
    assert (Hg : cc_given c = []) by (rewrite Hp in Hlen; cbn [length] in Hlen; destruct (cc_given c); [done|cbn in Hlen; nia]).
    split; [done|]. split; [done|]. split; [lia|]. split; [done|]. rewrite B1, A8. rewrite Nat.mod_0_l by lia. destruct last; cbn [length]; lia.
Qed.
(** An empty log ends normally without an estimate. *)
Theorem cam_program_empty save L last : cam_program save L [] last = (cc_new L, [], Ret tt).
Proof. done. Qed.
(** C110, refuted: when the number of targets is a positive multiple of the batch size, an empty batch is given to the estimator at the end. *)
Theorem cam_program_empty_batch_refuted save L l last : 1 <= L -> Forall calm_image l -> last = Accepted \/ last = Rejected -> existsb ci_init l = true ->
  0 < targets l -> targets l mod L = 0 -> exists c fs full, cam_program save L l last = (c, fs, Ret tt) /\ cc_given c = full ++ [[]].
Proof.
  intros HL Hl Hlast Hi Ht Hm. destruct (cam_program_batches save L l last HL Hl Hlast Hi) as (c & fs & E & _ & _ & H & _).
  destruct (H Ht) as (full & b & Hg & _ & Hb & _). rewrite Hm in Hb. destruct b; [|done]. eauto.
Qed.
(** C110, refuted: with batches of two or more images, the saved images are fewer than the images the estimate uses, as soon as it uses any. *)
Theorem cam_saved_images_refuted L l last : 2 <= L -> Forall calm_image l -> last = Accepted \/ last = Rejected -> existsb ci_init l = true ->
  exists c fs, cam_program true L l last = (c, fs, Ret tt) /\ (cc_eobs c <> [] -> length fs < length (cc_eobs c)).
Proof.
  intros HL Hl Hlast Hi. destruct (cam_program_batches true L l last ltac:(lia) Hl Hlast Hi) as (c & fs & E & _ & _ & _ & Hf & He).
  exists c, fs. split; [done|]. intros Hn. rewrite Hf, He. assert (length (cc_eobs c) <> 0) by (by destruct (cc_eobs c)). 
  rewrite He in H. nia.
Qed.
(** An estimator that fails in the loop ends the program: the exception leaves main and no calibration file is written. *)
Theorem cam_program_failure save L l1 i l2 last : 1 <= L -> Forall calm_image l1 -> existsb ci_init (l1 ++ i :: l2) = true ->
  ci_found i = true -> S (targets l1) mod L = 0 -> ci_out i = FailedIn \/ ci_out i = FailedOut ->
  exists c fs, cam_program save L (l1 ++ i :: l2) last = (c, fs, Throw External).
Proof.
  intros HL Hl Hi Hf Hm Ho. unfold cam_program. rewrite cam_init_geom by done. rewrite Hi.
  destruct (init_state L) as (A1 & A2 & A3 & A4 & A5 & A6 & A7 & A8). set (c0 := (cc_initGeometry (cc_new L) true).1) in *.
  destruct (cam_loop_eq save L l1 HL c0 Hl A1 A2 A3) as (E & B1 & B2 & B3 & B4 & B5 & B6 & B7).
  { rewrite A4. apply List.Forall_nil. }
  { rewrite A5. cbn. lia. }
  set (c := cc_run c0 (cam_ops l1)) in *. rewrite A6 in B7. cbn [Nat.add] in B7.
  assert (Hloop : forall t c0 c fs, cam_loop save c0 l1 = (c, fs, Ret tt) ->
    cam_loop save c0 (l1 ++ t) = (let '(c2, fs2, r) := cam_loop save c t in (c2, fs ++ fs2, r))).
  { clear. intros t. induction l1 as [|j l1 IH]; intros c0 c fs H.
    - cbn in H. injection H as <- <-. cbn [app]. by destruct (cam_loop save c0 t) as [[? ?] ?].
    - cbn [cam_loop app] in *. destruct (cc_addImage c0 (ci_found j) (ci_out j)) as [c1 [b|e| |]]; try discriminate H.
      destruct (cam_loop save c1 l1) as [[c2 fs2] r] eqn:E2. injection H as <- <- ->.
      rewrite (IH c1 c2 fs2 E2). destruct (cam_loop save c2 t) as [[c3 fs3] r3]. by rewrite app_assoc. }
  rewrite (Hloop _ _ _ _ E). cbn [cam_loop]. rewrite Hf, addImage_push by done. rewrite B4.
  assert (Hlen : targets l1 = length (cc_given c) * L + length (pending c)).
  { pose proof (ci_all _ B2) as Ha. apply (f_equal length) in Ha. rewrite app_length, seq_length, (all_length L) in Ha by done. lia. }
  pose proof (iv_num _ (ci_inv _ B2)) as Hnum.
  assert (Hn : S (cc_num c) = L).
  { rewrite Hlen in Hm. replace (S (length (cc_given c) * L + length (pending c))) with (S (length (pending c)) + length (cc_given c) * L) in Hm by lia.
    rewrite Nat.mod_add in Hm by lia. destruct (decide (S (length (pending c)) < L)); [rewrite Nat.mod_small in Hm by lia; lia|lia]. }
  rewrite (proj2 (Nat.eqb_eq _ _) Hn).
  assert (Hp : exists c', cc_processBatch (cc_push c) (ci_out i) = (c', Throw External)).
  { pose proof (ci_ip _ (calm_push c B2)) as Hip. unfold cc_processBatch. change (cc_batch (cc_push c)) with (Some (pending c ++ [cc_next c])). cbn iota.
    unfold est_addBatch. rewrite Hip. cbn [andb]. destruct Ho as [-> | ->]; eauto. }
  destruct Hp as [c' ->]. cbn [fst snd]. eauto.
Qed.

(** If the estimator fails for the last batch, the program fails too, and does not go on to write a calibration file: as soon as the target was found in
    some image there is a last batch, possibly an empty one. *)
Theorem cam_program_last_failure save L l last : 1 <= L -> Forall calm_image l -> existsb ci_init l = true -> 0 < targets l ->
  last = FailedIn \/ last = FailedOut -> exists c fs, cam_program save L l last = (c, fs, Throw External).
Proof.
  intros HL Hl Hi Ht Hlast. unfold cam_program. rewrite cam_init_geom by done. rewrite Hi.
  destruct (init_state L) as (A1 & A2 & A3 & A4 & A5 & A6 & A7 & A8). set (c0 := (cc_initGeometry (cc_new L) true).1) in *.
  destruct (cam_loop_eq save L l HL c0 Hl A1 A2 A3) as (E & B1 & B2 & B3 & B4 & B5 & B6 & B7).
  { rewrite A4. apply List.Forall_nil. }
  { rewrite A5. cbn. lia. }
  rewrite E. set (c := cc_run c0 (cam_ops l)) in *.
  pose proof (batch_next (cam_ops l) c0 (conj (fun _ => A6) (fun _ => A7))) as Hb. fold c in Hb. rewrite B7, A6 in Hb. cbn [Nat.add] in Hb.
  destruct (cc_batch c) as [b|] eqn:Eb; [|exfalso; assert (X : targets l = 0) by (by apply Hb); lia].
  assert (Hp : exists c', cc_processBatch c last = (c', Throw External)).
  { pose proof (ci_ip _ B2) as Hip. unfold cc_processBatch. rewrite Eb. unfold est_addBatch. rewrite Hip. cbn [andb]. destruct Hlast as [-> | ->]; eauto. }
  destruct Hp as [c' ->]. eauto.
Qed.

(** Example: batches of two images; the geometry comes from the third image, the first image counts all the same. *)
Example cam_program_example :
  let l := [CImg false true Accepted 10; CImg false false Accepted 20; CImg true true Accepted 30; CImg true true Rejected 40] in
  let '(c, fs, r) := cam_program true 2 l Accepted in
  r = Ret tt /\ cc_given c = [[0; 1]; [2]] /\ fs = [(30%Z, Some 1)] /\ length (cc_eobs c) = 3.
Proof. vm_compute. split_and!; reflexivity. Qed.
Example cam_program_batches_example :
  Forall calm_image [CImg false true Accepted 10; CImg true true Rejected 30] /\ existsb ci_init [CImg false true Accepted 10; CImg true true Rejected 30] = true.
Proof. split; [|done]. repeat (apply List.Forall_cons; [by (left + right)|]). apply List.Forall_nil. Qed.
Print Assumptions cam_program_batches.
Print Assumptions cam_program_failure.
Example cam_program_last_failure_example :
  let l := [CImg true true Accepted 10; CImg true true Accepted 20] in
  Forall calm_image l /\ existsb ci_init l = true /\ 0 < targets l /\ (cam_program false 2 l FailedOut).2 = Throw External.
Proof. split; [repeat (apply List.Forall_cons; [by (left + right)|]); apply List.Forall_nil|]. split; [done|]. split; [vm_compute; lia|]. vm_compute. reflexivity. Qed.
Print Assumptions cam_program_last_failure.
