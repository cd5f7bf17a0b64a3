(** C115: the camera validation program. *)
From stdpp Require Import prelude list.
From Coq Require Import Reals.
From Verif Require Import Base CameraModel Spec_Camera Properties_CameraValidator ValidatorModel.
Local Open Scope R_scope.

(** The observation in the last image up to and including position [i] in which the target was found. *)
Definition found_in (i : vimage) : option obs := match vi_det i with Some (o, _) => Some o | None => None end.
Definition latest (l : list vimage) (i : nat) : option obs := last (omap found_in (take (S i) l)).

Lemma images_obs_omap l : images_obs (map vi_det l) = omap found_in l.
Proof. induction l as [|[st [[o ks]|]] l IH]; [done| |]; cbn; unfold images_obs in IH; by rewrite IH. Qed.
Lemma run_snoc sigma2 l (i : image) : cvl_run sigma2 (l ++ [i]) = (cvl_addImage (cvl_run sigma2 l) i).1.
Proof. unfold cvl_run. by rewrite fold_left_app. Qed.
Lemma last_obs sigma2 l : last (cvl_obs (cvl_run sigma2 (map vi_det l))) = last (omap found_in l).
Proof. destruct (validator_history sigma2 (map vi_det l)) as (_ & _ & _ & _ & ->). by rewrite images_obs_omap. Qed.

(** What is shown and saved after the images [l]. *)
Definition shown_of (l : list vimage) : list obs := omap (fun i => latest l i) (seq 0 (length l)).
Definition files_of (l : list vimage) : list (Z * obs) :=
  omap (fun i => match l !! i, latest l i with Some im, Some o => Some (vi_stamp im, o) | _, _ => None end) (seq 0 (length l)).
Lemma latest_app l l' i : (i < length l)%nat -> latest (l ++ l') i = latest l i.
Proof. intros H. unfold latest. rewrite take_app_le by lia. done. Qed.
Lemma omap_ext_in {A B} (f g : A -> option B) (l : list A) : (forall x, x ∈ l -> f x = g x) -> omap f l = omap g l.
Proof.
  intros H. induction l as [|x l IH]; [done|]. change (omap f (x :: l)) with (match f x with Some y => y :: omap f l | None => omap f l end).
  change (omap g (x :: l)) with (match g x with Some y => y :: omap g l | None => omap g l end).
  rewrite (H x) by left. rewrite IH; [done|]. intros y Hy. apply H. by right.
Qed.
Lemma latest_end l i : latest (l ++ [i]) (length l) = last (omap found_in (l ++ [i])).
Proof. unfold latest. rewrite firstn_all2; [done|]. rewrite app_length. cbn. lia. Qed.
Lemma shown_snoc l i : shown_of (l ++ [i]) = shown_of l ++ match last (omap found_in (l ++ [i])) with Some o => [o] | None => [] end.
Proof.
  unfold shown_of. rewrite app_length. cbn [length]. rewrite seq_app, omap_app. cbn [Nat.add seq]. f_equal.
  - apply omap_ext_in. intros k Hk%elem_of_seq. apply latest_app. lia.
  - change (omap (fun i0 => latest (l ++ [i]) i0) [length l]) with (match latest (l ++ [i]) (length l) with Some y => [y] | None => [] end). by rewrite latest_end.
Qed.
Lemma files_snoc l i : files_of (l ++ [i]) = files_of l ++ match last (omap found_in (l ++ [i])) with Some o => [(vi_stamp i, o)] | None => [] end.
Proof.
  unfold files_of. rewrite app_length. cbn [length]. rewrite seq_app, omap_app. cbn [Nat.add seq]. f_equal.
  - apply omap_ext_in. intros k Hk%elem_of_seq. rewrite lookup_app_l by lia. rewrite latest_app by lia. done.
  - set (f := fun i0 : nat => _). change (omap f [length l]) with (match f (length l) with Some y => [y] | None => [] end). unfold f.
    rewrite list_lookup_middle by done. rewrite latest_end. by destruct (last _).
Qed.

Definition normal_state (vis save : bool) (sigma2 : R) (l : list vimage) : vrun :=
  VRun (cvl_run sigma2 (map vi_det l)) (if vis then shown_of l else []) (if vis && save then files_of l else []).
Lemma v_image_normal vis save ew sigma2 l i :
  v_image vis save ew (normal_state vis save sigma2 l) i =
    (normal_state vis save sigma2 (l ++ [i]), if vis && save && negb (bool_decide (is_Some (last (omap found_in (l ++ [i]))))) then ew else Ret tt).
Proof.
  unfold v_image, normal_state. cbn [vr_val vr_shown vr_files]. rewrite <-run_snoc.
  change (map vi_det l ++ [vi_det i]) with (map vi_det l ++ map vi_det [i]). rewrite <-map_app. rewrite last_obs.
  rewrite shown_snoc, files_snoc.
  destruct vis, save; cbn [andb]; destruct (last (omap found_in (l ++ [i]))) as [o|] eqn:E; rewrite ?app_nil_r; try done.
Qed.
Lemma v_loop_normal vis save ew sigma2 l2 : forall l1,
  (vis && save = true -> forall k, (length l1 <= k < length (l1 ++ l2))%nat -> is_Some (latest (l1 ++ l2) k) \/ ew = Ret tt) ->
  v_loop vis save ew (normal_state vis save sigma2 l1) l2 = (normal_state vis save sigma2 (l1 ++ l2), Ret tt).
Proof.
  induction l2 as [|i l2 IH]; intros l1 H; [by rewrite app_nil_r|]. cbn [v_loop]. rewrite v_image_normal.
  assert (Hr : (if vis && save && negb (bool_decide (is_Some (last (omap found_in (l1 ++ [i]))))) then ew else Ret tt) = Ret tt).
  { destruct (vis && save) eqn:Ev; [|done]. cbn [andb]. case_bool_decide as D; [done|]. cbn.
    destruct (H eq_refl (length l1)) as [Hs| ->]; [rewrite app_length; cbn; lia| |done]. destruct D.
    change (l1 ++ i :: l2) with (l1 ++ [i] ++ l2) in Hs. rewrite app_assoc, latest_app, latest_end in Hs; [done|]. rewrite app_length. cbn. lia. }
  rewrite Hr. rewrite IH; [by rewrite <-app_assoc|]. rewrite <-app_assoc. intros Hv k Hk. apply H; [done|]. rewrite app_length in Hk. cbn in Hk. lia.
Qed.

(** C115.  Unless an image has to be saved before the target was seen once: every image of the log is compared; the report covers all comparable corners of all
    images with a target, in order; the saved image of each time stamp shows the latest image in which the target was found. *)
Theorem validator_program vis save output ew sigma2 q (l : list vimage) :
  (vis && save = true -> (forall i, l !! 0%nat = Some i -> is_Some (vi_det i)) \/ ew = Ret tt) ->
  exists s rep, v_program vis save output ew sigma2 q l = (s, Ret rep) /\
    let errors := images_errors (map vi_det l) in
    is_max_abs (map fst errors) (rp_max rep).1 /\ is_max_abs (map snd errors) (rp_max rep).2 /\
    (0 < sigma2 -> rp_outliers rep = length (List.filter (fun e => if Rlt_dec (q * sigma2) (e.1 * e.1 + e.2 * e.2) then true else false) errors)) /\
    (output = true -> rp_errors rep = errors /\ rp_md2 rep = map (fun e => (e.1 * e.1 + e.2 * e.2) / sigma2) errors) /\
    (output = false -> rp_errors rep = [] /\ rp_md2 rep = []) /\
    (forall st o, (st, o) ∈ vr_files s <-> vis = true /\ save = true /\ exists k i, l !! k = Some i /\ vi_stamp i = st /\ latest l k = Some o) /\
    ((forall i, l !! 0%nat = Some i -> is_Some (vi_det i)) ->
       map fst (vr_files s) = (if vis && save then map vi_stamp l else []) /\ length (vr_shown s) = (if vis then length l else 0%nat) /\
       (vis = true -> forall k, (k < length l)%nat -> vr_shown s !! k = latest l k)).
Proof.
  intros H. unfold v_program. change (VRun (cvl_new sigma2) [] []) with (VRun (cvl_run sigma2 (map vi_det [])) [] []).
  assert (E0 : VRun (cvl_run sigma2 (map vi_det [])) [] [] = normal_state vis save sigma2 []) by (unfold normal_state; destruct vis, save; done).
  assert (Hfirst : (forall i, l !! 0%nat = Some i -> is_Some (vi_det i)) -> forall k, (k < length l)%nat -> is_Some (latest l k)).
  { intros Hf k Hk. destruct l as [|i l']; [cbn in Hk; lia|]. destruct (Hf i eq_refl) as [[o ks] Ho].
    unfold latest. cbn [take]. change (omap found_in (i :: take k l')) with (match found_in i with Some y => y :: omap found_in (take k l') | None => omap found_in (take k l') end).
    unfold found_in at 1. rewrite Ho. rewrite last_cons. destruct (last (omap found_in (take k l'))); eauto. }
  rewrite E0, v_loop_normal.
  2:{ cbn [length app]. intros Hv k Hk. destruct (H Hv) as [Hf| ->]; [|by right]. left. apply Hfirst; [done|lia]. }
  change ([] ++ l) with l. eexists _, _. split; [done|]. cbn [normal_state vr_val vr_files vr_shown rp_max rp_outliers rp_errors rp_md2].
  destruct (validator_history sigma2 (map vi_det l)) as (H1 & H2 & H3 & H4 & H5). cbv zeta in *. rewrite H1 in H2, H3, H4.
  split_and!.
  - exact H3.
  - exact H4.
  - intros Hs. rewrite validator_outliers by done. done.
  - intros ->. rewrite H1, H2. done.
  - by intros ->.
  - intros st o. unfold files_of. destruct vis, save; cbn [andb]; try (split; [intros Hin; by apply elem_of_nil in Hin|by intros (? & ? & _)]).
    rewrite elem_of_list_omap. split.
    + intros (k & Hk%elem_of_seq & He). split_and!; try done. destruct (l !! k) as [i|] eqn:Ei; [|done]. destruct (latest l k) as [o'|] eqn:Eo; [|done].
      injection He as <- <-. eauto.
    + intros (_ & _ & k & i & Hk & <- & Hl). exists k. split; [apply elem_of_seq; apply lookup_lt_Some in Hk; lia|]. by rewrite Hk, Hl.
  - intros Hf. specialize (Hfirst Hf). split.
    + destruct (vis && save); [|done]. unfold files_of. apply list_eq. intros n.
      assert (G : forall l0 m, (forall k, (m <= k < m + length l0)%nat -> is_Some (latest l k) /\ l !! k = l0 !! (k - m)%nat) ->
                map fst (omap (fun i => match l !! i, latest l i with Some im, Some o => Some (vi_stamp im, o) | _, _ => None end) (seq m (length l0))) = map vi_stamp l0).
      { induction l0 as [|x l0 IH]; intros m Hk; [done|]. cbn [length seq map]. set (f := fun i : nat => _) in *.
        change (omap f (m :: seq (S m) (length l0))) with (match f m with Some y => y :: omap f (seq (S m) (length l0)) | None => omap f (seq (S m) (length l0)) end).
        destruct (Hk m) as [[o Ho] Hx]; [cbn; lia|]. unfold f at 1. rewrite Hx, Ho, Nat.sub_diag. cbn [lookup list_lookup map fst]. f_equal. apply IH.
        intros k Hk'. destruct (Hk k) as [Ha Hb]; [cbn; lia|]. split; [done|]. rewrite Hb. replace (k - m)%nat with (S (k - S m)) by lia. done. }
      rewrite (G l 0%nat); [done|]. intros k Hk. rewrite Nat.sub_0_r. split; [apply Hfirst; lia|done].
    + destruct vis; [|done]. unfold shown_of.
      assert (G : forall n m, (m + n <= length l)%nat -> length (omap (fun i => latest l i) (seq m n)) = n /\
                   forall k, (k < n)%nat -> omap (fun i => latest l i) (seq m n) !! k = latest l (m + k)).
      { induction n as [|n IH]; intros m Hm; [split; [done|lia]|]. cbn [seq]. set (f := fun i : nat => latest l i) in *.
        change (omap f (m :: seq (S m) n)) with (match f m with Some y => y :: omap f (seq (S m) n) | None => omap f (seq (S m) n) end).
        destruct (Hfirst m) as [o Ho]; [lia|]. destruct (IH (S m)) as [IH1 IH2]; [lia|]. rewrite Ho. cbn [length]. rewrite IH1. split; [done|].
        intros [|k] Hk; [by rewrite Nat.add_0_r, Ho|]. cbn [lookup list_lookup]. rewrite IH2 by lia. f_equal. lia. }
      destruct (G (length l) 0%nat) as [G1 G2]; [lia|]. split; [done|]. intros _. exact G2.
Qed.
Print Assumptions validator_program.

(** C115, refuted: "a saved image shows the image of its time stamp": an image without the target is saved as a copy of an older one. *)
Theorem validator_stale_image_refuted output ew sigma2 q l1 i o ks j l2 :
  vi_det i = Some (o, ks) -> vi_det j = None -> (forall x, (l1 ++ i :: j :: l2) !! 0%nat = Some x -> is_Some (vi_det x)) ->
  exists s rep, v_program true true output ew sigma2 q (l1 ++ i :: j :: l2) = (s, Ret rep) /\ (vi_stamp j, o) ∈ vr_files s.
Proof.
  intros Hi Hj Hf. destruct (validator_program true true output ew sigma2 q (l1 ++ i :: j :: l2)) as (s & rep & E & _ & _ & _ & _ & _ & Hfiles & _).
  { intros _. by left. }
  exists s, rep. split; [done|]. apply Hfiles. split_and!; try done. exists (S (length l1)), j. split_and!; [|done|].
  - rewrite lookup_app_r by lia. by replace (S (length l1) - length l1)%nat with 1%nat by lia.
  - unfold latest. change (l1 ++ i :: j :: l2) with (l1 ++ [i; j] ++ l2). rewrite app_assoc. rewrite take_app_alt by (rewrite app_length; cbn; lia).
    rewrite omap_app. change (omap found_in [i; j]) with (match found_in i with Some y => y :: omap found_in [j] | None => omap found_in [j] end).
    unfold found_in at 2. rewrite Hi. change (omap found_in [j]) with (match found_in j with Some y => [y] | None => [] end). unfold found_in at 2. rewrite Hj.
    by rewrite last_snoc.
Qed.
Print Assumptions validator_stale_image_refuted.
(** C115, refuted: "the program reports the errors of the log": with images to be saved and a log that does not begin with the target, an image writer that
    throws for an empty image ends the program without any report. *)
Theorem validator_first_image_refuted output e sigma2 q i l :
  vi_det i = None -> exists s, v_program true true output (Throw e) sigma2 q (i :: l) = (s, Throw e) /\ vr_files s = [].
Proof.
  intros Hi. unfold v_program. cbn [v_loop]. unfold v_image. rewrite Hi. cbn. eexists. split; [done|done].
Qed.
Print Assumptions validator_first_image_refuted.
(** C115: without visualization nothing is saved, whatever saveImages says (part of [validator_program]); a non-trivial run: *)
Example validator_program_case :
  let l := [VImg 10 (Some (1%nat, [(Some (0, 0), Some (1, 2))])); VImg 20 None; VImg 30 (Some (3%nat, []))] in
  vr_files (fst (v_program true true true (Throw External) 1 1 l)) = [(10%Z, 1%nat); (20%Z, 1%nat); (30%Z, 3%nat)].
Proof. done. Qed.
