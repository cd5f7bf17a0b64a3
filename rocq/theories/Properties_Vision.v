(** C53, C80: vision data association. *)
From stdpp Require Import prelude list.
From Coq Require Import Reals Lra Lia.
From Verif Require Import Base VisionModel.
Local Open Scope R_scope.

(** ** Specification *)
(** The frame an id stands for. *)
Definition lookup_frame (v : vision) (id : Z) : option nat :=
  (fun e => fr_uid e.2) <$> List.find (fun e => Z.eqb e.1 id) (vi_frames v).
(** A match says what was matched: both its ids lead to the frames that were compared. *)
Definition to_ok (v : vision) (m : vmatch) : Prop := lookup_frame v (m_b m) = Some (m_to m).
Definition from_ok (v : vision) (m : vmatch) : Prop := lookup_frame v (m_a m) = Some (m_from m).
Definition stored (v : vision) (uid : nat) : Prop := exists e, e ∈ vi_frames v /\ fr_uid e.2 = uid.
(** The objects delivered by the pipeline are different ones. *)
Definition uids (ops : list vop) : list nat := flat_map (fun op => match op with VImage (Some d) => [p_uid d] | _ => [] end) ops.

Local Arguments vi_addImage : simpl never.
(** ** Sorting *)
Lemma insert_perm x l : insert_sorted x l ≡ₚ x :: l.
Proof. induction l as [|y l IH]; simpl; [done|]. destruct (Rle_dec x y); [done|]. rewrite IH. apply Permutation_swap. Qed.
Lemma sort_perm l : sort l ≡ₚ l.
Proof. induction l as [|x l IH]; simpl; [done|]. by rewrite insert_perm, IH. Qed.
Inductive ascending : list R -> Prop :=
| asc_nil : ascending []
| asc_cons x l : (forall y, y ∈ l -> x <= y) -> ascending l -> ascending (x :: l).
Lemma insert_ascending x l : ascending l -> ascending (insert_sorted x l).
Proof.
  induction 1 as [|y l Hy Hl IH]; simpl; [constructor; [intros y Hy; inversion Hy|constructor]|].
  destruct (Rle_dec x y) as [Hxy|Hxy].
  - constructor; [|by constructor]. intros z Hz. apply elem_of_cons in Hz as [->|Hz]; [lra|]. specialize (Hy z Hz). lra.
  - constructor; [|done]. intros z Hz. rewrite insert_perm in Hz. apply elem_of_cons in Hz as [->|Hz]; [lra|auto].
Qed.
Lemma sort_ascending l : ascending (sort l).
Proof. induction l as [|x l IH]; simpl; [constructor|by apply insert_ascending]. Qed.
Definition at_most (t : R) (l : list R) : nat := length (List.filter (fun x => if Rle_dec x t then true else false) l).
Lemma at_most_perm t l l' : l ≡ₚ l' -> at_most t l = at_most t l'.
Proof. unfold at_most. induction 1; simpl; [done|..]; repeat (destruct (Rle_dec _ _)); simpl; congruence || lia. Qed.
Lemma at_most_zero t l : (forall y, y ∈ l -> t < y) -> at_most t l = 0%nat.
Proof.
  induction l as [|x l IH]; intros H; [done|]. unfold at_most in *. simpl. destruct (Rle_dec x t) as [Hx|Hx].
  - specialize (H x (elem_of_list_here _ _)). lra.
  - apply IH. intros y Hy. apply H. by right.
Qed.
Lemma ascending_lookup t l k x : ascending l -> l !! k = Some x -> (t < x <-> (at_most t l <= k)%nat).
Proof.
  intros Ha. revert k x. induction Ha as [|y l Hy Hl IH]; intros k x Hk; [done|].
  destruct k as [|k]; simpl in Hk.
  - injection Hk as ->. split.
    + intros Ht. rewrite at_most_zero; [lia|]. intros z Hz. apply elem_of_cons in Hz as [->|Hz]; [done|]. specialize (Hy z Hz). lra.
    + unfold at_most. simpl. destruct (Rle_dec x t) as [Hx|Hx]; [simpl; lia|]. intros _. lra.
  - specialize (IH k x Hk). unfold at_most in *. simpl. destruct (Rle_dec y t) as [Hyt|Hyt]; simpl; [rewrite IH; lia|].
    split; [intros Ht; apply IH in Ht; lia|]. intros _. specialize (Hy x (elem_of_list_lookup_2 _ _ _ Hk)). lra.
Qed.

(** * C80: when a frame is kept *)
(** With a previous frame: a frame is stored exactly if there are more tracks than the required number and at most half of
    them (rounded down) have a disparity not above the threshold; the previous frame changes exactly if the frame is stored
    or there are too few tracks. *)
Theorem keyframe_criterion v d p : vi_prev v = Some p -> p_disparities d <> [] ->
  let r := vi_addImage v (Some d) in
  let enough := (vi_num_thr v < Z.of_nat (length (p_disparities d)))%Z in
  let moved := (at_most (vi_disp_thr v) (p_disparities d) <= length (p_disparities d) / 2)%nat in
  r.2 = Ret tt
  /\ (enough /\ moved -> vi_prev r.1 = Some (Frame (p_uid d) (vi_next v)) /\ vi_next r.1 = (vi_next v + 1)%Z
        /\ lookup_frame r.1 (vi_next v) = Some (p_uid d)
        /\ length (vi_matches r.1) = (length (vi_matches v) + length (p_disparities d) + p_ofov d)%nat)
  /\ (enough /\ ~ moved -> r.1 = v)
  /\ (~ enough -> vi_frames r.1 = vi_frames v /\ vi_matches r.1 = vi_matches v /\ vi_next r.1 = vi_next v
        /\ vi_prev r.1 = Some (Frame (p_uid d) (p_id d))).
Proof.
  intros Hp Hd r enough moved. unfold r, vi_addImage. rewrite Hp, repeat_length.
  destruct (Z.ltb_spec (vi_num_thr v) (Z.of_nat (length (p_disparities d)))) as [He|He].
  2:{ split; [done|]. split; [unfold enough; lia|]. split; [unfold enough; lia|]. done. }
  assert (Hlen : length (sort (p_disparities d)) = length (p_disparities d)) by (by rewrite sort_perm).
  destruct (lookup_lt_is_Some_2 (sort (p_disparities d)) (length (p_disparities d) / 2)) as [x Hx].
  { rewrite Hlen. apply Nat.div_lt; [|lia]. destruct (p_disparities d); [done|simpl; lia]. }
  rewrite Hx. pose proof (ascending_lookup (vi_disp_thr v) _ _ _ (sort_ascending _) Hx) as Hm.
  rewrite (at_most_perm _ _ _ (sort_perm _)) in Hm. fold moved in Hm.
  destruct (Rlt_dec (vi_disp_thr v) x) as [Ht|Ht].
  - split; [done|]. split; [intros _|split; [intros [_ Hn]; exfalso; apply Hn, Hm, Ht|unfold enough; lia]].
    cbn [fst vi_ofov vi_prev vi_next vi_frames vi_matches]. split; [done|]. split; [done|]. split.
    + unfold lookup_frame, frames_set. cbn [vi_frames vi_ofov].
      assert (Hfind : forall l : list (Z * frame), List.find (fun e => Z.eqb e.1 (vi_next v)) (List.filter (fun e => negb (Z.eqb e.1 (vi_next v))) l ++ [(vi_next v, Frame (p_uid d) (vi_next v))]) = Some (vi_next v, Frame (p_uid d) (vi_next v))).
      { induction l as [|e l IH]; simpl; [by rewrite Z.eqb_refl|]. destruct (Z.eqb e.1 (vi_next v)) eqn:E; simpl; [exact IH|]. rewrite E. exact IH. }
      by rewrite Hfind.
    + rewrite !app_length, !repeat_length. lia.
  - split; [done|]. split; [intros [_ Hn]; exfalso; apply Ht, Hm, Hn|]. split; [done|unfold enough; lia].
Qed.
(** Without a previous frame the first complete frame becomes the reference and nothing else happens; an image that does not
    complete a frame does nothing. *)
Theorem first_frame v d : vi_prev v = None ->
  vi_addImage v (Some d) = (Vision (vi_next v) (Some (Frame (p_uid d) (p_id d))) (vi_frames v) (vi_matches v) (vi_disp_thr v) (vi_num_thr v), Ret tt).
Proof. intros H. unfold vi_addImage. by rewrite H. Qed.
Theorem incomplete_frame v : vi_addImage v None = (v, Ret tt).
Proof. done. Qed.
(** The call is undefined exactly if there is a previous frame, no track, and the required number is negative. *)
Theorem no_tracks_undefined v d : (vi_addImage v (Some d)).2 = UB <->
  vi_prev v <> None /\ p_disparities d = [] /\ (vi_num_thr v < 0)%Z.
Proof.
  unfold vi_addImage. destruct (vi_prev v) as [p|] eqn:Ep; [|split; [done|intros [? _]; done]]. rewrite repeat_length.
  destruct (Z.ltb_spec (vi_num_thr v) (Z.of_nat (length (p_disparities d)))) as [He|He].
  - destruct (p_disparities d) as [|x l] eqn:El.
    + simpl in *. split; [intros _; split_and!; [done|done|lia]|done].
    + rewrite <-El in *. assert (Hn : p_disparities d <> []) by (rewrite El; done).
      destruct (keyframe_criterion v d p Ep Hn) as [Hr _]. unfold vi_addImage in Hr. rewrite Ep, repeat_length in Hr.
      rewrite (proj2 (Z.ltb_lt _ _) He) in Hr. rewrite Hr. split; [done|]. intros (_ & ? & _). done.
  - split; [done|]. intros (_ & Hn & Hneg). rewrite Hn in He. simpl in He. lia.
Qed.

(** * C53: ids and matches *)
Record vinv (v : vision) (seen : list nat) : Prop := {
  vv_pos : (0 <= vi_next v)%Z;
  vv_keys : Forall (fun e => (0 <= e.1 < vi_next v)%Z /\ fr_id e.2 = e.1 /\ fr_uid e.2 ∈ seen) (vi_frames v);
  vv_sorted : forall i j a b, (i < j)%nat -> vi_frames v !! i = Some a -> vi_frames v !! j = Some b -> (a.1 < b.1)%Z;
  vv_prev : forall p, vi_prev v = Some p -> fr_uid p ∈ seen;
  vv_match : Forall (fun m => to_ok v m) (vi_matches v)
}.
Lemma find_app {A} f (l1 l2 : list A) : List.find f (l1 ++ l2) = match List.find f l1 with Some x => Some x | None => List.find f l2 end.
Proof. induction l1 as [|x l1 IH]; simpl; [done|]. by destruct (f x). Qed.
Lemma find_none_keys (l : list (Z * frame)) k : (forall e, e ∈ l -> e.1 <> k) -> List.find (fun e => Z.eqb e.1 k) l = None.
Proof.
  induction l as [|e l IH]; intros H; simpl; [done|]. destruct (Z.eqb_spec e.1 k) as [He|He].
  - by destruct (H e (elem_of_list_here _ _)).
  - apply IH. intros e' He'. apply H. by right.
Qed.
Lemma filter_keys (l : list (Z * frame)) k : (forall e, e ∈ l -> e.1 <> k) -> List.filter (fun e => negb (Z.eqb e.1 k)) l = l.
Proof.
  induction l as [|e l IH]; intros H; simpl; [done|]. destruct (Z.eqb_spec e.1 k) as [He|He].
  - by destruct (H e (elem_of_list_here _ _)).
  - simpl. rewrite IH; [done|]. intros e' He'. apply H. by right.
Qed.
(** The three ways an image can change the state. *)
Lemma addImage_cases v d : let v' := (vi_addImage v (Some d)).1 in
  v' = v \/ v' = Vision (vi_next v) (Some (Frame (p_uid d) (p_id d))) (vi_frames v) (vi_matches v) (vi_disp_thr v) (vi_num_thr v)
  \/ exists p, vi_prev v = Some p /\
     v' = Vision (vi_next v + 1) (Some (Frame (p_uid d) (vi_next v))) (frames_set (vi_frames v) (vi_next v) (Frame (p_uid d) (vi_next v)))
          ((vi_matches v ++ repeat (VMatch (fr_id p) (vi_next v) (fr_uid p) (p_uid d)) (length (p_disparities d)))
             ++ repeat (VMatch (vi_next v) (vi_next v) (p_uid d) (p_uid d)) (p_ofov d)) (vi_disp_thr v) (vi_num_thr v).
Proof.
  intros v'. unfold v', vi_addImage. destruct (vi_prev v) as [p|] eqn:Ep; [|by right; left].
  destruct (Z.ltb _ _); [|by right; left]. destruct (sort (p_disparities d) !! _); [|by left].
  destruct (Rlt_dec _ _); [|by left]. right. right. exists p. done.
Qed.
Lemma lookup_grow v v' k f id u : vi_frames v' = vi_frames v ++ [(k, f)] -> lookup_frame v id = Some u -> lookup_frame v' id = Some u.
Proof.
  intros Hf. unfold lookup_frame. rewrite Hf, find_app. destruct (List.find _ (vi_frames v)); done.
Qed.
Lemma lookup_new v v' k f : vi_frames v' = vi_frames v ++ [(k, f)] -> (forall e, e ∈ vi_frames v -> e.1 <> k) -> lookup_frame v' k = Some (fr_uid f).
Proof. intros Hf Hk. unfold lookup_frame. rewrite Hf, find_app, find_none_keys by done. simpl. by rewrite Z.eqb_refl. Qed.
Lemma keys_new v seen : vinv v seen -> forall e, e ∈ vi_frames v -> e.1 <> vi_next v.
Proof. intros H e He. pose proof (vv_keys _ _ H) as Hk. rewrite Forall_forall in Hk. destruct (Hk e He) as [? _]. lia. Qed.
Lemma inv_image v seen d : vinv v seen -> vinv (vi_addImage v (Some d)).1 (seen ++ [p_uid d]).
Proof.
  intros H. pose proof (keys_new v seen H) as Hkn. destruct H as [H1 H2 H3 H4 H5].
  assert (H2' : Forall (fun e => (0 <= e.1 < vi_next v)%Z /\ fr_id e.2 = e.1 /\ fr_uid e.2 ∈ seen ++ [p_uid d]) (vi_frames v)).
  { eapply Forall_impl; [exact H2|]. cbv beta. intros e (? & ? & ?). set_solver. }
  destruct (addImage_cases v d) as [E|[E|(p & Ep & E)]]; rewrite E.
  - split; try done. intros p Hp. specialize (H4 p Hp). set_solver.
  - split; cbn [vi_next vi_prev vi_frames vi_matches]; try done. intros p [= <-]. cbn [fr_uid]. set_solver.
  - clear E. assert (Hs : frames_set (vi_frames v) (vi_next v) (Frame (p_uid d) (vi_next v)) = vi_frames v ++ [(vi_next v, Frame (p_uid d) (vi_next v))]).
    { unfold frames_set. by rewrite filter_keys. }
    rewrite Hs. split; cbn [vi_next vi_prev vi_frames vi_matches].
    + lia.
    + apply Forall_app. split.
      * eapply Forall_impl; [exact H2'|]. cbv beta. intros e (? & ? & ?). split; [lia|done].
      * apply Forall_cons. split; [|constructor]. simpl. split; [lia|]. split; [done|]. set_solver.
    + intros i j a b Hij Ha Hb. apply lookup_app_Some in Hb as [Hb|[Hjl Hb]].
      * apply (H3 i j); [done| |done]. rewrite lookup_app_l in Ha; [done|]. apply lookup_lt_Some in Hb. lia.
      * apply list_lookup_singleton_Some in Hb as [Hj <-]. rewrite lookup_app_l in Ha by lia.
        rewrite Forall_forall in H2. destruct (H2 a (elem_of_list_lookup_2 _ _ _ Ha)) as [? _]. simpl. lia.
    + intros q [= <-]. cbn [fr_uid]. set_solver.
    + rewrite Forall_app, Forall_app. split; [split|].
      * eapply Forall_impl; [exact H5|]. intros m Hm. eapply lookup_grow; [|exact Hm]. reflexivity.
      * apply Forall_forall. intros m Hm. apply elem_of_list_In, repeat_spec in Hm. subst m. apply (lookup_new v _ (vi_next v) (Frame (p_uid d) (vi_next v))); [reflexivity|exact Hkn].
      * apply Forall_forall. intros m Hm. apply elem_of_list_In, repeat_spec in Hm. subst m. apply (lookup_new v _ (vi_next v) (Frame (p_uid d) (vi_next v))); [reflexivity|exact Hkn].
Qed.
Lemma inv_run v seen ops : vinv v seen -> vinv (vi_run v ops) (seen ++ uids ops).
Proof.
  revert v seen. induction ops as [|op ops IH]; intros v seen H; simpl; [by rewrite app_nil_r|].
  destruct op as [[d|]|].
  - cbn [app]. change (p_uid d :: uids ops) with ([p_uid d] ++ uids ops). rewrite app_assoc. apply IH. by apply inv_image.
  - apply IH. exact H.
  - apply IH. destruct H as [H1 H2 H3 H4 H5]. split; simpl; try done; try constructor.
Qed.
Lemma inv_new t n : vinv (vi_new t n) [].
Proof. split; simpl; try done; try constructor; try lia. Qed.
(** Stored frames carry the id under which they are stored; ids strictly increase in the order of insertion (hence differ) and
    are never used again, also not after a reset. *)
Theorem vision_ids t n ops ops' :
  let v := vi_run (vi_new t n) ops in let v' := vi_run v ops' in
  (forall e, e ∈ vi_frames v -> fr_id e.2 = e.1)
  /\ (forall i j a b, (i < j)%nat -> vi_frames v !! i = Some a -> vi_frames v !! j = Some b -> (a.1 < b.1)%Z)
  /\ (vi_next v <= vi_next v')%Z
  /\ (forall a b, a ∈ vi_frames v -> b ∈ vi_frames (vi_run (vi_reset v) ops') -> (a.1 < b.1)%Z).
Proof.
  intros v v'. pose proof (inv_run _ _ ops (inv_new t n)) as H. fold v in H. split_and!.
  - intros e He. pose proof (vv_keys _ _ H) as Hk. rewrite Forall_forall in Hk. by destruct (Hk e He) as (_ & ? & _).
  - apply (vv_sorted _ _ H).
  - unfold v'. clearbody v. clear H v'. revert v. induction ops' as [|op ops' IH]; intros v; simpl; [lia|].
    specialize (IH (vi_step v op)). unfold vi_run in IH. etransitivity; [|exact IH]. destruct op as [[d|]|]; simpl; try lia.
    destruct (addImage_cases v d) as [E|[E|(p & Ep & E)]]; rewrite E; simpl; lia.
  - intros a b Ha Hb. pose proof (vv_keys _ _ H) as Hk. rewrite Forall_forall in Hk. destruct (Hk a Ha) as ((_ & Ha') & _).
    assert (Hgen : forall ops w k, Forall (fun e => (k <= e.1)%Z) (vi_frames w) -> (k <= vi_next w)%Z -> Forall (fun e => (k <= e.1)%Z) (vi_frames (vi_run w ops))).
    { clear. induction ops as [|op ops IH]; intros w k Hw Hn; simpl; [done|]. destruct op as [[d|]|]; simpl.
      - apply IH.
        + destruct (addImage_cases w d) as [E|[E|(p & Ep & E)]]; rewrite E; simpl; try done. unfold frames_set. apply Forall_app. split.
          * rewrite Forall_forall in *. intros e He. apply Hw. apply elem_of_list_In in He. apply filter_In in He as [He _]. by apply elem_of_list_In.
          * constructor; [simpl; lia|constructor].
        + destruct (addImage_cases w d) as [E|[E|(p & Ep & E)]]; rewrite E; simpl; lia.
      - by apply IH.
      - apply IH; [constructor|done]. }
    assert (Hb' := Hgen ops' (vi_reset v) (vi_next v) (List.Forall_nil _) ltac:(simpl; lia)). rewrite Forall_forall in Hb'.
    specialize (Hb' b Hb). cbv beta in Hb'. lia.
Qed.
(** The second end of every match leads to the frame that was matched. *)
Theorem match_target_ok t n ops : let v := vi_run (vi_new t n) ops in Forall (to_ok v) (vi_matches v).
Proof. apply (vv_match _ _ (inv_run _ _ ops (inv_new t n))). Qed.

(** The first end does so exactly for the matches from stored frames. *)
Record vinv2 (v : vision) : Prop := {
  w_prev : forall p, vi_prev v = Some p -> stored v (fr_uid p) -> lookup_frame v (fr_id p) = Some (fr_uid p);
  w_match : Forall (fun m => stored v (m_from m) -> from_ok v m) (vi_matches v)
}.
Lemma find_some_in {A} f (l : list A) x : List.find f l = Some x -> x ∈ l.
Proof. intros H. apply find_some in H as [H _]. by apply elem_of_list_In. Qed.
Lemma inv2_run v seen ops : vinv v seen -> vinv2 v -> NoDup (seen ++ uids ops) ->
  (forall m, m ∈ vi_matches v -> m_from m ∈ seen) -> vinv2 (vi_run v ops).
Proof.
  revert v seen. induction ops as [|op ops IH]; intros v seen H H2 Hnd Hm; [exact H2|].
  destruct op as [[d|]|]; simpl.
  - change (uids (VImage (Some d) :: ops)) with ([p_uid d] ++ uids ops) in Hnd. rewrite app_assoc in Hnd.
    assert (Hfresh : p_uid d ∉ seen).
    { apply NoDup_app in Hnd as [Hnd _]. apply NoDup_app in Hnd as (_ & Hnd & _). intros Hs. apply (Hnd _ Hs). set_solver. }
    apply (IH _ (seen ++ [p_uid d])); [by apply inv_image| |done|].
    + pose proof (keys_new v seen H) as Hkn. pose proof (vv_keys _ _ H) as Hk. rewrite Forall_forall in Hk.
      assert (Hns : ~ stored v (p_uid d)). { intros (e & He & Hu). destruct (Hk e He) as (_ & _ & Hs). rewrite Hu in Hs. done. }
      destruct (addImage_cases v d) as [E|[E|(p & Ep & E)]]; rewrite E; clear E.
      * exact H2.
      * destruct H2 as [K1 K2]. split; [|exact K2]. intros p [= <-] Hs. by destruct Hns.
      * assert (Hs : frames_set (vi_frames v) (vi_next v) (Frame (p_uid d) (vi_next v)) = vi_frames v ++ [(vi_next v, Frame (p_uid d) (vi_next v))]).
        { unfold frames_set. by rewrite filter_keys. }
        rewrite Hs. clear Hs. match goal with |- vinv2 ?x => set (v' := x) end.
        assert (Hf : vi_frames v' = vi_frames v ++ [(vi_next v, Frame (p_uid d) (vi_next v))]) by done.
        assert (Hst : forall u, stored v' u -> u <> p_uid d -> stored v u).
        { intros u (e & He & Hu) Hne. rewrite Hf in He. apply elem_of_app in He as [He|He]; [by exists e|].
          apply elem_of_list_singleton in He. subst e. simpl in Hu. done. }
        assert (Hnew : lookup_frame v' (vi_next v) = Some (p_uid d)) by (exact (lookup_new v v' (vi_next v) (Frame (p_uid d) (vi_next v)) Hf Hkn)).
        destruct H2 as [K1 K2]. split.
        -- intros q [= <-] _. exact Hnew.
        -- change (vi_matches v') with ((vi_matches v ++ repeat (VMatch (fr_id p) (vi_next v) (fr_uid p) (p_uid d)) (length (p_disparities d))) ++ repeat (VMatch (vi_next v) (vi_next v) (p_uid d) (p_uid d)) (p_ofov d)). rewrite Forall_app, Forall_app. split; [split|].
           ++ rewrite Forall_forall in *. intros m Hmm Hs. unfold from_ok. eapply lookup_grow; [exact Hf|]. apply (K2 m Hmm).
              apply Hst; [done|]. intros Heq. apply Hfresh. rewrite <-Heq. auto.
           ++ apply Forall_forall. intros m Hmm Hs. apply elem_of_list_In, repeat_spec in Hmm. subst m. unfold from_ok. cbn [m_from m_a] in *.
              eapply lookup_grow; [exact Hf|]. apply K1; [done|]. apply Hst; [done|]. intros Heq. apply Hfresh. rewrite <-Heq.
              apply (vv_prev _ _ H _ Ep).
           ++ apply Forall_forall. intros m Hmm Hs. apply elem_of_list_In, repeat_spec in Hmm. subst m. exact Hnew.
    + intros m Hmm. destruct (addImage_cases v d) as [E|[E|(p & Ep & E)]]; rewrite E in Hmm; cbn [vi_matches] in Hmm.
      * apply elem_of_app. left. auto.
      * apply elem_of_app. left. auto.
      * apply elem_of_app in Hmm as [Hmm|Hmm]; [apply elem_of_app in Hmm as [Hmm|Hmm]|].
        -- apply elem_of_app. left. auto.
        -- apply elem_of_list_In, repeat_spec in Hmm. subst m. simpl. apply elem_of_app. left. apply (vv_prev _ _ H _ Ep).
        -- apply elem_of_list_In, repeat_spec in Hmm. subst m. simpl. set_solver.
  - by apply (IH v seen).
  - apply (IH (vi_reset v) seen); [|split; simpl; [done|constructor]|done|simpl; intros m Hmm; inversion Hmm].
    destruct H as [? ? ? ? ?]. split; simpl; try done; constructor.
Qed.
(** For every history whose frames are different objects: a match leads back to the frame it was computed from exactly if that
    frame has been stored. *)
Theorem match_source_iff t n ops : NoDup (uids ops) ->
  let v := vi_run (vi_new t n) ops in
  forall m, m ∈ vi_matches v -> (from_ok v m <-> stored v (m_from m)).
Proof.
  intros Hnd v m Hm. split.
  - unfold from_ok, lookup_frame. destruct (List.find _ _) as [e|] eqn:E; [|done]. intros [= He].
    exists e. split; [by apply find_some_in in E|done].
  - assert (H2 : vinv2 v).
    { apply (inv2_run _ [] ops); [apply inv_new| |done|intros x Hx; inversion Hx]. split; simpl; [done|constructor]. }
    pose proof (w_match _ H2) as K. rewrite Forall_forall in K. by apply K.
Qed.
(** After the start, a reset or a failure of the tracking the reference frame is not stored: for every history, the tracks of
    the next frame that is kept have a wrong first end, whatever id frames are created with. *)
Theorem match_source_refuted t n ops d1 d2 :
  let v := vi_run (vi_new t n) ops in
  NoDup (uids ops ++ [p_uid d1; p_uid d2]) ->
  (vi_prev v = None \/ (Z.of_nat (length (p_disparities d1)) <= n)%Z) ->
  (n < Z.of_nat (length (p_disparities d2)))%Z -> p_disparities d2 <> [] ->
  (at_most t (p_disparities d2) <= length (p_disparities d2) / 2)%nat ->
  let v' := vi_run v [VImage (Some d1); VImage (Some d2)] in
  exists m, m ∈ vi_matches v' /\ m_to m = p_uid d2 /\ ~ from_ok v' m.
Proof.
  intros v Hnd Hprev Hn Hd Hmv v'.
  assert (Hnd1 : p_uid d1 ∉ uids ops /\ p_uid d1 <> p_uid d2).
  { apply NoDup_app in Hnd as (_ & Hnd1 & Hnd2). split; [intros Hs; apply (Hnd1 _ Hs); set_solver|]. apply NoDup_cons in Hnd2 as [Hx _]. set_solver. }
  destruct Hnd1 as [Hf1 Hf2].
  assert (Hthr : forall ops w, vi_disp_thr (vi_run w ops) = vi_disp_thr w /\ vi_num_thr (vi_run w ops) = vi_num_thr w).
  { clear. induction ops as [|op ops IH]; intros w; [done|]. change (vi_run w (op :: ops)) with (vi_run (vi_step w op) ops).
    destruct (IH (vi_step w op)) as [-> ->]. destruct op as [[d|]|]; simpl; try done.
    destruct (addImage_cases w d) as [E|[E|(p & Ep & E)]]; rewrite E; done. }
  destruct (Hthr ops (vi_new t n)) as [Ht Hnn]. fold v in Ht, Hnn. cbn [vi_new vi_disp_thr vi_num_thr] in Ht, Hnn.
  pose proof (inv_run _ _ ops (inv_new t n)) as Hinv. fold v in Hinv. cbn [app] in Hinv.
  assert (E1 : vi_step v (VImage (Some d1)) = Vision (vi_next v) (Some (Frame (p_uid d1) (p_id d1))) (vi_frames v) (vi_matches v) (vi_disp_thr v) (vi_num_thr v)).
  { simpl. unfold vi_addImage. destruct (vi_prev v) as [p|] eqn:Ep; [|done]. destruct Hprev as [?|Hle]; [done|].
    rewrite repeat_length. destruct (Z.ltb_spec (vi_num_thr v) (Z.of_nat (length (p_disparities d1)))); [lia|done]. }
  set (v1 := vi_step v (VImage (Some d1))) in *.
  assert (Ev : v' = (vi_addImage v1 (Some d2)).1) by done.
  assert (Hp1 : vi_prev v1 = Some (Frame (p_uid d1) (p_id d1))) by (by rewrite E1).
  destruct (keyframe_criterion v1 d2 _ Hp1 Hd) as (_ & Hk & _).
  destruct Hk as (Hk1 & Hk2 & Hk3 & _).
  { rewrite E1. cbn [vi_num_thr vi_disp_thr]. rewrite Ht, Hnn. done. }
  rewrite <-Ev in *.
  destruct (addImage_cases v1 d2) as [E|[E|(p & Ep & E)]].
  - exfalso. rewrite <-Ev in E. rewrite E in Hk2. lia.
  - exfalso. rewrite <-Ev in E. rewrite E in Hk2. cbn [vi_next] in Hk2. lia.
  - rewrite <-Ev in E. rewrite Hp1 in Ep. injection Ep as <-.
    set (m := VMatch (p_id d1) (vi_next v1) (p_uid d1) (p_uid d2)).
    exists m. split; [|split; [done|]].
    + rewrite E. cbn [vi_matches]. apply elem_of_app. left. apply elem_of_app. right. cbn [fr_id fr_uid].
      destruct (p_disparities d2); [done|]. simpl. left.
    + unfold from_ok, lookup_frame, m. cbn [m_a m_from]. rewrite E. cbn [vi_frames].
      destruct (List.find _ _) as [e|] eqn:Ef; [|done]. intros [= He]. apply find_some_in in Ef. unfold frames_set in Ef.
      apply elem_of_app in Ef as [Ef|Ef].
      * apply elem_of_list_In, filter_In in Ef as [Ef _]. apply elem_of_list_In in Ef. rewrite E1 in Ef. cbn [vi_frames] in Ef.
        pose proof (vv_keys _ _ Hinv) as Hkk. rewrite Forall_forall in Hkk. destruct (Hkk e Ef) as (_ & _ & Hs). rewrite He in Hs. done.
      * apply elem_of_list_singleton in Ef. subst e. simpl in He. done.
Qed.
Lemma match_source_example :
  let d1 := Delivery 0 (-1) [] 0 in let d2 := Delivery 1 (-1) [5; 5; 5] 2 in
  at_most 1 (p_disparities d2) = 0%nat /\ NoDup (uids [] ++ [p_uid d1; p_uid d2]) /\ (2 < Z.of_nat (length (p_disparities d2)))%Z.
Proof.
  cbv zeta. split; [|split; [|simpl; lia]].
  - unfold at_most. simpl. destruct (Rle_dec 5 1); [lra|done].
  - simpl. apply NoDup_cons. split; [set_solver|apply NoDup_singleton].
Qed.
(** reset: everything but the id counter is as after the construction. *)
Theorem vision_reset v : vi_frames (vi_reset v) = [] /\ vi_matches (vi_reset v) = [] /\ vi_prev (vi_reset v) = None /\ vi_next (vi_reset v) = vi_next v.
Proof. done. Qed.
