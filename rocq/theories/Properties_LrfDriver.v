(** Properties of the online programs of the 2D laser example: batches (C84) and decision loop (C85). *)
From stdpp Require Import prelude list gmap.
From Coq Require Import Reals Lra Sorted.
From Verif Require Import Base OptProblemModel Spec_OptProblem Properties_OptProblem IncProblemModel Spec_IncProblem Properties_IncProblem EstimatorModel Spec_Estimator EstimatorProofs EstimatorSpecProofs Properties_Estimator LrfDriverModel.

(** ** Sequences of calls that add objects *)
Section calls.
Context {V : Type} (edv : nat -> list nat).
(** The variables (with their groups) and error terms that a list of calls adds. *)
Definition dvs_of (ops : list (oop V)) : list (nat * nat) :=
  omap (fun op => match op with OAddDV (Some d) g => Some (d, g) | _ => None end) ops.
Definition ets_of (ops : list (oop V)) : list nat :=
  omap (fun op => match op with OAddET (Some e) => Some e | _ => None end) ops.
Definition adding (op : oop V) : Prop := match op with OAddDV (Some _) _ | OAddET (Some _) => True | _ => False end.
(** Well ordered: error terms come after their variables. *)
Fixpoint ordered (known : gset nat) (ops : list (oop V)) : Prop :=
  match ops with
  | [] => True
  | OAddDV (Some d) _ :: ops => ordered ({[d]} ∪ known) ops
  | OAddET (Some e) :: ops => Forall (fun d => d ∈ known) (edv e) /\ ordered known ops
  | _ :: ops => ordered known ops
  end.
Lemma dvs_of_app o1 o2 : dvs_of (o1 ++ o2) = dvs_of o1 ++ dvs_of o2.
Proof. apply omap_app. Qed.
Lemma ets_of_app o1 o2 : ets_of (o1 ++ o2) = ets_of o1 ++ ets_of o2.
Proof. apply omap_app. Qed.
Lemma ordered_weaken k1 k2 ops : k1 ⊆ k2 -> ordered k1 ops -> ordered k2 ops.
Proof.
  revert k1 k2. induction ops as [|op ops IH]; intros k1 k2 Hk; [done|]. destruct op as [[d|] g|[e|]| |o|p|p g|v|]; simpl; try by apply IH.
  - apply IH. set_solver.
  - intros [H1 H2]. split; [|by apply (IH k1)]. eapply Forall_impl; [exact H1|]. cbv beta. set_solver.
Qed.
Lemma ordered_app known o1 o2 : ordered known (o1 ++ o2) <-> ordered known o1 /\ ordered (known ∪ list_to_set (dvs_of o1).*1) o2.
Proof.
  revert known. induction o1 as [|op o1 IH]; intros known; simpl.
  - replace (known ∪ ∅) with known by set_solver. tauto.
  - destruct op as [[d|] g|[e|]| |o|p|p g|v|]; simpl; rewrite ?IH; try tauto.
    replace ({[d]} ∪ known ∪ list_to_set (dvs_of o1).*1) with (known ∪ ({[d]} ∪ list_to_set (dvs_of o1).*1)) by set_solver. tauto.
Qed.
Lemma run_calls_spec ops : forall s : oprob V,
  Forall adding ops -> NoDup (dvs_of ops).*1 -> NoDup (ets_of ops) ->
  (forall d, d ∈ (dvs_of ops).*1 -> o_lookup s !! d = None) -> (forall e, e ∈ ets_of ops -> e ∉ o_etlookup s) ->
  ordered (dom (o_lookup s)) ops ->
  exists s', run_calls edv s ops = (s', Ret tt)
    /\ (forall d g, o_lookup s' !! d = Some g <-> (d, g) ∈ dvs_of ops \/ o_lookup s !! d = Some g)
    /\ o_ets s' = o_ets s ++ ets_of ops /\ (forall e, e ∈ o_etlookup s' <-> e ∈ ets_of ops \/ e ∈ o_etlookup s)
    /\ (o_reachable edv s -> o_reachable edv s').
Proof.
  induction ops as [|op ops IH]; intros s Hadd Hnd Hne Hd He Hord.
  { exists s. simpl. split_and!; try done; try (intros; set_solver). by rewrite app_nil_r. }
  apply Forall_cons in Hadd as [Hop Hadd]. destruct op as [[d|] g|[e|]| |o|p|p g|v|]; try done; cbn [run_calls ostep].
  - cbn [dvs_of omap list_omap fmap list_fmap fst] in Hnd, Hd. fold (dvs_of ops) in Hnd, Hd.
    apply NoDup_cons in Hnd as [Hnew Hnd]. assert (Hs : o_lookup s !! d = None) by (apply Hd; left).
    unfold o_addDV. unfold o_isDVInProblem. rewrite bool_decide_eq_false_2 by (rewrite Hs; by intros [? ?]).
    set (s1 := OProb _ _ _ _ _ _). destruct (IH s1) as (s' & Hrun & Hl & Het & Hel & Hr).
    + done.
    + done.
    + exact Hne.
    + intros d' Hd'. unfold s1; simpl. rewrite lookup_insert_ne by (intros <-; done). apply Hd. by right.
    + exact He.
    + unfold s1; simpl. rewrite dom_insert_L. exact Hord.
    + exists s'. split; [exact Hrun|]. split_and!.
      * intros d' g'. rewrite Hl. unfold s1; simpl. cbn [dvs_of omap list_omap]. fold (dvs_of ops).
        destruct (decide (d' = d)) as [->|Hne'].
        -- rewrite lookup_insert, Hs, elem_of_cons. split; [intros [?|[= <-]]; auto|].
           intros [[[= ->]|?]|?]; auto; done.
        -- rewrite lookup_insert_ne by done. rewrite elem_of_cons. split; [intros [?|?]; auto|].
           intros [[[= -> ->]|?]|?]; auto; done.
      * rewrite Het. done.
      * intros e. rewrite Hel. done.
      * intros Hreach. apply Hr. eapply (or_step _ s (OAddDV (Some d) g) s1 (Ret tt)); [done| |done].
        unfold ostep, o_addDV, o_isDVInProblem. rewrite bool_decide_eq_false_2 by (rewrite Hs; by intros [? ?]). done.
  - cbn [ets_of omap list_omap] in Hne, He. fold (ets_of ops) in Hne, He. apply NoDup_cons in Hne as [Hnew Hne].
    destruct Hord as [Hdv Hord].
    assert (Hs : e ∉ o_etlookup s) by (apply He; left).
    unfold o_addET. unfold o_isETInProblem. rewrite bool_decide_eq_false_2 by done.
    assert (Hf : forallb (o_isDVInProblem s) (edv e) = true).
    { apply forallb_forall. intros d Hin. rewrite Forall_forall in Hdv. specialize (Hdv d ltac:(by apply elem_of_list_In)).
      apply bool_decide_eq_true_2. by apply elem_of_dom in Hdv. }
    rewrite Hf. set (s1 := OProb _ _ _ _ _ _). destruct (IH s1) as (s' & Hrun & Hl & Het & Hel & Hr).
    + done.
    + exact Hnd.
    + done.
    + exact Hd.
    + intros e' He'. unfold s1; simpl. rewrite elem_of_union, elem_of_singleton. intros [->|Hin]; [done|]. apply (He e'); [by right|done].
    + exact Hord.
    + exists s'. split; [exact Hrun|]. split_and!.
      * intros d g. rewrite Hl. done.
      * rewrite Het. unfold s1; simpl. by rewrite <-app_assoc.
      * intros e'. rewrite Hel. unfold s1; simpl. cbn [ets_of omap list_omap]. fold (ets_of ops). set_solver.
      * intros Hreach. apply Hr. eapply (or_step _ s (OAddET (Some e)) s1 (Ret tt)); [done| |done].
        unfold ostep, o_addET, o_isETInProblem. rewrite bool_decide_eq_false_2, Hf by done. done.
Qed.
End calls.

(** * C84: the batches of the program *)
Lemma edv_motion nl j : lrf_edv nl (id_motion nl j) = [id_pose nl (j - 1); id_pose nl j].
Proof. unfold lrf_edv, id_motion. rewrite Nat.mod_mul, Nat.div_mul by lia. done. Qed.
Lemma edv_obs nl j k : k < nl -> lrf_edv nl (id_obs nl j k) = [id_pose nl j; id_landmark k; id_theta].
Proof.
  intros Hk. unfold lrf_edv, id_obs.
  replace ((j * (nl + 1) + (1 + k)) / (nl + 1)) with j by (apply (Nat.div_unique _ _ _ (1 + k)); lia).
  replace ((j * (nl + 1) + (1 + k)) mod (nl + 1)) with (1 + k) by (apply (Nat.mod_unique _ _ j); lia). done.
Qed.
Section batch.
Context {V : Type} (nl : nat).
Notation step_calls := (fun j => OAddDV (Some (id_pose nl j)) 0 :: OAddET (Some (id_motion nl j))
                           :: map (fun k => OAddET (Some (id_obs nl j k))) (seq 0 nl)).
Lemma dvs_steps l : dvs_of (V := V) (concat (map step_calls l)) = map (fun j => (id_pose nl j, 0)) l.
Proof.
  induction l as [|j l IH]; [done|]. cbn [map concat]. rewrite dvs_of_app, IH. cbn [dvs_of omap list_omap].
  assert (E : forall f l', omap (fun op : oop V => match op with OAddDV (Some d) g => Some (d, g) | _ => None end)
                 (map (fun k : nat => OAddET (Some (f k))) l') = []).
  { intros f. induction l' as [|x l' IHl]; [done|]. simpl. apply IHl. }
  rewrite E. done.
Qed.
Lemma seq_shift' n a b : map (fun k => a + k) (seq b n) = seq (a + b) n.
Proof. revert b. induction n as [|n IH]; intros b; [done|]. simpl. rewrite IH. f_equal. f_equal. lia. Qed.
Lemma ets_steps n : forall a, ets_of (V := V) (concat (map step_calls (seq a n))) = seq (a * (nl + 1)) (n * (nl + 1)).
Proof.
  induction n as [|n IH]; intros a; [done|]. cbn [seq map concat]. rewrite ets_of_app, IH.
  cbn [ets_of omap list_omap].
  assert (E : forall m b, omap (fun op : oop V => match op with OAddET (Some e) => Some e | _ => None end)
                 (map (fun k => OAddET (Some (id_obs nl a k))) (seq b m)) = map (id_obs nl a) (seq b m)).
  { induction m as [|m IHm]; intros b; [done|]. simpl. f_equal. apply IHm. }
  rewrite E. replace (S n * (nl + 1)) with ((1 + nl) + n * (nl + 1)) by lia. rewrite seq_app. f_equal.
  - unfold id_motion. cbn [seq Nat.add]. f_equal. rewrite (map_ext (id_obs nl a) (fun k => (a * (nl + 1) + 1) + k)) by (intros; unfold id_obs; lia).
    rewrite seq_shift'. f_equal. lia.
  - f_equal. lia.
Qed.
Lemma calls_dvs stop i : dvs_of (V := V) (lrf_calls nl stop i) =
  (id_pose nl i, 0) :: (id_theta, 2) :: map (fun k => (id_landmark k, 1)) (seq 0 nl) ++ map (fun j => (id_pose nl j, 0)) (seq (S i) (stop - S i)).
Proof.
  unfold lrf_calls. rewrite !dvs_of_app, dvs_steps. cbn [dvs_of omap list_omap app]. f_equal. f_equal. f_equal.
  generalize (seq 0 nl). induction l as [|x l IHl]; [done|]. simpl. f_equal. apply IHl.
Qed.
Lemma calls_ets stop i : ets_of (V := V) (lrf_calls nl stop i) = seq (S i * (nl + 1)) ((stop - S i) * (nl + 1)).
Proof.
  unfold lrf_calls. rewrite !ets_of_app, ets_steps.
  assert (E : forall l, ets_of (V := V) (map (fun k => OAddDV (Some (id_landmark k)) 1) l) = []).
  { induction l as [|x l IHl]; [done|]. simpl. apply IHl. }
  rewrite E. done.
Qed.
Lemma calls_adding stop i : Forall adding (lrf_calls (V := V) nl stop i).
Proof.
  unfold lrf_calls. rewrite !Forall_app. split_and!.
  - repeat constructor.
  - apply Forall_fmap. by apply Forall_true.
  - apply Forall_concat. apply Forall_fmap. apply Forall_true. intros j. simpl. constructor; [done|]. constructor; [done|]. apply Forall_fmap. by apply Forall_true.
Qed.
Lemma calls_ordered stop i : ordered (V := V) (lrf_edv nl) ∅ (lrf_calls nl stop i).
Proof.
  unfold lrf_calls. rewrite ordered_app. split; [done|]. rewrite ordered_app. split.
  - generalize (seq 0 nl). intros l. match goal with |- ordered _ ?k _ => generalize k end.
    induction l as [|k l IH]; intros known; [done|]. simpl. apply IH.
  - match goal with |- ordered _ ?k _ => assert (Hk : id_pose nl i ∈ k /\ id_theta ∈ k /\ forall j, j < nl -> id_landmark j ∈ k); [|revert Hk; generalize k] end.
    + split; [|split].
      * apply elem_of_union_l. apply elem_of_union_r. simpl. set_solver.
      * apply elem_of_union_l. apply elem_of_union_r. simpl. set_solver.
      * intros j Hj. apply elem_of_union_r. apply elem_of_list_to_set. apply elem_of_list_fmap. exists (id_landmark j, 1). split; [done|].
        assert (E : forall m n, dvs_of (V := V) (map (fun k => OAddDV (Some (id_landmark k)) 1) (seq n m)) = map (fun k => (id_landmark k, 1)) (seq n m)).
        { induction m as [|m IHm]; intros n; [done|]. simpl. f_equal. apply IHm. }
        rewrite E. apply elem_of_list_fmap. exists j. split; [done|]. apply elem_of_seq. lia.
    + generalize (stop - S i). intros n. revert i. induction n as [|n IH]; intros i k (H1 & H2 & H3); [done|].
      cbn [seq map concat]. rewrite ordered_app. split.
      * cbn [ordered]. split.
        -- rewrite edv_motion. replace (S i - 1) with i by lia. repeat constructor; set_solver.
        -- assert (G : forall l, Forall (fun x => x < nl) l -> ordered (V := V) (lrf_edv nl) ({[id_pose nl (S i)]} ∪ k) (map (fun x => OAddET (Some (id_obs nl (S i) x))) l)).
           { induction l as [|x l IHl]; intros Hl; [done|]. apply Forall_cons in Hl as [Hx Hl]. cbn [map ordered]. split; [|by apply IHl].
             rewrite edv_obs by done. specialize (H3 x Hx). repeat constructor; set_solver. }
           apply G. apply Forall_forall. intros x Hx. apply elem_of_seq in Hx. lia.
      * apply IH. split; [|split].
        -- apply elem_of_union_r. simpl. set_solver.
        -- set_solver.
        -- intros j Hj. specialize (H3 j Hj). set_solver.
Qed.
Lemma calls_nodup stop i : NoDup (dvs_of (V := V) (lrf_calls nl stop i)).*1.
Proof.
  rewrite calls_dvs. cbn [fmap list_fmap fst]. rewrite fmap_app, <-!list_fmap_compose.
  assert (Hp : forall x, x ∈ (fst ∘ (fun j => (id_pose nl j, 0)) <$> seq (S i) (stop - S i)) <-> exists j, x = id_pose nl j /\ S i <= j < S i + (stop - S i)).
  { intros x. rewrite elem_of_list_fmap. split; intros (j & -> & Hj); exists j; (split; [done|]); [apply elem_of_seq in Hj|apply elem_of_seq]; lia. }
  assert (Hl : forall x, x ∈ (fst ∘ (fun k => (id_landmark k, 1)) <$> seq 0 nl) <-> exists k, x = id_landmark k /\ k < nl).
  { intros x. rewrite elem_of_list_fmap. split; intros (j & -> & Hj); exists j; (split; [done|]); [apply elem_of_seq in Hj|apply elem_of_seq]; lia. }
  unfold id_pose, id_landmark, id_theta in *. apply NoDup_cons. split.
  { rewrite elem_of_cons, elem_of_app, Hp, Hl. intros [?|[(k & ? & ?)|(j & ? & ?)]]; lia. }
  apply NoDup_cons. split.
  { rewrite elem_of_app, Hp, Hl. intros [(k & ? & ?)|(j & ? & ?)]; lia. }
  apply NoDup_app. split_and!.
  - apply NoDup_fmap_2; [|apply NoDup_seq]. intros a b Hab. simpl in Hab. lia.
  - intros x. rewrite Hp, Hl. intros (k & ? & ?) (j & ? & ?). lia.
  - apply NoDup_fmap_2; [|apply NoDup_seq]. intros a b Hab. simpl in Hab. lia.
Qed.
End batch.
(** Building a batch throws no exception; the batch contains the poses of its time steps (group 0), all landmarks (group 1) and
    the calibration (group 2), the motion and the observations of every one of its time steps but the first, and nothing else. *)
Theorem lrf_batch_contents (V : Type) nl steps B i : 0 < B -> i < steps ->
  exists s : oprob V, lrf_batch nl steps B i = (s, Ret tt) /\ o_reachable (lrf_edv nl) s
    /\ (forall d g, o_getGroupId s d = Ret g <->
          (d = id_theta /\ g = 2) \/ (exists k, k < nl /\ d = id_landmark k /\ g = 1)
          \/ (exists j, i <= j < i + B /\ j < steps /\ d = id_pose nl j /\ g = 0))
    /\ (forall e, o_isETInProblem s e = true <->
          exists j, i < j < i + B /\ j < steps /\ (e = id_motion nl j \/ exists k, k < nl /\ e = id_obs nl j k))
    /\ length (o_ets s) = (Nat.min (i + B) steps - S i) * (nl + 1).
Proof.
  intros HB Hi. unfold lrf_batch. set (stop := Nat.min (i + B) steps).
  destruct (run_calls_spec (V := V) (lrf_edv nl) (lrf_calls nl stop i) o_empty) as (s & Hrun & Hl & He & Hel & Hr).
  - apply calls_adding.
  - apply calls_nodup.
  - rewrite calls_ets. apply NoDup_seq.
  - intros d _. apply lookup_empty.
  - intros e _. simpl. set_solver.
  - simpl. rewrite dom_empty_L. apply calls_ordered.
  - exists s. split; [done|]. split; [apply Hr; constructor|]. split_and!.
    + intros d g. transitivity (o_lookup s !! d = Some g).
      { unfold o_getGroupId. destruct (o_lookup s !! d); split; congruence. }
      rewrite Hl, calls_dvs. simpl. rewrite lookup_empty, !elem_of_cons, elem_of_app, !elem_of_list_fmap. split.
      * intros [[[= -> ->]|[[= -> ->]|[(k & [= -> ->] & Hk)|(j & [= -> ->] & Hj)]]]|?]; [| | | |done].
        -- right. right. exists i. split_and!; try done; lia.
        -- by left.
        -- right. left. exists k. apply elem_of_seq in Hk. split_and!; try done; lia.
        -- right. right. exists j. apply elem_of_seq in Hj. unfold stop in Hj. split_and!; try done; lia.
      * intros [[-> ->]|[(k & Hk & -> & ->)|(j & Hj & Hs & -> & ->)]]; left.
        -- right. by left.
        -- right. right. left. exists k. split; [done|]. apply elem_of_seq. lia.
        -- destruct (decide (j = i)) as [->|Hne]; [by left|]. right. right. right. exists j. split; [done|]. apply elem_of_seq. unfold stop. lia.
    + intros e. unfold o_isETInProblem. rewrite bool_decide_eq_true, Hel, calls_ets. simpl. rewrite elem_of_seq. split.
      * intros [Hin|?]; [|set_solver]. exists (e / (nl + 1)).
        pose proof (Nat.div_mod e (nl + 1) ltac:(lia)) as Hdm. pose proof (Nat.mod_upper_bound e (nl + 1) ltac:(lia)) as Hm.
        set (j := e / (nl + 1)) in *. set (k := e mod (nl + 1)) in *.
        assert (Hj : S i <= j) by (destruct (le_lt_dec (S i) j); [done|]; nia).
        assert (Hj2 : j < S i + (stop - S i)) by (destruct (le_lt_dec (S i + (stop - S i)) j); [nia|done]).
        unfold stop in Hj2. split_and!; try lia. destruct k as [|k0] eqn:Ek; [left|right; exists k0]; unfold id_motion, id_obs; [lia|split; lia].
      * intros (j & Hj & Hs & Hc). left. unfold stop. assert (j * (nl + 1) <= e <= j * (nl + 1) + nl) by (destruct Hc as [->|(k & Hk & ->)]; unfold id_motion, id_obs; lia).
        split; nia.
    + rewrite He, calls_ets. cbn [o_ets o_empty app]. by rewrite seq_length.
Qed.
(** The values of i: every multiple of the batch size below the number of steps; with batch size 0 the loop does not end. *)
Lemma starts_run steps B : 0 < B -> forall n i fuel, steps <= i + n * B -> (n = 0 \/ i + (n - 1) * B < steps) -> n < fuel ->
  lrf_starts fuel steps B i = Some (map (fun b => i + b * B) (seq 0 n)).
Proof.
  intros HB. induction n as [|n IH]; intros i fuel H1 H2 Hf; (destruct fuel as [|fuel]; [lia|]); cbn [lrf_starts].
  - destruct (Nat.ltb_spec i steps); [lia|done].
  - destruct (Nat.ltb_spec i steps); [|destruct H2; [lia|]; simpl in *; nia]. rewrite (IH (i + B)); [|nia| |lia].
    + cbn [seq map]. f_equal. f_equal; [lia|]. rewrite <-seq_shift, map_map. apply map_ext. intros b. nia.
    + destruct n; [by left|right]. destruct H2 as [?|H2]; [done|]. simpl in *. nia.
Qed.
Definition num_batches (steps B : nat) : nat := (steps + B - 1) / B.
Lemma num_batches_spec steps B : 0 < B -> steps <= num_batches steps B * B /\ (num_batches steps B = 0 \/ (num_batches steps B - 1) * B < steps).
Proof.
  intros HB. unfold num_batches. pose proof (Nat.div_mod (steps + B - 1) B ltac:(lia)) as H. pose proof (Nat.mod_upper_bound (steps + B - 1) B ltac:(lia)).
  set (q := (steps + B - 1) / B) in *. split; [nia|]. destruct q; [by left|right]. nia.
Qed.
Theorem lrf_starts_values steps B fuel : 0 < B -> num_batches steps B < fuel ->
  lrf_starts fuel steps B 0 = Some (map (fun b => b * B) (seq 0 (num_batches steps B))).
Proof.
  intros HB Hf. destruct (num_batches_spec steps B HB) as [H1 H2].
  rewrite (starts_run steps B HB (num_batches steps B) 0 fuel); [done|lia|destruct H2; [by left|right; lia]|done].
Qed.
Theorem lrf_starts_never_ends steps fuel : 0 < steps -> lrf_starts fuel steps 0 0 = None.
Proof.
  intros Hs. induction fuel as [|fuel IH]; [done|]. cbn [lrf_starts]. destruct (Nat.ltb_spec 0 steps); [|lia]. simpl. by rewrite IH.
Qed.
(** Every time step belongs to exactly one batch. *)
Theorem lrf_partition steps B j : 0 < B -> j < steps ->
  exists b, b < num_batches steps B /\ b * B <= j < b * B + B /\ forall b', b' * B <= j < b' * B + B -> b' = b.
Proof.
  intros HB Hj. exists (j / B). pose proof (Nat.div_mod j B ltac:(lia)) as H. pose proof (Nat.mod_upper_bound j B ltac:(lia)).
  destruct (num_batches_spec steps B HB) as [H1 _]. set (q := j / B) in *. split_and!; [nia|nia|nia|]. intros b' Hb'. nia.
Qed.

(** ** The whole program *)
Section program.
Context {V D M : Type} (A : arith D) (nil : M) (dim edim : nat -> nat) (nl steps B : nat).
(** The batch built in round [b]. *)
Definition round_batch (b : nat) : oprob V := fst (lrf_batch nl steps B (b * B)).
Lemma round_batch_reachable b : o_reachable (lrf_edv nl) (round_batch b).
Proof.
  unfold round_batch, lrf_batch. set (stop := Nat.min _ _).
  destruct (run_calls_spec (V := V) (lrf_edv nl) (lrf_calls nl stop (b * B)) o_empty) as (s & Hrun & _ & _ & _ & Hr).
  - apply calls_adding.
  - apply calls_nodup.
  - rewrite calls_ets. apply NoDup_seq.
  - intros d _. apply lookup_empty.
  - intros e _. simpl. set_solver.
  - simpl. rewrite dom_empty_L. apply calls_ordered.
  - rewrite Hrun. apply Hr. constructor.
Qed.
Hypothesis HB : 0 < B.
Lemma start_below b : b < num_batches steps B -> b * B < steps.
Proof. intros Hb. destruct (num_batches_spec steps B HB) as [_ [H|H]]; [lia|]. nia. Qed.
Lemma round_group b : b < num_batches steps B -> forall d g, o_getGroupId (round_batch b) d = Ret g <->
  (d = id_theta /\ g = 2) \/ (exists k, k < nl /\ d = id_landmark k /\ g = 1)
  \/ (exists j, j / B = b /\ j < steps /\ d = id_pose nl j /\ g = 0).
Proof.
  intros Hb d g. destruct (lrf_batch_contents V nl steps B (b * B) HB (start_below b Hb)) as (s & Hs & _ & Hg & _).
  unfold round_batch. rewrite Hs. cbn [fst]. rewrite Hg.
  assert (E : forall j, b * B <= j < b * B + B <-> j / B = b).
  { intros j. pose proof (Nat.div_mod j B ltac:(lia)) as H. pose proof (Nat.mod_upper_bound j B ltac:(lia)). split; [|intros <-; nia].
    intros Hj. symmetry. apply (Nat.div_unique j B b (j - b * B)); lia. }
  setoid_rewrite E. tauto.
Qed.
Lemma round_ets b : b < num_batches steps B -> forall e, o_isETInProblem (round_batch b) e = true ->
  exists j, j / B = b /\ j < steps /\ e / (nl + 1) = j.
Proof.
  intros Hb e He. destruct (lrf_batch_contents V nl steps B (b * B) HB (start_below b Hb)) as (s & Hs & _ & _ & Ht & _).
  unfold round_batch in He. rewrite Hs in He. cbn [fst] in He. apply Ht in He as (j & Hj & Hst & Hc). exists j. split_and!.
  - symmetry. apply (Nat.div_unique j B b (j - b * B)); lia.
  - done.
  - symmetry. destruct Hc as [->|(k & Hk & ->)].
    + unfold id_motion. apply (Nat.div_unique _ _ _ 0); lia.
    + unfold id_obs. apply (Nat.div_unique _ _ _ (1 + k)); lia.
Qed.
Lemma round_compatible s b : e_reachable A nil round_batch dim edim s -> b < num_batches steps B ->
  Forall (fun b' => b' < b) (i_probs (e_prob s)) -> compatible round_batch (e_prob s) b.
Proof using HB.
  intros Hs Hb Hlt.
  destruct (e_reachable_inv A nil round_batch (lrf_edv nl) dim edim round_batch_reachable s Hs) as [[Hnc _] _].
  apply (IncSpecProofs.backup_in_counts _ (lrf_edv nl) round_batch_reachable) in Hnc as [Hir _].
  rewrite Forall_forall in Hlt. split.
  - intros d g g' Hg Hg'. destruct (inc_problem_reference_counts V round_batch (lrf_edv nl) round_batch_reachable _ Hir d) as (_ & _ & Hc & _).
    apply Hc in Hg' as (b' & Hin & Hg'). specialize (Hlt b' Hin).
    apply round_group in Hg; [|done]. apply round_group in Hg'; [|lia]. unfold id_theta, id_landmark, id_pose in *.
    destruct Hg as [[-> ->]|[(k & Hk & -> & ->)|(j & Hj & Hst & -> & ->)]];
      destruct Hg' as [[? ->]|[(k' & Hk' & ? & ->)|(j' & Hj' & Hst' & ? & ->)]]; lia.
  - intros e He. apply round_ets in He as (j & Hj & Hst & He); [|done]. unfold i_isETInProblem.
    destruct (existsb _ _) eqn:Ex; [|done]. exfalso. apply existsb_exists in Ex as (b' & Hin & He').
    apply elem_of_list_In in Hin. specialize (Hlt b' Hin). apply round_ets in He' as (j' & Hj' & Hst' & He'); [|lia]. subst. lia.
Qed.
Definition accepted_rounds (a : nat) (rs : list (retval D M)) : list nat :=
  omap (fun '(b, r) => if rv_accepted r then Some b else None) (zip (seq a (length rs)) rs).
Lemma add_batches_ok n : forall a (s : est V D M) ocs, e_reachable A nil round_batch dim edim s -> a + n <= num_batches steps B ->
  (e_marg s = 0 \/ e_marg s = 2 \/ e_marg s = 1 /\ 0 < nl) ->
  Forall (fun b' => b' < a) (i_probs (e_prob s)) -> (forall b, exists o, ocs b = OptReturns o /\ o_rebuilds o = true) ->
  exists s' rs, add_batches A nil round_batch dim edim s (seq a n) ocs = (s', Ret rs) /\ length rs = n
    /\ e_reachable A nil round_batch dim edim s'
    /\ i_probs (e_prob s') = i_probs (e_prob s) ++ accepted_rounds a rs.
Proof using HB.
  induction n as [|n IH]; intros a s ocs Hs Ha Hm Hlt Ho.
  { exists s, []. cbn. split_and!; try done. by rewrite app_nil_r. }
  cbn [seq add_batches].
  assert (Hc : compatible round_batch (e_prob s) a) by (apply round_compatible; [done|lia|done]).
  destruct (Ho a) as (o & Hoa & Hrb).
  destruct (proj2 (estimator_add_batch_returns_iff V D M A nil round_batch (lrf_edv nl) dim edim round_batch_reachable s (Some a) false (ocs a) Hs)) as (s1 & r & He).
  { exists a, o. split_and!; try done; [|by left]. right. unfold brings_group. destruct Hm as [->|[->|[-> Hnl]]].
    - exists (id_pose nl (a * B)). apply round_group; [lia|]. right. right. exists (a * B).
      split; [apply Nat.div_mul; lia|]. split; [|done]. apply start_below. lia.
    - exists id_theta. apply round_group; [lia|]. by left.
    - exists (id_landmark 0). apply round_group; [lia|]. right. left. by exists 0. }
  rewrite He.
  destruct (estep_inv A nil round_batch (lrf_edv nl) dim edim round_batch_reachable s (EAdd (Some a) false (ocs a)) s1 (Ret (Some r))) as (_ & _ & Hmarg).
  { by apply (e_reachable_inv A nil round_batch (lrf_edv nl) dim edim round_batch_reachable). }
  { cbn [estep]. rewrite He. done. }
  { intros p f oc [= <- <- <-]. by exists a. }
  assert (Hs1 : e_reachable A nil round_batch dim edim s1).
  { eapply (er_step _ _ _ _ _ s (EAdd (Some a) false (ocs a)) s1 (Ret (Some r))); [done| |done|].
    - cbn [estep]. rewrite He. done.
    - intros p f oc [= <- <- <-]. by exists a. }
  assert (Hnotin : a ∉ i_probs (e_prob s)) by (intros Hin; rewrite Forall_forall in Hlt; specialize (Hlt a Hin); lia).
  assert (Hp : i_probs (e_prob s1) = i_probs (e_prob s) ++ (if rv_accepted r then [a] else [])).
  { destruct (rv_accepted r) eqn:Er.
    - rewrite Hoa in He.
      by destruct (estimator_acceptance_rule V D M A nil round_batch (lrf_edv nl) dim edim round_batch_reachable s a false o s1 r Hs He) as (_ & _ & _ & Hacc & _); apply Hacc.
    - destruct (estimator_rejected_batch_leaves_no_trace V D M A nil round_batch (lrf_edv nl) dim edim round_batch_reachable s a false (ocs a) s1 r Hs He Er) as (_ & _ & Hrej & _).
      rewrite app_nil_r. apply Hrej. by left. }
  destruct (IH (S a) s1 ocs Hs1) as (s' & rs & Hrun & Hlen & Hs' & Hps).
  { lia. } { rewrite Hmarg. done. }
  { rewrite Hp. apply Forall_app. split; [eapply Forall_impl; [exact Hlt|]; cbv beta; lia|]. destruct (rv_accepted r); repeat constructor. }
  { done. }
  rewrite Hrun. exists s', (r :: rs). split_and!; try done; [simpl; by rewrite Hlen|].
  rewrite Hps, Hp, <-app_assoc. f_equal. unfold accepted_rounds. cbn [length seq zip zip_with omap list_omap]. by destruct (rv_accepted r).
Qed.
(** C84.  The program never ends with an exception as long as the optimizer and the solver return: every batch is accepted or rejected; the problem
    contains exactly the accepted batches, in order; the pose of time j belongs to the problem iff the batch of time j was
    accepted, the landmarks and the calibration iff some batch was. *)
Theorem lrf_program (m : nat) (op : opts D) act vals ocs :
  (m = 0 \/ m = 2 \/ m = 1 /\ 0 < nl) -> (forall b, exists o, ocs b = OptReturns o /\ o_rebuilds o = true) ->
  exists s' rs, add_batches A nil round_batch dim edim (e_init A nil m op act vals) (seq 0 (num_batches steps B)) ocs = (s', Ret rs)
    /\ length rs = num_batches steps B
    /\ (forall b, b ∈ i_probs (e_prob s') <-> exists r, rs !! b = Some r /\ rv_accepted r = true)
    /\ StronglySorted lt (i_probs (e_prob s'))
    /\ (forall j, j < steps -> (i_isDVInProblem (e_prob s') (id_pose nl j) = true <-> exists r, rs !! (j / B) = Some r /\ rv_accepted r = true))
    /\ (forall k, k < nl -> (i_isDVInProblem (e_prob s') (id_landmark k) = true <-> exists r, r ∈ rs /\ rv_accepted r = true))
    /\ (i_isDVInProblem (e_prob s') id_theta = true <-> exists r, r ∈ rs /\ rv_accepted r = true).
Proof using HB.
  intros Hm Ho. destruct (add_batches_ok (num_batches steps B) 0 (e_init A nil m op act vals) ocs) as (s' & rs & Hrun & Hlen & Hs' & Hps).
  { constructor. } { lia. } { done. } { constructor. } { done. }
  exists s', rs. split; [done|]. split; [done|]. cbn in Hps.
  assert (Hacc : forall n (l : list (retval D M)) b, b ∈ accepted_rounds n l <-> n <= b /\ exists r, l !! (b - n) = Some r /\ rv_accepted r = true).
  { intros n l. revert n. induction l as [|r l IH]; intros n b.
    - unfold accepted_rounds. simpl. split; [intros H; by apply elem_of_nil in H|]. intros (_ & r & Hr & _). by rewrite lookup_nil in Hr.
    - assert (E : accepted_rounds n (r :: l) = (if rv_accepted r then [n] else []) ++ accepted_rounds (S n) l).
      { unfold accepted_rounds. cbn [length seq zip zip_with omap list_omap]. by destruct (rv_accepted r). }
      rewrite E, elem_of_app, IH. split.
      + intros [Hin|(Hle & r' & Hl & Hr')].
        * destruct (rv_accepted r) eqn:Er; [|by apply elem_of_nil in Hin]. apply elem_of_list_singleton in Hin as ->.
          split; [done|]. exists r. by rewrite Nat.sub_diag.
        * split; [lia|]. exists r'. replace (b - n) with (S (b - S n)) by lia. done.
      + intros (Hle & r' & Hl & Hr'). destruct (decide (b = n)) as [->|Hne].
        * rewrite Nat.sub_diag in Hl. injection Hl as ->. left. rewrite Hr'. by left.
        * right. split; [lia|]. exists r'. replace (b - n) with (S (b - S n)) in Hl by lia. done. }
  assert (Hin : forall b, b ∈ i_probs (e_prob s') <-> exists r, rs !! b = Some r /\ rv_accepted r = true).
  { intros b. rewrite Hps, Hacc, Nat.sub_0_r. split; [tauto|]. intros H. split; [lia|done]. }
  split; [done|]. split.
  { rewrite Hps. clear. generalize 0. induction rs as [|r rs IH]; intros n; [constructor|].
    assert (E : accepted_rounds n (r :: rs) = (if rv_accepted r then [n] else []) ++ accepted_rounds (S n) rs).
    { unfold accepted_rounds. cbn [length seq zip zip_with omap list_omap]. by destruct (rv_accepted r). }
    rewrite E. destruct (rv_accepted r); [|apply IH]. cbn [app]. constructor; [apply IH|].
    clear. assert (G : forall l n, Forall (lt n) (accepted_rounds (S n) l)).
    { clear. intros l n. unfold accepted_rounds. apply Forall_forall. intros x Hx. apply elem_of_list_omap in Hx as ([y r] & Hin & Hy).
      apply elem_of_zip_l in Hin. apply elem_of_seq in Hin. destruct (rv_accepted r); [|done]. injection Hy as <-. lia. }
    apply G. }
  destruct (e_reachable_inv A nil round_batch (lrf_edv nl) dim edim round_batch_reachable s' Hs') as [[Hnc _] _].
  apply (IncSpecProofs.backup_in_counts _ (lrf_edv nl) round_batch_reachable) in Hnc as [Hir _].
  assert (Hdv : forall d, i_isDVInProblem (e_prob s') d = true <-> exists b r g, rs !! b = Some r /\ rv_accepted r = true /\ o_getGroupId (round_batch b) d = Ret g).
  { intros d. destruct (inc_problem_reference_counts V round_batch (lrf_edv nl) round_batch_reachable _ Hir d) as (Hd & _). rewrite Hd.
    assert (Eg : forall b, o_isDVInProblem (round_batch b) d = true <-> exists g, o_getGroupId (round_batch b) d = Ret g).
    { intros b. unfold o_isDVInProblem, o_getGroupId. rewrite bool_decide_eq_true. destruct (o_lookup _ !! d) as [g|].
      - split; [|done]. intros _. by exists g.
      - split; [intros [? ?]; done|]. intros [? ?]; done. }
    setoid_rewrite Eg. setoid_rewrite Hin. split.
    - intros (b & (r & H1 & H2) & g & H3). by exists b, r, g.
    - intros (b & r & g & H1 & H2 & H3). exists b. split; [by exists r|by exists g]. }
  assert (Hb : forall b r, rs !! b = Some r -> b < num_batches steps B).
  { intros b r Hr. apply lookup_lt_Some in Hr. lia. }
  split_and!.
  - intros j Hj. rewrite Hdv. split.
    + intros (b & r & g & H1 & H2 & H3). apply round_group in H3; [|by eapply Hb]. exists r. unfold id_pose, id_theta, id_landmark in *.
      destruct H3 as [[? _]|[(k & Hk & ? & _)|(j' & Hj' & _ & ? & _)]]; [lia|lia|]. replace j with j' by lia. by rewrite Hj'.
    + intros (r & H1 & H2). exists (j / B), r, 0. split_and!; try done. apply round_group; [by eapply Hb|]. right. right. by exists j.
  - intros k Hk. rewrite Hdv. split.
    + intros (b & r & g & H1 & H2 & _). exists r. split; [by apply elem_of_list_lookup_2 in H1|done].
    + intros (r & H1 & H2). apply elem_of_list_lookup in H1 as [b H1]. exists b, r, 1. split_and!; try done. apply round_group; [by eapply Hb|].
      right. left. by exists k.
  - rewrite Hdv. split.
    + intros (b & r & g & H1 & H2 & _). exists r. split; [by apply elem_of_list_lookup_2 in H1|done].
    + intros (r & H1 & H2). apply elem_of_list_lookup in H1 as [b H1]. exists b, r, 2. split_and!; try done. apply round_group; [by eapply Hb|]. by left.
Qed.
End program.
Print Assumptions lrf_batch_contents.
Print Assumptions lrf_program.

(** * C85: the decision loop of the older program *)
Section online.
Context {C : Type} (steps B : nat) (miTol : R) (solve : list nat -> C * R) (guess : C).
(** mutual information between the data [p] and the data [p] with batch [i] added *)
Definition info_gain (p : list nat) (i : nat) : R := (0.5 * log2 (snd (solve p) / snd (solve (p ++ [i]))))%R.
(** What the loop has to deliver: the starts kept from [starts], in order, beginning after those already [kept]. *)
Fixpoint chosen (kept starts : list nat) : list nat :=
  match starts with
  | [] => kept
  | i :: starts => if decide (kept = []) then chosen [i] starts
                   else if Rlt_dec miTol (info_gain kept i) then chosen (kept ++ [i]) starts else chosen kept starts
  end.
Definition recorded (s : online C) : Prop := on_idx s <> [] -> (on_cal s, on_det s) = solve (on_idx s).
Lemma online_loop_spec l : forall s, Forall (fun i => i + B <= steps) l -> recorded s ->
  exists s', online_loop steps B miTol solve s l = Ret s' /\ on_idx s' = chosen (on_idx s) l /\ recorded s'
    /\ (on_idx s' = [] -> on_cal s' = on_cal s).
Proof.
  induction l as [|i l IH]; intros s Hl Hs. { exists s. done. }
  apply Forall_cons in Hl as [Hi Hl]. cbn [online_loop]. unfold online_round. destruct (Nat.ltb_spec steps (i + B)) as [|_]; [lia|].
  destruct (solve (on_idx s ++ [i])) as [th de] eqn:Es. rewrite app_length. cbn [length chosen].
  destruct (decide (on_idx s = [])) as [E0|E0].
  - rewrite E0 in *. cbn [length Nat.add Nat.eqb rbind app] in *. destruct (IH (Online [i] th de) Hl) as (s' & H1 & H2 & H3 & H4).
    { intros _. cbn. by rewrite Es. }
    exists s'. split; [done|]. split; [done|]. split; [done|]. intros H. exfalso. rewrite H in H2. cbn in H2.
    clear -H2. assert (G : forall k l, k <> [] -> chosen k l <> []).
    { clear. intros k l. revert k. induction l as [|x l IH]; intros k Hk; [done|]. cbn. destruct (decide (k = [])); [done|].
      destruct (Rlt_dec _ _); apply IH; [by destruct k|done]. }
    by apply (G [i] l).
  - destruct (Nat.eqb_spec (length (on_idx s) + 1) 1) as [Hl1|_]. { destruct (on_idx s); [done|]. simpl in Hl1. lia. }
    unfold info_gain. rewrite Es. cbn [snd]. specialize (Hs E0) as Hs'. rewrite <-Hs'. cbn [snd].
    destruct (Rlt_dec miTol _) as [Hgt|Hng]; cbn [rbind].
    + destruct (IH (Online (on_idx s ++ [i]) th de) Hl) as (s' & H1 & H2 & H3 & H4). { intros _. cbn. by rewrite Es. }
      exists s'. split; [done|]. split; [done|]. split; [done|]. intros H. exfalso. rewrite H in H2. cbn in H2.
      clear -H2. assert (G : forall k l, k <> [] -> chosen k l <> []).
      { clear. intros k l. revert k. induction l as [|x l IH]; intros k Hk; [done|]. cbn. destruct (decide (k = [])); [done|].
        destruct (Rlt_dec _ _); apply IH; [by destruct k|done]. }
      apply (G (on_idx s ++ [i]) l); [by destruct (on_idx s)|done].
    + destruct (IH (Online (on_idx s) (on_cal s) (on_det s)) Hl) as (s' & H1 & H2 & H3 & H4). { done. } by exists s'.
Qed.
Lemma chosen_spec l : forall kept,
  exists add, chosen kept l = kept ++ add /\ add `sublist_of` l
    /\ (forall p i q, add = p ++ i :: q -> kept ++ p <> [] -> (miTol < info_gain (kept ++ p) i)%R)
    /\ (forall l1 i l2, l = l1 ++ i :: l2 -> NoDup l -> i ∉ add -> kept <> [] \/ l1 <> [] ->
          exists p q, add = p ++ q /\ p `sublist_of` l1 /\ q `sublist_of` l2 /\ kept ++ p <> [] /\ ~ (miTol < info_gain (kept ++ p) i)%R)
    /\ (kept = [] -> forall i l', l = i :: l' -> exists a, add = i :: a).
Proof.
  induction l as [|i l IH]; intros kept.
  { exists []. cbn. rewrite app_nil_r. split_and!; try done.
    - intros p i q H. by destruct p.
    - intros l1 i l2 H. by destruct l1. }
  cbn [chosen]. destruct (decide (kept = [])) as [->|Hk]; [|destruct (Rlt_dec miTol (info_gain kept i)) as [Hgt|Hng]].
  - destruct (IH [i]) as (add & H1 & H2 & H3 & H4 & _). exists (i :: add). split_and!.
    + done.
    + by constructor.
    + intros p j q Hpq Hp. destruct p as [|x p]; [done|]. injection Hpq as <- ->. apply (H3 p j q); done.
    + intros l1 j l2 Hl Hnd Hj _. destruct l1 as [|x l1].
      { injection Hl as <- <-. exfalso. apply Hj. left. }
      injection Hl as <- ->. apply NoDup_cons in Hnd as [_ Hnd]. destruct (H4 l1 j l2 eq_refl Hnd) as (p & q & -> & P1 & P2 & P3 & P4).
      { intros Hin. apply Hj. by right. } { by left. }
      exists (i :: p), q. split_and!; try done. by constructor.
    + intros _ j l' [= <- <-]. by exists add.
  - destruct (IH (kept ++ [i])) as (add & H1 & H2 & H3 & H4 & _). exists (i :: add). split_and!.
    + rewrite H1, <-app_assoc. done.
    + by constructor.
    + intros p j q Hpq Hp. destruct p as [|x p]; [injection Hpq as <- ->; by rewrite app_nil_r|]. injection Hpq as <- ->.
      rewrite cons_middle, app_assoc. apply (H3 p j q); [done|]. by destruct kept.
    + intros l1 j l2 Hl Hnd Hj _. destruct l1 as [|x l1].
      { injection Hl as <- <-. exfalso. apply Hj. left. }
      injection Hl as <- ->. apply NoDup_cons in Hnd as [_ Hnd]. destruct (H4 l1 j l2 eq_refl Hnd) as (p & q & -> & P1 & P2 & P3 & P4).
      { intros Hin. apply Hj. by right. } { left. by destruct kept. }
      rewrite <-app_assoc in P3, P4. exists (i :: p), q. split_and!; try done. by constructor.
    + done.
  - destruct (IH kept) as (add & H1 & H2 & H3 & H4 & _). exists add. split_and!; try done.
    + by constructor.
    + intros l1 j l2 Hl Hnd Hj _. destruct l1 as [|x l1].
      { injection Hl as <- <-. exists [], add. rewrite app_nil_r. split_and!; try done. }
      injection Hl as <- ->. apply NoDup_cons in Hnd as [_ Hnd]. destruct (H4 l1 j l2 eq_refl Hnd Hj) as (p & q & -> & P1 & P2 & P3 & P4). { by left. }
      exists p, q. split_and!; try done. by constructor.
Qed.
(** C85.  With a batch size that divides the number of steps, the program ends and keeps a subsequence of the batches: the first one, and
    every other one exactly if the mutual information with the data kept before it exceeds the threshold; what it reports is
    the result of the optimization with exactly the kept batches; it never uses more than the whole data. *)
Theorem online_keeps_informative (n fuel : nat) : 0 < B -> 0 < n -> steps = n * B -> n < fuel ->
  exists kept s, online_run fuel steps B miTol solve guess = Ret s /\ on_idx s = kept
    /\ (on_cal s, on_det s) = solve kept
    /\ kept `sublist_of` map (fun b => b * B) (seq 0 n) /\ (exists rest, kept = 0 :: rest)
    /\ (forall p i q, kept = p ++ i :: q -> p <> [] -> (miTol < info_gain p i)%R)
    /\ (forall b, b < n -> b * B ∉ kept ->
          exists p q, kept = p ++ q /\ Forall (fun i => i < b * B) p /\ Forall (fun i => b * B < i) q /\ ~ (miTol < info_gain p (b * B))%R)
    /\ length kept * B <= steps.
Proof.
  intros HB Hn Hsteps Hf. unfold online_run.
  assert (En : num_batches steps B = n).
  { unfold num_batches. rewrite Hsteps. symmetry. apply (Nat.div_unique _ B n (B - 1)); lia. }
  rewrite (lrf_starts_values steps B fuel HB) by lia. rewrite En.
  destruct (online_loop_spec (map (fun b => b * B) (seq 0 n)) (Online [] guess 0%R)) as (s & H1 & H2 & H3 & H4).
  { apply Forall_fmap. apply Forall_forall. intros b Hb. apply elem_of_seq in Hb. cbn. nia. }
  { by intros H. }
  destruct (chosen_spec (map (fun b => b * B) (seq 0 n)) []) as (add & C1 & C2 & C3 & C4 & C5).
  cbn [on_idx] in H2. rewrite C1 in H2. cbn [app] in *.
  destruct n as [|n]; [lia|]. destruct (C5 eq_refl 0 (map (fun b => b * B) (seq 1 n)) eq_refl) as [rest Hrest].
  exists add, s. split; [done|]. split; [done|]. split; [rewrite <-H2; apply H3; rewrite H2, Hrest; done|]. split; [done|].
  split; [by exists rest|]. split; [done|]. split.
  - intros b Hb Hnot.
    assert (Hsplit : map (fun b => b * B) (seq 0 (S n)) = map (fun b => b * B) (seq 0 b) ++ b * B :: map (fun b => b * B) (seq (S b) (n - b))).
    { replace (S n) with (b + S (n - b)) by lia. rewrite seq_app, map_app. done. }
    assert (Hnd : NoDup (map (fun b => b * B) (seq 0 (S n)))).
    { apply NoDup_fmap_2_strong; [|apply NoDup_seq]. intros x y _ _ Hxy. nia. }
    destruct (C4 _ _ _ Hsplit Hnd Hnot) as (p & q & Hpq & P1 & P2 & P3 & P4).
    { right. destruct b; [|done]. exfalso. apply Hnot. rewrite Hrest. left. }
    exists p, q. split_and!; try done.
    + apply Forall_forall. intros x Hx. eapply elem_of_submseteq in Hx; [|apply sublist_submseteq; exact P1].
      apply elem_of_list_fmap in Hx as (y & -> & Hy). apply elem_of_seq in Hy. nia.
    + apply Forall_forall. intros x Hx. eapply elem_of_submseteq in Hx; [|apply sublist_submseteq; exact P2].
      apply elem_of_list_fmap in Hx as (y & -> & Hy). apply elem_of_seq in Hy. nia.
  - apply sublist_length in C2. rewrite map_length, seq_length in C2. nia.
Qed.
(** If moreover determinants are positive, keeping k batches has divided the determinant by more than 2^(2 miTol (k - 1)). *)
Lemma gain_factor p i : (0 < snd (solve p))%R -> (0 < snd (solve (p ++ [i])))%R -> (miTol < info_gain p i)%R ->
  (snd (solve (p ++ [i])) * Rpower 2 (2 * miTol) < snd (solve p))%R.
Proof.
  intros H1 H2 Hg. unfold info_gain, log2 in Hg. set (a := snd (solve p)) in *. set (b := snd (solve (p ++ [i]))) in *. clearbody a b.
  assert (Hln2 : (0 < ln 2)%R) by (rewrite <-ln_1; apply ln_increasing; lra).
  assert (Hln : (2 * miTol * ln 2 < ln (a / b))%R).
  { replace 0.5%R with (1 / 2)%R in Hg by lra. set (x := ln (a / b)) in *.
    assert (E : (1 / 2 * (x / ln 2) * (2 * ln 2))%R = x) by (field; lra). rewrite <-E. clear E.
    assert (Hc : (0 < 2 * ln 2)%R) by lra. apply (Rmult_lt_compat_r _ _ _ Hc) in Hg. lra. }
  apply exp_increasing in Hln. rewrite exp_ln in Hln by (apply Rdiv_lt_0_compat; lra).
  unfold Rpower. apply (Rmult_lt_compat_r b _ _ H2) in Hln. replace (a / b * b)%R with a in Hln by (field; lra). lra.
Qed.
Theorem online_determinant_decreases kept rest : (forall l, (0 < snd (solve l))%R) -> kept = 0 :: rest ->
  (forall p i q, kept = p ++ i :: q -> p <> [] -> (miTol < info_gain p i)%R) ->
  rest <> [] -> (snd (solve kept) * Rpower 2 (2 * miTol) ^ length rest < snd (solve [0%nat]))%R.
Proof.
  intros Hpos -> Hg. induction rest as [|i rest IH] using rev_ind; [done|]. intros _.
  assert (Hstep : (snd (solve ((0%nat :: rest) ++ [i])) * Rpower 2 (2 * miTol) < snd (solve (0%nat :: rest)))%R).
  { apply gain_factor; [apply Hpos|apply Hpos|]. apply (Hg (0 :: rest) i []); done. }
  assert (Hpw : (0 < Rpower 2 (2 * miTol))%R) by apply exp_pos.
  rewrite app_length. cbn [length]. rewrite Nat.add_1_r. cbn [pow]. cbn [app] in Hstep.
  destruct (decide (rest = [])) as [->|Hne]. { cbn [length pow]. cbn in Hstep. rewrite Rmult_1_r. exact Hstep. }
  eapply Rlt_trans; [|apply IH; [|done]].
  - rewrite <-Rmult_assoc. apply Rmult_lt_compat_r; [by apply pow_lt|]. exact Hstep.
  - intros p j q Hpq Hp. apply (Hg p j (q ++ [i])); [|done]. rewrite app_comm_cons, Hpq, <-app_assoc. done.
Qed.
(** A batch size that does not divide the number of steps: the last round reads behind the end of the arrays. *)
Theorem online_overrun fuel : 0 < B -> steps mod B <> 0 -> num_batches steps B < fuel -> online_run fuel steps B miTol solve guess = UB.
Proof.
  intros HB Hmod Hf. unfold online_run. rewrite (lrf_starts_values steps B fuel HB) by done.
  pose proof (Nat.div_mod steps B ltac:(lia)) as Hdm. pose proof (Nat.mod_upper_bound steps B ltac:(lia)) as Hmb. set (q := steps / B) in *.
  assert (En : num_batches steps B = q + 1).
  { unfold num_batches. symmetry. apply (Nat.div_unique _ B (q + 1) (steps mod B - 1)); [lia|]. nia. }
  rewrite En, seq_app, map_app. cbn [seq map].
  assert (G : forall l s, Forall (fun i => i + B <= steps) l -> online_loop steps B miTol solve s (l ++ [(0 + q) * B]) = UB).
  { induction l as [|i l IH]; intros s Hl.
    - cbn [app online_loop]. unfold online_round. destruct (Nat.ltb_spec steps ((0 + q) * B + B)); [done|]. nia.
    - apply Forall_cons in Hl as [Hi Hl]. cbn [app online_loop]. unfold online_round at 1. destruct (Nat.ltb_spec steps (i + B)) as [|_]; [lia|].
      destruct (solve _) as [th de]. destruct (Nat.eqb _ _); [|destruct (Rlt_dec _ _)]; cbn [rbind]; by apply IH. }
  apply G. apply Forall_fmap. apply Forall_forall. intros b Hb. apply elem_of_seq in Hb. cbn. nia.
Qed.
Theorem online_never_ends fuel : 0 < steps -> B = 0 -> online_run fuel steps B miTol solve guess = Diverge.
Proof. intros Hs ->. unfold online_run. by rewrite lrf_starts_never_ends. Qed.
End online.
Print Assumptions online_keeps_informative.
Print Assumptions online_determinant_decreases.
Print Assumptions online_overrun.
(** The shipped program: 5000 steps, batches of 200: 25 batches, no overrun.  Six steps in batches of two, with a determinant that
    drops for the third batch only. *)
Example online_example :
  let solve := fun l : list nat => (length l, if decide (4%nat ∈ l) then 1 else 8)%R in
  exists s, online_run 9 6 2 0.5 solve 7 = Ret s /\ on_idx s = [0; 4] /\ on_cal s = 2 /\ on_det s = 1%R.
Proof.
  assert (L1 : log2 (8 / 8) = 0%R) by (unfold log2; replace (8 / 8)%R with 1%R by field; rewrite ln_1; field; rewrite <-ln_1; apply Rgt_not_eq, ln_increasing; lra).
  assert (L8 : log2 (8 / 1) = 3%R).
  { unfold log2. replace (8 / 1)%R with (2 ^ 3)%R by lra. rewrite ln_pow by lra. simpl INR. field. rewrite <-ln_1. apply Rgt_not_eq, ln_increasing; lra. }
  eexists. unfold online_run. cbn [lrf_starts Nat.ltb Nat.leb Nat.add online_loop].
  unfold online_round. cbn [on_idx on_det on_cal app length Nat.eqb Nat.ltb Nat.leb Nat.add rbind].
  repeat (rewrite decide_False by (rewrite ?elem_of_cons, elem_of_nil; lia)). cbn [on_idx on_det on_cal app length Nat.eqb].
  rewrite L1. destruct (Rlt_dec 0.5 (0.5 * 0)) as [H|_]; [lra|].
  cbn [on_idx on_det on_cal app length Nat.eqb rbind]. rewrite decide_True by set_solver. rewrite L8.
  destruct (Rlt_dec 0.5 (0.5 * 3)) as [_|H]; [|lra]. cbn [rbind]. done.
Qed.
(** Two landmarks, seven steps in batches of three; the first and the last batch are accepted. *)
Example lrf_program_example :
  let A := Arith nat 0 0 (fun x y => Nat.ltb y x) (fun x y => Nat.leb y x) (fun x y => x - y) in
  let v := fun k => SolverView 0 0 0 0 0 k 0 0 3%Z 0%Z 3%Z 0%Z 0%N 0%N 0 in
  let oc := fun b : nat => OptReturns (Solved (fun _ => 1) 1 9 5 (v 0) (v (match b with 1 => 3 | _ => 5 + b end)) true) in
  let r := add_batches (V := nat) A 0 (round_batch 2 7 3) (fun _ => 3) (fun _ => 1)
             (e_init A 0 2 (Opts 1 true 20 false) (fun _ => true) (fun _ => 0)) [0; 1; 2] oc in
  i_probs (e_prob (fst r)) = [0; 2] /\ map (fun j => i_isDVInProblem (e_prob (fst r)) (id_pose 2 j)) (seq 0 7) = [true; true; true; false; false; false; true]
  /\ match snd r with Ret rs => map rv_accepted rs = [true; false; true] | _ => False end.
Proof. vm_compute. done. Qed.
