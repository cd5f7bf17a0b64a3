From stdpp Require Import prelude list gmap.
From Coq Require Import Lia.
From Verif Require Import Base PermuteModel PermuteProofs OptProblemModel.

(** ** Groups and their enumeration *)

(** The groups' contents, concatenated in groups ordering. *)
Definition enum (groups : gmap nat (list nat)) (order : list nat) : list nat :=
  concat (map (fun g => default [] (groups !! g)) order).

(** Consistency of a group table with a groups ordering. *)
Record gwf (groups : gmap nat (list nat)) (order : list nat) : Prop := {
  gwf_nodup : NoDup order;
  gwf_dom : forall g, g ∈ order <-> is_Some (groups !! g);
  gwf_ne : forall g l, groups !! g = Some l -> l <> [];
  gwf_lnodup : forall g l, groups !! g = Some l -> NoDup l;
  gwf_disj : forall g1 g2 l1 l2 d,
      groups !! g1 = Some l1 -> groups !! g2 = Some l2 -> d ∈ l1 -> d ∈ l2 -> g1 = g2;
}.

Lemma elem_of_enum groups order d :
  d ∈ enum groups order <-> exists g l, g ∈ order /\ groups !! g = Some l /\ d ∈ l.
Proof.
  unfold enum. rewrite elem_of_list_In, in_concat. setoid_rewrite <- elem_of_list_In. split.
  - intros (l & Hl & Hd). apply elem_of_list_fmap in Hl as (g & -> & Hg).
    destruct (groups !! g) as [l|] eqn:Hgl; simpl in Hd; [|set_solver].
    exists g, l. done.
  - intros (g & l & Hg & Hgl & Hd). exists l. split; [|done].
    apply elem_of_list_fmap. exists g. rewrite Hgl. done.
Qed.

Lemma enum_app groups o1 o2 : enum groups (o1 ++ o2) = enum groups o1 ++ enum groups o2.
Proof. unfold enum. rewrite map_app, concat_app. done. Qed.

Lemma enum_cons groups g o : enum groups (g :: o) = default [] (groups !! g) ++ enum groups o.
Proof. done. Qed.

Lemma NoDup_enum groups order : gwf groups order -> NoDup (enum groups order).
Proof.
  intros [Hnd Hdom Hne Hlnd Hdisj]. clear Hne.
  assert (Hsub : forall g, g ∈ order -> is_Some (groups !! g)) by (intros g; apply Hdom).
  clear Hdom. induction order as [|g o IH]; [constructor|].
  rewrite enum_cons. apply NoDup_cons in Hnd as [Hg Hnd].
  destruct (Hsub g) as [l Hl]; [set_solver|]. rewrite Hl. simpl.
  apply NoDup_app. split; [eapply Hlnd, Hl|]. split; [|apply IH; [done|set_solver]].
  intros d Hd Hd'. apply elem_of_enum in Hd' as (g' & l' & Hg' & Hl' & Hd').
  assert (g = g') as <- by (eapply Hdisj; done). done.
Qed.

Lemma enum_perm groups o1 o2 : o1 ≡ₚ o2 -> enum groups o1 ≡ₚ enum groups o2.
Proof.
  intros H. induction H as [|g o o' _ IH|g g' o|o1' o2' o3' _ IH1 _ IH2]; [done| | |].
  - rewrite !enum_cons, IH. done.
  - rewrite !enum_cons, !app_assoc. apply Permutation_app_tail, Permutation_app_comm.
  - rewrite IH1. done.
Qed.

Lemma locate_spec groups order idx running :
  (forall g, g ∈ order -> is_Some (groups !! g)) ->
  running <= idx -> idx - running < length (enum groups order) ->
  exists g j l d, locate groups order idx running = Ret (g, j) /\ groups !! g = Some l /\
    l !! j = Some d /\ enum groups order !! (idx - running) = Some d.
Proof.
  revert running. induction order as [|g o IH]; intros running Hsub Hr Hidx.
  { simpl in Hidx. lia. }
  cbn [locate]. destruct (Hsub g) as [l Hl]; [set_solver|]. rewrite Hl.
  rewrite enum_cons, Hl in Hidx |- *. simpl in *. rewrite app_length in Hidx.
  destruct (Nat.ltb_spec idx (running + length l)) as [Hlt|Hge].
  - destruct (lookup_lt_is_Some_2 l (idx - running)) as [d Hd]; [lia|].
    exists g, (idx - running), l, d. split; [done|]. split; [done|]. split; [done|].
    rewrite lookup_app_l by lia. done.
  - destruct (IH (running + length l)) as (g' & j & l' & d & Hloc & Hg' & Hj & He);
      [set_solver|lia|lia|].
    exists g', j, l', d. split; [done|]. split; [done|]. split; [done|].
    rewrite lookup_app_r by lia. rewrite <- He. f_equal. lia.
Qed.

Lemma nth_dv_spec n groups order idx :
  gwf groups order -> n = length (enum groups order) ->
  nth_dv n groups order idx =
    match enum groups order !! idx with Some d => Ret d | None => Throw OutOfBound end.
Proof.
  intros Hwf ->. unfold nth_dv. destruct (Nat.leb_spec (length (enum groups order)) idx) as [Hle|Hlt].
  - rewrite lookup_ge_None_2 by done. done.
  - destruct (locate_spec groups order idx 0) as (g & j & l & d & -> & Hg & Hj & He).
    + intros g. apply gwf_dom. done.
    + lia.
    + lia.
    + rewrite Hg, Hj. rewrite Nat.sub_0_r in He. rewrite He. done.
Qed.

Lemma ordering_ok_spec groups seen o :
  ordering_ok groups seen o = true <->
  NoDup o /\ (forall g, g ∈ o -> g ∉ seen) /\ (forall g, g ∈ o -> is_Some (groups !! g)).
Proof.
  revert seen. induction o as [|g o IH]; intros seen; cbn [ordering_ok].
  { split; [|done]. intros _. split; [constructor|]. split; set_solver. }
  destruct (groups !! g) as [l|] eqn:Hg.
  - destruct (decide (g ∈ seen)) as [Hs|Hs].
    + split; [done|]. intros (_ & H & _). exfalso. apply (H g); [set_solver|done].
    + rewrite IH. split.
      * intros (Hnd & Hseen & Hdom). split; [constructor; [|done]|].
        { intros Hgo. apply (Hseen g Hgo). set_solver. }
        split; [intros x; rewrite elem_of_cons; intros [->|Hx]; [done|specialize (Hseen x Hx); set_solver]|].
        intros x; rewrite elem_of_cons; intros [->|Hx]; [rewrite Hg; eauto|auto].
      * intros (Hnd & Hseen & Hdom). apply NoDup_cons in Hnd as [Hgo Hnd].
        split; [done|]. split; [|intros x Hx; apply Hdom; set_solver].
        intros x Hx Hx'. apply elem_of_union in Hx' as [Hx'|Hx'].
        { apply elem_of_singleton in Hx'. subst. done. }
        { apply (Hseen x); [set_solver|done]. }
  - split; [done|]. intros (_ & _ & H). destruct (H g); [set_solver|congruence].
Qed.

(** the loop together with the length test accepts exactly the rearrangements *)
Lemma ordering_accepts groups order o :
  gwf groups order ->
  (length o = length order /\ ordering_ok groups ∅ o = true) <-> o ≡ₚ order.
Proof.
  intros Hwf. rewrite ordering_ok_spec. split.
  - intros (Hl & Hnd & _ & Hdom).
    apply submseteq_Permutation_length_le; [lia|].
    apply NoDup_submseteq; [done|]. intros g Hg. apply (gwf_dom _ _ Hwf), Hdom, Hg.
  - intros Hp. split; [rewrite Hp; done|]. split; [rewrite Hp; apply Hwf|].
    split; [set_solver|]. intros g Hg. apply (gwf_dom _ _ Hwf). rewrite <- Hp. done.
Qed.

Lemma gwf_reorder groups order o : gwf groups order -> o ≡ₚ order -> gwf groups o.
Proof.
  intros [Hnd Hdom Hne Hlnd Hdisj] Hp. constructor; [rewrite Hp; done| |done..].
  intros g. rewrite Hp. apply Hdom.
Qed.

(** adding a fresh variable at the end of a group *)
Definition gadd (groups : gmap nat (list nat)) (g d : nat) : gmap nat (list nat) :=
  <[g := default [] (groups !! g) ++ [d]]> groups.
Definition oadd (groups : gmap nat (list nat)) (order : list nat) (g : nat) : list nat :=
  if bool_decide (is_Some (groups !! g)) then order else order ++ [g].

Lemma gwf_add groups order g d :
  gwf groups order -> d ∉ enum groups order ->
  gwf (gadd groups g d) (oadd groups order g).
Proof.
  intros Hwf Hd. pose proof Hwf as [Hnd Hdom Hne Hlnd Hdisj].
  assert (Hfresh : forall g' l', groups !! g' = Some l' -> d ∉ l').
  { intros g' l' Hl' Hin. apply Hd. apply elem_of_enum. exists g', l'. split; [|done].
    apply Hdom. eauto. }
  assert (Hnew : forall d', d' ∈ default [] (groups !! g) ++ [d] ->
             d' = d \/ exists l, groups !! g = Some l /\ d' ∈ l).
  { intros d' Hin. apply elem_of_app in Hin as [Hin|Hin]; [|set_solver].
    destruct (groups !! g) as [l|]; simpl in Hin; [eauto|set_solver]. }
  unfold gadd, oadd. constructor.
  - case_bool_decide as Hg; [done|]. apply NoDup_app. split; [done|].
    split; [|apply NoDup_singleton]. intros x Hx Hx'. apply elem_of_list_singleton in Hx'. subst.
    apply Hg, Hdom, Hx.
  - intros x. destruct (decide (x = g)) as [->|Hx].
    + rewrite lookup_insert. split; [eauto|]. intros _. case_bool_decide as Hg.
      * apply Hdom, Hg.
      * set_solver.
    + rewrite lookup_insert_ne by done. rewrite <- (Hdom x). case_bool_decide; set_solver.
  - intros x l. destruct (decide (x = g)) as [->|Hx].
    + rewrite lookup_insert. intros [= <-]. destruct (default [] (groups !! g)); done.
    + rewrite lookup_insert_ne by done. apply Hne.
  - intros x l. destruct (decide (x = g)) as [->|Hx].
    + rewrite lookup_insert. intros [= <-]. apply NoDup_app. split.
      { destruct (groups !! g) as [l|] eqn:Hl; simpl; [eapply Hlnd, Hl|constructor]. }
      split; [|apply NoDup_singleton]. intros y Hy Hy'. apply elem_of_list_singleton in Hy'. subst.
      destruct (groups !! g) as [l|] eqn:Hl; simpl in Hy; [|set_solver]. eapply Hfresh; done.
    + rewrite lookup_insert_ne by done. apply Hlnd.
  - intros g1 g2 l1 l2 d'.
    destruct (decide (g1 = g)) as [->|H1]; destruct (decide (g2 = g)) as [->|H2]; [done| | |].
    + rewrite lookup_insert, lookup_insert_ne by done. intros [= <-] Hl2 Hd1 Hd2.
      apply Hnew in Hd1 as [->|(l & Hl & Hdl)]; [exfalso; eapply Hfresh; done|].
      eapply Hdisj; done.
    + rewrite lookup_insert, lookup_insert_ne by done. intros Hl1 [= <-] Hd1 Hd2.
      apply Hnew in Hd2 as [->|(l & Hl & Hdl)]; [exfalso; eapply Hfresh; done|].
      eapply Hdisj; done.
    + rewrite !lookup_insert_ne by done. apply Hdisj.
Qed.

Lemma elem_of_enum_add groups order g d x :
  gwf groups order -> x ∈ enum (gadd groups g d) (oadd groups order g) <-> x = d \/ x ∈ enum groups order.
Proof.
  intros Hwf. rewrite !elem_of_enum. unfold gadd, oadd. split.
  - intros (g' & l & Hg' & Hl & Hx). destruct (decide (g' = g)) as [->|Hne].
    + rewrite lookup_insert in Hl. injection Hl as <-.
      apply elem_of_app in Hx as [Hx|Hx]; [|set_solver]. right.
      destruct (groups !! g) as [l|] eqn:Hgl; simpl in Hx; [|set_solver].
      exists g, l. split; [|done]. apply (gwf_dom _ _ Hwf). eauto.
    + rewrite lookup_insert_ne in Hl by done. right. exists g', l.
      split; [|done]. apply (gwf_dom _ _ Hwf). eauto.
  - intros [->|(g' & l & Hg' & Hl & Hx)].
    + exists g, (default [] (groups !! g) ++ [d]). rewrite lookup_insert. split; [|set_solver].
      case_bool_decide as Hg; [apply (gwf_dom _ _ Hwf), Hg|set_solver].
    + destruct (decide (g' = g)) as [->|Hne].
      * exists g, (default [] (groups !! g) ++ [d]). rewrite lookup_insert, Hl. simpl.
        split; [|set_solver]. done.
      * exists g', l. rewrite lookup_insert_ne by done. split; [case_bool_decide; set_solver|done].
Qed.

(** permuting the contents of one group *)
Lemma gwf_permute groups order g l l' :
  gwf groups order -> groups !! g = Some l -> l' ≡ₚ l -> gwf (<[g := l']> groups) order.
Proof.
  intros [Hnd Hdom Hne Hlnd Hdisj] Hl Hp. constructor.
  - done.
  - intros x. rewrite Hdom. destruct (decide (x = g)) as [->|]; [rewrite lookup_insert|rewrite lookup_insert_ne by done; done].
    split; eauto.
  - intros x k. destruct (decide (x = g)) as [->|]; [rewrite lookup_insert|rewrite lookup_insert_ne by done; apply Hne].
    intros [= <-] ->. apply Permutation_nil_l in Hp. eapply Hne; eauto.
  - intros x k. destruct (decide (x = g)) as [->|]; [rewrite lookup_insert|rewrite lookup_insert_ne by done; apply Hlnd].
    intros [= <-]. rewrite Hp. eapply Hlnd, Hl.
  - intros g1 g2 l1 l2 d H1 H2 Hd1 Hd2.
    assert (Hgen : forall x k, <[g:=l']> groups !! x = Some k -> d ∈ k -> exists k', groups !! x = Some k' /\ d ∈ k').
    { intros x k. destruct (decide (x = g)) as [->|]; [rewrite lookup_insert|rewrite lookup_insert_ne by done; eauto].
      intros [= <-] Hin. exists l. split; [done|]. rewrite <- Hp. done. }
    destruct (Hgen _ _ H1 Hd1) as (k1 & ? & ?). destruct (Hgen _ _ H2 Hd2) as (k2 & ? & ?).
    eapply Hdisj; done.
Qed.

Lemma elem_of_enum_permute groups order g l l' x :
  groups !! g = Some l -> l' ≡ₚ l -> x ∈ enum (<[g := l']> groups) order <-> x ∈ enum groups order.
Proof.
  intros Hl Hp. rewrite !elem_of_enum. split; intros (g' & k & Hg' & Hk & Hx).
  - destruct (decide (g' = g)) as [->|Hne].
    + rewrite lookup_insert in Hk. injection Hk as <-. exists g, l. split; [done|]. split; [done|]. rewrite <- Hp. done.
    + rewrite lookup_insert_ne in Hk by done. eauto.
  - destruct (decide (g' = g)) as [->|Hne].
    + exists g, l'. rewrite lookup_insert. split; [done|]. split; [done|]. rewrite Hp. congruence.
    + exists g', k. rewrite lookup_insert_ne by done. done.
Qed.

Lemma sum_dims_acc (active : nat -> bool) (dim : nat -> nat) l acc :
  foldl (fun acc d => if active d then acc + dim d else acc) acc l = acc + sum_dims active dim l.
Proof.
  unfold sum_dims. revert acc. induction l as [|d l IH]; intros acc; simpl; [lia|].
  rewrite IH. rewrite (IH (if active d then _ else _)). destruct (active d); lia.
Qed.

(** sum over the active elements, written as a plain sum *)
Lemma sum_dims_spec (active : nat -> bool) (dim : nat -> nat) l :
  sum_dims active dim l = sum_list_with dim (filter (fun d => active d = true) l).
Proof.
  induction l as [|d l IH]; [done|].
  unfold sum_dims. simpl. rewrite sum_dims_acc, IH, filter_cons.
  destruct (active d) eqn:Hd; simpl; lia.
Qed.

Lemma sum_dims_app active dim l1 l2 :
  sum_dims active dim (l1 ++ l2) = sum_dims active dim l1 + sum_dims active dim l2.
Proof. unfold sum_dims at 1. rewrite foldl_app, !sum_dims_acc. unfold sum_dims. simpl. lia. Qed.

Lemma sum_dims_enum active dim groups order :
  sum_dims active dim (enum groups order) =
  sum_list_with (fun g => sum_dims active dim (default [] (groups !! g))) order.
Proof.
  induction order as [|g o IH]; [done|]. rewrite enum_cons, sum_dims_app, IH. done.
Qed.

(** ** The problem invariant *)
Section oprob_proofs.
Context {V : Type}.
Implicit Types s : oprob V.

Record o_wf (edv : nat -> list nat) s : Prop := {
  ow_groups : gwf (o_groups s) (o_order s);
  ow_lookup : forall d g, o_lookup s !! d = Some g <-> exists l, o_groups s !! g = Some l /\ d ∈ l;
  ow_ets : NoDup (o_ets s);
  ow_etl : forall e, e ∈ o_etlookup s <-> e ∈ o_ets s;
  ow_closed : forall e d, e ∈ o_ets s -> d ∈ edv e -> is_Some (o_lookup s !! d);
  ow_backup : forall d, is_Some (o_backup s !! d) -> is_Some (o_lookup s !! d);
}.

Definition o_enum s : list nat := enum (o_groups s) (o_order s).

Lemma o_wf_enum edv s d : o_wf edv s -> d ∈ o_enum s <-> is_Some (o_lookup s !! d).
Proof.
  intros Hwf. unfold o_enum. rewrite elem_of_enum. split.
  - intros (g & l & Hg & Hl & Hd). exists g. apply (ow_lookup _ _ Hwf). eauto.
  - intros [g Hg]. apply (ow_lookup _ _ Hwf) in Hg as (l & Hl & Hd).
    exists g, l. split; [|done]. apply (gwf_dom _ _ (ow_groups _ _ Hwf)). eauto.
Qed.

Lemma size_of_list (m : gmap nat nat) l :
  NoDup l -> (forall d, d ∈ l <-> is_Some (m !! d)) -> size m = length l.
Proof.
  intros Hnd Hiff. rewrite <- size_dom.
  assert (Hd : dom m =@{gset nat} list_to_set l).
  { apply set_eq. intros d. rewrite elem_of_dom, elem_of_list_to_set. symmetry. apply Hiff. }
  rewrite Hd, size_list_to_set; done.
Qed.

Lemma o_wf_size edv s : o_wf edv s -> o_numDV s = length (o_enum s).
Proof.
  intros Hwf. apply size_of_list.
  - apply NoDup_enum, Hwf.
  - intros d. apply (o_wf_enum edv), Hwf.
Qed.

Lemma o_designVariable_spec edv s i :
  o_wf edv s ->
  o_designVariable s i = match o_enum s !! i with Some d => Ret d | None => Throw OutOfBound end.
Proof.
  intros Hwf. unfold o_designVariable. apply nth_dv_spec; [apply Hwf|].
  rewrite (o_wf_size edv); done.
Qed.

Lemma o_wf_numET edv s : o_wf edv s -> o_numET s = length (o_ets s).
Proof.
  intros Hwf. unfold o_numET.
  assert (o_etlookup s = list_to_set (o_ets s)) as ->.
  { apply set_eq. intros e. rewrite elem_of_list_to_set. apply Hwf. }
  apply size_list_to_set, Hwf.
Qed.

Lemma o_errorTerm_spec s i :
  o_errorTerm s i = match o_ets s !! i with Some e => Ret e | None => Throw OutOfBound end.
Proof.
  unfold o_errorTerm. destruct (Nat.leb_spec (length (o_ets s)) i) as [H|H].
  - rewrite lookup_ge_None_2 by done. done.
  - destruct (lookup_lt_is_Some_2 _ _ H) as [e ->]. done.
Qed.

Lemma o_wf_empty edv : o_wf edv (@o_empty V).
Proof.
  constructor; simpl.
  - constructor; simpl; try done; try (intros; rewrite lookup_empty in *; done).
    + constructor.
    + intros g. rewrite lookup_empty. split; [set_solver|intros [? ?]; done].
  - intros d g. rewrite lookup_empty. split; [done|]. intros (l & Hl & _). rewrite lookup_empty in Hl. done.
  - constructor.
  - set_solver.
  - set_solver.
  - intros d. rewrite lookup_empty. intros [? ?]. done.
Qed.

Lemma o_wf_addDV edv s d g :
  o_wf edv s -> o_isDVInProblem s d = false -> o_wf edv (fst (o_addDV s (Some d) g)).
Proof.
  intros Hwf Hd. cbn [o_addDV]. rewrite Hd. cbn [fst].
  unfold o_isDVInProblem in Hd. apply bool_decide_eq_false in Hd.
  pose proof (o_wf_enum _ _ d Hwf) as Hen. unfold o_enum in Hen.
  assert (Hnin : d ∉ enum (o_groups s) (o_order s)) by (rewrite Hen; done).
  change (if o_isGroupInProblem s g then o_order s else o_order s ++ [g])
    with (oadd (o_groups s) (o_order s) g).
  change (<[g := default [] (o_groups s !! g) ++ [d]]> (o_groups s)) with (gadd (o_groups s) g d).
  constructor; simpl.
  - apply gwf_add; [apply Hwf|done].
  - intros x g'. unfold gadd. destruct (decide (x = d)) as [->|Hx].
    + rewrite lookup_insert. split.
      * intros [= <-]. eexists. rewrite lookup_insert. split; [done|set_solver].
      * intros (l & Hl & Hin). destruct (decide (g' = g)) as [->|Hg]; [done|].
        rewrite lookup_insert_ne in Hl by done. exfalso. apply Hd. exists g'.
        apply (ow_lookup _ _ Hwf). eauto.
    + rewrite lookup_insert_ne by done. rewrite (ow_lookup _ _ Hwf). split.
      * intros (l & Hl & Hin). destruct (decide (g' = g)) as [->|Hg].
        { eexists. rewrite lookup_insert. split; [done|]. rewrite Hl. set_solver. }
        { exists l. rewrite lookup_insert_ne; done. }
      * intros (l & Hl & Hin). destruct (decide (g' = g)) as [->|Hg].
        { rewrite lookup_insert in Hl. injection Hl as <-.
          apply elem_of_app in Hin as [Hin|Hin]; [|set_solver].
          destruct (o_groups s !! g) as [l|] eqn:Hl; simpl in Hin; [|set_solver]. eauto. }
        { rewrite lookup_insert_ne in Hl by done. eauto. }
  - apply Hwf.
  - apply Hwf.
  - intros e x He Hx. destruct (decide (x = d)) as [->|]; [rewrite lookup_insert; eauto|].
    rewrite lookup_insert_ne by done. eapply (ow_closed _ _ Hwf); done.
  - intros x Hx. destruct (decide (x = d)) as [->|]; [rewrite lookup_insert; eauto|].
    rewrite lookup_insert_ne by done. apply (ow_backup _ _ Hwf), Hx.
Qed.

Lemma o_wf_step edv s op s' r :
  o_wf edv s -> ostep edv s op = (s', r) -> o_wf edv s'.
Proof.
  intros Hwf. destruct op as [d g|e| |o|p|p g|vals|]; cbn [ostep].
  - destruct d as [d|]; [|intros [= <- <-]; done].
    destruct (o_isDVInProblem s d) eqn:Hd.
    + cbn [o_addDV]. rewrite Hd. intros [= <- <-]. done.
    + intros H. replace s' with (fst (o_addDV s (Some d) g)) by (rewrite H; done).
      apply o_wf_addDV; done.
  - destruct e as [e|]; cbn [o_addET]; [|intros [= <- <-]; done].
    unfold o_isETInProblem. case_bool_decide as He; [intros [= <- <-]; done|].
    destruct (forallb _ _) eqn:Hall; [|intros [= <- <-]; done].
    intros [= <- <-]. destruct Hwf as [H1 H2 H3 H4 H5 H6]. constructor; simpl.
    + done.
    + done.
    + apply NoDup_app. split; [done|]. split; [|apply NoDup_singleton].
      intros x Hx Hx'. apply elem_of_list_singleton in Hx'. subst. apply He, H4, Hx.
    + intros x. rewrite elem_of_union, elem_of_app, elem_of_singleton, elem_of_list_singleton, H4. tauto.
    + intros x d Hx Hd. apply elem_of_app in Hx as [Hx|Hx]; [eapply H5; done|].
      apply elem_of_list_singleton in Hx. subst.
      apply forallb_forall with (x := d) in Hall; [|apply elem_of_list_In, Hd].
      unfold o_isDVInProblem in Hall. apply bool_decide_eq_true in Hall. done.
    + done.
  - intros [= <- <-]. apply o_wf_empty.
  - unfold o_setGroupsOrdering. destruct (Nat.eqb_spec (length o) (length (o_order s))) as [Hl|]; simpl; [|intros [= <- <-]; done].
    destruct (ordering_ok _ _ _) eqn:Hok; [|intros [= <- <-]; done].
    intros [= <- <-]. assert (Hp : o ≡ₚ o_order s).
    { apply (ordering_accepts (o_groups s)); [apply Hwf|]. done. }
    destruct Hwf as [H1 H2 H3 H4 H5 H6]. constructor; simpl; [eapply gwf_reorder; done|done..].
  - unfold o_permuteET. destruct (permute (o_ets s) p) as [l r'] eqn:Hp. intros [= <- <-].
    apply permute_fuel_perm in Hp. destruct Hwf as [H1 H2 H3 H4 H5 H6].
    constructor; simpl; [done|done|rewrite Hp; done| | |done].
    + intros e. rewrite Hp. apply H4.
    + intros e d. rewrite Hp. apply H5.
  - unfold o_permuteDV. destruct (o_groups s !! g) as [l|] eqn:Hg; [|intros [= <- <-]; done].
    destruct (permute l p) as [l' r'] eqn:Hp. intros [= <- <-].
    apply permute_fuel_perm in Hp. destruct Hwf as [H1 H2 H3 H4 H5 H6].
    constructor; simpl; [eapply gwf_permute; done| |done..].
    intros d g'. rewrite H2. destruct (decide (g' = g)) as [->|Hne].
    + rewrite lookup_insert, Hg. split; intros (k & [= <-] & Hin); eexists; (split; [done|]).
      * rewrite Hp. done.
      * rewrite <- Hp. done.
    + rewrite lookup_insert_ne by done. done.
  - intros [= <- <-]. destruct Hwf as [H1 H2 H3 H4 H5 H6]. constructor; simpl; [done..|].
    intros d. rewrite lookup_union_is_Some. intros [Hd|Hd]; [|apply H6, Hd].
    rewrite map_lookup_imap in Hd. destruct (o_lookup s !! d); [eauto|]. destruct Hd; done.
  - intros [= <- <-]. done.
Qed.

Lemma o_reachable_wf edv s : o_reachable edv s -> o_wf edv s.
Proof.
  induction 1 as [|s op s' r _ IH Hstep _]; [apply o_wf_empty|]. eapply o_wf_step; done.
Qed.

(** no call on a reachable problem is undefined *)
Lemma ostep_no_ub edv s op : snd (ostep edv s op) <> UB.
Proof.
  destruct op as [d g|e| |o|p|p g|vals|]; cbn [ostep]; try done.
  - destruct d as [d|]; cbn [o_addDV]; [|done]. destruct (o_isDVInProblem s d); done.
  - destruct e as [e|]; cbn [o_addET]; [|done].
    destruct (o_isETInProblem s e); [done|]. destruct (forallb _ _); done.
  - unfold o_setGroupsOrdering. destruct (negb _); [done|]. destruct (ordering_ok _ _ _); done.
  - unfold o_permuteET. destruct (permute _ _) as [l r] eqn:H. simpl. eapply permute_never_ub, H.
  - unfold o_permuteDV. destruct (o_groups s !! g); [|done].
    destruct (permute _ _) as [l' r] eqn:H. simpl. eapply permute_never_ub, H.
Qed.
End oprob_proofs.
