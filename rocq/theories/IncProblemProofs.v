From stdpp Require Import prelude list gmap.
From Coq Require Import Lia.
From Verif Require Import Base PermuteModel PermuteProofs OptProblemModel OptProblemProofs IncProblemModel.

(** ** Removing a set of variables from a group table *)

Definition rem_groups (R : gset nat) (groups : gmap nat (list nat)) : gmap nat (list nat) :=
  omap (fun l => match filter (fun d => d ∉ R) l with [] => None | l' => Some l' end) groups.
Definition rem_order (groups' : gmap nat (list nat)) (order : list nat) : list nat :=
  filter (fun g => is_Some (groups' !! g)) order.

Lemma rem_groups_lookup R groups g l :
  groups !! g = Some l ->
  rem_groups R groups !! g = match filter (fun d => d ∉ R) l with [] => None | l' => Some l' end.
Proof. intros H. unfold rem_groups. rewrite lookup_omap, H. done. Qed.
Lemma rem_groups_lookup_None R groups g : groups !! g = None -> rem_groups R groups !! g = None.
Proof. intros H. unfold rem_groups. rewrite lookup_omap, H. done. Qed.
Lemma rem_groups_Some R groups g l' :
  rem_groups R groups !! g = Some l' <->
  exists l, groups !! g = Some l /\ l' = filter (fun d => d ∉ R) l /\ l' <> [].
Proof.
  destruct (groups !! g) as [l|] eqn:Hg.
  - rewrite (rem_groups_lookup _ _ _ _ Hg). split.
    + destruct (filter _ l) eqn:Hf; [done|]. intros [= <-]. exists l. rewrite Hf. done.
    + intros (l0 & [= <-] & -> & Hne). destruct (filter _ l); done.
  - rewrite rem_groups_lookup_None by done. split; [done|]. intros (l & ? & _); done.
Qed.

Lemma filter_id_eq {A} (P : A -> Prop) `{!forall x, Decision (P x)} (l : list A) :
  (forall x, x ∈ l -> P x) -> filter P l = l.
Proof.
  intros Hall. induction l as [|x l IH]; [done|]. rewrite filter_cons_True by (apply Hall; set_solver).
  rewrite IH; [done|]. intros y Hy. apply Hall. set_solver.
Qed.
Lemma filter_none_eq {A} (P : A -> Prop) `{!forall x, Decision (P x)} (l : list A) :
  (forall x, x ∈ l -> ~ P x) -> filter P l = [].
Proof.
  intros Hall. induction l as [|x l IH]; [done|]. rewrite filter_cons_False by (apply Hall; set_solver).
  apply IH. intros y Hy. apply Hall. set_solver.
Qed.
Lemma filter_ext_in {A} (P Q : A -> Prop) `{!forall x, Decision (P x)} `{!forall x, Decision (Q x)} (l : list A) :
  (forall x, x ∈ l -> P x <-> Q x) -> filter P l = filter Q l.
Proof.
  intros Hall. induction l as [|x l IH]; [done|]. rewrite !filter_cons.
  rewrite IH by (intros y Hy; apply Hall; set_solver).
  destruct (decide (P x)) as [Hp|Hp], (decide (Q x)) as [Hq|Hq]; try done; exfalso;
    specialize (Hall x ltac:(set_solver)); tauto.
Qed.

Lemma rem_groups_empty groups order : gwf groups order -> rem_groups ∅ groups = groups.
Proof.
  intros Hwf. apply map_eq. intros g. destruct (groups !! g) as [l|] eqn:Hg.
  - rewrite (rem_groups_lookup _ _ _ _ Hg). rewrite filter_id_eq by set_solver.
    destruct l; [|done]. exfalso. eapply (gwf_ne _ _ Hwf); done.
  - apply rem_groups_lookup_None, Hg.
Qed.

Lemma rem_order_id groups order : gwf groups order -> rem_order groups order = order.
Proof. intros Hwf. apply filter_id_eq. intros g Hg. apply (gwf_dom _ _ Hwf), Hg. Qed.

Lemma rem_groups_compose R1 R2 groups :
  rem_groups R2 (rem_groups R1 groups) = rem_groups (R1 ∪ R2) groups.
Proof.
  apply map_eq. intros g. destruct (groups !! g) as [l|] eqn:Hg.
  - rewrite (rem_groups_lookup _ _ _ _ Hg).
    assert (Hff : filter (fun d => d ∉ R2) (filter (fun d => d ∉ R1) l) = filter (fun d => d ∉ R1 ∪ R2) l).
    { rewrite list_filter_filter. apply filter_ext_in. intros x _. set_solver. }
    rewrite <- Hff.
    destruct (rem_groups R1 groups !! g) as [l1|] eqn:H1.
    + rewrite (rem_groups_lookup _ _ _ _ H1).
      rewrite (rem_groups_lookup _ _ _ _ Hg) in H1.
      destruct (filter (fun d => d ∉ R1) l); [done|]. injection H1 as <-. done.
    + rewrite rem_groups_lookup_None by done.
      rewrite (rem_groups_lookup _ _ _ _ Hg) in H1.
      destruct (filter (fun d => d ∉ R1) l); [done|done].
  - rewrite !rem_groups_lookup_None; [done|done|]. apply rem_groups_lookup_None; done.
Qed.

Lemma rem_order_compose R1 R2 groups order :
  rem_order (rem_groups R2 (rem_groups R1 groups)) (rem_order (rem_groups R1 groups) order)
  = rem_order (rem_groups (R1 ∪ R2) groups) order.
Proof.
  unfold rem_order. rewrite list_filter_filter. rewrite rem_groups_compose.
  apply filter_ext_in. intros g _. split; [tauto|]. intros H. split; [done|].
  destruct H as [l Hl]. rewrite <- rem_groups_compose in Hl.
  apply rem_groups_Some in Hl as (l1 & H1 & _). eauto.
Qed.

Lemma gwf_rem R groups order :
  gwf groups order -> gwf (rem_groups R groups) (rem_order (rem_groups R groups) order).
Proof.
  intros [Hnd Hdom Hne Hlnd Hdisj]. constructor.
  - apply NoDup_filter, Hnd.
  - intros g. unfold rem_order. rewrite elem_of_list_filter, Hdom. split; [tauto|].
    intros Hs. split; [done|]. destruct Hs as [l Hl]. apply rem_groups_Some in Hl as (l0 & ? & _). eauto.
  - intros g l Hl. apply rem_groups_Some in Hl as (l0 & _ & _ & ?). done.
  - intros g l Hl. apply rem_groups_Some in Hl as (l0 & Hl0 & -> & _). apply NoDup_filter. eapply Hlnd, Hl0.
  - intros g1 g2 l1 l2 d H1 H2 Hd1 Hd2.
    apply rem_groups_Some in H1 as (k1 & Hk1 & -> & _). apply rem_groups_Some in H2 as (k2 & Hk2 & -> & _).
    apply elem_of_list_filter in Hd1 as [_ Hd1]. apply elem_of_list_filter in Hd2 as [_ Hd2].
    eapply Hdisj; done.
Qed.

Lemma erase_first_filter x l : NoDup l -> x ∈ l -> erase_first x l = Some (filter (fun y => y <> x) l).
Proof.
  intros Hnd Hx. induction l as [|y l IH]; [set_solver|]. cbn [erase_first].
  apply NoDup_cons in Hnd as [Hy Hnd]. destruct (Nat.eqb_spec y x) as [->|Hne].
  - rewrite filter_cons_False by (intros H; done). rewrite filter_id_eq; [done|]. intros z Hz ->. done.
  - rewrite filter_cons_True by done. rewrite IH; [done|done|set_solver].
Qed.

Lemma erase_first_notin x l : x ∉ l -> erase_first x l = None.
Proof.
  induction l as [|y l IH]; [done|]. intros Hx. cbn [erase_first].
  destruct (Nat.eqb_spec y x) as [->|Hne]; [set_solver|]. rewrite IH; [done|set_solver].
Qed.

Lemma find_index_Some x l i :
  find_index x l = Some i -> l !! i = Some x /\ forall j, j < i -> l !! j <> Some x.
Proof.
  revert i. induction l as [|y l IH]; intros i; cbn [find_index]; [done|].
  destruct (Nat.eqb_spec y x) as [->|Hne].
  - intros [= <-]. split; [done|]. intros; lia.
  - destruct (find_index x l) as [j|]; [|done]. intros [= <-]. destruct (IH j eq_refl) as [H1 H2].
    split; [done|]. intros [|k] Hk; simpl; [congruence|]. apply H2. lia.
Qed.
Lemma find_index_None x l : find_index x l = None <-> x ∉ l.
Proof.
  induction l as [|y l IH]; cbn [find_index]; [set_solver|].
  destruct (Nat.eqb_spec y x) as [->|Hne]; [set_solver|].
  destruct (find_index x l); simpl; [|set_solver].
  split; [done|]. intros H. destruct (IH); set_solver.
Qed.

Section inc_proofs.
Context {V : Type}.
Implicit Types s : inc V.
Implicit Types b : oprob V.

(** ** The tables (without reference to the batches) *)
Record twf s : Prop := {
  tw_g : gwf (i_groups s) (i_order s);
  tw_c : forall d c g, i_counts s !! d = Some (c, g) ->
         (0 < c)%N /\ exists l, i_groups s !! g = Some l /\ d ∈ l;
  tw_m : forall g l d, i_groups s !! g = Some l -> d ∈ l -> exists c, i_counts s !! d = Some (c, g);
}.

Definition i_enum s : list nat := enum (i_groups s) (i_order s).

Lemma twf_enum s d : twf s -> d ∈ i_enum s <-> is_Some (i_counts s !! d).
Proof.
  intros Hwf. unfold i_enum. rewrite elem_of_enum. split.
  - intros (g & l & Hg & Hl & Hd). destruct (tw_m _ Hwf _ _ _ Hl Hd) as [c Hc]. eauto.
  - intros [[c g] Hc]. destruct (tw_c _ Hwf _ _ _ Hc) as (_ & l & Hl & Hd).
    exists g, l. split; [|done]. apply (gwf_dom _ _ (tw_g _ Hwf)). eauto.
Qed.

Lemma twf_size s : twf s -> i_numDV s = length (i_enum s).
Proof.
  intros Hwf. unfold i_numDV. rewrite <- size_dom.
  assert (Hd : dom (i_counts s) =@{gset nat} list_to_set (i_enum s)).
  { apply set_eq. intros d. rewrite elem_of_dom, elem_of_list_to_set. symmetry. apply twf_enum, Hwf. }
  rewrite Hd, size_list_to_set; [done|]. apply NoDup_enum, Hwf.
Qed.

Lemma i_designVariable_spec s i :
  twf s ->
  i_designVariable s i = match i_enum s !! i with Some d => Ret d | None => Throw OutOfBound end.
Proof.
  intros Hwf. unfold i_designVariable. apply nth_dv_spec; [apply Hwf|]. apply twf_size, Hwf.
Qed.

(** ** The loops of add / remove as folds over the batch's enumeration *)

Fixpoint add_list (L : list (nat * nat)) s : inc V * result unit :=
  match L with
  | [] => (s, Ret tt)
  | (d, g) :: L' => match add_dv s d g with
                    | (s', Ret _) => add_list L' s'
                    | (s', r) => (s', r)
                    end
  end.
Fixpoint remove_list (L : list nat) s : inc V * result unit :=
  match L with
  | [] => (s, Ret tt)
  | d :: L' => match remove_dv s d with
               | (s', Ret _) => remove_list L' s'
               | (s', r) => (s', r)
               end
  end.

Definition ogrp b d : nat := default 0 (o_lookup b !! d).
Definition opairs b : list (nat * nat) := map (fun d => (d, ogrp b d)) (o_enum b).

Lemma opairs_fst b : map fst (opairs b) = o_enum b.
Proof. unfold opairs. rewrite map_map. simpl. apply map_id. Qed.

Lemma elem_of_opairs edv b d g : o_wf edv b -> (d, g) ∈ opairs b <-> o_lookup b !! d = Some g.
Proof.
  intros Hwf. unfold opairs. rewrite elem_of_list_fmap. split.
  - intros (d' & [= -> ->] & Hd). apply (o_wf_enum edv) in Hd; [|done]. destruct Hd as [g Hg].
    unfold ogrp. rewrite Hg. done.
  - intros Hg. exists d. unfold ogrp. rewrite Hg. split; [done|]. apply (o_wf_enum edv); eauto.
Qed.

Lemma add_dvs_fold edv b todo i s :
  o_wf edv b -> i + todo = length (o_enum b) ->
  add_dvs b todo i s = add_list (drop i (opairs b)) s.
Proof.
  intros Hwf. revert i s. induction todo as [|todo IH]; intros i s Hl; cbn [add_dvs].
  - rewrite drop_ge by (unfold opairs; rewrite map_length; lia). done.
  - destruct (lookup_lt_is_Some_2 (o_enum b) i) as [d Hd]; [lia|].
    rewrite (o_designVariable_spec edv) by done. rewrite Hd. cbn [rbind].
    assert (Hdg : o_lookup b !! d = Some (ogrp b d)).
    { assert (Hin : d ∈ o_enum b) by (eapply elem_of_list_lookup_2, Hd).
      apply (o_wf_enum edv) in Hin; [|done]. destruct Hin as [g Hg]. unfold ogrp. rewrite Hg. done. }
    unfold o_getGroupId. rewrite Hdg. cbn [rbind].
    rewrite (drop_S (opairs b) (d, ogrp b d) i).
    2: { unfold opairs. rewrite list_lookup_fmap, Hd. done. }
    cbn [add_list]. destruct (add_dv s d (ogrp b d)) as [s' [[]|e| |]]; try done. apply IH. lia.
Qed.

Lemma remove_dvs_fold edv b todo i s :
  o_wf edv b -> i + todo = length (o_enum b) ->
  remove_dvs b todo i s = remove_list (drop i (o_enum b)) s.
Proof.
  intros Hwf. revert i s. induction todo as [|todo IH]; intros i s Hl; cbn [remove_dvs].
  - rewrite drop_ge by lia. done.
  - destruct (lookup_lt_is_Some_2 (o_enum b) i) as [d Hd]; [lia|].
    rewrite (o_designVariable_spec edv) by done. rewrite Hd.
    rewrite (drop_S (o_enum b) d i) by done.
    cbn [remove_list]. destruct (remove_dv s d) as [s' [[]|e| |]]; try done. apply IH. lia.
Qed.

Lemma add_check_ets_spec h b todo i s :
  i + todo = length (o_ets b) ->
  add_check_ets h b todo i s =
    if existsb (i_isETInProblem h s) (drop i (o_ets b)) then Throw InvalidOperation else Ret tt.
Proof.
  revert i. induction todo as [|todo IH]; intros i Hl; cbn [add_check_ets].
  - rewrite drop_ge by lia. done.
  - destruct (lookup_lt_is_Some_2 (o_ets b) i) as [e He]; [lia|].
    rewrite o_errorTerm_spec, He. rewrite (drop_S _ e) by done. cbn [existsb].
    destruct (i_isETInProblem h s e); [done|]. apply IH. lia.
Qed.

(** ** Adding *)

Lemma add_dv_probs s d g : i_probs (fst (add_dv s d g)) = i_probs s /\ i_backup (fst (add_dv s d g)) = i_backup s.
Proof. unfold add_dv. destruct (i_counts s !! d) as [[c g']|]; [destruct (Nat.eqb g' g)|]; done. Qed.

Lemma add_dv_new s d g s' :
  i_counts s !! d = None ->
  s' = Inc (i_probs s) (<[d := (1%N, g)]> (i_counts s)) (gadd (i_groups s) g d)
           (oadd (i_groups s) (i_order s) g) (i_backup s) ->
  add_dv s d g = (s', Ret tt).
Proof. intros Hc ->. unfold add_dv. rewrite Hc. done. Qed.

Lemma add_dv_old s d g c :
  twf s -> i_counts s !! d = Some (c, g) ->
  add_dv s d g = (Inc (i_probs s) (<[d := ((c + 1)%N, g)]> (i_counts s)) (i_groups s) (i_order s) (i_backup s), Ret tt).
Proof.
  intros Hwf Hc. unfold add_dv. rewrite Hc, Nat.eqb_refl.
  destruct (tw_c _ Hwf _ _ _ Hc) as (_ & l & Hl & _).
  unfold i_isGroupInProblem. rewrite bool_decide_true by (rewrite Hl; eauto). done.
Qed.

Lemma twf_add_new s d g :
  twf s -> i_counts s !! d = None ->
  twf (Inc (i_probs s) (<[d := (1%N, g)]> (i_counts s)) (gadd (i_groups s) g d)
           (oadd (i_groups s) (i_order s) g) (i_backup s)).
Proof.
  intros Hwf Hd.
  assert (Hnin : d ∉ enum (i_groups s) (i_order s)).
  { intros Hin. apply twf_enum in Hin; [|done]. destruct Hin; congruence. }
  constructor; simpl.
  - apply gwf_add; [apply Hwf|done].
  - intros x c g'. unfold gadd. destruct (decide (x = d)) as [->|Hx].
    + rewrite lookup_insert. intros [= <- <-]. split; [lia|]. eexists. rewrite lookup_insert.
      split; [done|set_solver].
    + rewrite lookup_insert_ne by done. intros Hc. destruct (tw_c _ Hwf _ _ _ Hc) as (? & l & Hl & Hin).
      split; [done|]. destruct (decide (g' = g)) as [->|Hg].
      * eexists. rewrite lookup_insert. split; [done|]. rewrite Hl. set_solver.
      * exists l. rewrite lookup_insert_ne; done.
  - intros g' l x. unfold gadd. destruct (decide (g' = g)) as [->|Hg].
    + rewrite lookup_insert. intros [= <-] Hin. apply elem_of_app in Hin as [Hin|Hin].
      * destruct (i_groups s !! g) as [l|] eqn:Hl; simpl in Hin; [|set_solver].
        destruct (tw_m _ Hwf _ _ _ Hl Hin) as [c Hc]. rewrite lookup_insert_ne; [eauto|]. congruence.
      * apply elem_of_list_singleton in Hin. subst. rewrite lookup_insert. eauto.
    + rewrite lookup_insert_ne by done. intros Hl Hin. destruct (tw_m _ Hwf _ _ _ Hl Hin) as [c Hc].
      rewrite lookup_insert_ne; [eauto|]. congruence.
Qed.

Lemma twf_add_old s d g c :
  twf s -> i_counts s !! d = Some (c, g) ->
  twf (Inc (i_probs s) (<[d := ((c + 1)%N, g)]> (i_counts s)) (i_groups s) (i_order s) (i_backup s)).
Proof.
  intros Hwf Hc. constructor; simpl.
  - apply Hwf.
  - intros x c' g'. destruct (decide (x = d)) as [->|Hx].
    + rewrite lookup_insert. intros [= <- <-]. split; [lia|]. eapply tw_c; done.
    + rewrite lookup_insert_ne by done. apply Hwf.
  - intros g' l x Hl Hin. destruct (tw_m _ Hwf _ _ _ Hl Hin) as [c' Hc']. destruct (decide (x = d)) as [->|Hx].
    + rewrite lookup_insert. assert (g' = g) as -> by congruence. eauto.
    + rewrite lookup_insert_ne by done. eauto.
Qed.

(** effect of a successful [add] loop *)
Lemma add_list_ok L s s' :
  twf s -> NoDup (map fst L) -> add_list L s = (s', Ret tt) ->
  twf s' /\ i_probs s' = i_probs s /\ i_backup s' = i_backup s /\
  (forall d, d ∉ map fst L -> i_counts s' !! d = i_counts s !! d) /\
  (forall d g, (d, g) ∈ L ->
     i_counts s' !! d = match i_counts s !! d with Some (c, _) => Some ((c + 1)%N, g) | None => Some (1%N, g) end /\
     (forall c g', i_counts s !! d = Some (c, g') -> g' = g)) /\
  (forall g, exists k, default [] (i_groups s' !! g) = default [] (i_groups s !! g) ++ k /\
             forall d, d ∈ k -> d ∈ map fst L /\ i_counts s !! d = None) /\
  (exists k, i_order s' = i_order s ++ k).
Proof.
  revert s. induction L as [|[d g] L IH]; intros s Hwf Hnd Hadd; cbn [add_list] in Hadd.
  { injection Hadd as <-. split; [done|]. split; [done|]. split; [done|]. split; [done|].
    split; [set_solver|]. split; [|exists []; rewrite app_nil_r; done].
    intros g. exists []. rewrite app_nil_r. split; [done|set_solver]. }
  cbn [map fst] in Hnd. apply NoDup_cons in Hnd as [Hdn Hnd].
  destruct (i_counts s !! d) as [[c g']|] eqn:Hc.
  - assert (g' = g) as ->.
    { unfold add_dv in Hadd. rewrite Hc in Hadd. destruct (Nat.eqb_spec g' g); [done|discriminate]. }
    rewrite (add_dv_old s d g c) in Hadd by done.
    set (s1 := Inc _ _ _ _ _) in Hadd.
    assert (Hwf1 : twf s1) by (apply twf_add_old; done).
    destruct (IH s1 Hwf1 Hnd Hadd) as (H1 & H2 & H3 & H4 & H5 & H6 & H7).
    split; [done|]. split; [done|]. split; [done|]. split.
    { intros x Hx. rewrite H4 by set_solver. simpl. rewrite lookup_insert_ne; [done|]. set_solver. }
    split.
    { intros x gx Hx. apply elem_of_cons in Hx as [[= -> ->]|Hx].
      - rewrite H4 by done. simpl. rewrite lookup_insert, Hc. split; [done|]. intros ? ? [= <- <-]. done.
      - assert (x <> d).
        { intros ->. apply Hdn. apply elem_of_list_fmap. exists (d, gx). done. }
        destruct (H5 _ _ Hx) as [H5a H5b]. simpl in H5a, H5b.
        rewrite lookup_insert_ne in H5a, H5b by done. done. }
    split; [|done].
    intros g0. destruct (H6 g0) as (k & Hk & Hkd). exists k. split; [done|].
    intros x Hx. destruct (Hkd x Hx) as [Ha Hb]. simpl in Hb.
    assert (x <> d) by (intros ->; done). rewrite lookup_insert_ne in Hb by done.
    split; [set_solver|done].
  - rewrite (add_dv_new s d g _ Hc eq_refl) in Hadd.
    set (s1 := Inc _ _ _ _ _) in Hadd.
    assert (Hwf1 : twf s1) by (apply twf_add_new; done).
    destruct (IH s1 Hwf1 Hnd Hadd) as (H1 & H2 & H3 & H4 & H5 & H6 & H7).
    split; [done|]. split; [done|]. split; [done|]. split.
    { intros x Hx. rewrite H4 by set_solver. simpl. rewrite lookup_insert_ne; [done|]. set_solver. }
    split.
    { intros x gx Hx. apply elem_of_cons in Hx as [[= -> ->]|Hx].
      - rewrite H4 by done. simpl. rewrite lookup_insert, Hc. done.
      - assert (x <> d).
        { intros ->. apply Hdn. apply elem_of_list_fmap. exists (d, gx). done. }
        destruct (H5 _ _ Hx) as [H5a H5b]. simpl in H5a, H5b.
        rewrite lookup_insert_ne in H5a, H5b by done. done. }
    split.
    { intros g0. destruct (H6 g0) as (k & Hk & Hkd). simpl in Hk. unfold gadd in Hk.
      assert (Hkd' : forall x, x ∈ k -> x ∈ map fst ((d, g) :: L) /\ i_counts s !! x = None).
      { intros x Hx. destruct (Hkd x Hx) as [Ha Hb]. simpl in Hb.
        assert (x <> d) by (intros ->; done). rewrite lookup_insert_ne in Hb by done.
        split; [set_solver|done]. }
      destruct (decide (g0 = g)) as [->|Hne].
      - rewrite lookup_insert in Hk. simpl in Hk. exists (d :: k).
        split; [rewrite Hk, <- app_assoc; done|].
        intros x Hx. apply elem_of_cons in Hx as [->|Hx]; [split; [set_solver|done]|auto].
      - rewrite lookup_insert_ne in Hk by done. exists k. done. }
    destruct H7 as [k Hk]. simpl in Hk. unfold oadd in Hk. case_bool_decide.
    + exists k. done.
    + exists (g :: k). rewrite Hk, <- app_assoc. done.
Qed.

(** ** Removing *)

Lemma rem_step_groups s d c g :
  twf s -> i_counts s !! d = Some (c, g) ->
  exists l, i_groups s !! g = Some l /\ d ∈ l /\
    rem_groups {[d]} (i_groups s) =
      match filter (fun y => y <> d) l with
      | [] => delete g (i_groups s)
      | l' => <[g := l']> (i_groups s)
      end.
Proof.
  intros Hwf Hc. destruct (tw_c _ Hwf _ _ _ Hc) as (_ & l & Hl & Hd). exists l.
  split; [done|]. split; [done|].
  assert (Hfe : filter (fun y => y ∉ ({[d]} : gset nat)) l = filter (fun y => y <> d) l).
  { apply filter_ext_in. set_solver. }
  assert (Hoth : forall g', g' <> g -> rem_groups {[d]} (i_groups s) !! g' = i_groups s !! g').
  { intros g' Hne. destruct (i_groups s !! g') as [l'|] eqn:Hl'.
    - rewrite (rem_groups_lookup _ _ _ _ Hl'). rewrite filter_id_eq.
      + destruct l'; [|done]. exfalso. eapply (gwf_ne _ _ (tw_g _ Hwf)); done.
      + intros x Hx. rewrite elem_of_singleton. intros ->. apply Hne.
        eapply (gwf_disj _ _ (tw_g _ Hwf)); done.
    - apply rem_groups_lookup_None; done. }
  apply map_eq. intros g'. destruct (decide (g' = g)) as [->|Hne].
  - rewrite (rem_groups_lookup _ _ _ _ Hl), Hfe.
    destruct (filter (fun y => y <> d) l); [rewrite lookup_delete|rewrite lookup_insert]; done.
  - rewrite Hoth by done.
    destruct (filter (fun y => y <> d) l); [rewrite lookup_delete_ne by done|rewrite lookup_insert_ne by done]; done.
Qed.

Lemma remove_dv_last s d g :
  twf s -> i_counts s !! d = Some (1%N, g) ->
  remove_dv s d =
    (Inc (i_probs s) (delete d (i_counts s)) (rem_groups {[d]} (i_groups s))
         (rem_order (rem_groups {[d]} (i_groups s)) (i_order s)) (delete d (i_backup s)), Ret tt).
Proof.
  intros Hwf Hc. unfold remove_dv. rewrite Hc. cbn [from_option id]. cbv zeta.
  change (wrap_pred 1) with 0%N. change (0 =? 0)%N with true. cbv iota. rewrite delete_insert_delete.
  destruct (rem_step_groups s d _ g Hwf Hc) as (l & Hl & Hd & Hrem).
  rewrite Hl. cbn [from_option id].
  rewrite erase_first_filter; [|eapply (gwf_lnodup _ _ (tw_g _ Hwf)), Hl|done].
  rewrite Hrem. destruct (filter (fun y => y <> d) l) as [|x l'] eqn:Hf.
  - assert (Hgo : g ∈ i_order s) by (apply (gwf_dom _ _ (tw_g _ Hwf)); eauto).
    rewrite erase_first_filter; [|apply Hwf|done]. do 2 f_equal.
    unfold rem_order. apply filter_ext_in. intros g' Hg'. split.
    + intros Hne. rewrite lookup_delete_ne by done. apply (gwf_dom _ _ (tw_g _ Hwf)), Hg'.
    + intros [k Hk] ->. rewrite lookup_delete in Hk. done.
  - do 2 f_equal. unfold rem_order. symmetry. apply filter_id_eq. intros g' Hg'.
    destruct (decide (g' = g)) as [->|Hne]; [rewrite lookup_insert; eauto|].
    rewrite lookup_insert_ne by done. apply (gwf_dom _ _ (tw_g _ Hwf)), Hg'.
Qed.

Lemma remove_dv_more s d c g :
  i_counts s !! d = Some (c, g) -> (1 < c)%N ->
  remove_dv s d =
    (Inc (i_probs s) (<[d := ((c - 1)%N, g)]> (i_counts s)) (i_groups s) (i_order s) (i_backup s), Ret tt).
Proof.
  intros Hc Hlt. unfold remove_dv. rewrite Hc. cbn [from_option id]. cbv zeta. unfold wrap_pred. destruct (N.eqb_spec c 0); [lia|].
  destruct (N.eqb_spec (c - 1) 0); [lia|]. done.
Qed.

Lemma twf_rem_last s d g :
  twf s -> i_counts s !! d = Some (1%N, g) ->
  twf (Inc (i_probs s) (delete d (i_counts s)) (rem_groups {[d]} (i_groups s))
         (rem_order (rem_groups {[d]} (i_groups s)) (i_order s)) (delete d (i_backup s))).
Proof.
  intros Hwf Hc. constructor; simpl.
  - apply gwf_rem, Hwf.
  - intros x c g' Hx. apply lookup_delete_Some in Hx as [Hxd Hx].
    destruct (tw_c _ Hwf _ _ _ Hx) as (Hpos & l & Hl & Hin). split; [done|].
    assert (Hin' : x ∈ filter (fun y => y ∉ ({[d]} : gset nat)) l).
    { apply elem_of_list_filter. set_solver. }
    exists (filter (fun y => y ∉ ({[d]} : gset nat)) l). split; [|done].
    apply rem_groups_Some. exists l. split; [done|]. split; [done|]. intros He. rewrite He in Hin'. set_solver.
  - intros g' l x Hl Hin. apply rem_groups_Some in Hl as (l0 & Hl0 & -> & _).
    apply elem_of_list_filter in Hin as [Hxd Hin].
    destruct (tw_m _ Hwf _ _ _ Hl0 Hin) as [c Hcx]. exists c. rewrite lookup_delete_ne; [done|]. set_solver.
Qed.

Lemma twf_rem_more s d c g :
  twf s -> i_counts s !! d = Some (c, g) -> (1 < c)%N ->
  twf (Inc (i_probs s) (<[d := ((c - 1)%N, g)]> (i_counts s)) (i_groups s) (i_order s) (i_backup s)).
Proof.
  intros Hwf Hc Hlt. constructor; simpl.
  - apply Hwf.
  - intros x c' g'. destruct (decide (x = d)) as [->|Hx].
    + rewrite lookup_insert. intros [= <- <-]. split; [lia|]. eapply tw_c; done.
    + rewrite lookup_insert_ne by done. apply Hwf.
  - intros g' l x Hl Hin. destruct (tw_m _ Hwf _ _ _ Hl Hin) as [c' Hc']. destruct (decide (x = d)) as [->|Hx].
    + rewrite lookup_insert. assert (g' = g) as -> by congruence. eauto.
    + rewrite lookup_insert_ne by done. eauto.
Qed.

(** the variables whose last reference goes *)
Definition last_refs (counts : gmap nat (N * nat)) (L : list nat) : gset nat :=
  list_to_set (filter (fun d => fst <$> (counts !! d) = Some 1%N) L).

Lemma elem_of_last_refs counts L d :
  d ∈ last_refs counts L <-> d ∈ L /\ fst <$> (counts !! d) = Some 1%N.
Proof. unfold last_refs. rewrite elem_of_list_to_set, elem_of_list_filter. tauto. Qed.

Lemma last_refs_ext (c1 c2 : gmap nat (N * nat)) L :
  (forall d, d ∈ L -> c1 !! d = c2 !! d) -> last_refs c1 L = last_refs c2 L.
Proof.
  intros H. apply set_eq. intros d. rewrite !elem_of_last_refs. split; intros [Hd Hc]; (split; [done|]).
  - rewrite <- H; done.
  - rewrite H; done.
Qed.

Lemma last_refs_cons_last counts d g L :
  d ∉ L -> counts !! d = Some (1%N, g) ->
  last_refs counts (d :: L) = {[d]} ∪ last_refs counts L.
Proof.
  intros Hd Hc. apply set_eq. intros x. rewrite elem_of_union, elem_of_singleton, !elem_of_last_refs, elem_of_cons.
  split; [tauto|]. intros [->|[? ?]]; [|tauto]. rewrite Hc. split; [by left|done].
Qed.

Lemma last_refs_cons_more counts d c g L :
  d ∉ L -> counts !! d = Some (c, g) -> (1 < c)%N ->
  last_refs counts (d :: L) = last_refs counts L.
Proof.
  intros Hd Hc Hlt. apply set_eq. intros x. rewrite !elem_of_last_refs, elem_of_cons.
  split; [|tauto]. intros [[->|?] Hx]; [|tauto]. rewrite Hc in Hx. injection Hx as ->. lia.
Qed.

Lemma remove_list_ok L s :
  twf s -> NoDup L -> (forall d, d ∈ L -> is_Some (i_counts s !! d)) ->
  exists s', remove_list L s = (s', Ret tt) /\ twf s' /\ i_probs s' = i_probs s /\
    (forall d, i_counts s' !! d =
       if decide (d ∈ L) then match i_counts s !! d with
                              | Some (c, g) => if (c =? 1)%N then None else Some ((c - 1)%N, g)
                              | None => None end
       else i_counts s !! d) /\
    i_groups s' = rem_groups (last_refs (i_counts s) L) (i_groups s) /\
    i_order s' = rem_order (rem_groups (last_refs (i_counts s) L) (i_groups s)) (i_order s) /\
    (forall d, i_backup s' !! d =
       if decide (d ∈ last_refs (i_counts s) L) then None else i_backup s !! d).
Proof.
  revert s. induction L as [|d L IH]; intros s Hwf Hnd Hsub; cbn [remove_list].
  { exists s. split; [done|]. split; [done|]. split; [done|].
    assert (He : last_refs (i_counts s) [] = ∅) by done. rewrite He.
    rewrite (rem_groups_empty _ (i_order s)) by apply Hwf.
    rewrite rem_order_id by apply Hwf.
    split; [|split; [done|]; split; [done|]]; intros d; rewrite decide_False; done || set_solver. }
  apply NoDup_cons in Hnd as [Hdn Hnd].
  destruct (Hsub d) as [[c g] Hc]; [set_solver|].
  destruct (tw_c _ Hwf _ _ _ Hc) as (Hpos & _).
  destruct (decide (c = 1%N)) as [->|Hc1].
  - rewrite (remove_dv_last s d g) by done.
    set (s1 := Inc _ _ _ _ _).
    assert (Hwf1 : twf s1) by (eapply twf_rem_last; done).
    destruct (IH s1 Hwf1 Hnd) as (s' & Heq & Hwf' & Hp & Hcnt & Hgr & Hor & Hbk).
    { intros x Hx. simpl. rewrite lookup_delete_ne by set_solver. apply Hsub. set_solver. }
    exists s'. split; [done|]. split; [done|]. split; [done|].
    assert (HR : last_refs (i_counts s1) L = last_refs (i_counts s) L).
    { apply last_refs_ext. intros x Hx. simpl. rewrite lookup_delete_ne; [done|]. set_solver. }
    rewrite HR in Hgr, Hor, Hbk. rewrite (last_refs_cons_last _ d g L) by done.
    split; [|split; [|split]].
    + intros x. rewrite Hcnt. simpl. destruct (decide (x = d)) as [->|Hx].
      * rewrite (decide_False (P := d ∈ L)) by done. rewrite decide_True by set_solver.
        rewrite lookup_delete, Hc. done.
      * rewrite lookup_delete_ne by done.
        destruct (decide (x ∈ L)); [rewrite decide_True by set_solver|rewrite decide_False by set_solver]; done.
    + rewrite Hgr. simpl. apply rem_groups_compose.
    + rewrite Hor. simpl. apply rem_order_compose.
    + intros x. rewrite Hbk. simpl. destruct (decide (x = d)) as [->|Hx].
      * rewrite (decide_True (P := d ∈ {[d]} ∪ _)) by set_solver. rewrite lookup_delete. destruct (decide _); done.
      * rewrite lookup_delete_ne by done.
        destruct (decide (x ∈ last_refs (i_counts s) L));
          [rewrite decide_True by set_solver|rewrite decide_False by set_solver]; done.
  - rewrite (remove_dv_more s d c g) by (done || lia).
    set (s1 := Inc _ _ _ _ _).
    assert (Hwf1 : twf s1) by (eapply twf_rem_more; [done|done|lia]).
    destruct (IH s1 Hwf1 Hnd) as (s' & Heq & Hwf' & Hp & Hcnt & Hgr & Hor & Hbk).
    { intros x Hx. simpl. rewrite lookup_insert_ne by set_solver. apply Hsub. set_solver. }
    exists s'. split; [done|]. split; [done|]. split; [done|].
    assert (HR : last_refs (i_counts s1) L = last_refs (i_counts s) L).
    { apply last_refs_ext. intros x Hx. simpl. rewrite lookup_insert_ne; [done|]. set_solver. }
    rewrite HR in Hgr, Hor, Hbk. rewrite (last_refs_cons_more _ d c g L) by (done || lia).
    split; [|done].
    intros x. rewrite Hcnt. simpl. destruct (decide (x = d)) as [->|Hx].
    + rewrite (decide_False (P := d ∈ L)) by done. rewrite decide_True by set_solver.
      rewrite lookup_insert, Hc. destruct (N.eqb_spec c 1); done.
    + rewrite lookup_insert_ne by done.
      destruct (decide (x ∈ L)); [rewrite decide_True by set_solver|rewrite decide_False by set_solver]; done.
Qed.
End inc_proofs.
