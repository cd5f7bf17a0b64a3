From stdpp Require Import prelude list gmap.
From Coq Require Import Lia.
From Verif Require Import Base PermuteModel PermuteProofs OptProblemModel OptProblemProofs
  IncProblemModel Spec_IncProblem IncProblemProofs IncHistoryProofs IncExtraProofs IncSpecProofs
  EstimatorModel Spec_Estimator.

Lemma swap_last (l : list nat) (m i b : nat) :
  l !! i = Some m -> last l = Some b -> m <> b ->
  exists pre k0, l = pre ++ m :: k0 ++ [b] /\
    <[length l - 1 := m]> (<[i := b]> l) = pre ++ b :: k0 ++ [m].
Proof.
  intros Hi Hb Hne. pose proof (take_drop_middle l i m Hi) as Hl.
  destruct (drop (S i) l) as [|x k _] eqn:Hk using rev_ind.
  { exfalso. rewrite <- Hl in Hb. rewrite last_app in Hb. simpl in Hb. congruence. }
  assert (x = b) as ->.
  { rewrite <- Hl in Hb. rewrite last_app, last_cons, last_app in Hb. simpl in Hb. congruence. }
  exists (take i l), k. rewrite Hl. split; [done|].
  assert (Hlen : length (take i l) = i) by (rewrite take_length; apply lookup_lt_Some in Hi; lia).
  set (pre := take i l) in *. clearbody pre. clear Hk Hi Hb. subst l.
  rewrite <- Hlen.
  replace (length pre) with (length pre + 0) at 1 by lia. rewrite insert_app_r. simpl.
  rewrite app_length. simpl. rewrite app_length. simpl.
  replace (length pre + S (length k + 1) - 1) with (length pre + S (length k + 0)) by lia.
  rewrite insert_app_r. simpl. rewrite insert_app_r. done.
Qed.

Section proofs.
Context {V D M : Type} (A : arith D) (nil : M) (h : nat -> oprob V) (edv : nat -> list nat).
Context (dim edim : nat -> nat).
Context (Hr : forall b, o_reachable edv (h b)).
Implicit Types s : est V D M.
Implicit Types q : inc V.

Let Hh : forall b, o_wf edv (h b).
Proof. intros b. apply o_reachable_wf, Hr. Qed.

Lemma noclear_wf q : i_reachable_noclear h q -> i_wf h q.
Proof. intros Hq. eapply i_reachable_wf; [exact Hh|]. eapply backup_in_counts; [exact Hr|exact Hq]. Qed.

(** the groups ordering ends with [m], or does not contain it *)
Definition last_or_absent (m : nat) q : Prop := m ∈ i_order q -> exists pre, i_order q = pre ++ [m].

Definition reordered q (o : list nat) : inc V := Inc (i_probs q) (i_counts q) (i_groups q) o (i_backup q).

Lemma reordered_id q : reordered q (i_order q) = q.
Proof. destruct q. done. Qed.

Lemma order_marg_absent m q : m ∉ i_order q -> order_marg m q = (q, Throw InvalidOperation).
Proof.
  intros Hm. unfold order_marg. destruct (find_index m (i_order q)) as [i|] eqn:Hf; [|done].
  apply find_index_Some in Hf as [Hi _]. apply elem_of_list_lookup_2 in Hi. done.
Qed.

Lemma order_marg_present m q :
  i_wf h q -> m ∈ i_order q ->
  exists o, order_marg m q = (reordered q o, Ret tt) /\ o ≡ₚ i_order q /\ (exists pre, o = pre ++ [m]) /\
    (i_order q = o \/ exists pre k b, i_order q = pre ++ m :: k ++ [b] /\ o = pre ++ b :: k ++ [m]).
Proof.
  intros Hwf Hm. unfold order_marg.
  destruct (find_index m (i_order q)) as [i|] eqn:Hf; [|apply find_index_None in Hf; done].
  apply find_index_Some in Hf as [Hi _].
  destruct (last (i_order q)) as [b|] eqn:Hb; [|apply last_None in Hb; rewrite Hb in Hm; set_solver].
  destruct (Nat.eqb_spec m b) as [<-|Hne].
  - exists (i_order q). rewrite reordered_id. split; [done|]. split; [done|]. split; [|by left].
    apply last_Some in Hb as [pre Hpre]. exists pre. done.
  - destruct (swap_last _ _ _ _ Hi Hb Hne) as (pre & k & Hl & Hs). rewrite Hs.
    exists (pre ++ b :: k ++ [m]).
    assert (Hperm : pre ++ b :: k ++ [m] ≡ₚ i_order q).
    { rewrite Hl. apply Permutation_app_head. rewrite !(Permutation_app_comm k). simpl. apply perm_swap. }
    split; [|split; [done|split]].
    + unfold i_setGroupsOrdering.
      destruct (proj2 (ordering_accepts (i_groups q) (i_order q) (pre ++ b :: k ++ [m]) (tw_g _ (iw_t _ _ Hwf))) Hperm)
        as [Hlen Hok].
      rewrite Hok, (proj2 (Nat.eqb_eq _ _) Hlen). done.
    + exists (pre ++ b :: k). rewrite <- app_assoc. done.
    + right. exists pre, k, b. done.
Qed.

Lemma order_marg_noclear m q : i_reachable_noclear h q -> i_reachable_noclear h (fst (order_marg m q)).
Proof.
  intros Hq. unfold order_marg. destruct (find_index m (i_order q)) as [i|]; [|done].
  destruct (last (i_order q)) as [b|]; [|done]. destruct (Nat.eqb m b); [done|].
  set (o := <[_ := m]> _). destruct (i_setGroupsOrdering q o) as [q' r] eqn:Heq.
  eapply (irn_step h q (ISetOrdering o) q' r); [done|done| |done|intros []].
  unfold i_setGroupsOrdering in Heq. destruct (negb _); [injection Heq as _ <-; done|].
  destruct (ordering_ok _ _ _); injection Heq as _ <-; done.
Qed.

Lemma add_noclear q p q1 :
  i_reachable_noclear h q -> i_add h q (Some p) = (q1, Ret tt) -> i_reachable_noclear h q1.
Proof. intros Hq Hadd. eapply (irn_step h q (IAdd (Some p))); [done|exact Hadd|done|done|intros []]. Qed.
Lemma save_noclear q vals : i_reachable_noclear h q -> i_reachable_noclear h (i_save q vals).
Proof. intros Hq. eapply (irn_step h q (ISave vals)); [done|reflexivity|done|done|intros []]. Qed.
Lemma remove_idx_noclear q idx q1 :
  i_reachable_noclear h q -> i_remove_idx h q idx = (q1, Ret tt) -> i_reachable_noclear h q1.
Proof. intros Hq Hadd. eapply (irn_step h q (IRemoveIdx idx)); [done|exact Hadd|done|done|intros []]. Qed.

(** ** Marginalization index *)
Lemma total_dim_spec act q order acc :
  (forall g, g ∈ order -> is_Some (i_groups q !! g)) ->
  total_dim dim act q order acc = Ret (acc + sum_dims act dim (enum (i_groups q) order)).
Proof.
  revert acc. induction order as [|g order IH]; intros acc Hg; cbn [total_dim].
  { unfold enum, sum_dims. simpl. f_equal. lia. }
  unfold i_getGroupDim, i_getGroup. destruct (Hg g) as [l Hl]; [set_solver|]. rewrite Hl. cbn [rbind].
  rewrite IH by set_solver. rewrite enum_cons, sum_dims_app, Hl. simpl. f_equal. lia.
Qed.

Lemma marg_start_spec act q m pre :
  i_wf h q -> i_order q = pre ++ [m] ->
  marg_start dim act q m = Ret (sum_dims act dim (enum (i_groups q) pre)).
Proof.
  intros Hwf Ho. pose proof (gwf_dom _ _ (tw_g _ (iw_t _ _ Hwf))) as Hdom.
  unfold marg_start. rewrite total_dim_spec by (intros g; apply Hdom). cbn [rbind].
  unfold i_getGroupDim, i_getGroup. destruct (proj1 (Hdom m)) as [l Hl]; [rewrite Ho; set_solver|].
  rewrite Hl. cbn [rbind]. rewrite Ho, enum_app, sum_dims_app. unfold enum at 2. simpl. rewrite Hl. simpl.
  rewrite app_nil_r. f_equal. lia.
Qed.

(** ** Rejection *)
Lemma filter_swapped m q q1 o :
  i_wf h q -> i_wf h q1 -> (exists k, i_order q1 = i_order q ++ k) -> last_or_absent m q ->
  (i_order q1 = o \/ exists pre k b, i_order q1 = pre ++ m :: k ++ [b] /\ o = pre ++ b :: k ++ [m]) ->
  filter (fun g => is_Some (i_groups q !! g)) o = i_order q.
Proof.
  intros Hwf Hwf1 Hk Hla [<-|(pre & k & b & H1 & ->)]; [eapply filter_old_order; done|].
  rewrite <- (filter_old_order h q q1 Hwf Hwf1 Hk).
  pose proof (gwf_nodup _ _ (tw_g _ (iw_t _ _ Hwf1))) as Hnd. rewrite H1 in Hnd.
  pose proof (gwf_dom _ _ (tw_g _ (iw_t _ _ Hwf))) as Hdom.
  pose proof (gwf_nodup _ _ (tw_g _ (iw_t _ _ Hwf))) as Hnd0.
  destruct Hk as [k1 Hk1]. rewrite H1 in Hk1. rewrite H1.
  (* everything after [m] is new, or everything from [m] on is new *)
  assert (Hnew : forall g, g ∈ k ++ [b] -> ~ is_Some (i_groups q !! g)).
  { intros g Hg Hs. apply Hdom in Hs.
    destruct (decide (m ∈ i_order q)) as [Hm|Hm].
    - destruct (Hla Hm) as [pre' Hpre']. rewrite Hpre' in Hk1.
      assert (pre = pre' /\ k ++ [b] = k1) as [-> _].
      { rewrite <- app_assoc in Hk1. simpl in Hk1.
        assert (Hm1 : m ∉ pre) by (apply NoDup_app in Hnd; set_solver).
        assert (Hm2 : m ∉ pre').
        { rewrite Hpre' in Hnd0. apply NoDup_app in Hnd0. set_solver. }
        clear -Hk1 Hm1 Hm2. revert pre' Hk1 Hm1 Hm2. induction pre as [|x pre IH]; intros pre' Hk1 Hm1 Hm2.
        - destruct pre' as [|y pre']; simpl in Hk1; [injection Hk1; done|]. injection Hk1 as <- _. set_solver.
        - destruct pre' as [|y pre']; simpl in Hk1; [injection Hk1 as -> _; set_solver|].
          injection Hk1 as -> Hk1. destruct (IH pre' Hk1) as [-> ->]; [set_solver|set_solver|done]. }
      rewrite Hpre' in Hs. apply NoDup_app in Hnd as (_ & Hd1 & Hd2). apply NoDup_cons in Hd2 as [Hd2 _].
      apply elem_of_app in Hs as [Hs|Hs]; [apply (Hd1 g Hs); set_solver|].
      apply elem_of_list_singleton in Hs as ->. done.
    - assert (Hpre : exists z, pre = i_order q ++ z).
      { clear -Hk1 Hm. revert Hm pre Hk1. generalize (i_order q) as l0. induction l0 as [|x l0 IH]; intros Hm pre Hk1.
        - exists pre. done.
        - destruct pre as [|y pre]; simpl in Hk1; [injection Hk1 as -> _; set_solver|].
          injection Hk1 as -> Hk1. destruct (IH ltac:(set_solver) pre Hk1) as [z ->]. exists z. done. }
      destruct Hpre as [z ->]. apply NoDup_app in Hnd as (_ & Hd1 & _). apply (Hd1 g); set_solver. }
  rewrite !filter_app, !filter_cons. rewrite (decide_False (P := is_Some (i_groups q !! b))) by (apply Hnew; set_solver).
  rewrite !filter_app, !(filter_none_eq _ k) by (intros g Hg; apply Hnew; set_solver).
  rewrite (filter_none_eq _ [b]) by (intros g Hg; apply Hnew; set_solver).
  rewrite filter_cons. destruct (decide (is_Some (i_groups q !! m))); done.
Qed.

Lemma reject_ok m q q1 p o vals :
  i_reachable_noclear h q -> last_or_absent m q -> i_add h q (Some p) = (q1, Ret tt) ->
  o ≡ₚ i_order q1 ->
  (i_order q1 = o \/ exists pre k b, i_order q1 = pre ++ m :: k ++ [b] /\ o = pre ++ b :: k ++ [m]) ->
  exists q4, i_remove h (i_save (reordered q1 o) vals) (Some p) = (q4, Ret tt) /\
    i_probs q4 ≡ₚ i_probs q /\ (p ∉ i_probs q -> i_probs q4 = i_probs q) /\
    i_counts q4 = i_counts q /\ i_groups q4 = i_groups q /\ i_order q4 = i_order q /\
    (forall d, i_backup q4 !! d = if decide (is_Some (i_counts q !! d)) then Some (vals d) else None).
Proof.
  intros Hq Hla Hadd Ho Hsw. apply noclear_wf in Hq as Hwf.
  destruct (i_add_ok h edv Hh q p q1 Hwf Hadd) as (Hwf1 & Hp1 & Hb1 & Hc1 & _ & _ & Hk1 & _).
  destruct (add_remove_general h edv Hh q p q1 o (i_backup (i_save (reordered q1 o) vals)) Hwf Hadd Ho)
    as (q4 & Hrm & Hp4 & Hc4 & Hg4 & Ho4 & Hb4).
  change (Inc (i_probs q1) (i_counts q1) (i_groups q1) o (i_backup (i_save (reordered q1 o) vals)))
    with (i_save (reordered q1 o) vals) in Hrm.
  set (q3 := i_save (reordered q1 o) vals) in *.
  assert (Hwf3 : i_wf h q3) by (apply (i_wf_reorder h q1 o _ Hwf1 Ho)).
  assert (Hord : i_order q4 = i_order q) by (rewrite Ho4; exact (filter_swapped m q q1 o Hwf Hwf1 Hk1 Hla Hsw)).
  assert (Hbk : forall d, i_backup q4 !! d = if decide (is_Some (i_counts q !! d)) then Some (vals d) else None).
  { intros d. rewrite Hb4. unfold q3, i_save, reordered. cbn [i_backup i_counts].
    rewrite lookup_union, map_lookup_imap, Hb1, Hc1.
    destruct (backup_in_counts h edv Hr q Hq) as [_ Hbc]. specialize (Hbc d).
    destruct (i_counts q !! d) as [[c g]|] eqn:Hd.
    - rewrite (decide_False (P := _ /\ _)) by naive_solver. rewrite decide_True by eauto.
      destruct (o_lookup (h p) !! d); simpl; destruct (i_backup q !! d); done.
    - rewrite (decide_False (P := is_Some None)) by (intros [? ?]; done).
      destruct (o_lookup (h p) !! d) as [g|] eqn:Hl; [rewrite decide_True by (split; [eauto|done]); done|].
      rewrite decide_False by (intros [[? ?] _]; done). simpl.
      destruct (i_backup q !! d); [|done]. destruct Hbc as [? ?]; [eauto|done]. }
  destruct (decide (p ∈ i_probs q)) as [Hin|Hnin].
  - cbn [i_remove]. change (i_probs q3) with (i_probs q1).
    destruct (find_index p (i_probs q1)) as [idx|] eqn:Hf; [|apply find_index_None in Hf; rewrite Hp1 in Hf; set_solver].
    apply find_index_Some in Hf as [Hidx _].
    destruct (i_remove_idx_ok h edv Hh q3 idx p Hwf3 Hidx) as (q5 & Hrm5 & Hwf5 & Hp5 & _).
    exists q5. split; [done|].
    assert (Hperm : i_probs q5 ≡ₚ i_probs q).
    { rewrite Hp5. change (i_probs q3) with (i_probs q1).
      apply (Permutation_cons_inv (a := p)). rewrite <- (delete_perm _ _ _ Hidx), Hp1.
      rewrite Permutation_app_comm. done. }
    split; [done|]. split; [done|].
    assert (H5 : removed h q3 q5) by (eapply rm_step; [exact Hrm5|constructor]).
    assert (H4 : removed h q3 q4) by (eapply rm_step; [exact Hrm|constructor]).
    destruct (removed_det h edv Hh q3 q5 q4 Hwf3 H5 H4) as (E1 & E2 & E3 & E4); [rewrite Hp4; done|].
    rewrite E1, E2, E3, E4. done.
  - exists q4. cbn [i_remove]. change (i_probs q3) with (i_probs q1).
    rewrite Hp1, (find_index_last h edv Hh) by done. rewrite Hrm, Hp4. done.
Qed.

(** ** Rebuilding the linear solver *)
Definition lay_inv (l : layout) (L : list nat) (col : nat) : Prop :=
  l_dvs l = L /\ total dim L = col /\
  (forall d j, l_block l !! d = Some j <-> L !! j = Some d) /\
  (forall d c, l_col l !! d = Some c <-> exists j, L !! j = Some d /\ c = total dim (take j L)).

Lemma total_app l1 l2 : total dim (l1 ++ l2) = total dim l1 + total dim l2.
Proof. unfold total. induction l1; simpl; lia. Qed.

Lemma lay_inv_step l L col d :
  NoDup (L ++ [d]) -> lay_inv l L col ->
  lay_inv (Layout (<[d := length (l_dvs l ++ [d]) - 1]> (l_block l)) (<[d := col]> (l_col l)) (l_row l)
                  (l_dvs l ++ [d]) (l_ets l)) (L ++ [d]) (col + dim d).
Proof.
  intros Hnd (HL & Hc & Hb & Hcol). unfold lay_inv. cbn [l_dvs l_block l_col].
  assert (Hd : d ∉ L) by (apply NoDup_app in Hnd; set_solver).
  rewrite HL. split; [done|]. split; [rewrite total_app; unfold total at 2; simpl; lia|].
  assert (Hlk : forall j x, (L ++ [d]) !! j = Some x <-> (L !! j = Some x /\ x <> d) \/ (j = length L /\ x = d)).
  { intros j x. rewrite lookup_app_Some. split.
    - intros [Hj|[Hj Hx]].
      + left. split; [done|]. intros ->. apply elem_of_list_lookup_2 in Hj. done.
      + right. destruct (j - length L) as [|n] eqn:E; [|done]. simpl in Hx. split; [lia|congruence].
    - intros [[Hj _]|[-> ->]]; [by left|]. right. rewrite Nat.sub_diag. done. }
  split.
  - intros x j. rewrite Hlk, app_length, Nat.add_sub. destruct (decide (x = d)) as [->|Hne].
    + rewrite lookup_insert. split; [intros [= <-]; by right|]. intros [[_ []]|[-> _]]; done.
    + rewrite lookup_insert_ne, Hb by done. naive_solver.
  - intros x c. destruct (decide (x = d)) as [->|Hne].
    + rewrite lookup_insert. split.
      * intros [= <-]. exists (length L). rewrite Hlk. split; [by right|]. rewrite take_app. done.
      * intros (j & Hj & ->). rewrite Hlk in Hj. destruct Hj as [[_ []]|[-> _]]; [done|]. rewrite take_app. congruence.
    + rewrite lookup_insert_ne, Hcol by done. split.
      * intros (j & Hj & ->). exists j. rewrite Hlk. split; [by left|].
        apply lookup_lt_Some in Hj. rewrite take_app_le by lia. done.
      * intros (j & Hj & ->). rewrite Hlk in Hj. destruct Hj as [[Hj _]|[_ ?]]; [|done].
        exists j. split; [done|]. apply lookup_lt_Some in Hj. rewrite take_app_le by lia. done.
Qed.

Lemma lay_dvs_spec act q todo i l L col :
  i_reachable h q -> i + todo = i_numDV q ->
  L = filter (fun d => act d = true) (take i (i_flat_variables q)) -> lay_inv l L col ->
  exists l', lay_dvs dim act q todo i l col = Ret l' /\
    lay_inv l' (active_variables act q) (total dim (active_variables act q)) /\
    l_row l' = l_row l /\ l_ets l' = l_ets l.
Proof.
  intros Hq. destruct (inc_enumeration h edv Hr q Hq) as (Hnd & Hlen & _ & Hdv & _).
  revert i l L col. induction todo as [|todo IH]; intros i l L col Hi HL Hinv; cbn [lay_dvs].
  - exists l. split; [done|]. split; [|done].
    rewrite take_ge in HL by lia. unfold active_variables. rewrite <- HL.
    destruct Hinv as (? & ? & ?). subst col. done.
  - rewrite Hdv. destruct (i_flat_variables q !! i) as [d|] eqn:Hd; [|apply lookup_ge_None in Hd; lia].
    cbn [rbind].
    assert (HS : take (S i) (i_flat_variables q) = take i (i_flat_variables q) ++ [d]) by (apply take_S_r, Hd).
    destruct (act d) eqn:Hact.
    + assert (HL' : L ++ [d] = filter (fun d => act d = true) (take (S i) (i_flat_variables q))).
      { rewrite HS, filter_app, filter_cons, decide_True by done. rewrite HL. done. }
      apply lay_inv_step with (d := d) in Hinv.
      * destruct (IH (S i) _ (L ++ [d]) (col + dim d) ltac:(lia) HL' Hinv) as (l' & Hl' & H1 & H2 & H3).
        exists l'. split; [exact Hl'|]. split; [done|]. split; [rewrite H2; done|rewrite H3; done].
      * rewrite HL'. apply NoDup_filter. rewrite <- (take_drop (S i) (i_flat_variables q)) in Hnd.
        apply NoDup_app in Hnd. tauto.
    + apply (IH (S i) l L col); [lia| |done].
      rewrite HS, filter_app, filter_cons, decide_False by congruence. rewrite filter_nil, app_nil_r. done.
Qed.

Definition rows_inv (l : layout) (L : list nat) (row : nat) : Prop :=
  l_ets l = L /\ sum_list_with edim L = row /\
  (forall e c, l_row l !! e = Some c <-> exists j, L !! j = Some e /\ c = sum_list_with edim (take j L)).

Lemma rows_inv_step l L row e :
  NoDup (L ++ [e]) -> rows_inv l L row ->
  rows_inv (Layout (l_block l) (l_col l) (<[e := row]> (l_row l)) (l_dvs l) (l_ets l ++ [e])) (L ++ [e]) (row + edim e).
Proof.
  intros Hnd (HL & Hc & Hrow). unfold rows_inv. cbn [l_ets l_row].
  assert (Hd : e ∉ L) by (apply NoDup_app in Hnd; set_solver).
  rewrite HL. split; [done|]. split; [rewrite sum_list_with_app; simpl; lia|].
  intros x c. destruct (decide (x = e)) as [->|Hne].
  - rewrite lookup_insert. split.
    + intros [= <-]. exists (length L). rewrite lookup_app_r, Nat.sub_diag by lia. rewrite take_app. done.
    + intros (j & Hj & ->). apply lookup_app_Some in Hj as [Hj|[Hj1 Hj]].
      * apply elem_of_list_lookup_2 in Hj. done.
      * destruct (j - length L) eqn:E; [|done]. replace j with (length L) by lia. rewrite take_app. congruence.
  - rewrite lookup_insert_ne, Hrow by done. split.
    + intros (j & Hj & ->). exists j. rewrite lookup_app_l by (eapply lookup_lt_Some, Hj). split; [done|].
      apply lookup_lt_Some in Hj. rewrite take_app_le by lia. done.
    + intros (j & Hj & ->). apply lookup_app_Some in Hj as [Hj|[Hj1 Hj]].
      * exists j. split; [done|]. apply lookup_lt_Some in Hj. rewrite take_app_le by lia. done.
      * destruct (j - length L) eqn:E; [|done]. simpl in Hj. congruence.
Qed.

Lemma ets_flat q : i_flat_error_terms h q = ets_of h (i_probs q).
Proof. done. Qed.

Lemma lay_ets_spec q todo i l L row :
  i_reachable h q -> i + todo = i_numET h q ->
  L = take i (i_flat_error_terms h q) -> rows_inv l L row ->
  exists l', lay_ets h edim q todo i l row = Ret l' /\
    rows_inv l' (i_flat_error_terms h q) (sum_list_with edim (i_flat_error_terms h q)) /\
    l_block l' = l_block l /\ l_col l' = l_col l /\ l_dvs l' = l_dvs l.
Proof.
  intros Hq. pose proof (i_reachable_wf h edv Hh q Hq) as Hwf.
  pose proof (iw_ets _ _ Hwf) as Hnd. rewrite <- ets_flat in Hnd.
  pose proof (i_numET_spec h edv Hh q) as Hlen. rewrite <- ets_flat in Hlen.
  revert i l L row. induction todo as [|todo IH]; intros i l L row Hi HL Hinv; cbn [lay_ets].
  - exists l. split; [done|]. split; [|done].
    rewrite take_ge in HL by lia. subst L. destruct Hinv as (? & ? & ?). subst row. done.
  - rewrite (i_errorTerm_spec h edv Hh), <- ets_flat.
    destruct (i_flat_error_terms h q !! i) as [d|] eqn:Hd; [|apply lookup_ge_None in Hd; lia].
    cbn [rbind].
    assert (HS : L ++ [d] = take (S i) (i_flat_error_terms h q)) by (rewrite HL; symmetry; apply take_S_r, Hd).
    apply rows_inv_step with (e := d) in Hinv.
    + destruct (IH (S i) _ (L ++ [d]) (row + edim d) ltac:(lia) HS Hinv) as (l' & Hl' & H1 & H2 & H3 & H4).
      exists l'. split; [exact Hl'|]. split; [done|]. rewrite H2, H3, H4. done.
    + rewrite HS. rewrite <- (take_drop (S i) (i_flat_error_terms h q)) in Hnd. apply NoDup_app in Hnd. tauto.
Qed.

Lemma restoreLinearSolver_spec act q :
  i_reachable h q ->
  exists l, restoreLinearSolver h dim edim act q = Ret l /\
    l_dvs l = active_variables act q /\ l_ets l = i_flat_error_terms h q /\
    (forall d j, l_block l !! d = Some j <-> active_variables act q !! j = Some d) /\
    (forall d c, l_col l !! d = Some c <->
       exists j, active_variables act q !! j = Some d /\ c = total dim (take j (active_variables act q))) /\
    (forall e c, l_row l !! e = Some c <->
       exists j, i_flat_error_terms h q !! j = Some e /\ c = sum_list_with edim (take j (i_flat_error_terms h q))).
Proof.
  intros Hq. unfold restoreLinearSolver.
  destruct (lay_dvs_spec act q (i_numDV q) 0 (Layout ∅ ∅ ∅ [] []) [] 0 Hq eq_refl eq_refl)
    as (l1 & Hl1 & (Hd1 & _ & Hb1 & Hc1) & Hr1 & He1).
  { split; [done|]. split; [done|]. cbn [l_block l_col]. split.
    - intros d j. rewrite lookup_empty, lookup_nil. done.
    - intros d c. rewrite lookup_empty. split; [done|]. intros (j & Hj & _). rewrite lookup_nil in Hj. done. }
  rewrite Hl1. cbn [rbind].
  destruct (lay_ets_spec q (i_numET h q) 0 l1 [] 0 Hq eq_refl eq_refl) as (l & Hl & (H1 & _ & H3) & H4 & H5 & H6).
  { split; [rewrite He1; done|]. split; [done|]. intros e c. rewrite Hr1. cbn [l_row].
    rewrite lookup_empty. split; [done|]. intros (j & Hj & _). rewrite lookup_nil in Hj. done. }
  exists l. rewrite H1, H4, H5, H6, Hd1. do 5 (split; [done|]). done.
Qed.

(** ** Histories *)
Definition e_good s : Prop := i_reachable_noclear h (e_prob s) /\ last_or_absent (e_marg s) (e_prob s).

Lemma compatible_add q p :
  i_reachable h q -> compatible h q p -> exists q1, i_add h q (Some p) = (q1, Ret tt).
Proof.
  intros Hq Hc. destruct (inc_add_iff h edv Hr q p Hq) as ([Hiff _] & _).
  specialize (Hiff Hc). destruct (i_add h q (Some p)) as [q1 r]. simpl in Hiff. subst r. eauto.
Qed.

(** What the problem looks like after the preparation of [addBatch]. *)
Inductive prepared s (p : nat) (force : bool) : inc V -> inc V -> nat -> Prop :=
| prepared_intro q1 o pre :
    i_add h (e_prob s) (Some p) = (q1, Ret tt) -> order_marg (e_marg s) q1 = (reordered q1 o, Ret tt) ->
    o ≡ₚ i_order q1 -> o = pre ++ [e_marg s] ->
    (i_order q1 = o \/ exists pre k b, i_order q1 = pre ++ e_marg s :: k ++ [b] /\ o = pre ++ b :: k ++ [e_marg s]) ->
    prepared s p force q1 (if force then reordered q1 o else i_save (reordered q1 o) (e_vals s))
             (sum_dims (e_active s) dim (enum (i_groups q1) pre)).

Lemma prepare_ok s p (force : bool) :
  e_good s -> compatible h (e_prob s) p ->
  exists q1, i_add h (e_prob s) (Some p) = (q1, Ret tt) /\ i_reachable_noclear h q1 /\
    (e_marg s ∉ i_order q1 -> order_marg (e_marg s) q1 = (q1, Throw InvalidOperation)) /\
    (e_marg s ∈ i_order q1 ->
       exists q2 q3 k, order_marg (e_marg s) q1 = (q2, Ret tt) /\
         q3 = (if force then q2 else i_save q2 (e_vals s)) /\
         marg_start dim (e_active s) q3 (e_marg s) = Ret k /\ prepared s p force q1 q3 k /\
         i_reachable_noclear h q3).
Proof.
  intros [Hq Hla] Hc. destruct (backup_in_counts h edv Hr _ Hq) as [Hq' _].
  destruct (compatible_add _ _ Hq' Hc) as [q1 Hadd]. exists q1.
  pose proof (add_noclear _ _ _ Hq Hadd) as Hq1. pose proof (noclear_wf _ Hq1) as Hwf1.
  split; [done|]. split; [done|]. split; [apply order_marg_absent|]. intros Hm.
  destruct (order_marg_present (e_marg s) q1 Hwf1 Hm) as (o & Ho & Hperm & [pre Hpre] & Hsw).
  exists (reordered q1 o). eexists. exists (sum_dims (e_active s) dim (enum (i_groups q1) pre)).
  split; [exact Ho|]. split; [reflexivity|].
  assert (Hq2 : i_reachable_noclear h (reordered q1 o)).
  { pose proof (order_marg_noclear (e_marg s) q1 Hq1) as H2. rewrite Ho in H2. exact H2. }
  assert (Hq3 : i_reachable_noclear h (if force then reordered q1 o else i_save (reordered q1 o) (e_vals s))).
  { destruct force; [done|]. apply save_noclear, Hq2. }
  split; [|split; [econstructor; eauto|exact Hq3]].
  rewrite (marg_start_spec _ _ _ pre); [destruct force; done|apply noclear_wf, Hq3|destruct force; done].
Qed.

(** Complete description of [addBatch] on a compatible batch. *)
Inductive add_result s (p : nat) (force : bool) (oc : outcome V D M) : est V D M -> result (retval D M) -> Prop :=
| ar_missing q1 :
    i_add h (e_prob s) (Some p) = (q1, Ret tt) -> e_marg s ∉ i_order q1 ->
    add_result s p force oc (with_prob s q1) (Throw InvalidOperation)
| ar_throws q1 q3 k new :
    prepared s p force q1 q3 k -> (oc = OptThrows new \/ exists v, oc = MargThrows new v) ->
    add_result s p force oc (with_vals (started s q3 k) (written (e_active s) q3 new (e_vals s))) (Throw External)
| ar_kept q1 q3 k o :
    prepared s p force q1 q3 k -> oc = OptReturns o ->
    keep_batch A s o (batch_return A nil s o) force = true ->
    add_result s p force oc
      (with_stats (with_vals (started s q3 k) (written (e_active s) q3 (o_newvals o) (e_vals s)))
                  (kept_stats o (batch_return A nil s o)))
      (Ret (with_accepted (batch_return A nil s o) true))
| ar_rejected q1 q3 k o q4 vals l rr :
    prepared s p force q1 q3 k -> oc = OptReturns o ->
    keep_batch A s o (batch_return A nil s o) force = false -> force = false ->
    i_reachable_noclear h q4 ->
    i_probs q4 ≡ₚ i_probs (e_prob s) -> (p ∉ i_probs (e_prob s) -> i_probs q4 = i_probs (e_prob s)) ->
    i_counts q4 = i_counts (e_prob s) -> i_groups q4 = i_groups (e_prob s) -> i_order q4 = i_order (e_prob s) ->
    (forall d, i_backup q4 !! d = if decide (is_Some (i_counts q4 !! d)) then Some (e_vals s d) else None) ->
    (forall d, vals d = e_vals s d) ->
    (i_probs q4 = [] /\ l = e_layout s /\ rr = Ret (with_accepted (batch_return A nil s o) false) \/
     i_probs q4 <> [] /\ (exists l', l = Some l' /\ restoreLinearSolver h dim edim (e_active s) q4 = Ret l') /\
       rr = if o_rebuilds o then Ret (with_accepted (batch_return A nil s o) false) else Throw External) ->
    add_result s p force oc
      (Est (e_marg s) (e_opts s) (e_active s) vals q4 (e_stats s) k l (e_runs s ++ [(q3, e_active s, k)]))
      rr.

Lemma addBatch_spec s p force oc s' r :
  e_good s -> compatible h (e_prob s) p -> e_addBatch A nil h dim edim s (Some p) force oc = (s', r) ->
  add_result s p force oc s' r.
Proof.
  intros Hg Hc Heq. destruct (prepare_ok s p force Hg Hc) as (q1 & Hadd & Hq1 & Habs & Hpres).
  unfold e_addBatch in Heq. rewrite Hadd in Heq.
  destruct (decide (e_marg s ∈ i_order q1)) as [Hm|Hm].
  2: { rewrite Habs in Heq by done. injection Heq as <- <-. econstructor; done. }
  destruct (Hpres Hm) as (q2 & q3 & k & Ho & Hq3 & Hk & Hprep & Hnc3). rewrite Ho in Heq. cbv zeta in Heq.
  rewrite <- Hq3, Hk in Heq. destruct oc as [o|new|new v].
  2: { injection Heq as <- <-. eapply ar_throws; [done|by left]. }
  2: { injection Heq as <- <-. eapply ar_throws; [done|right; eauto]. }
  destruct (keep_batch A s o (batch_return A nil s o) force) eqn:Hkeep.
  { injection Heq as <- <-. econstructor; done. }
  assert (Hforce : force = false).
  { unfold keep_batch in Hkeep. apply orb_false_iff in Hkeep. tauto. }
  destruct Hg as [Hq Hla]. pose proof Hprep as Hprep'.
  destruct Hprep' as [q1 o' pre Hadd' Hom Hperm Hpre Hsw]. subst force.
  rewrite Ho in Hom. injection Hom as ->. clear Hq3.
  destruct (reject_ok (e_marg s) (e_prob s) q1 p o' (e_vals s) Hq Hla Hadd Hperm Hsw)
    as (q4 & Hrm & Hp4 & Hp4' & Hc4 & Hg4 & Ho4 & Hb4).
  cbn [e_vals with_vals started] in Heq. rewrite Hrm in Heq.
  assert (Hnc4 : i_reachable_noclear h q4).
  { eapply (irn_step h _ (IRemove (Some p))); [exact Hnc3|exact Hrm|done|intros []|intros []]. }
  assert (Hvals : forall d, i_restore (i_save (reordered q1 o') (e_vals s))
     (written (e_active s) (i_save (reordered q1 o') (e_vals s)) (o_newvals o) (e_vals s)) d = e_vals s d).
  { intros d. unfold i_restore, write_back, written, i_isDVInProblem. cbn [i_backup i_counts i_save reordered].
    rewrite lookup_union, map_lookup_imap.
    destruct (backup_in_counts h edv Hr _ Hq1) as [_ Hbc]. specialize (Hbc d).
    destruct (i_counts q1 !! d) as [[c g]|] eqn:Hd; cbn [option_bind mbind].
    - simpl. destruct (i_backup q1 !! d); done.
    - rewrite bool_decide_false by (intros [? ?]; done). simpl.
      destruct (i_backup q1 !! d); [|done]. destruct Hbc as [? ?]; [eauto|done]. }
  rewrite <- Hc4 in Hb4.
  unfold i_numProblems in Heq. destruct (Nat.ltb_spec 0 (length (i_probs q4))) as [Hlt|Hge].
  - destruct (restoreLinearSolver_spec (e_active s) q4) as (l & Hl & _).
    { eapply backup_in_counts; [exact Hr|exact Hnc4]. }
    rewrite Hl in Heq. injection Heq as <- <-.
    eapply (ar_rejected s p false (OptReturns o) q1 _ _ o q4 _ (Some l)); try done.
    right. split; [intros E; rewrite E in Hlt; simpl in Hlt; lia|]. split; [eauto|done].
  - injection Heq as <- <-.
    eapply (ar_rejected s p false (OptReturns o) q1 _ _ o q4 _ (e_layout s)); try done.
    left. split; [|done]. destruct (i_probs q4); [done|simpl in Hge; lia].
Qed.

(** Complete description of [reoptimize]. *)
Definition reopt_stats (op : opts D) (o : solved V D M) : stats D M :=
  let on := op_columnScaling op in
  let v := o_view o in
  let m := o_marg_view o in
  Stats (a_zero A) (v_log2Sum m)
    (v_nullSpace m) (scaled nil on (v_nullSpace v)) (v_rowSpace m) (scaled nil on (v_rowSpace v))
    (v_covariance m) (scaled nil on (v_covariance v)) (v_rowSpaceCov m) (scaled nil on (v_rowSpaceCov v))
    (v_singularValues m) (scaled nil on (v_singularValues v))
    (v_svdTol m) (v_qrTol m) (v_svdRank m) (v_svdRankDef m) (v_qrRank m) (v_qrRankDef m)
    (v_peakMem m) (v_mem m) (v_flops m) (o_JStart o) (o_JFinal o).
Definition reopt_ret (t : stats D M) (n : nat) : retval D M :=
  RetVal true (a_zero A) (st_rankPsi t) (st_rankPsiDef t) (st_rankTheta t)
                (st_rankThetaDef t) (st_svdTol t) (st_qrTol t) (st_nobs t) (st_nobsS t) (st_obs t)
                (st_obsS t) (st_sigma t) (st_sigmaS t) (st_sigmaObs t) (st_sigmaObsS t) (st_sv t)
                (st_svS t) n (st_initialCost t) (st_finalCost t).

Inductive reopt_result s (oc : outcome V D M) : est V D M -> result (retval D M) -> Prop :=
| rr_missing : e_marg s ∉ i_order (e_prob s) -> reopt_result s oc s (Throw InvalidOperation)
| rr_throws pre k new :
    i_order (e_prob s) = pre ++ [e_marg s] -> k = sum_dims (e_active s) dim (enum (i_groups (e_prob s)) pre) ->
    oc = OptThrows new ->
    reopt_result s oc (with_vals (started s (e_prob s) k) (written (e_active s) (e_prob s) new (e_vals s))) (Throw External)
| rr_marg_throws pre k new v :
    i_order (e_prob s) = pre ++ [e_marg s] -> k = sum_dims (e_active s) dim (enum (i_groups (e_prob s)) pre) ->
    oc = MargThrows new v ->
    reopt_result s oc
      (with_stats (with_vals (started s (e_prob s) k) (written (e_active s) (e_prob s) new (e_vals s)))
                  (with_scaled nil (op_columnScaling (e_opts s)) v (e_stats s))) (Throw External)
| rr_ok pre k o :
    i_order (e_prob s) = pre ++ [e_marg s] -> k = sum_dims (e_active s) dim (enum (i_groups (e_prob s)) pre) ->
    oc = OptReturns o ->
    reopt_result s oc
      (with_stats (with_vals (started s (e_prob s) k) (written (e_active s) (e_prob s) (o_newvals o) (e_vals s)))
                  (reopt_stats (e_opts s) o))
      (Ret (reopt_ret (reopt_stats (e_opts s) o) (o_iterations o))).

Lemma with_prob_id s : with_prob s (e_prob s) = s.
Proof. destruct s. done. Qed.

Lemma reoptimize_spec s oc s' r :
  e_good s -> e_reoptimize A nil dim s oc = (s', r) -> reopt_result s oc s' r.
Proof.
  intros [Hq Hla] Heq. pose proof (noclear_wf _ Hq) as Hwf. unfold e_reoptimize in Heq.
  destruct (decide (e_marg s ∈ i_order (e_prob s))) as [Hm|Hm].
  2: { rewrite order_marg_absent in Heq by done. injection Heq as <- <-. rewrite with_prob_id. constructor. done. }
  assert (order_marg (e_marg s) (e_prob s) = (e_prob s, Ret tt)) as Hom.
  { unfold order_marg. destruct (Hla Hm) as [pre Hpre].
    destruct (find_index _ _) as [i|] eqn:Hf; [|apply find_index_None in Hf; done].
    rewrite Hpre, last_snoc, Nat.eqb_refl. done. }
  rewrite Hom in Heq. destruct (Hla Hm) as [pre Hpre].
  rewrite (marg_start_spec _ _ _ pre Hwf Hpre) in Heq. destruct oc as [o|new|new v].
  - injection Heq as <- <-. eapply rr_ok; done.
  - injection Heq as <- <-. eapply rr_throws; done.
  - injection Heq as <- <-. eapply rr_marg_throws; done.
Qed.

Lemma prepared_good s p force q1 q3 k :
  e_good s -> prepared s p force q1 q3 k ->
  i_reachable_noclear h q3 /\ (exists pre, i_order q3 = pre ++ [e_marg s] /\
    k = sum_dims (e_active s) dim (enum (i_groups q3) pre)) /\
  i_probs q3 = i_probs (e_prob s) ++ [p] /\ i_groups q3 = i_groups q1 /\ i_counts q3 = i_counts q1.
Proof.
  intros [Hq _] [q1' o pre Hadd Hom Hperm Hpre Hsw].
  pose proof (add_noclear _ _ _ Hq Hadd) as Hq1.
  assert (Hq2 : i_reachable_noclear h (reordered q1' o)).
  { pose proof (order_marg_noclear (e_marg s) q1' Hq1) as H2. rewrite Hom in H2. exact H2. }
  destruct (i_add_ok h edv Hh (e_prob s) p q1' (noclear_wf _ Hq) Hadd) as (_ & Hp1 & _).
  split; [destruct force; [done|apply save_noclear, Hq2]|].
  split; [exists pre; destruct force; done|]. split; [destruct force; exact Hp1|]. destruct force; done.
Qed.

Lemma remove_last_or_absent m q idx q' :
  i_wf h q -> last_or_absent m q -> i_remove_idx h q idx = (q', Ret tt) -> last_or_absent m q'.
Proof.
  intros Hwf Hla Hrm. destruct (i_remove_idx_eq h edv Hh _ _ _ _ Hwf Hrm) as [[Hc _]|(_ & p & Hp)]; [done|].
  destruct (i_remove_idx_ok h edv Hh q idx p Hwf Hp) as (q2 & Hrm2 & Hwf2 & _ & _ & _ & Ho & _).
  rewrite Hrm in Hrm2. injection Hrm2 as <-. intros Hm. rewrite Ho in Hm |- *. unfold rem_order in *.
  rewrite elem_of_list_filter in Hm. destruct Hm as [Hs Hm]. destruct (Hla Hm) as [pre ->].
  rewrite filter_app, filter_cons, decide_True by done. eexists. done.
Qed.

(** the log of optimizer runs *)
Definition run_ok (m : nat) (x : inc V * (nat -> bool) * nat) : Prop :=
  let '(q, act, k) := x in
  i_reachable_noclear h q /\ exists pre, i_order q = pre ++ [m] /\ k = sum_dims act dim (enum (i_groups q) pre).
Definition e_inv s : Prop := e_good s /\ Forall (run_ok (e_marg s)) (e_runs s).

Lemma good_prob s q : i_reachable_noclear h q -> last_or_absent (e_marg s) q -> e_good (with_prob s q).
Proof. done. Qed.

Lemma reopt_inv s oc s' r : e_inv s -> e_reoptimize A nil dim s oc = (s', r) -> e_inv s' /\ came_back r.
Proof.
  intros [Hg Hruns] Heq. pose proof (reoptimize_spec _ _ _ _ Hg Heq) as Hres. destruct Hg as [Hq Hla].
  destruct Hres as [Hm|pre k new Hpre Hk ->|pre k new v Hpre Hk ->|pre k o Hpre Hk ->]; [done| | |]; (split; [|done]).
  all: split; [split; done|]; cbn [e_runs e_marg with_stats with_vals started]; apply Forall_app; split; [done|].
  all: constructor; [|constructor]; split; [done|]; exists pre; done.
Qed.

Lemma removeIdx_inv s idx oc s' r :
  e_inv s -> e_removeBatchIdx A nil h dim s idx oc = (s', r) -> e_inv s' /\ came_back r.
Proof.
  intros [[Hq Hla] Hruns] Heq. pose proof (noclear_wf _ Hq) as Hwf. unfold e_removeBatchIdx in Heq.
  destruct (i_remove_idx h (e_prob s) idx) as [q rr] eqn:Hrm.
  destruct (i_remove_idx_eq h edv Hh _ _ _ _ Hwf Hrm) as [(-> & -> & _)|(-> & p & Hp)].
  - injection Heq as <- <-. rewrite with_prob_id. done.
  - destruct (e_reoptimize A nil dim (with_prob s q) oc) as [s1 r1] eqn:Hre.
    destruct (reopt_inv (with_prob s q) oc s1 r1) as [H1 H2]; [|done|].
    + split; [|done]. split; [eapply remove_idx_noclear; done|]. eapply remove_last_or_absent; done.
    + destruct r1; try done; injection Heq as <- <-; done.
Qed.

Lemma estep_inv s op s' r :
  e_inv s -> estep A nil h dim edim s op = (s', r) ->
  (forall p force oc, op = EAdd p force oc -> exists b, p = Some b /\ compatible h (e_prob s) b) ->
  e_inv s' /\ came_back r /\ e_marg s' = e_marg s.
Proof.
  intros Hinv Heq Hadd. pose proof Hinv as [[Hq Hla] Hruns].
  destruct op as [p force oc|idx oc|p oc|oc|vals|act|o]; cbn [estep] in Heq.
  - destruct (Hadd _ _ _ eq_refl) as (b & -> & Hc).
    destruct (e_addBatch A nil h dim edim s (Some b) force oc) as [s1 r1] eqn:He.
    cbn [fst snd] in Heq. injection Heq as <- <-.
    pose proof (addBatch_spec _ _ _ _ _ _ (conj Hq Hla) Hc He) as Hres.
    destruct Hres as [q1 Hq1 Hm|q1 q3 k new Hprep Hn|q1 q3 k o Hprep -> Hk|q1 q3 k o q4 vals l rr Hprep -> Hk -> Hq4 Hp4 _ Hc4 Hg4 Ho4 Hb4 Hv Hl].
    + split; [|done]. split; [|done]. split; [eapply add_noclear; done|].
      intros Hin. exfalso. done.
    + destruct (prepared_good _ _ _ _ _ _ (conj Hq Hla) Hprep) as (Hq3 & (pre & Hpre & Hkk) & _).
      split; [|done]. split.
      * split; [done|]. intros _. exists pre. done.
      * cbn [e_runs e_marg with_vals started]. apply Forall_app. split; [done|]. repeat constructor; [done|]. eauto.
    + destruct (prepared_good _ _ _ _ _ _ (conj Hq Hla) Hprep) as (Hq3 & (pre & Hpre & Hkk) & _).
      split; [|done]. split.
      * split; [done|]. intros _. exists pre. done.
      * cbn [e_runs e_marg with_stats with_vals started]. apply Forall_app. split; [done|]. repeat constructor; [done|]. eauto.
    + destruct (prepared_good _ _ _ _ _ _ (conj Hq Hla) Hprep) as (Hq3 & (pre & Hpre & Hkk) & _).
      split; [|split; [destruct Hl as [(_ & _ & ->)|(_ & _ & ->)]; [done|destruct (o_rebuilds o); done]|done]]. split.
      * split; [done|]. cbn [e_prob e_marg]. unfold last_or_absent. rewrite Ho4. done.
      * cbn [e_runs e_marg]. apply Forall_app. split; [done|]. repeat constructor; [done|]. eauto.
  - destruct (e_removeBatchIdx A nil h dim s idx oc) as [s1 r1] eqn:He. cbn [fst snd] in Heq. injection Heq as <- <-.
    destruct (removeIdx_inv _ _ _ _ _ Hinv He) as [H1 H2]. split; [done|]. split; [destruct r1; done|].
    unfold e_removeBatchIdx in He. destruct (i_remove_idx h (e_prob s) idx) as [q [[]|e| |]]; try (injection He as <- _; done).
    destruct (e_reoptimize A nil dim (with_prob s q) oc) as [s2 r2] eqn:Hre.
    assert (e_marg s2 = e_marg s).
    { unfold e_reoptimize in Hre. destruct (order_marg _ _) as [? [[]|?| |]]; try (injection Hre as <- _; done).
      destruct (marg_start _ _ _ _); try (injection Hre as <- _; done). destruct oc; injection Hre as <- _; done. }
    destruct r2; injection He as <- _; done.
  - destruct p as [p|]; cbn [e_removeBatch] in Heq; [|injection Heq as <- <-; done].
    destruct (find_index p (i_probs (e_prob s))) as [idx|]; [|injection Heq as <- <-; done].
    destruct (e_removeBatchIdx A nil h dim s idx oc) as [s1 r1] eqn:He. cbn [fst snd] in Heq. injection Heq as <- <-.
    destruct (removeIdx_inv _ _ _ _ _ Hinv He) as [H1 H2]. split; [done|]. split; [destruct r1; done|].
    unfold e_removeBatchIdx in He. destruct (i_remove_idx h (e_prob s) idx) as [q [[]|e| |]]; try (injection He as <- _; done).
    destruct (e_reoptimize A nil dim (with_prob s q) oc) as [s2 r2] eqn:Hre.
    assert (e_marg s2 = e_marg s).
    { unfold e_reoptimize in Hre. destruct (order_marg _ _) as [? [[]|?| |]]; try (injection Hre as <- _; done).
      destruct (marg_start _ _ _ _); try (injection Hre as <- _; done). destruct oc; injection Hre as <- _; done. }
    destruct r2; injection He as <- _; done.
  - destruct (e_reoptimize A nil dim s oc) as [s1 r1] eqn:He. cbn [fst snd] in Heq. injection Heq as <- <-.
    destruct (reopt_inv _ _ _ _ Hinv He) as [H1 H2]. split; [done|]. split; [destruct r1; done|].
    unfold e_reoptimize in He. destruct (order_marg _ _) as [? [[]|?| |]]; try (injection He as <- _; done).
    destruct (marg_start _ _ _ _); try (injection He as <- _; done). destruct oc; injection He as <- _; done.
  - injection Heq as <- <-. done.
  - injection Heq as <- <-. done.
  - injection Heq as <- <-. done.
Qed.

Lemma e_reachable_inv s : e_reachable A nil h dim edim s -> e_inv s.
Proof.
  induction 1 as [m o act vals|s op s' r _ IH Hstep _ Hadd].
  - split; [|constructor]. split; [constructor|]. intros Hm. simpl in Hm. set_solver.
  - eapply estep_inv; done.
Qed.
End proofs.
