From stdpp Require Import prelude list gmap.
From Coq Require Import Lia.
From Verif Require Import Base PermuteModel PermuteProofs OptProblemModel OptProblemProofs
  IncProblemModel Spec_IncProblem IncProblemProofs IncHistoryProofs.

(** ** When does add succeed? *)
Section addspec.
Context {V : Type}.
Implicit Types s : inc V.

Lemma add_list_total L s :
  twf s -> NoDup (map fst L) ->
  (forall d g c g', (d, g) ∈ L -> i_counts s !! d = Some (c, g') -> g' = g) ->
  exists s', add_list L s = (s', Ret tt).
Proof.
  revert s. induction L as [|[d g] L IH]; intros s Hwf Hnd Hcomp; cbn [add_list]; [eauto|].
  cbn [map fst] in Hnd. apply NoDup_cons in Hnd as [Hdn Hnd].
  assert (Hother : forall d' g', (d', g') ∈ L -> d' <> d).
  { intros d' g' Hin ->. apply Hdn. apply elem_of_list_fmap. exists (d, g'). done. }
  destruct (i_counts s !! d) as [[c g']|] eqn:Hc.
  - assert (g' = g) as -> by (eapply Hcomp; [apply elem_of_list_here|exact Hc]).
    rewrite (add_dv_old s d g c) by done. apply IH; [apply twf_add_old; done|done|].
    intros d' g' c' g'' Hin. simpl. rewrite lookup_insert_ne by (apply not_eq_sym; eapply Hother, Hin).
    apply Hcomp. set_solver.
  - rewrite (add_dv_new s d g _ Hc eq_refl). apply IH; [apply twf_add_new; done|done|].
    intros d' g' c' g'' Hin. simpl. rewrite lookup_insert_ne by (apply not_eq_sym; eapply Hother, Hin).
    apply Hcomp. set_solver.
Qed.

Lemma add_dv_result s d g : snd (add_dv s d g) = Ret tt \/ snd (add_dv s d g) = Throw InvalidOperation.
Proof. unfold add_dv. destruct (i_counts s !! d) as [[c g']|]; [destruct (Nat.eqb g' g)|]; auto. Qed.

Lemma add_list_result L s : snd (add_list L s) = Ret tt \/ snd (add_list L s) = Throw InvalidOperation.
Proof.
  revert s. induction L as [|[d g] L IH]; intros s; cbn [add_list]; [auto|].
  destruct (add_dv_result s d g) as [H|H]; destruct (add_dv s d g) as [s' r]; simpl in H; subst r; simpl; auto.
Qed.

(** whatever happens, nothing contained before is lost or regrouped *)
Lemma add_dv_keeps s d g d' c g' :
  i_counts s !! d' = Some (c, g') ->
  exists c', (c <= c')%N /\ i_counts (fst (add_dv s d g)) !! d' = Some (c', g').
Proof.
  intros Hd. unfold add_dv. destruct (i_counts s !! d) as [[c0 g0]|] eqn:Hc.
  - destruct (Nat.eqb_spec g0 g); simpl; [|exists c; split; [lia|done]].
    destruct (decide (d' = d)) as [->|]; [|rewrite lookup_insert_ne by done; exists c; split; [lia|done]].
    rewrite lookup_insert. rewrite Hc in Hd. injection Hd as -> ->. exists (c + 1)%N. split; [lia|done].
  - simpl. exists c. split; [lia|]. rewrite lookup_insert_ne; [done|]. congruence.
Qed.

Lemma add_list_keeps L s d' c g' :
  i_counts s !! d' = Some (c, g') ->
  exists c', (c <= c')%N /\ i_counts (fst (add_list L s)) !! d' = Some (c', g').
Proof.
  revert s c. induction L as [|[d g] L IH]; intros s c Hd; cbn [add_list]; [exists c; split; [lia|done]|].
  destruct (add_dv_keeps s d g d' c g' Hd) as (c1 & Hle & Hc1).
  destruct (add_dv s d g) as [s' r]. simpl in Hc1. destruct r as [[]|e| |]; try (exists c1; split; [lia|done]).
  destruct (IH _ _ Hc1) as (c2 & Hle2 & Hc2). exists c2. split; [lia|done].
Qed.

Lemma add_list_probs L s :
  i_probs (fst (add_list L s)) = i_probs s /\ i_backup (fst (add_list L s)) = i_backup s.
Proof.
  revert s. induction L as [|[d g] L IH]; intros s; cbn [add_list]; [done|].
  pose proof (add_dv_probs s d g) as Hp. destruct (add_dv s d g) as [s' r]. simpl in Hp.
  destruct r as [[]|e| |]; try done. destruct (IH s') as [H1 H2]. rewrite H1, H2. done.
Qed.
End addspec.

Section addspec2.
Context {V : Type} (h : nat -> oprob V) (edv : nat -> list nat).
Context (Hh : forall b, o_wf edv (h b)).
Implicit Types s : inc V.

Definition compatible s p : Prop :=
  (forall d g g', o_getGroupId (h p) d = Ret g -> i_getGroupId s d = Ret g' -> g' = g) /\
  (forall e, o_isETInProblem (h p) e = true -> i_isETInProblem h s e = false).

Lemma i_add_iff s p :
  i_wf h s ->
  (snd (i_add h s (Some p)) = Ret tt <-> compatible s p) /\
  (snd (i_add h s (Some p)) = Ret tt \/ snd (i_add h s (Some p)) = Throw InvalidOperation).
Proof.
  intros Hwf. rewrite (i_add_eq h edv Hh).
  destruct (add_list_result (opairs (h p)) s) as [Hr|Hr];
    destruct (add_list (opairs (h p)) s) as [s1 r] eqn:Hadd; simpl in Hr; subst r.
  - assert (Hp1 : i_probs s1 = i_probs s).
    { pose proof (add_list_probs (opairs (h p)) s) as [H _]. rewrite Hadd in H. done. }
    destruct (add_list_ok _ _ _ (iw_t _ _ Hwf) (opairs_nodup h edv Hh p) Hadd) as (_ & _ & _ & _ & Hc2 & _).
    destruct (existsb _ _) eqn:Hex; simpl; (split; [|auto]).
    + split; [done|]. intros [_ Het]. apply existsb_exists in Hex as (e & He & Hin).
      apply elem_of_list_In in He.
      assert (Hbd : o_isETInProblem (h p) e = true).
      { unfold o_isETInProblem. apply bool_decide_eq_true, (ow_etl _ _ (Hh p)), He. }
      specialize (Het e Hbd). unfold i_isETInProblem in *. rewrite Hp1 in Hin. congruence.
    + split; [|done]. intros _. split.
      * intros d g g' Hd Hd'. unfold o_getGroupId in Hd. unfold i_getGroupId in Hd'.
        destruct (o_lookup (h p) !! d) as [g0|] eqn:Hl; [|done]. injection Hd as ->.
        destruct (i_counts s !! d) as [[c g1]|] eqn:Hc; [|done]. injection Hd' as ->.
        eapply (Hc2 d g); [apply (elem_of_opairs edv); [apply Hh|done]|exact Hc].
      * intros e He. destruct (i_isETInProblem h s e) eqn:Hi; [|done].
        assert (existsb (i_isETInProblem h s1) (o_ets (h p)) = true); [|congruence].
        apply existsb_exists. exists e. split.
        { apply elem_of_list_In. apply (ow_etl _ _ (Hh p)). unfold o_isETInProblem in He.
          apply bool_decide_eq_true in He. done. }
        unfold i_isETInProblem in *. rewrite Hp1. done.
  - simpl. split; [|auto]. split; [done|]. intros [Hg _].
    destruct (add_list_total (opairs (h p)) s (iw_t _ _ Hwf) (opairs_nodup h edv Hh p)) as [s' Hs'].
    { intros d g c g' Hin Hc. apply (elem_of_opairs edv) in Hin; [|apply Hh].
      eapply (Hg d g g'); [unfold o_getGroupId; rewrite Hin; done|unfold i_getGroupId; rewrite Hc; done]. }
    congruence.
Qed.

(** what a failing add keeps *)
Lemma i_add_failed_keeps s p s' e :
  i_wf h s -> i_add h s p = (s', Throw e) ->
  i_probs s' = i_probs s /\ i_backup s' = i_backup s /\
  forall d c g, i_counts s !! d = Some (c, g) -> exists c', (c <= c')%N /\ i_counts s' !! d = Some (c', g).
Proof.
  intros Hwf Hadd. destruct p as [p|].
  2: { injection Hadd as <- _. split; [done|]. split; [done|]. intros d c g Hc. exists c. split; [lia|done]. }
  rewrite (i_add_eq h edv Hh) in Hadd.
  pose proof (add_list_probs (opairs (h p)) s) as [Hp Hb].
  pose proof (add_list_keeps (opairs (h p)) s) as Hk.
  destruct (add_list (opairs (h p)) s) as [s1 r]. simpl in *.
  destruct r as [[]|e'| |]; try discriminate.
  - destruct (existsb _ _); [|discriminate]. injection Hadd as <- _. split; [done|]. split; [done|].
    intros d c g. apply Hk.
  - injection Hadd as <- _. split; [done|]. split; [done|]. intros d c g. apply Hk.
Qed.

(** a batch whose very first variable conflicts while its group already exists *)
Lemma i_add_first_conflict s p d g g' l :
  i_wf h s -> o_enum (h p) = d :: l -> o_lookup (h p) !! d = Some g ->
  i_getGroupId s d = Ret g' -> g' <> g -> i_isGroupInProblem s g = true ->
  i_add h s (Some p) = (s, Throw InvalidOperation).
Proof.
  intros Hwf Hen Hl Hg Hne Hgr. rewrite (i_add_eq h edv Hh). unfold opairs. rewrite Hen. cbn [map add_list].
  unfold ogrp. rewrite Hl. cbn [from_option id]. unfold add_dv. unfold i_getGroupId in Hg.
  destruct (i_counts s !! d) as [[c g0]|]; [|done]. injection Hg as ->. rewrite Hgr.
  destruct (Nat.eqb_spec g' g); [done|]. destruct s; done.
Qed.
End addspec2.

(** ** No undefined behaviour, even after failed adds *)
Section noub.
Context {V : Type} (h : nat -> oprob V) (edv : nat -> list nat).
Context (Hh : forall b, o_wf edv (h b)).
Implicit Types s : inc V.

(** invariant of all histories over immutable batches, including throwing adds *)
Record wwf s : Prop := {
  ww_c : forall d c g, i_counts s !! d = Some (c, g) -> (0 < c)%N /\ exists l, i_groups s !! g = Some l /\ d ∈ l;
  ww_m : forall g l d, i_groups s !! g = Some l -> d ∈ l -> exists c, i_counts s !! d = Some (c, g);
  ww_l : forall g l, i_groups s !! g = Some l -> NoDup l /\ l <> [];
  ww_o : forall g, is_Some (i_groups s !! g) -> g ∈ i_order s;
  ww_occ : forall d, (N.of_nat (occ h (i_probs s) d) <= default 0%N (fst <$> i_counts s !! d))%N;
}.

(** the first four clauses, without the batches *)
Definition wtab s : Prop :=
  (forall d c g, i_counts s !! d = Some (c, g) -> (0 < c)%N /\ exists l, i_groups s !! g = Some l /\ d ∈ l) /\
  (forall g l d, i_groups s !! g = Some l -> d ∈ l -> exists c, i_counts s !! d = Some (c, g)) /\
  (forall g l, i_groups s !! g = Some l -> NoDup l /\ l <> []) /\
  (forall g, is_Some (i_groups s !! g) -> g ∈ i_order s).

Lemma wwf_split s :
  wwf s <-> wtab s /\ forall d, (N.of_nat (occ h (i_probs s) d) <= default 0%N (fst <$> i_counts s !! d))%N.
Proof.
  split.
  - intros [H1 H2 H3 H4 H5]. split; [split; [|split; [|split]]|]; done.
  - intros [(H1 & H2 & H3 & H4) H5]. constructor; done.
Qed.

Lemma wtab_add_dv s d g : wtab s -> wtab (fst (add_dv s d g)).
Proof.
  intros (H1 & H2 & H3 & H4). unfold add_dv.
  assert (Hord : forall g', is_Some (i_groups s !! g') ->
     g' ∈ (if i_isGroupInProblem s g then i_order s else i_order s ++ [g])).
  { intros g' Hg'. apply H4 in Hg'. destruct (i_isGroupInProblem s g); set_solver. }
  assert (Hgo : g ∈ (if i_isGroupInProblem s g then i_order s else i_order s ++ [g])).
  { unfold i_isGroupInProblem. case_bool_decide; [auto|set_solver]. }
  destruct (i_counts s !! d) as [[c g']|] eqn:Hc.
  - destruct (Nat.eqb_spec g' g) as [->|]; simpl; [|split; [|split; [|split]]; done].
    split; [|split; [|split]]; simpl; [| |done|done].
    + intros x c' g''. destruct (decide (x = d)) as [->|].
      * rewrite lookup_insert. intros [= <- <-]. split; [lia|]. eapply H1, Hc.
      * rewrite lookup_insert_ne by done. apply H1.
    + intros g'' l x Hl Hx. destruct (H2 _ _ _ Hl Hx) as [c' Hc']. destruct (decide (x = d)) as [->|].
      * rewrite lookup_insert. assert (g'' = g) as -> by congruence. eauto.
      * rewrite lookup_insert_ne by done. eauto.
  - simpl. split; [|split; [|split]]; simpl.
    + intros x c' g''. destruct (decide (x = d)) as [->|].
      * rewrite lookup_insert. intros [= <- <-]. split; [lia|]. eexists. rewrite lookup_insert. split; [done|set_solver].
      * rewrite lookup_insert_ne by done. intros Hx. destruct (H1 _ _ _ Hx) as (Hpos & l & Hl & Hin).
        split; [done|]. destruct (decide (g'' = g)) as [->|].
        { eexists. rewrite lookup_insert. split; [done|]. rewrite Hl. set_solver. }
        { exists l. rewrite lookup_insert_ne; done. }
    + intros g'' l x. destruct (decide (g'' = g)) as [->|].
      * rewrite lookup_insert. intros [= <-] Hin. apply elem_of_app in Hin as [Hin|Hin].
        { destruct (i_groups s !! g) as [l|] eqn:Hl; simpl in Hin; [|set_solver].
          destruct (H2 _ _ _ Hl Hin) as [c' Hc']. rewrite lookup_insert_ne; [eauto|]. congruence. }
        { apply elem_of_list_singleton in Hin as ->. rewrite lookup_insert. eauto. }
      * rewrite lookup_insert_ne by done. intros Hl Hin. destruct (H2 _ _ _ Hl Hin) as [c' Hc'].
        rewrite lookup_insert_ne; [eauto|]. congruence.
    + intros g'' l. destruct (decide (g'' = g)) as [->|].
      * rewrite lookup_insert. intros [= <-]. split.
        { apply NoDup_app. destruct (i_groups s !! g) as [l|] eqn:Hl; simpl.
          - split; [eapply H3, Hl|]. split; [|apply NoDup_singleton].
            intros y Hy Hy'. apply elem_of_list_singleton in Hy' as ->.
            destruct (H2 _ _ _ Hl Hy) as [c' Hc']. congruence.
          - split; [constructor|]. split; [set_solver|apply NoDup_singleton]. }
        { destruct (default [] (i_groups s !! g)); done. }
      * rewrite lookup_insert_ne by done. apply H3.
    + intros g''. destruct (decide (g'' = g)) as [->|]; [done|].
      rewrite lookup_insert_ne by done. apply Hord.
Qed.

Lemma wtab_add_list L s : wtab s -> wtab (fst (add_list L s)).
Proof.
  revert s. induction L as [|[d g] L IH]; intros s Hw; cbn [add_list]; [done|].
  pose proof (wtab_add_dv s d g Hw) as Hw'. destruct (add_dv s d g) as [s' r]. simpl in Hw'.
  destruct r as [[]|e| |]; try done. apply IH, Hw'.
Qed.

Lemma add_list_count_mono L s d :
  (default 0 (fst <$> i_counts s !! d) <= default 0 (fst <$> i_counts (fst (add_list L s)) !! d))%N.
Proof.
  destruct (i_counts s !! d) as [[c g]|] eqn:Hd; simpl; [|lia].
  destruct (add_list_keeps L s d c g Hd) as (c' & Hle & ->). done.
Qed.

(** a completed loop has counted each listed variable once more *)
Lemma add_list_counts L s s' :
  NoDup (map fst L) -> add_list L s = (s', Ret tt) ->
  forall d, d ∈ map fst L ->
  (default 0 (fst <$> i_counts s !! d) + 1 <= default 0 (fst <$> i_counts s' !! d))%N.
Proof.
  revert s. induction L as [|[d g] L IH]; intros s Hnd Hadd x Hx; [set_solver|].
  cbn [add_list map fst] in *. apply NoDup_cons in Hnd as [Hdn Hnd].
  destruct (add_dv s d g) as [s1 r] eqn:Hadv. destruct r as [[]|e| |]; try discriminate.
  assert (Hcase : (default 0 (fst <$> i_counts s !! d) + 1 <= default 0 (fst <$> i_counts s1 !! d))%N /\
                  forall y, y <> d -> i_counts s1 !! y = i_counts s !! y).
  { revert Hadv. unfold add_dv. destruct (i_counts s !! d) as [[c g']|]; [destruct (Nat.eqb g' g)|];
      intros [= <-]; simpl; rewrite lookup_insert; simpl; (split; [lia|]);
      intros y Hy; rewrite lookup_insert_ne; done. }
  destruct Hcase as [Hd Hother]. apply elem_of_cons in Hx as [->|Hx].
  - pose proof (add_list_count_mono L s1 d) as Hm. rewrite Hadd in Hm. simpl in Hm. lia.
  - assert (x <> d) by (intros ->; done).
    specialize (IH s1 Hnd Hadd x Hx). rewrite Hother in IH by done. done.
Qed.

Lemma wwf_add s p : wwf s -> wwf (fst (i_add h s p)) /\ snd (i_add h s p) <> UB /\ snd (i_add h s p) <> Diverge.
Proof.
  intros Hw. destruct p as [p|]; [|cbn [i_add fst snd]; done].
  rewrite (i_add_eq h edv Hh). apply wwf_split in Hw as [Hw Hocc].
  pose proof (wtab_add_list (opairs (h p)) s Hw) as Hw1.
  pose proof (add_list_probs (opairs (h p)) s) as [Hp _].
  pose proof (add_list_count_mono (opairs (h p)) s) as Hm.
  pose proof (add_list_result (opairs (h p)) s) as Hr.
  destruct (add_list (opairs (h p)) s) as [s1 r] eqn:Hadd. simpl in *.
  assert (Hw1' : wwf s1).
  { apply wwf_split. split; [done|]. intros d. rewrite Hp. specialize (Hm d). specialize (Hocc d). lia. }
  destruct Hr as [->| ->]; simpl; [|done].
  destruct (existsb _ _); simpl; [done|]. split; [|done]. apply wwf_split. split; [done|]. simpl. intros d.
  rewrite occ_app, occ_single, Hp. specialize (Hocc d).
  destruct (decide (is_Some (o_lookup (h p) !! d))) as [Hd|Hd].
  - assert (Hin : d ∈ map fst (opairs (h p))) by (apply (in_opairs_fst h edv Hh); done).
    pose proof (add_list_counts _ _ _ (opairs_nodup h edv Hh p) Hadd d Hin). lia.
  - specialize (Hm d). lia.
Qed.

Lemma wtab_remove_dv s d :
  wtab s -> is_Some (i_counts s !! d) ->
  exists s', remove_dv s d = (s', Ret tt) /\ wtab s' /\ i_probs s' = i_probs s /\
    (forall y, y <> d -> i_counts s' !! y = i_counts s !! y) /\
    default 0%N (fst <$> i_counts s' !! d) = (default 0%N (fst <$> i_counts s !! d) - 1)%N.
Proof.
  intros (H1 & H2 & H3 & H4) [[c g] Hc]. destruct (H1 _ _ _ Hc) as (Hpos & l & Hl & Hd).
  unfold remove_dv. rewrite Hc. cbn [from_option id]. cbv zeta.
  assert (Hwp : wrap_pred c = (c - 1)%N) by (unfold wrap_pred; destruct (N.eqb_spec c 0); lia).
  rewrite Hwp. destruct (N.eqb_spec (c - 1) 0) as [He|He].
  - rewrite Hl. cbn [from_option id]. rewrite delete_insert_delete.
    destruct (H3 _ _ Hl) as [Hnd _]. rewrite erase_first_filter by done.
    assert (Hfil : forall x, x ∈ filter (fun y => y <> d) l <-> x <> d /\ x ∈ l) by (intros x; rewrite elem_of_list_filter; done).
    destruct (filter (fun y => y <> d) l) as [|x l'] eqn:Hf.
    + assert (Hgo : exists o', erase_first g (i_order s) = Some o' /\ forall g', g' <> g -> g' ∈ i_order s -> g' ∈ o').
      { assert (Hin : g ∈ i_order s) by (apply H4; eauto). clear -Hin.
        induction (i_order s) as [|x o IH]; [set_solver|]. cbn [erase_first].
        destruct (Nat.eqb_spec x g) as [->|Hne].
        - exists o. split; [done|]. intros g' Hg' Hin'. set_solver.
        - destruct IH as (o' & -> & Ho'); [set_solver|]. exists (x :: o'). split; [done|].
          intros g' Hg' Hin'. apply elem_of_cons in Hin' as [->|Hin']; set_solver. }
      destruct Hgo as (o' & -> & Ho'). eexists. split; [done|]. simpl. split; [|split; [done|split]].
      * split; [|split; [|split]]; simpl.
        { intros y c' g' Hy. apply lookup_delete_Some in Hy as [Hyd Hy]. destruct (H1 _ _ _ Hy) as (Hp' & k & Hk & Hin).
          split; [done|]. exists k. split; [|done]. rewrite lookup_delete_ne; [done|]. intros ->.
          assert (k = l) as -> by congruence. assert (Hbad : y ∈ (@nil nat)) by (apply Hfil; done). set_solver. }
        { intros g' k y Hk Hy. apply lookup_delete_Some in Hk as [Hg' Hk]. destruct (H2 _ _ _ Hk Hy) as [c' Hc'].
          exists c'. rewrite lookup_delete_ne; [done|]. congruence. }
        { intros g' k Hk. apply lookup_delete_Some in Hk as [Hg' Hk]. eauto. }
        { intros g' [k Hk]. apply lookup_delete_Some in Hk as [Hg' Hk]. apply Ho'; [done|]. apply H4. eauto. }
      * intros y Hy. rewrite lookup_delete_ne; done.
      * rewrite lookup_delete. simpl. lia.
    + eexists. split; [done|]. simpl. split; [|split; [done|split]].
      * split; [|split; [|split]]; simpl.
        { intros y c' g' Hy. apply lookup_delete_Some in Hy as [Hyd Hy]. destruct (H1 _ _ _ Hy) as (Hp' & k & Hk & Hin).
          split; [done|]. destruct (decide (g' = g)) as [->|].
          - exists (x :: l'). rewrite lookup_insert. split; [done|]. apply Hfil. split; [done|]. congruence.
          - exists k. rewrite lookup_insert_ne; done. }
        { intros g' k y. destruct (decide (g' = g)) as [->|].
          - rewrite lookup_insert. intros [= <-] Hy. apply Hfil in Hy as [Hyd Hy].
            destruct (H2 _ _ _ Hl Hy) as [c' Hc']. exists c'. rewrite lookup_delete_ne; done.
          - rewrite lookup_insert_ne by done. intros Hk Hy. destruct (H2 _ _ _ Hk Hy) as [c' Hc'].
            exists c'. rewrite lookup_delete_ne; [done|]. congruence. }
        { intros g' k. destruct (decide (g' = g)) as [->|].
          - rewrite lookup_insert. intros [= <-]. split; [|done]. rewrite <- Hf. apply NoDup_filter, Hnd.
          - rewrite lookup_insert_ne by done. apply H3. }
        { intros g'. destruct (decide (g' = g)) as [->|]; [intros _; apply H4; eauto|].
          rewrite lookup_insert_ne by done. apply H4. }
      * intros y Hy. rewrite lookup_delete_ne; done.
      * rewrite lookup_delete. simpl. lia.
  - eexists. split; [done|]. simpl. split; [|split; [done|split]].
    + split; [|split; [|split]]; simpl; [| |done|done].
      * intros y c' g'. destruct (decide (y = d)) as [->|].
        { rewrite lookup_insert. intros [= <- <-]. split; [lia|]. eauto. }
        { rewrite lookup_insert_ne by done. apply H1. }
      * intros g' k y Hk Hy. destruct (H2 _ _ _ Hk Hy) as [c' Hc']. destruct (decide (y = d)) as [->|].
        { rewrite lookup_insert. assert (g' = g) as -> by congruence. eauto. }
        { rewrite lookup_insert_ne by done. eauto. }
    + intros y Hy. rewrite lookup_insert_ne; done.
    + rewrite lookup_insert. done.
Qed.

Lemma wtab_remove_list L s :
  wtab s -> NoDup L -> (forall d, d ∈ L -> is_Some (i_counts s !! d)) ->
  exists s', remove_list L s = (s', Ret tt) /\ wtab s' /\ i_probs s' = i_probs s /\
    (forall y, default 0%N (fst <$> i_counts s' !! y) =
               (default 0%N (fst <$> i_counts s !! y) - if decide (y ∈ L) then 1 else 0)%N).
Proof.
  revert s. induction L as [|d L IH]; intros s Hw Hnd Hsub; cbn [remove_list].
  { exists s. split; [done|]. split; [done|]. split; [done|]. intros y. rewrite decide_False by set_solver. lia. }
  apply NoDup_cons in Hnd as [Hdn Hnd].
  destruct (wtab_remove_dv s d Hw) as (s1 & -> & Hw1 & Hp1 & Hoth & Hd1); [apply Hsub; set_solver|].
  destruct (IH s1 Hw1 Hnd) as (s2 & -> & Hw2 & Hp2 & Hc2).
  { intros y Hy. rewrite Hoth; [apply Hsub; set_solver|]. intros ->. done. }
  exists s2. split; [done|]. split; [done|]. split; [congruence|]. intros y. rewrite Hc2.
  destruct (decide (y = d)) as [->|Hy].
  - rewrite (decide_False (P := d ∈ L)) by done. rewrite decide_True by set_solver. rewrite Hd1. lia.
  - rewrite Hoth by done.
    destruct (decide (y ∈ L)); [rewrite decide_True by set_solver|rewrite decide_False by set_solver]; done.
Qed.

Lemma wwf_remove_idx s idx :
  wwf s -> wwf (fst (i_remove_idx h s idx)) /\ snd (i_remove_idx h s idx) <> UB /\
           snd (i_remove_idx h s idx) <> Diverge.
Proof.
  intros Hw. unfold i_remove_idx. destruct (i_probs s !! idx) as [p|] eqn:Hp; [|done].
  rewrite (remove_dvs_fold edv); [|apply Hh|apply (o_wf_size edv), Hh]. rewrite drop_0.
  apply wwf_split in Hw as [Hw Hocc].
  assert (Hsub : forall d, d ∈ o_enum (h p) -> is_Some (i_counts s !! d)).
  { intros d Hd. apply (o_wf_enum edv) in Hd; [|apply Hh].
    assert (Hpos : 0 < occ h (i_probs s) d).
    { apply (occ_pos h edv Hh). exists p. split; [eapply elem_of_list_lookup_2, Hp|done]. }
    specialize (Hocc d). destruct (i_counts s !! d); [eauto|]. simpl in Hocc. lia. }
  destruct (wtab_remove_list (o_enum (h p)) s Hw) as (s1 & -> & Hw1 & Hp1 & Hc1); [apply NoDup_enum, Hh|done|].
  simpl. split; [|done]. apply wwf_split. split; [done|]. simpl. intros d. rewrite Hp1, Hc1.
  specialize (Hocc d). rewrite (occ_delete h _ _ _ d Hp), occ_single in Hocc.
  destruct (decide (d ∈ o_enum (h p))) as [Hd|Hd]; rewrite (o_wf_enum edv) in Hd by apply Hh.
  - rewrite decide_True in Hocc by done. lia.
  - rewrite decide_False in Hocc by done. lia.
Qed.

Lemma wwf_step s op : wwf s -> wwf (fst (istep h s op)) /\ snd (istep h s op) <> UB.
Proof.
  intros Hw. destruct op as [p|idx|p| |o|p|p g|vals|]; cbn [istep].
  - destruct (wwf_add s p Hw) as (? & ? & ?). done.
  - destruct (wwf_remove_idx s idx Hw) as (? & ? & ?). done.
  - destruct p as [p|]; cbn [i_remove]; [|done]. destruct (find_index p (i_probs s)) as [idx|]; [|done].
    destruct (wwf_remove_idx s idx Hw) as (? & ? & ?). done.
  - split; [|done]. constructor; simpl.
    + intros d c g. rewrite lookup_empty. done.
    + intros g l d. rewrite lookup_empty. done.
    + intros g l. rewrite lookup_empty. done.
    + intros g. rewrite lookup_empty. intros [? ?]; done.
    + intros d. done.
  - unfold i_setGroupsOrdering. destruct (Nat.eqb_spec (length o) (length (i_order s))) as [Hl|]; simpl; [|done].
    destruct (ordering_ok _ _ _) eqn:Hok; simpl; [|done]. split; [|done].
    destruct Hw as [H1 H2 H3 H4 H5]. constructor; simpl; [done|done|done| |done].
    intros g Hg. apply ordering_ok_spec in Hok as (Hnd & _ & Hdom).
    (* o is a NoDup list of existing groups, as long as the old ordering which contains all groups *)
    assert (Hsz : size (dom (i_groups s) : gset nat) <= length o).
    { rewrite Hl. etransitivity; [|apply Nat.le_refl].
      assert (Hsub : (dom (i_groups s) : gset nat) ⊆ list_to_set (i_order s)).
      { intros x Hx. apply elem_of_list_to_set, H4, elem_of_dom, Hx. }
      apply subseteq_size in Hsub.
      assert (Hle : size (list_to_set (i_order s) : gset nat) <= length (i_order s)).
      { clear. induction (i_order s) as [|x l IH]; [cbn [list_to_set length]; rewrite size_empty; lia|].
        simpl. destruct (decide (x ∈ (list_to_set l : gset nat))).
        - replace ({[x]} ∪ list_to_set l : gset nat) with (list_to_set l : gset nat) by set_solver. lia.
        - rewrite size_union, size_singleton by set_solver. lia. }
      lia. }
    assert (Heq : (list_to_set o : gset nat) = dom (i_groups s)).
    { assert (Hsub : (list_to_set o : gset nat) ⊆ dom (i_groups s)).
      { intros x Hx. apply elem_of_list_to_set in Hx. apply elem_of_dom, Hdom, Hx. }
      apply set_eq. intros x. split; [apply Hsub|]. intros Hx.
      destruct (decide (x ∈ (list_to_set o : gset nat))) as [|Hn]; [done|exfalso].
      assert (Hsub2 : (list_to_set o : gset nat) ∪ {[x]} ⊆ dom (i_groups s)) by set_solver.
      apply subseteq_size in Hsub2. rewrite size_union, size_singleton, size_list_to_set in Hsub2 by (done || set_solver).
      lia. }
    apply (elem_of_list_to_set (C := gset nat)). rewrite Heq. apply elem_of_dom, Hg.
  - unfold i_permuteProblems. destruct (permute (i_probs s) p) as [l r] eqn:Hp. simpl.
    split; [|eapply permute_never_ub, Hp]. apply permute_fuel_perm in Hp.
    destruct Hw as [H1 H2 H3 H4 H5]. constructor; simpl; [done..|].
    intros d. rewrite (occ_perm h _ _ d Hp). apply H5.
  - unfold i_permuteDV. destruct (i_groups s !! g) as [l|] eqn:Hg; [|done].
    destruct (permute l p) as [l' r] eqn:Hp. simpl. split; [|eapply permute_never_ub, Hp].
    apply permute_fuel_perm in Hp. destruct Hw as [H1 H2 H3 H4 H5]. constructor; simpl; [| | | |done].
    + intros d c g' Hc. destruct (H1 _ _ _ Hc) as (Hpos & k & Hk & Hd). split; [done|].
      destruct (decide (g' = g)) as [->|Hne].
      * exists l'. rewrite lookup_insert. split; [done|]. rewrite Hp. congruence.
      * exists k. rewrite lookup_insert_ne; done.
    + intros g' k d. destruct (decide (g' = g)) as [->|Hne].
      * rewrite lookup_insert. intros [= <-]. rewrite Hp. apply H2, Hg.
      * rewrite lookup_insert_ne by done. apply H2.
    + intros g' k. destruct (decide (g' = g)) as [->|Hne]; [|rewrite lookup_insert_ne by done; apply H3].
      rewrite lookup_insert. intros [= <-]. destruct (H3 _ _ Hg) as [Hn1 Hn2]. split; [rewrite Hp; done|].
      intros ->. apply Permutation_nil_l in Hp. done.
    + intros g'. destruct (decide (g' = g)) as [->|Hne]; [intros _; apply H4; eauto|].
      rewrite lookup_insert_ne by done. apply H4.
  - split; [|done]. destruct Hw as [H1 H2 H3 H4 H5]. constructor; done.
  - done.
Qed.

Lemma i_history_wwf s : i_history h s -> wwf s.
Proof.
  induction 1 as [|s op s' r _ IH Hstep _].
  - constructor; simpl.
    + intros d c g. rewrite lookup_empty. done.
    + intros g l d. rewrite lookup_empty. done.
    + intros g l. rewrite lookup_empty. done.
    + intros g. rewrite lookup_empty. intros [? ?]; done.
    + intros d. done.
  - pose proof (wwf_step s op IH) as [Hw _]. rewrite Hstep in Hw. done.
Qed.
End noub.
