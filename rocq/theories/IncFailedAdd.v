(** What exactly a failing [add] leaves behind. *)
From stdpp Require Import prelude list gmap.
From Coq Require Import Lia.
From Verif Require Import Base PermuteModel PermuteProofs OptProblemModel OptProblemProofs
  IncProblemModel Spec_OptProblem Spec_IncProblem IncProblemProofs IncHistoryProofs IncExtraProofs IncSpecProofs OptSpecProofs Spec_IncFailedAdd.

Section exact.
Context {V : Type}.
Implicit Types s : inc V.

Lemma add_list_app L1 L2 s :
  add_list (L1 ++ L2) s = match add_list L1 s with (s1, Ret _) => add_list L2 s1 | r => r end.
Proof.
  revert s. induction L1 as [|[d g] L1 IH]; intros s; cbn [app add_list]; [done|].
  destruct (add_dv s d g) as [s1 [[]|e| |]]; try done.
Qed.

Lemma add_list_throw L s s' e : add_list L s = (s', Throw e) ->
  exists L1 d g L2 s1 c g', L = L1 ++ (d, g) :: L2 /\ add_list L1 s = (s1, Ret tt) /\ e = InvalidOperation /\
    i_counts s1 !! d = Some (c, g') /\ g' <> g /\
    s' = Inc (i_probs s1) (i_counts s1) (i_groups s1) (if i_isGroupInProblem s1 g then i_order s1 else i_order s1 ++ [g]) (i_backup s1).
Proof.
  revert s. induction L as [|[d g] L IH]; intros s H; cbn [add_list] in H; [discriminate|].
  destruct (add_dv s d g) as [s1 r] eqn:E. destruct r as [[]|e'| |]; try discriminate.
  - destruct (IH _ H) as (L1 & d1 & g1 & L2 & s2 & c & g' & -> & H1 & H2). exists ((d, g) :: L1), d1, g1, L2, s2, c, g'.
    split; [done|]. split; [|done]. cbn [add_list]. rewrite E. done.
  - injection H as <- <-. unfold add_dv in E. destruct (i_counts s !! d) as [[c g']|] eqn:Hc; [|discriminate].
    destruct (Nat.eqb_spec g' g) as [|Hne]; [discriminate|]. injection E as <- <-.
    exists [], d, g, L, s, c, g'. repeat (split; [done|]). done.
Qed.

Lemma filter_insert (m : gmap nat (N * nat)) d v g0 (M : list (nat * nat)) :
  (forall x gx, (x, gx) ∈ M -> x <> d) ->
  filter (fun p => snd p = g0 /\ <[d := v]> m !! fst p = None) M = filter (fun p => snd p = g0 /\ m !! fst p = None) M.
Proof.
  induction M as [|[x gx] M IH]; intros HM; [done|]. rewrite !filter_cons.
  rewrite IH by (intros y gy Hy; apply (HM y gy); by right).
  assert (x <> d) by (eapply HM; left). cbn [fst snd]. rewrite lookup_insert_ne by done. done.
Qed.

Lemma add_list_exact L s s' :
  twf s -> NoDup (map fst L) -> add_list L s = (s', Ret tt) ->
  (forall g, default [] (i_groups s' !! g) =
             default [] (i_groups s !! g) ++ map fst (filter (fun p => snd p = g /\ i_counts s !! fst p = None) L)) /\
  (forall g, is_Some (i_groups s' !! g) <-> is_Some (i_groups s !! g) \/ exists d, (d, g) ∈ L) /\
  exists new, i_order s' = i_order s ++ new /\ NoDup new /\
              forall g, g ∈ new <-> i_groups s !! g = None /\ exists d, (d, g) ∈ L.
Proof.
  revert s. induction L as [|[d g] L IH]; intros s Hwf Hnd Hadd; cbn [add_list] in Hadd.
  { injection Hadd as <-. split; [intros g; by rewrite app_nil_r|]. split; [intros g; split; [by left|intros [?|(d & Hd)]; [done|set_solver]]|].
    exists []. rewrite app_nil_r. split; [done|]. split; [constructor|]. intros g. split; [set_solver|]. intros [_ [d Hd]]. set_solver. }
  cbn [map fst] in Hnd. apply NoDup_cons in Hnd as [Hdn Hnd].
  assert (HdL : forall x gx, (x, gx) ∈ L -> x <> d).
  { intros x gx Hx ->. apply Hdn. apply elem_of_list_fmap. exists (d, gx). done. }
  destruct (i_counts s !! d) as [[c g']|] eqn:Hc.
  - assert (g' = g) as ->.
    { unfold add_dv in Hadd. rewrite Hc in Hadd. destruct (Nat.eqb_spec g' g); [done|discriminate]. }
    rewrite (add_dv_old s d g c) in Hadd by done.
    set (s1 := Inc _ _ _ _ _) in Hadd.
    assert (Hwf1 : twf s1) by (apply twf_add_old; done).
    destruct (tw_c _ Hwf _ _ _ Hc) as (_ & l & Hl & _).
    destruct (IH s1 Hwf1 Hnd Hadd) as (H1 & H2 & new & H3 & H4 & H5). cbn [i_groups i_order i_counts s1] in *.
    split; [|split].
    + intros g0. rewrite H1. f_equal. rewrite filter_cons_False by (cbn; rewrite Hc; naive_solver).
      f_equal. apply filter_insert, HdL.
    + intros g0. rewrite H2. split; [intros [?|(x & Hx)]; [by left|right; exists x; by right]|].
      intros [?|(x & Hx)]; [by left|]. apply elem_of_cons in Hx as [[= -> ->]|Hx]; [left; eauto|right; eauto].
    + exists new. split; [done|]. split; [done|]. intros g0. rewrite H5. split; intros [Hn (x & Hx)]; (split; [done|]).
      * exists x. by right.
      * apply elem_of_cons in Hx as [[= -> ->]|Hx]; [congruence|eauto].
  - rewrite (add_dv_new s d g _ Hc eq_refl) in Hadd.
    set (s1 := Inc _ _ _ _ _) in Hadd.
    assert (Hwf1 : twf s1) by (apply twf_add_new; done).
    destruct (IH s1 Hwf1 Hnd Hadd) as (H1 & H2 & new & H3 & H4 & H5). cbn [i_groups i_order i_counts s1] in *.
    assert (Hga : forall g0, gadd (i_groups s) g d !! g0 = None <-> i_groups s !! g0 = None /\ g0 <> g).
    { intros g0. unfold gadd. destruct (decide (g0 = g)) as [->|Hne].
      - rewrite lookup_insert. naive_solver.
      - rewrite lookup_insert_ne by done. naive_solver. }
    split; [|split].
    + intros g0. rewrite H1.
      rewrite filter_insert by exact HdL. unfold gadd. destruct (decide (g0 = g)) as [->|Hne].
      * rewrite lookup_insert. rewrite filter_cons_True by done. cbn [default id map fst]. by rewrite <- app_assoc.
      * rewrite lookup_insert_ne by done. rewrite filter_cons_False by (cbn; naive_solver). done.
    + intros g0. rewrite H2. unfold gadd. destruct (decide (g0 = g)) as [->|Hne].
      * rewrite lookup_insert. split; [|intros _; left; eauto]. intros _. right. exists d. left.
      * rewrite lookup_insert_ne by done. split; [intros [?|(x & Hx)]; [by left|right; exists x; by right]|].
        intros [?|(x & Hx)]; [by left|]. apply elem_of_cons in Hx as [[= -> ->]|Hx]; [done|right; eauto].
    + unfold oadd in H3. case_bool_decide as Hg.
      * exists new. split; [done|]. split; [done|]. intros g0. rewrite H5, Hga. split.
        { intros [[Hn Hne] (x & Hx)]. split; [done|]. exists x. by right. }
        intros [Hn (x & Hx)]. apply elem_of_cons in Hx as [[= -> ->]|Hx].
        { destruct Hg; congruence. }
        split; [split; [done|]|eauto]. intros ->. destruct Hg; congruence.
      * assert (Hg' : i_groups s !! g = None) by (destruct (i_groups s !! g); [exfalso; apply Hg; eauto|done]).
        exists (g :: new). rewrite H3, <- app_assoc. split; [done|]. split.
        { apply NoDup_cons. split; [|done]. rewrite H5, Hga. naive_solver. }
        intros g0. rewrite elem_of_cons, H5, Hga. split.
        { intros [->|[[Hn Hne] (x & Hx)]]; (split; [done|]); [exists d; left|exists x; by right]. }
        intros [Hn (x & Hx)]. apply elem_of_cons in Hx as [[= -> ->]|Hx]; [by left|].
        destruct (decide (g0 = g)) as [->|]; [by left|]. right. eauto.
Qed.
End exact.

Section failed.
Context {V : Type} (h : nat -> oprob V) (edv : nat -> list nat).
Context (Hr : forall b, o_reachable edv (h b)).
Implicit Types s : inc V.
Let Hh : forall b, o_wf edv (h b).
Proof. intros b. apply o_reachable_wf, Hr. Qed.

Lemma flat_enum b : flat_variables b = o_enum (V := V) b.
Proof.
  unfold flat_variables, o_enum, enum. f_equal. apply map_ext. intros g.
  unfold group_or_nil, o_getGroup. destruct (o_groups b !! g); done.
Qed.

Lemma take_opairs b k : take k (opairs (h b)) = map (fun d => (d, ogrp (h b) d)) (take k (o_enum (h b))).
Proof. unfold opairs. symmetry. apply firstn_map || (rewrite <- fmap_take; done). Qed.

Lemma ogid b d : d ∈ o_enum (h b) -> forall g, o_getGroupId (h b) d = Ret g <-> ogrp (h b) d = g.
Proof.
  intros Hd g. apply (o_wf_enum edv) in Hd as [g0 Hg0]; [|apply Hh]. unfold o_getGroupId, ogrp. rewrite Hg0. cbn.
  split; [congruence|intros ->; done].
Qed.

Lemma prefix_taken s b (L1 L2 : list nat) s1 : i_wf h s -> o_enum (h b) = L1 ++ L2 ->
  add_list (map (fun d => (d, ogrp (h b) d)) L1) s = (s1, Ret tt) ->
  twf s1 /\ taken_over h s b L1 s1 /\
  (forall d g g', d ∈ L1 -> o_getGroupId (h b) d = Ret g -> i_getGroupId s d = Ret g' -> g' = g) /\
  (forall d, d ∉ L1 -> i_counts s1 !! d = i_counts s !! d) /\
  exists new, i_order s1 = i_order s ++ new /\ NoDup new /\
    forall g, g ∈ new <-> i_isGroupInProblem s g = false /\ exists d, d ∈ L1 /\ o_getGroupId (h b) d = Ret g.
Proof.
  intros Hwf HL Hadd. assert (Hsub : forall d, d ∈ L1 -> d ∈ o_enum (h b)) by (intros d Hd; rewrite HL; set_solver).
  assert (Hfst : map fst (map (fun d => (d, ogrp (h b) d)) L1) = L1) by (rewrite map_map; apply map_id).
  assert (Hnd : NoDup (map fst (map (fun d => (d, ogrp (h b) d)) L1))).
  { rewrite Hfst. pose proof (opairs_nodup h edv Hh b) as H. rewrite opairs_fst, HL in H. by apply NoDup_app in H as [? _]. }
  assert (Hin : forall d g, (d, g) ∈ map (fun d => (d, ogrp (h b) d)) L1 <-> d ∈ L1 /\ o_getGroupId (h b) d = Ret g).
  { intros d g. rewrite elem_of_list_fmap. split.
    - intros (x & [= -> ->] & Hx). split; [done|]. apply ogid; auto.
    - intros [Hd Hg]. exists d. split; [|done]. apply ogid in Hg; [by rewrite Hg|auto]. }
  destruct (add_list_ok _ _ _ (iw_t _ _ Hwf) Hnd Hadd) as (Ht & Hp & Hb & Hc1 & Hc2 & _ & _).
  destruct (add_list_exact _ _ _ (iw_t _ _ Hwf) Hnd Hadd) as (Hg1 & Hg2 & new & Hn1 & Hn2 & Hn3).
  rewrite Hfst in Hc1.
  assert (Hcin : forall d, d ∈ L1 -> i_counts s1 !! d =
     match i_counts s !! d with Some (c, _) => Some ((c + 1)%N, ogrp (h b) d) | None => Some (1%N, ogrp (h b) d) end).
  { intros d Hd. destruct (Hc2 d (ogrp (h b) d)) as [-> _]; [apply elem_of_list_fmap; exists d; done|done]. }
  split; [done|]. split; [|split; [|split; [done|]]].
  - split; [done|]. split; [done|]. split; [|split; [|split]].
    + intros d. unfold i_isDVInProblem. rewrite !bool_decide_eq_true. destruct (decide (d ∈ L1)) as [Hd|Hd].
      * rewrite Hcin by done. split; [by right|]. intros _. destruct (i_counts s !! d) as [[? ?]|]; eauto.
      * rewrite Hc1 by done. naive_solver.
    + intros d. unfold references. destruct (decide (d ∈ L1)) as [Hd|Hd].
      * rewrite Hcin by done. destruct (i_counts s !! d) as [[c g]|]; cbn; lia.
      * rewrite Hc1 by done. lia.
    + intros g. unfold i_group_or_nil, i_getGroup. specialize (Hg1 g).
      assert (E : forall o : option (list nat), match match o with Some l => Ret l | None => Throw OutOfBound end with Ret l => l | _ => [] end = default [] o)
        by (intros [l|]; done).
      rewrite !E, Hg1. f_equal. clear -Hsub Hh Hr.
      induction L1 as [|d L IH]; [done|]. cbn [map]. rewrite !filter_cons.
      rewrite <- IH by (intros x Hx; apply Hsub; by right). cbn [fst snd].
      assert (Hx : (ogrp (h b) d = g /\ i_counts s !! d = None) <-> (i_isDVInProblem s d = false /\ o_getGroupId (h b) d = Ret g)).
      { rewrite ogid by (apply Hsub; left). unfold i_isDVInProblem. rewrite bool_decide_eq_false, <- eq_None_not_Some. naive_solver. }
      destruct (decide _) as [Ha|Ha], (decide _) as [Hb|Hb]; try done; tauto.
    + intros g. unfold i_isGroupInProblem. rewrite !bool_decide_eq_true, Hg2. setoid_rewrite Hin. done.
  - intros d g g' Hd Hg Hg'. unfold i_getGroupId in Hg'. destruct (i_counts s !! d) as [[c g0]|] eqn:E; [|done].
    injection Hg' as ->. apply (proj2 (Hc2 d g ltac:(apply Hin; done)) c g'). done.
  - exists new. split; [done|]. split; [done|]. intros g. rewrite Hn3. unfold i_isGroupInProblem.
    rewrite bool_decide_eq_false, <- eq_None_not_Some. setoid_rewrite Hin. done.
Qed.

Lemma inc_failed_add_state s b s' e : i_reachable h s -> i_add h s (Some b) = (s', Throw e) ->
  exists k, let L := take k (flat_variables (h b)) in
    k <= o_numDV (h b) /\ e = InvalidOperation /\ taken_over h s b L s' /\
    (forall d g g', d ∈ L -> o_getGroupId (h b) d = Ret g -> i_getGroupId s d = Ret g' -> g' = g) /\
    exists new, i_order s' = i_order s ++ new /\ NoDup new /\
    ((k = o_numDV (h b) /\ (exists t, o_isETInProblem (h b) t = true /\ i_isETInProblem h s t = true) /\
      (forall g, g ∈ new <-> i_isGroupInProblem s g = false /\ exists d, d ∈ L /\ o_getGroupId (h b) d = Ret g)) \/
     (exists d g g', flat_variables (h b) !! k = Some d /\ o_getGroupId (h b) d = Ret g /\ i_getGroupId s d = Ret g' /\ g' <> g /\
      (forall g0, g0 ∈ new <-> i_isGroupInProblem s g0 = false /\ exists x, x ∈ L ++ [d] /\ o_getGroupId (h b) x = Ret g0))).
Proof.
  intros Hs Hadd. apply (i_reachable_wf h edv Hh) in Hs as Hwf. rewrite (i_add_eq h edv Hh) in Hadd.
  rewrite flat_enum. destruct (add_list (opairs (h b)) s) as [s1 r] eqn:Ha. destruct r as [[]|e'| |]; try discriminate.
  - destruct (existsb _ _) eqn:Hex; [|discriminate]. injection Hadd as <- <-.
    exists (o_numDV (h b)). cbn zeta. rewrite (o_wf_size edv), firstn_all by apply Hh.
    destruct (prefix_taken s b (o_enum (h b)) [] s1 Hwf) as (_ & Ht & Hc & _ & new & Hn1 & Hn2 & Hn3); [by rewrite app_nil_r|exact Ha|].
    split; [done|]. split; [done|]. split; [exact Ht|]. split; [exact Hc|]. exists new. split; [done|]. split; [done|]. left.
    split; [done|]. split; [|done]. apply existsb_exists in Hex as (t & Ht1 & Ht2). exists t. split.
    + unfold o_isETInProblem. apply bool_decide_eq_true, (ow_etl _ _ (Hh b)). by apply elem_of_list_In.
    + unfold i_isETInProblem in *. by rewrite <- (proj1 Ht).
  - injection Hadd as -> ->. destruct (add_list_throw _ _ _ _ Ha) as (L1 & d & g & L2 & s2 & c & g' & HL & H1 & -> & Hc & Hne & ->).
    set (k := length L1).
    assert (Hk : k < length (o_enum (h b))).
    { pose proof (f_equal length HL) as Hl. unfold opairs in Hl. rewrite map_length, app_length in Hl. cbn in Hl. unfold k. lia. }
    assert (HL1 : L1 = map (fun d => (d, ogrp (h b) d)) (take k (o_enum (h b)))).
    { rewrite <- take_opairs, HL. unfold k. by rewrite take_app. }
    assert (Hd : o_enum (h b) !! k = Some d /\ ogrp (h b) d = g).
    { assert (Hd : opairs (h b) !! k = Some (d, g)) by (rewrite HL; unfold k; by rewrite list_lookup_middle).
      unfold opairs in Hd. rewrite list_lookup_fmap in Hd. destruct (o_enum (h b) !! k) as [x|]; [|done]. cbn in Hd. by injection Hd as -> <-. }
    destruct Hd as [Hd Hog].
    assert (Hdin : d ∈ o_enum (h b)) by (by eapply elem_of_list_lookup_2).
    assert (Hdn : d ∉ take k (o_enum (h b))).
    { pose proof (opairs_nodup h edv Hh b) as Hnd. rewrite opairs_fst in Hnd. rewrite <- (take_drop_middle _ _ _ Hd) in Hnd.
      apply NoDup_app in Hnd as (_ & Hx & _). intros Hin. apply (Hx d Hin). left. }
    rewrite HL1 in H1.
    destruct (prefix_taken s b (take k (o_enum (h b))) (drop k (o_enum (h b))) s2 Hwf) as (Htw & Ht & Hcc & Hrest & new & Hn1 & Hn2 & Hn3);
      [by rewrite take_drop|exact H1|].
    rewrite (Hrest d Hdn) in Hc.
    exists k. cbn zeta. rewrite (o_wf_size edv) by apply Hh. split; [lia|]. split; [done|]. split; [exact Ht|]. split; [exact Hcc|].
    assert (Hgid : o_getGroupId (h b) d = Ret g) by (by apply ogid).
    destruct Ht as (_ & _ & _ & _ & _ & Hgr).
    exists (new ++ if i_isGroupInProblem s2 g then [] else [g]).
    split; [cbn [i_order]; destruct (i_isGroupInProblem s2 g); [by rewrite app_nil_r|by rewrite Hn1, <- app_assoc]|].
    assert (Hnew : i_isGroupInProblem s2 g = false -> g ∉ new /\ i_isGroupInProblem s g = false).
    { intros Hf. split.
      - intros Hin. apply Hn3 in Hin as [_ Hx]. assert (i_isGroupInProblem s2 g = true) by (apply Hgr; by right). congruence.
      - destruct (i_isGroupInProblem s g) eqn:E; [|done]. assert (i_isGroupInProblem s2 g = true) by (apply Hgr; by left). congruence. }
    split.
    { destruct (i_isGroupInProblem s2 g); [by rewrite app_nil_r|]. apply NoDup_app. split; [done|]. split; [|apply NoDup_singleton].
      intros x Hx ->%elem_of_list_singleton. by apply Hnew. }
    right. exists d, g, g'. split; [done|]. split; [done|]. split; [unfold i_getGroupId; by rewrite Hc|]. split; [done|].
    intros g0. rewrite elem_of_app, Hn3. split.
    + intros [[Hf (x & Hx & Hxg)]|Hx].
      * split; [done|]. exists x. split; [set_solver|done].
      * destruct (i_isGroupInProblem s2 g) eqn:E; [set_solver|]. apply elem_of_list_singleton in Hx as ->.
        split; [by apply Hnew|]. exists d. split; [set_solver|done].
    + intros [Hf (x & Hx & Hxg)]. apply elem_of_app in Hx as [Hx|Hx%elem_of_list_singleton]; [left; split; [done|eauto]|]. subst x.
      assert (g0 = g) as -> by congruence.
      destruct (i_isGroupInProblem s2 g) eqn:E; [|right; set_solver]. left. split; [done|].
      apply Hgr in E as [E|E]; [congruence|done].
Qed.
End failed.
