(** Packaged lemmas for Properties_OptProblem.v. *)
From stdpp Require Import prelude list gmap.
From Verif Require Import Base PermuteModel PermuteProofs OptProblemModel Spec_OptProblem OptProblemProofs.

Section packaged.
Context {V : Type}.
Implicit Types s : oprob V.

Lemma group_or_nil_eq s g : group_or_nil s g = default [] (o_groups s !! g).
Proof. unfold group_or_nil, o_getGroup. destruct (o_groups s !! g); done. Qed.

Lemma o_enumeration edv s :
  o_reachable edv s ->
  let L := concat (map (group_or_nil s) (o_order s)) in
  NoDup L /\ length L = o_numDV s /\
  (forall d, d ∈ L <-> o_isDVInProblem s d = true) /\
  (forall i, o_designVariable s i =
             match L !! i with Some d => Ret d | None => Throw OutOfBound end) /\
  (forall d g, o_getGroupId s d = Ret g <-> exists l, o_getGroup s g = Ret l /\ d ∈ l) /\
  NoDup (o_order s) /\ (forall g, g ∈ o_order s <-> o_isGroupInProblem s g = true).
Proof.
  intros Hr. apply o_reachable_wf in Hr as Hwf. cbv zeta.
  assert (HL : concat (map (group_or_nil s) (o_order s)) = o_enum s).
  { unfold o_enum, enum. f_equal. apply map_ext. intros g. apply group_or_nil_eq. }
  rewrite HL. split; [apply NoDup_enum, Hwf|]. split; [symmetry; eapply o_wf_size, Hwf|].
  split. { intros d. rewrite (o_wf_enum edv) by done. unfold o_isDVInProblem. rewrite bool_decide_eq_true. done. }
  split. { intros i. eapply o_designVariable_spec, Hwf. }
  split.
  { intros d g. unfold o_getGroupId, o_getGroup. split.
    - destruct (o_lookup s !! d) as [g'|] eqn:Hd; [|done]. intros [= ->].
      apply (ow_lookup _ _ Hwf) in Hd as (l & -> & Hin). eauto.
    - intros (l & Hl & Hin). destruct (o_groups s !! g) as [l'|] eqn:Hg; [|done]. injection Hl as ->.
      assert (o_lookup s !! d = Some g) as ->; [|done]. apply (ow_lookup _ _ Hwf). eauto. }
  split; [apply Hwf|]. intros g. unfold o_isGroupInProblem. rewrite bool_decide_eq_true. apply Hwf.
Qed.

Lemma o_step_keeps_lookup edv s op d g :
  op <> OClear -> o_lookup s !! d = Some g -> o_lookup (fst (ostep edv s op)) !! d = Some g.
Proof.
  intros Hop Hd. destruct op as [d'|e| |o|p|p g'|vals|]; cbn [ostep]; try done.
  - destruct d' as [d'|]; cbn [o_addDV]; [|done]. unfold o_isDVInProblem.
    destruct (bool_decide_reflect (is_Some (o_lookup s !! d'))) as [|Hn]; [done|]. simpl.
    rewrite lookup_insert_ne; [done|]. intros ->. apply Hn. eauto.
  - destruct e as [e|]; cbn [o_addET]; [|done]. destruct (o_isETInProblem s e); [done|].
    destruct (forallb _ _); done.
  - unfold o_setGroupsOrdering. destruct (negb _); [done|]. destruct (ordering_ok _ _ _); done.
  - unfold o_permuteET. destruct (permute _ _); done.
  - unfold o_permuteDV. destruct (o_groups s !! g'); [|done]. destruct (permute _ _); done.
Qed.

Lemma o_group_stays edv s d g ops s1 :
  o_addDV s (Some d) g = (s1, Ret tt) -> ~ OClear ∈ ops ->
  o_getGroupId (o_run edv s1 ops) d = Ret g.
Proof.
  intros Hadd Hops.
  assert (H1 : o_lookup s1 !! d = Some g).
  { cbn [o_addDV] in Hadd. destruct (o_isDVInProblem s d); [done|]. injection Hadd as <-. simpl.
    apply lookup_insert. }
  clear Hadd. unfold o_run. revert s1 H1. induction ops as [|op ops IH]; intros s1 H1; simpl.
  - unfold o_getGroupId. rewrite H1. done.
  - apply IH; [set_solver|]. apply o_step_keeps_lookup; [|done]. intros ->. set_solver.
Qed.

Lemma o_closure edv s :
  o_reachable edv s ->
  (forall e d, o_isETInProblem s e = true -> d ∈ edv e -> o_isDVInProblem s d = true) /\
  exists L, NoDup L /\ length L = o_numET s /\ (forall e, e ∈ L <-> o_isETInProblem s e = true) /\
    forall i, o_errorTerm s i = match L !! i with Some e => Ret e | None => Throw OutOfBound end.
Proof.
  intros Hr. apply o_reachable_wf in Hr as Hwf. unfold o_isETInProblem, o_isDVInProblem. split.
  - intros e d He Hd. apply bool_decide_eq_true in He. apply bool_decide_eq_true.
    apply (ow_etl _ _ Hwf) in He. eapply ow_closed; done.
  - exists (o_ets s). split; [apply Hwf|]. split; [symmetry; eapply o_wf_numET, Hwf|].
    split; [|intros i; apply o_errorTerm_spec].
    intros e. rewrite bool_decide_eq_true. symmetry. apply Hwf.
Qed.

Lemma o_getErrors_ok edv s d out :
  forall e, e ∈ o_getErrors edv s d out <-> e ∈ out \/ (e ∈ o_ets s /\ d ∈ edv e).
Proof.
  unfold o_getErrors. revert out. induction (o_ets s) as [|x l IH]; intros out e; simpl.
  - set_solver.
  - rewrite IH. destruct (decide (d ∈ edv x)); set_solver.
Qed.

Lemma o_addDV_effects s d g :
  (d = None -> o_addDV s d g = (s, Throw NullPointer)) /\
  (forall x, d = Some x -> o_isDVInProblem s x = true -> o_addDV s d g = (s, Throw InvalidOperation)) /\
  (forall x, d = Some x -> o_isDVInProblem s x = false ->
     exists s', o_addDV s d g = (s', Ret tt) /\
       (forall y, o_getGroupId s' y = if decide (y = x) then Ret g else o_getGroupId s y) /\
       (forall g', o_getGroup s' g' = if decide (g' = g) then Ret (group_or_nil s g ++ [x]) else o_getGroup s g') /\
       o_order s' = (if o_isGroupInProblem s g then o_order s else o_order s ++ [g]) /\
       o_ets s' = o_ets s /\ o_etlookup s' = o_etlookup s /\ o_backup s' = o_backup s).
Proof.
  split; [intros ->; done|]. split.
  - intros x -> Hx. cbn [o_addDV]. rewrite Hx. done.
  - intros x -> Hx. cbn [o_addDV]. rewrite Hx. eexists. split; [done|]. simpl.
    unfold o_getGroupId, o_getGroup. simpl. split; [|split; [|done]].
    + intros y. destruct (decide (y = x)) as [->|]; [rewrite lookup_insert|rewrite lookup_insert_ne by done]; done.
    + intros g'. destruct (decide (g' = g)) as [->|]; [rewrite lookup_insert|rewrite lookup_insert_ne by done; done].
      rewrite group_or_nil_eq. done.
Qed.

Lemma o_addET_effects edv s e :
  (e = None -> o_addET edv s e = (s, Throw NullPointer)) /\
  (forall x, e = Some x ->
     (o_isETInProblem s x = true \/ exists d, d ∈ edv x /\ o_isDVInProblem s d = false) ->
     o_addET edv s e = (s, Throw InvalidOperation)) /\
  (forall x, e = Some x -> o_isETInProblem s x = false ->
     (forall d, d ∈ edv x -> o_isDVInProblem s d = true) ->
     exists s', o_addET edv s e = (s', Ret tt) /\ o_ets s' = o_ets s ++ [x] /\
       (forall y, o_isETInProblem s' y = true <-> y = x \/ o_isETInProblem s y = true) /\
       o_lookup s' = o_lookup s /\ o_groups s' = o_groups s /\ o_order s' = o_order s /\
       o_backup s' = o_backup s).
Proof.
  split; [intros ->; done|]. split.
  - intros x -> [Hx|(d & Hd & Hn)]; cbn [o_addET].
    + rewrite Hx. done.
    + destruct (o_isETInProblem s x); [done|].
      destruct (forallb (o_isDVInProblem s) (edv x)) eqn:Hf; [|done].
      rewrite forallb_forall in Hf. rewrite Hf in Hn; [done|]. apply elem_of_list_In, Hd.
  - intros x -> Hx Hd. cbn [o_addET]. rewrite Hx.
    assert (forallb (o_isDVInProblem s) (edv x) = true) as ->.
    { apply forallb_forall. intros d Hin. apply Hd, elem_of_list_In, Hin. }
    eexists. split; [done|]. simpl. split; [done|]. split; [|done].
    intros y. unfold o_isETInProblem. simpl. rewrite !bool_decide_eq_true. set_solver.
Qed.

Lemma o_ordering_accepts edv s o :
  o_reachable edv s ->
  (o ≡ₚ o_order s -> exists s', o_setGroupsOrdering s o = (s', Ret tt) /\ o_order s' = o /\
      o_lookup s' = o_lookup s /\ o_etlookup s' = o_etlookup s /\ o_groups s' = o_groups s /\
      o_ets s' = o_ets s /\ o_backup s' = o_backup s) /\
  (~ o ≡ₚ o_order s -> o_setGroupsOrdering s o = (s, Throw OutOfBound)).
Proof.
  intros Hr. apply o_reachable_wf in Hr as Hwf.
  pose proof (ordering_accepts (o_groups s) (o_order s) o (ow_groups _ _ Hwf)) as Hacc.
  unfold o_setGroupsOrdering. split.
  - intros Hp. apply Hacc in Hp as [Hl Hok]. rewrite Hl, Nat.eqb_refl, Hok. simpl. eexists. done.
  - intros Hn. destruct (Nat.eqb_spec (length o) (length (o_order s))) as [Hl|]; [|done]. simpl.
    destruct (ordering_ok _ _ _) eqn:Hok; [|done]. destruct Hn. apply Hacc. done.
Qed.

Lemma o_dims edv active dim s :
  o_reachable edv s ->
  (forall g, o_getGroupDim active dim s g =
     match o_getGroup s g with
     | Ret l => Ret (sum_list_with dim (filter (fun d => active d = true) l))
     | Throw e => Throw e | UB => UB | Diverge => Diverge end) /\
  (forall g, o_isGroupInProblem s g = false -> o_getGroupDim active dim s g = Throw OutOfBound) /\
  forall L, Forall2 (fun i d => o_designVariable s i = Ret d) (seq 0 (o_numDV s)) L ->
  forall D, Forall2 (fun g n => o_getGroupDim active dim s g = Ret n) (o_order s) D ->
  sum_list D = sum_list_with dim (filter (fun d => active d = true) L).
Proof.
  intros Hr. apply o_reachable_wf in Hr as Hwf. split; [|split].
  - intros g. unfold o_getGroupDim. destruct (o_getGroup s g); try done. rewrite sum_dims_spec. done.
  - intros g. unfold o_isGroupInProblem, o_getGroupDim, o_getGroup. intros Hg%bool_decide_eq_false.
    destruct (o_groups s !! g); [|done]. destruct Hg. eauto.
  - intros L HL D HD.
    assert (L = o_enum s) as ->.
    { apply list_eq_same_length with (n := o_numDV s).
      - symmetry. apply (o_wf_size edv), Hwf.
      - apply Forall2_length in HL. rewrite seq_length in HL. done.
      - intros i x y Hi Hx Hy. rewrite Forall2_lookup in HL. specialize (HL i).
        rewrite Hx, lookup_seq_lt in HL by done. inversion HL as [? ? Hd|]; subst.
        rewrite (o_designVariable_spec edv) in Hd by done. simpl in Hd. rewrite Hy in Hd. congruence. }
    rewrite <- sum_dims_spec. unfold o_enum. rewrite sum_dims_enum.
    clear HL. revert D HD. induction (o_order s) as [|g o IH]; intros D HD; inversion HD as [|? n ? D' Hn HD']; subst; [done|].
    simpl. rewrite (IH D') by done. f_equal. revert Hn. unfold o_getGroupDim, o_getGroup.
    destruct (o_groups s !! g); [|done]. cbn [from_option id]. intros [= <-]. done.
Qed.

Lemma o_restore_ok edv s vals ops vals' :
  o_reachable edv s ->
  (forall op, op ∈ ops -> match op with OClear | OSave _ => False | _ => True end) ->
  forall d, o_restore (o_run edv (o_save s vals) ops) vals' d =
            if o_isDVInProblem s d then vals d else vals' d.
Proof.
  intros Hr Hops d. apply o_reachable_wf in Hr as Hwf.
  assert (Hb : o_backup (o_run edv (o_save s vals) ops) = o_backup (o_save s vals)).
  { unfold o_run. generalize (o_save s vals) as s0. revert Hops. induction ops as [|op ops IH]; intros Hops s0; [done|].
    simpl. rewrite IH by set_solver. specialize (Hops op ltac:(set_solver)).
    destruct op as [d'|e| |o|p|p g'|v|]; cbn [ostep]; try done.
    - destruct d' as [d'|]; cbn [o_addDV]; [|done]. destruct (o_isDVInProblem s0 d'); done.
    - destruct e as [e|]; cbn [o_addET]; [|done]. destruct (o_isETInProblem s0 e); [done|].
      destruct (forallb _ _); done.
    - unfold o_setGroupsOrdering. destruct (negb _); [done|]. destruct (ordering_ok _ _ _); done.
    - unfold o_permuteET. destruct (permute _ _); done.
    - unfold o_permuteDV. destruct (o_groups s0 !! g'); [|done]. destruct (permute _ _); done. }
  unfold o_restore, write_back. rewrite Hb. unfold o_save, o_isDVInProblem. simpl.
  rewrite lookup_union, map_lookup_imap.
  destruct (o_lookup s !! d) as [g|] eqn:Hd; simpl.
  - destruct (o_backup s !! d); done.
  - 
    destruct (o_backup s !! d) eqn:Hbk; [|done].
    destruct (ow_backup _ _ Hwf d) as [? ?]; [eauto|congruence].
Qed.

Lemma o_permuteDV_ok edv s p g :
  o_reachable edv s ->
  (o_isGroupInProblem s g = false -> o_permuteDV s p g = (s, Throw OutOfBound)) /\
  (forall l, o_getGroup s g = Ret l -> p ≡ₚ seq 0 (length l) ->
     exists s' l', o_permuteDV s p g = (s', Ret tt) /\ o_getGroup s' g = Ret l' /\
       length l' = length l /\ (forall i k, p !! i = Some k -> l' !! i = l !! k)) /\
  (forall s' r, o_permuteDV s p g = (s', r) ->
     r <> UB /\ o_lookup s' = o_lookup s /\ o_etlookup s' = o_etlookup s /\ o_ets s' = o_ets s /\
     o_order s' = o_order s /\ o_backup s' = o_backup s /\
     (forall g', g' <> g -> o_getGroup s' g' = o_getGroup s g') /\
     group_or_nil s' g ≡ₚ group_or_nil s g).
Proof.
  intros Hr. split; [|split].
  - unfold o_isGroupInProblem, o_permuteDV. intros Hg%bool_decide_eq_false.
    destruct (o_groups s !! g); [|done]. destruct Hg. eauto.
  - unfold o_getGroup, o_permuteDV. intros l Hl Hp. destruct (o_groups s !! g) as [l0|] eqn:Hg; [|done].
    injection Hl as ->. destruct (permute_valid l p Hp) as (l' & -> & Hlen & Hi).
    eexists _, l'. split; [done|]. simpl. rewrite lookup_insert. done.
  - intros s' r. unfold o_permuteDV. destruct (o_groups s !! g) as [l|] eqn:Hg.
    + destruct (permute l p) as [l' r'] eqn:Hp. intros [= <- <-]. split; [eapply permute_never_ub, Hp|].
      simpl. split; [done|]. split; [done|]. split; [done|]. split; [done|]. split; [done|]. split.
      * intros g' Hg'. unfold o_getGroup. simpl. rewrite lookup_insert_ne; done.
      * rewrite !group_or_nil_eq. simpl. rewrite lookup_insert, Hg. simpl. eapply permute_fuel_perm, Hp.
    + intros [= <- <-]. done.
Qed.

Lemma o_permuteET_ok s p :
  (p ≡ₚ seq 0 (length (o_ets s)) ->
     exists s', o_permuteET s p = (s', Ret tt) /\ length (o_ets s') = length (o_ets s) /\
       (forall i k, p !! i = Some k -> o_ets s' !! i = o_ets s !! k)) /\
  (forall s' r, o_permuteET s p = (s', r) ->
     r <> UB /\ o_lookup s' = o_lookup s /\ o_etlookup s' = o_etlookup s /\ o_groups s' = o_groups s /\
     o_order s' = o_order s /\ o_backup s' = o_backup s /\ o_ets s' ≡ₚ o_ets s).
Proof.
  split.
  - intros Hp. unfold o_permuteET. destruct (permute_valid _ _ Hp) as (l' & -> & Hlen & Hi). eexists. done.
  - intros s' r. unfold o_permuteET. destruct (permute (o_ets s) p) as [l' r'] eqn:Hp. intros [= <- <-].
    split; [eapply permute_never_ub, Hp|]. simpl. split; [done|]. split; [done|]. split; [done|].
    split; [done|]. split; [done|]. eapply permute_fuel_perm, Hp.
Qed.

(** computable check used by the examples: all calls came back *)
Fixpoint o_all_back (edv : nat -> list nat) (s : oprob V) (ops : list (oop V)) : bool :=
  match ops with
  | [] => true
  | op :: ops' => match snd (ostep edv s op) with
                  | Ret _ | Throw _ => o_all_back edv (fst (ostep edv s op)) ops'
                  | _ => false end
  end.
Lemma o_run_reachable edv s ops :
  o_reachable edv s -> o_all_back edv s ops = true -> o_reachable edv (o_run edv s ops).
Proof.
  revert s. induction ops as [|op ops IH]; intros s Hs Hb; [done|].
  cbn [o_all_back] in Hb. change (o_run edv s (op :: ops)) with (o_run edv (fst (ostep edv s op)) ops).
  destruct (ostep edv s op) as [s1 r] eqn:Hstep. simpl in *.
  destruct r; try done; (apply IH; [|done]); eapply or_step; done.
Qed.
End packaged.
