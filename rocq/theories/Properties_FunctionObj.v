(** C129.  Function objects. *)
From stdpp Require Import prelude list.
From Coq Require Import Reals Lra Lia.
From Verif Require Import Base FunctionsModel GammaProofs FunctionObjModel Spec_FunctionObj.
Local Open Scope R_scope.

Lemma logGammaDim_mv lgamma d x : logGammaDim lgamma d x = mv_log_gamma lgamma d x.
Proof.
  assert (H : forall e, fold_left (fun sum i => sum + lgamma (x - / 2 * INR i)) (seq 0 e) 0 + INR (e * (e - 1)) * / 4 * ln PI = mv_log_gamma lgamma e x).
  { induction e as [|e IH]; [simpl; lra|]. rewrite seq_S, fold_left_app. cbn [fold_left mv_log_gamma]. rewrite <- IH. clear IH.
    replace (x - / 2 * INR (0 + e)) with (x - INR e / 2) by (cbn [Nat.add]; lra).
    replace (INR (S e * (S e - 1))) with (INR (e * (e - 1)) + 2 * INR e); [lra|].
    destruct e as [|e]; [simpl; lra|]. rewrite !mult_INR. replace (S (S e) - 1)%nat with (S e) by lia. replace (S e - 1)%nat with e by lia. rewrite !S_INR. ring. }
  exact (H d).
Qed.

Section lib.
  Context (gamma_p gamma_q : R -> R -> R) (digamma lgamma : R -> R).
  Local Notation frun := (frun gamma_p gamma_q digamma lgamma).
  Local Notation fstep := (fstep gamma_p gamma_q digamma lgamma).
  Local Notation has_value := (has_value gamma_p gamma_q digamma lgamma).

  Definition describes (past : list fop) (i : nat) (o : fobj) : Prop :=
    match o with
    | OP a => kind_of past i = Some KGammaP /\ a = alpha_of past i
    | OQ a => kind_of past i = Some KGammaQ /\ a = alpha_of past i
    | OLogGamma d => kind_of past i = Some KLogGamma /\ d = dim_of past i
    | OLogGammaN => kind_of past i = Some KLogGammaInt
    | OLogFactorial => kind_of past i = Some KLogFactorial
    | ODigamma => kind_of past i = Some KDigamma
    end.
  Definition inv (past : list fop) (s : list fobj) : Prop := length s = made past /\ forall i o, s !! i = Some o -> describes past i o.

  Lemma fstep_inv past s c s' o : inv past s -> fstep s c = Some (s', o) -> inv (c :: past) s'.
  Proof.
    intros [Hl Hd] H. destruct c as [k|i|i j|i a|i d|i|i|i x|i x]; simpl in H.
    - simplify_eq. split; [rewrite app_length; simpl; lia|]. intros i o' Ho. apply lookup_app_Some in Ho as [Ho|[Hi Ho]].
      + pose proof (lookup_lt_Some _ _ _ Ho). specialize (Hd i o' Ho). destruct o'; simpl in *; destruct (Nat.eqb_spec i (made past)); try lia; exact Hd.
      + apply list_lookup_singleton_Some in Ho as [Hi' <-]. assert (i = made past) as -> by lia.
        destruct k as [?|?|[?|]| | |]; simpl; rewrite Nat.eqb_refl; auto.
    - destruct (s !! i) as [oi|] eqn:E; [|done]. simpl in H. destruct (copy_obj oi) as [o'|] eqn:E2; [|done]. simpl in H. simplify_eq.
      split; [rewrite app_length; simpl; lia|]. pose proof (Hd i oi E) as Di. intros k o2 Ho. apply lookup_app_Some in Ho as [Ho|[Hi Ho]].
      + pose proof (lookup_lt_Some _ _ _ Ho). specialize (Hd k o2 Ho). destruct o2; simpl in *; destruct (Nat.eqb_spec k (made past)); try lia; exact Hd.
      + apply list_lookup_singleton_Some in Ho as [Hi' <-]. assert (k = made past) as -> by lia.
        destruct oi; simpl in E2; simplify_eq; simpl in *; rewrite Nat.eqb_refl; exact Di.
    - destruct (s !! i) as [oi|] eqn:E; [|done]. simpl in H. destruct (s !! j) as [oj|] eqn:Ej; [|done]. simpl in H.
      destruct (assign_obj oi oj) as [o'|] eqn:E2; [|done]. simpl in H. simplify_eq. split; [rewrite insert_length; exact Hl|].
      pose proof (Hd i oi E) as Di. pose proof (Hd j oj Ej) as Dj. intros k o2 Ho. destruct (decide (k = i)) as [->|Hk].
      + rewrite list_lookup_insert in Ho by (by eapply lookup_lt_Some). simplify_eq.
        destruct oi, oj; simpl in E2; simplify_eq; simpl in *; rewrite Nat.eqb_refl; tauto.
      + rewrite list_lookup_insert_ne in Ho by done. specialize (Hd k o2 Ho). destruct o2; simpl in *; destruct (Nat.eqb_spec k i); try done.
    - destruct (s !! i) as [oi|] eqn:E; [|done]. simpl in H.
      destruct (setAlpha oi a) as [o'|] eqn:E2; [|done]. simpl in H. simplify_eq. split; [rewrite insert_length; exact Hl|].
      pose proof (Hd i oi E) as Di. intros k o2 Ho. destruct (decide (k = i)) as [->|Hk].
      + rewrite list_lookup_insert in Ho by (by eapply lookup_lt_Some). simplify_eq.
        destruct oi; simpl in E2; simplify_eq; simpl in *; rewrite Nat.eqb_refl; tauto.
      + rewrite list_lookup_insert_ne in Ho by done. specialize (Hd k o2 Ho). destruct o2; simpl in *; destruct (Nat.eqb_spec k i); try done.
    - destruct (s !! i) as [oi|] eqn:E; [|done]. simpl in H.
      destruct (setDim oi d) as [o'|] eqn:E2; [|done]. simpl in H. simplify_eq. split; [rewrite insert_length; exact Hl|].
      pose proof (Hd i oi E) as Di. intros k o2 Ho. destruct (decide (k = i)) as [->|Hk].
      + rewrite list_lookup_insert in Ho by (by eapply lookup_lt_Some). simplify_eq.
        destruct oi; simpl in E2; simplify_eq; simpl in *; rewrite Nat.eqb_refl; tauto.
      + rewrite list_lookup_insert_ne in Ho by done. specialize (Hd k o2 Ho). destruct o2; simpl in *; destruct (Nat.eqb_spec k i); try done.
    - destruct (s !! i) as [oi|] eqn:E; [|done]. simpl in H. destruct (getAlpha oi); [|done]. simpl in H. simplify_eq. split; [exact Hl|exact Hd].
    - destruct (s !! i) as [oi|] eqn:E; [|done]. simpl in H. destruct (getDim oi); [|done]. simpl in H. simplify_eq. split; [exact Hl|exact Hd].
    - destruct (s !! i) as [oi|] eqn:E; [|done]. cbn [mbind option_bind] in H.
      destruct (getValue _ _ _ _ oi x); [|done]. simpl in H. simplify_eq. split; [exact Hl|exact Hd].
    - destruct (s !! i) as [oi|] eqn:E; [|done]. cbn [mbind option_bind] in H.
      destruct (op_call _ _ _ _ oi x); [|done]. simpl in H. simplify_eq. split; [exact Hl|exact Hd].
  Qed.

  Lemma getValue_spec past i o x r : describes past i o -> getValue gamma_p gamma_q digamma lgamma o x = Some r -> has_value past i x r.
  Proof.
    intros D H. destruct o, x as [x|n]; simpl in *; simplify_eq.
    - destruct D as [D ->]. by constructor.
    - destruct D as [D ->]. by constructor.
    - destruct D as [D ->]. rewrite logGammaDim_mv. by constructor.
    - destruct n as [|n]; simpl; [by constructor|]. unfold logfact_getValue. rewrite Nat.sub_0_r, logFactorial_fact. by constructor.
    - unfold logfact_getValue. rewrite logFactorial_fact. by constructor.
    - by constructor.
  Qed.

  Lemma frun_app s h1 h2 s' out : frun s (h1 ++ h2) = Some (s', out) ->
    exists s1 o1 o2, frun s h1 = Some (s1, o1) /\ frun s1 h2 = Some (s', o2) /\ out = o1 ++ o2.
  Proof.
    revert s s' out. induction h1 as [|c h1 IH]; intros s s' out H.
    - exists s, [], out. auto.
    - cbn [FunctionObjModel.frun app] in H. destruct (fstep s c) as [[s1 o]|] eqn:E; [|done]. cbn [mbind option_bind fst snd] in H.
      destruct (frun s1 (h1 ++ h2)) as [[s2 os]|] eqn:E2; [|done]. cbn [mbind option_bind fst snd] in H. simplify_eq.
      destruct (IH _ _ _ E2) as (s3 & o1 & o2 & H1 & H2 & ->). exists s3, (o :: o1), o2. split; [|done].
      cbn [FunctionObjModel.frun]. rewrite E. cbn [mbind option_bind fst snd]. by rewrite H1.
  Qed.

  Lemma frun_inv h : forall past s s' out, inv past s -> frun s h = Some (s', out) -> inv (rev h ++ past) s'.
  Proof.
    induction h as [|c h IH]; intros past s s' out Hi H; [by simpl in *; simplify_eq|].
    cbn [FunctionObjModel.frun] in H. destruct (fstep s c) as [[s1 o]|] eqn:E; [|done]. cbn [mbind option_bind fst snd] in H.
    destruct (frun s1 h) as [[s2 os]|] eqn:E2; [|done]. cbn [mbind option_bind fst snd] in H. simplify_eq.
    simpl. rewrite <- app_assoc. simpl. eapply IH; [|exact E2]. by eapply fstep_inv.
  Qed.

  Lemma inv_nil : inv [] [].
  Proof. split; [done|]. intros i o H. by rewrite lookup_nil in H. Qed.

  (** C129.  Whatever a program made, copied, assigned and evaluated before, what a line gives is determined by the parameter written last to this very
      object: getAlpha and getDim return it, getValue and operator() give the value of the function for it, and the other lines give nothing. *)
  Theorem function_objects h c s out o : frun [] (h ++ [c]) = Some (s, out) -> last out = Some o ->
    match c with
    | FGetAlpha i => o = ONumber (alpha_of (rev h) i)
    | FGetDim i => o = ODim (dim_of (rev h) i)
    | FValue i x | FCall i x => exists r, o = OResult r /\ has_value (rev h) i x r
    | _ => o = ONothing
    end.
  Proof.
    intros H Ho. apply frun_app in H as (s1 & o1 & o2 & H1 & H2 & ->).
    pose proof (frun_inv h [] [] s1 o1 inv_nil H1) as [Hl Hd]. rewrite app_nil_r in Hd.
    cbn [FunctionObjModel.frun] in H2. destruct (fstep s1 c) as [[s2 o']|] eqn:E; [|done]. cbn [mbind option_bind fst snd] in H2. simplify_eq.
    rewrite last_snoc in Ho. simplify_eq.
    destruct c as [k|i|i j|i a|i d|i|i|i x|i x]; cbn [FunctionObjModel.fstep] in E; cbn [mbind option_bind] in E;
      try (destruct (s1 !! i) as [oi|] eqn:Ei; [|done]; cbn [mbind option_bind] in E; specialize (Hd i oi Ei)).
    - by simplify_eq.
    - destruct (copy_obj oi); simpl in E; by simplify_eq.
    - destruct (s1 !! j) as [oj|]; [|done]. cbn [mbind option_bind] in E. destruct (assign_obj oi oj); simpl in E; by simplify_eq.
    - destruct (setAlpha oi a); simpl in E; by simplify_eq.
    - destruct (setDim oi d); simpl in E; by simplify_eq.
    - destruct oi; simpl in *; simplify_eq; destruct Hd as [_ ->]; done.
    - destruct oi; simpl in *; simplify_eq; destruct Hd as [_ ->]; done.
    - destruct (getValue _ _ _ _ oi x) as [r|] eqn:Er; [|done]. simpl in E. simplify_eq. eauto using getValue_spec.
    - unfold op_call in E. destruct (getValue _ _ _ _ oi x) as [r|] eqn:Er; [|done]. simpl in E. simplify_eq. eauto using getValue_spec.
  Qed.

  (** Every object that was made can be evaluated at every argument of its type, by either name, at every point of a program, and evaluating it does not
      change what any later line gives. *)
  Theorem function_objects_total h s out i x r : frun [] h = Some (s, out) -> has_value (rev h) i x r ->
    frun [] (h ++ [FValue i x]) = Some (s, out ++ [OResult r]) /\ frun [] (h ++ [FCall i x]) = Some (s, out ++ [OResult r]).
  Proof.
    intros H V. pose proof (frun_inv h [] [] s out inv_nil H) as [Hl Hd]. rewrite app_nil_r in Hd, Hl.
    assert (App : forall c o, fstep s c = Some (s, o) -> frun [] (h ++ [c]) = Some (s, out ++ [o])).
    { intros c o Hc. clear V Hd Hl. revert out H. generalize (@nil fobj) as s0. induction h as [|c' h' IH]; intros s0 out H.
      - simpl in H. simplify_eq. cbn [app FunctionObjModel.frun]. rewrite Hc. done.
      - cbn [FunctionObjModel.frun app] in *. destruct (fstep s0 c') as [[s1 o1]|]; [|done]. cbn [mbind option_bind fst snd] in *.
        destruct (frun s1 h') as [[s2 o2]|] eqn:E2; [|done]. cbn [mbind option_bind fst snd] in *. simplify_eq. rewrite (IH _ _ E2). done. }
    assert (Hk : exists k, kind_of (rev h) i = Some k) by (destruct V; eauto). destruct Hk as [k Hk].
    assert (Hi : (i < length s)%nat).
    { rewrite Hl. clear -Hk. revert i k Hk. induction (rev h) as [|c p IH]; intros i k Hk; [done|].
      destruct c; simpl in *; try (by eapply IH).
      - destruct (Nat.eqb_spec i (made p)); [lia|]. specialize (IH _ _ Hk). lia.
      - destruct (Nat.eqb_spec i (made p)); [lia|]. specialize (IH _ _ Hk). lia. }
    destruct (lookup_lt_is_Some_2 s i Hi) as [o Eo]. specialize (Hd i o Eo).
    assert (G : getValue gamma_p gamma_q digamma lgamma o x = Some r).
    { destruct V as [v K|v K|v K|v K|n K|n K|K]; destruct o; simpl in Hd; rewrite K in Hd; try (by destruct Hd); try done; cbn [getValue].
      - by destruct Hd as [_ ->].
      - by destruct Hd as [_ ->].
      - destruct Hd as [_ ->]. by rewrite logGammaDim_mv.
      - unfold logfact_getValue. by rewrite logFactorial_fact.
      - simpl. unfold logfact_getValue. by rewrite Nat.sub_0_r, logFactorial_fact. }
    split; apply App; cbn [FunctionObjModel.fstep]; rewrite Eo; cbn [mbind option_bind]; unfold op_call; by rewrite G.
  Qed.

  (** With Boost's functions complementary, an incomplete gamma function and its complement with the same parameter add up to one, whatever was done to
      them before. *)
  Theorem gamma_functions_complementary h i j x s1 s2 out1 out2 p q :
    (forall a y, 0 < a -> 0 <= y -> gamma_p a y + gamma_q a y = 1) ->
    kind_of (rev h) i = Some KGammaP -> kind_of (rev h) j = Some KGammaQ -> alpha_of (rev h) i = alpha_of (rev h) j -> 0 < alpha_of (rev h) i -> 0 <= x ->
    frun [] (h ++ [FCall i (AR x)]) = Some (s1, out1 ++ [OResult (Ret p)]) ->
    frun [] (h ++ [FCall j (AR x)]) = Some (s2, out2 ++ [OResult (Ret q)]) -> p + q = 1.
  Proof.
    intros Hb Ki Kj Ha Hp Hx H1 H2.
    destruct (function_objects h (FCall i (AR x)) s1 _ (OResult (Ret p)) H1 (last_snoc _ _)) as (r1 & E1 & V1).
    destruct (function_objects h (FCall j (AR x)) s2 _ (OResult (Ret q)) H2 (last_snoc _ _)) as (r2 & E2 & V2). simplify_eq.
    inversion V1; try congruence. inversion V2; try congruence. simplify_eq. rewrite <- Ha. by apply Hb.
  Qed.

  (** One cannot pass a LogGammaFunction of integers for the LogFactorialFunction it is derived from: where the latter is zero, at 0, the former throws. *)
  Theorem loggamma_for_logfactorial_refuted :
    frun [] [FNew NewLogFactorial; FNew NewLogGammaN; FCall 0 (AN 0); FCall 1 (AN 0)]
    = Some ([OLogFactorial; OLogGammaN], [ONothing; ONothing; OResult (Ret 0); OResult (Throw BadArgument)]).
  Proof. reflexivity. Qed.

  (** A program with copies and setters. *)
  Example function_objects_example x :
    let h := [FNew (NewP 2); FCopy 0; FSetAlpha 0 3; FNew (NewP 5); FAssign 2 1; FNew (NewLogGamma None); FCall 0 (AR x)] in
    exists s out, frun [] (h ++ [FCall 2 (AR x)]) = Some (s, out ++ [OResult (Ret (gamma_p 2 x))]) /\
                  frun [] (h ++ [FCall 0 (AR x)]) = Some (s, out ++ [OResult (Ret (gamma_p 3 x))]) /\
                  frun [] (h ++ [FGetDim 3]) = Some (s, out ++ [ODim 1]).
  Proof.
    exists [OP 3; OP 2; OP 2; OLogGamma 1], [ONothing; ONothing; ONothing; ONothing; ONothing; ONothing; OResult (Ret (gamma_p 3 x))].
    split; [|split]; reflexivity.
  Qed.
  Example complementary_example x : (forall a y, 0 < a -> 0 <= y -> gamma_p a y + gamma_q a y = 1) -> 0 <= x ->
    exists s, frun [] [FNew (NewP 3); FNew (NewQ 2); FSetAlpha 0 2; FCall 0 (AR x); FCall 1 (AR x)]
      = Some (s, [ONothing; ONothing; ONothing; OResult (Ret (gamma_p 2 x)); OResult (Ret (gamma_q 2 x))]) /\ gamma_p 2 x + gamma_q 2 x = 1.
  Proof. intros H Hx. eexists. split; [reflexivity|]. apply H; lra. Qed.
End lib.
