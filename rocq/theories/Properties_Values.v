(** C130.  Copies and assignments. *)
From stdpp Require Import prelude list.
From Coq Require Import Reals Lia.
From Verif Require Import Base GridModel NormalModel NormalMvModel GammaModel UniformModel TimestampModel ValuesModel Spec_Values.

Section generic.
  Context {O : Type} (copy : O -> O) (assign : O -> O -> O).
  Context (Hc : forall o, copy o = o) (Ha : forall a b, assign a b = b).
  Definition vinv (past : list (vline O)) (s : list O) : Prop :=
    length s = objects_made past /\
    forall i d, s !! i = Some d -> exists o fs, biography past i = Some (o, fs) /\ d = fold_left (fun x f => f x) fs o.
  Lemma vstep_inv past s c s' : vinv past s -> vstep copy assign s c = Some s' -> vinv (c :: past) s'.
  Proof using Hc Ha.
    intros [Hl Hd] H. destruct c as [o|i|i j|i f]; cbn [vstep] in H.
    - simplify_eq. split; [rewrite app_length; simpl; lia|]. intros i d Hi. cbn [biography]. apply lookup_app_Some in Hi as [Hi|[Hi1 Hi]].
      + pose proof (lookup_lt_Some _ _ _ Hi). destruct (Nat.eqb_spec i (objects_made past)); [lia|]. by apply Hd.
      + apply list_lookup_singleton_Some in Hi as [Hi <-]. destruct (Nat.eqb_spec i (objects_made past)); [|lia]. by exists o, [].
    - destruct (s !! i) as [o|] eqn:Ei; [|done]. cbn [mbind option_bind] in H. simplify_eq.
      split; [rewrite app_length; simpl; lia|]. intros k d Hk. cbn [biography]. apply lookup_app_Some in Hk as [Hk|[Hk1 Hk]].
      + pose proof (lookup_lt_Some _ _ _ Hk). destruct (Nat.eqb_spec k (objects_made past)); [lia|]. by apply Hd.
      + apply list_lookup_singleton_Some in Hk as [Hk <-]. destruct (Nat.eqb_spec k (objects_made past)); [|lia]. rewrite Hc. by apply Hd.
    - destruct (s !! i) as [o|] eqn:Ei; [|done]. destruct (s !! j) as [o2|] eqn:Ej; [|done]. cbn [mbind option_bind] in H. simplify_eq.
      split; [rewrite insert_length; exact Hl|]. intros k d Hk. cbn [biography]. destruct (decide (k = i)) as [->|Hn].
      + rewrite list_lookup_insert in Hk by (by eapply lookup_lt_Some). simplify_eq. rewrite Nat.eqb_refl, Ha. by apply Hd.
      + rewrite list_lookup_insert_ne in Hk by done. destruct (Nat.eqb_spec k i); [done|]. by apply Hd.
    - destruct (s !! i) as [o|] eqn:Ei; [|done]. cbn [mbind option_bind] in H. simplify_eq.
      split; [rewrite insert_length; exact Hl|]. intros k d Hk. cbn [biography]. destruct (decide (k = i)) as [->|Hn].
      + rewrite list_lookup_insert in Hk by (by eapply lookup_lt_Some). simplify_eq. rewrite Nat.eqb_refl.
        destruct (Hd i o Ei) as (o0 & fs & -> & ->). exists o0, (fs ++ [f]). split; [done|]. by rewrite fold_left_app.
      + rewrite list_lookup_insert_ne in Hk by done. destruct (Nat.eqb_spec k i); [done|]. by apply Hd.
  Qed.
  Lemma generic_values : are_values copy assign.
  Proof using Hc Ha.
    intros h s H. assert (G : forall h past s0 s, vinv past s0 -> vrun copy assign s0 h = Some s -> vinv (rev h ++ past) s).
    { clear h s H. induction h as [|c h IH]; intros past s0 s Hi H; [by simpl in *; simplify_eq|].
      cbn [vrun] in H. destruct (vstep copy assign s0 c) as [s1|] eqn:E; [|done]. cbn [mbind option_bind] in H.
      simpl. rewrite <- app_assoc. simpl. eapply IH; [|exact H]. by eapply vstep_inv. }
    destruct (G h [] [] s) as [H1 H2]; [split; [done|]; intros i d Hi; by rewrite lookup_nil in Hi|exact H|]. rewrite app_nil_r in *. by split.
  Qed.
End generic.

(** C130.  Distributions, estimators, grids, histograms and time stamps are values: whatever is constructed, copied, assigned and changed, a copy or an
    assigned object is in every respect, member by member, what the original was, and later changes of one do not reach the other. *)
Theorem objects_are_values :
  (forall A, are_values (@normal1_copy A) normal1_assign_members) /\ (forall A, are_values (@normalM_copy A) normalM_assign) /\
  (forall T, are_values (@gamma_copy T) gamma_assign) /\ (forall X, are_values (@unif_copy X) unif_assign) /\ (forall X, are_values (@unifM_copy X) unifM_assign) /\
  (forall A, are_values (@est1_copy A) est1_assign) /\ (forall A, are_values (@estM_copy A) estM_assign) /\
  (forall T C, are_values (@grid_copy T C) grid_assign) /\ are_values ts_copy ts_assign.
Proof.
  split_and!; intros; apply generic_values; try (by intros []); try (by intros ? []).
  - by intros [[] ? ? ? ?].
  - by intros ? [[] ? ? ? ?].
  - by intros [[] ? ? ? ?].
  - by intros ? [[] ? ? ? ?].
Qed.

(** Hence two objects with the same biography cannot be told apart, and a call on an object leaves every other object as it was. *)
Theorem same_biography {O} (copy : O -> O) assign h s i j d1 d2 : are_values copy assign -> vrun copy assign [] h = Some s ->
  biography (rev h) i = biography (rev h) j -> s !! i = Some d1 -> s !! j = Some d2 -> d1 = d2.
Proof.
  intros V H E H1 H2. destruct (V h s H) as [_ K]. destruct (K i d1 H1) as (o1 & f1 & B1 & ->). destruct (K j d2 H2) as (o2 & f2 & B2 & ->). congruence.
Qed.
Theorem calls_are_local {O} (copy : O -> O) assign h s s' i f k : are_values copy assign -> vrun copy assign [] h = Some s ->
  vrun copy assign [] (h ++ [VDo i f]) = Some s' -> k <> i -> s' !! k = s !! k.
Proof.
  intros V H H' Hk.
  assert (B : biography (rev (h ++ [VDo i f])) k = biography (rev h) k).
  { rewrite rev_app_distr. cbn [rev app biography]. destruct (Nat.eqb_spec k i); [done|reflexivity]. }
  assert (M : objects_made (rev (h ++ [VDo i f])) = objects_made (rev h)) by (rewrite rev_app_distr; reflexivity).
  destruct (V _ _ H) as [L1 K1]. destruct (V _ _ H') as [L2 K2].
  destruct (s !! k) as [d|] eqn:E1; destruct (s' !! k) as [d'|] eqn:E2; [| | |done].
  - destruct (K1 k d E1) as (o1 & f1 & B1 & ->). destruct (K2 k d' E2) as (o2 & f2 & B2 & ->). rewrite B in B2. congruence.
  - apply lookup_ge_None in E2. pose proof (lookup_lt_Some _ _ _ E1). lia.
  - apply lookup_ge_None in E1. pose proof (lookup_lt_Some _ _ _ E2). lia.
Qed.

(** The assignment of the model of the one-dimensional normal distribution is the one above. *)
Lemma normal1_assign_is {A} (a b : @normal1 A) : normal1_assign a b = normal1_assign_members a b.
Proof. by destruct b. Qed.

(** An estimator copied in the middle: the copy ends with its own points only. *)
Example values_example : exists s a b,
  vrun (@est1_copy R) est1_assign [] [VNew (Est1 (Normal1 0 1 1 1 0) 0 false 0 0)%R; VDo 0 (fun e => addPoint real_sops e 1%R); VCopy 0; VDo 1 (fun e => est_reset real_sops e)]
    = Some s /\ s !! 0%nat = Some a /\ s !! 1%nat = Some b /\ e_n a = 1%Z /\ e_n b = 0%Z.
Proof. do 3 eexists. split; [reflexivity|]. split; [reflexivity|]. split; [reflexivity|]. split; reflexivity. Qed.
