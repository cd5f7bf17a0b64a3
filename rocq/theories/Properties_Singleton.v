(** C118: the singleton base class (base/Singleton.tpp): one object, the same for every caller, as long as one thread at a time
    uses it; several threads that make the first call together can get an exception or different objects. *)
From stdpp Require Import prelude list.
From Verif Require Import Base SingletonModel.

Local Definition s_inv (s : sstate) : Prop :=
  s_live s = (match s_instance s with Some x => [x] | None => [] end) /\ (forall x, x ∈ s_live s -> (x < s_next s)%nat).

Local Lemma s_inv_reach s : s_reach s -> s_inv s.
Proof.
  induction 1 as [|s c s' r _ IH Hstep]; [split; [done|]; intros x Hx; by apply elem_of_nil in Hx|].
  destruct s as [[i|] live n], IH as [Hl Hn]; cbn in *; subst live; destruct c as [ok|x|ok]; cbn in Hstep.
  - injection Hstep as <- <-. split; [done|]. cbn. intros y Hy. apply Hn in Hy. lia.
  - destruct (decide _) as [Hx|]; [|done]. injection Hstep as <- <-. apply elem_of_list_singleton in Hx as ->.
    assert (filter (fun y => y <> i) [i] = []) as Hf by (rewrite filter_cons_False by (intros Hne; by apply Hne); done).
    split; [exact Hf|]. intros y Hy. change (y ∈ filter (fun y => y <> i) [i]) in Hy. rewrite Hf in Hy. by apply elem_of_nil in Hy.
  - injection Hstep as <- <-. split; [done|]. done.
  - destruct ok; injection Hstep as <- <-; split; cbn; try done; intros y Hy.
    + apply elem_of_list_singleton in Hy as ->. lia.
    + by apply elem_of_nil in Hy.
  - destruct (decide _) as [Hx|]; [|done]. by apply elem_of_nil in Hx.
  - unfold s_getInstance, s_construct in Hstep; cbn in Hstep. destruct ok; cbn in Hstep; injection Hstep as <- <-; split; cbn; try done; intros y Hy.
    + apply elem_of_list_singleton in Hy as ->. lia.
    + by apply elem_of_nil in Hy.
Qed.

(** In every history there is at most one object, the static member points to it, and exists() says whether there is one. *)
Theorem singleton_at_most_one s : s_reach s ->
  (List.length (s_live s) <= 1)%nat /\
  (s_exists s = true <-> exists x, s_live s = [x] /\ s_instance s = Some x) /\
  (s_exists s = false <-> s_live s = []).
Proof.
  intros Hr. destruct (s_inv_reach s Hr) as [Hl _]. unfold s_exists. rewrite Hl. destruct (s_instance s) as [x|]; cbn.
  - split; [lia|]. split; split; try done. intros _. by exists x.
  - split; [lia|]. split; split; try done. intros (x & ? & ?). done.
Qed.

(** getInstance never dereferences null: it returns the one object, creating it only if there was none; if its constructor
    fails, that exception is passed on and there is still no object. *)
Theorem singleton_getInstance ok s s' r : s_reach s -> s_step s (SGet ok) = Some (s', r) ->
  (forall x, s_live s = [x] -> r = Ret x /\ s' = s) /\
  (s_live s = [] -> ok = true -> exists x, r = Ret x /\ s_live s' = [x] /\ s_exists s' = true) /\
  (s_live s = [] -> ok = false -> r = Throw External /\ s_live s' = [] /\ s_exists s' = false) /\
  r <> UB.
Proof.
  intros Hr Hs. destruct (s_inv_reach s Hr) as [Hl _]. cbn in Hs. unfold s_getInstance, s_construct in Hs.
  destruct s as [[i|] live n]; cbn in *; subst live.
  - injection Hs as <- <-. split_and!; try done. intros x [= ->]. done.
  - destruct ok; cbn in Hs; injection Hs as <- <-; split_and!; try done. intros _ _. exists n. done.
Qed.

(** Every further construction is refused with InvalidOperation and leaves the object and the static member as they are. *)
Theorem singleton_second_construction_refused ok s s' r : s_reach s -> s_exists s = true -> s_step s (SConstruct ok) = Some (s', r) ->
  r = Throw InvalidOperation /\ s_live s' = s_live s /\ s_instance s' = s_instance s.
Proof.
  intros _ He Hs. cbn in Hs. unfold s_construct, s_exists in *. destruct (s_instance s) eqn:Ei; [|done].
  injection Hs as <- <-. cbn. done.
Qed.
(** The first construction succeeds exactly if the constructor of the class does. *)
Theorem singleton_first_construction ok s s' r : s_reach s -> s_exists s = false -> s_step s (SConstruct ok) = Some (s', r) ->
  (ok = true -> exists x, r = Ret x /\ s_live s' = [x] /\ s_exists s' = true) /\
  (ok = false -> r = Throw External /\ s_live s' = [] /\ s_exists s' = false).
Proof.
  intros Hr He Hs. destruct (s_inv_reach s Hr) as [Hl _]. cbn in Hs. unfold s_construct, s_exists in *.
  destruct s as [[i|] live n]; cbn in *; [done|]. subst live.
  destruct ok; injection Hs as <- <-; split; try done. intros _. by exists n.
Qed.
(** Destroying the object clears the static member, and the object made by the next call is a new one. *)
Theorem singleton_destroyed x s s' r : s_reach s -> s_step s (SDestroy x) = Some (s', r) ->
  s_live s' = [] /\ s_exists s' = false /\
  forall s'' r', s_step s' (SGet true) = Some (s'', r') -> exists y, r' = Ret y /\ y <> x.
Proof.
  intros Hr Hs. pose proof (sr_step _ _ _ _ Hr Hs) as Hr'. destruct (s_inv_reach s Hr) as [Hl Hn]. cbn in Hs.
  destruct (decide _) as [Hx|]; [|done]. injection Hs as <- <-.
  split; [|split; [done|]].
  - destruct (s_inv_reach _ Hr') as [H _]. rewrite H. done.
  - intros s'' r' H. injection H as <- <-. exists (s_next s). split; [done|]. specialize (Hn _ Hx). lia.
Qed.
(** Until it is destroyed every call of getInstance, at any later time, returns the same object. *)
Inductive s_calls : sstate -> list scall -> sstate -> list (result nat) -> Prop :=
| scs_nil s : s_calls s [] s []
| scs_cons s c s' r cs s'' rs : s_step s c = Some (s', r) -> s_calls s' cs s'' rs -> s_calls s (c :: cs) s'' (r :: rs).
Theorem singleton_same_until_destroyed s x cs s' rs : s_reach s -> s_live s = [x] ->
  (forall y, SDestroy y ∉ cs) -> s_calls s cs s' rs ->
  s_live s' = [x] /\ forall i ok, cs !! i = Some (SGet ok) -> rs !! i = Some (Ret x).
Proof.
  intros Hr Hl Hno Hc. induction Hc as [s|s c s' r cs s'' rs Hs Hc IH]; [done|].
  assert (Hl' : s_live s' = [x] /\ forall ok, c = SGet ok -> r = Ret x).
  { destruct c as [ok|y|ok].
    - assert (s_exists s = true) as He.
      { destruct (singleton_at_most_one s Hr) as (_ & _ & H). destruct (s_exists s) eqn:E; [done|].
        destruct H as [H _]. rewrite H in Hl by done. done. }
      destruct (singleton_second_construction_refused _ _ _ _ Hr He Hs) as (_ & -> & _). done.
    - exfalso. apply (Hno y). left.
    - destruct (singleton_getInstance _ _ _ _ Hr Hs) as (H & _). destruct (H x Hl) as [-> ->]. split; [done|]. by intros ? [= ->]. }
  destruct Hl' as [Hl' Hr']. destruct IH as [IH1 IH2]; [by eapply sr_step|done| |].
  { intros y Hy. apply (Hno y). by right. }
  split; [done|]. intros [|i] ok; cbn; [|by apply IH2]. intros [= ->]. by rewrite (Hr' ok).
Qed.

(** ** Several threads *)
Local Definition c_inv (c : cstate) : Prop :=
  (forall x, c_instance c = Some x -> x ∈ c_created c) /\
  (forall i, c_threads c !! i = Some TReturn -> c_instance c <> None) /\
  (forall i r, c_threads c !! i = Some (TDone r) -> r = Throw InvalidOperation \/ exists x, r = Ret x /\ x ∈ c_created c).
Local Lemma c_inv_step c i : c_inv c -> c_inv (c_step c i).
Proof.
  intros (H1 & H2 & H3). unfold c_step. destruct (c_threads c !! i) as [t|] eqn:Et; [|done].
  destruct t as [| |x| |r]; [| | | |done].
  - split_and!; cbn; [done| |].
    + intros j Hj. destruct (decide (j = i)) as [->|]; [|rewrite list_lookup_insert_ne in Hj by done; by eapply H2].
      apply list_lookup_insert_Some in Hj as [(_ & Hj & _)|[]]; [|done]. by destruct (c_instance c).
    + intros j r Hj. apply list_lookup_insert_Some in Hj as [(_ & Hj & _)|[_ Hj]]; [by destruct (c_instance c)|by eapply H3].
  - destruct (c_instance c) as [x|] eqn:Ei.
    + split_and!; cbn; [intros y [= <-]; by apply H1|done|].
      intros j r Hj. apply list_lookup_insert_Some in Hj as [(_ & Hj & _)|[_ Hj]]; [injection Hj as <-; by left|by eapply H3].
    + split_and!; cbn; [done| |].
      * intros j Hj. apply list_lookup_insert_Some in Hj as [(_ & Hj & _)|[_ Hj]]; [done|by eapply H2].
      * intros j r Hj. apply list_lookup_insert_Some in Hj as [(_ & Hj & _)|[_ Hj]]; [done|by eapply H3].
  - split_and!; cbn; [intros y [= <-]; set_solver|done|].
    intros j r Hj. apply list_lookup_insert_Some in Hj as [(_ & Hj & _)|[_ Hj]]; [done|].
    destruct (H3 _ _ Hj) as [->|(y & -> & Hy)]; [by left|]. right. exists y. set_solver.
  - split_and!; cbn; [done| |].
    + intros j Hj. apply list_lookup_insert_Some in Hj as [(_ & Hj & _)|[_ Hj]]; [done|by eapply H2].
    + intros j r Hj. apply list_lookup_insert_Some in Hj as [(_ & Hj & _)|[_ Hj]]; [|by eapply H3].
      specialize (H2 _ Et). destruct (c_instance c) as [x|] eqn:Ei; [|done]. injection Hj as <-. right. exists x. auto.
Qed.
Local Lemma c_inv_run sched c : c_inv c -> c_inv (c_run c sched).
Proof. revert c. induction sched as [|i sched IH]; intros c H; [done|]. apply IH. by apply c_inv_step. Qed.
Local Lemma c_start_thread n i t : c_threads (c_start n) !! i = Some t -> t = TCheck.
Proof. cbn. intros H. by apply lookup_replicate in H as [-> _]. Qed.

(** For any number of threads and any interleaving: no thread ever dereferences null, and each finished call either returned an
    object that was created or threw InvalidOperation. *)
Theorem singleton_threads_never_null n sched i r : c_threads (c_run (c_start n) sched) !! i = Some (TDone r) ->
  r = Throw InvalidOperation \/ exists x, r = Ret x /\ x ∈ c_created (c_run (c_start n) sched).
Proof.
  intros H. assert (c_inv (c_run (c_start n) sched)) as (_ & _ & H3); [|by eapply H3].
  apply c_inv_run. split_and!; [done| |]; intros j; intros; by match goal with H : _ |- _ => apply c_start_thread in H end.
Qed.

Local Definition c_inv2 (x : nat) (cr : list nat) (c : cstate) : Prop :=
  c_instance c = Some x /\ c_created c = cr /\
  forall i t, c_threads c !! i = Some t -> t = TCheck \/ t = TReturn \/ t = TDone (Ret x).
Local Lemma c_inv2_step x cr c i : c_inv2 x cr c -> c_inv2 x cr (c_step c i).
Proof.
  intros (H1 & H2 & H3). unfold c_step. destruct (c_threads c !! i) as [t|] eqn:Et; [|done].
  destruct (H3 _ _ Et) as [->|[->| ->]]; [| |done]; rewrite H1; split_and!; try done; cbn; intros j t Hj;
    apply list_lookup_insert_Some in Hj as [(_ & <- & _)|[_ Hj]]; auto; by eapply H3.
Qed.
(** Once the object exists, any number of threads may call getInstance in any interleaving: all get that object, none throws, and no
    other object is created. *)
Theorem singleton_threads_after_first c sched x i r :
  c_instance c = Some x -> (forall j t, c_threads c !! j = Some t -> t = TCheck) ->
  c_threads (c_run c sched) !! i = Some (TDone r) ->
  r = Ret x /\ c_created (c_run c sched) = c_created c.
Proof.
  intros Hi Ht Hd.
  assert (c_inv2 x (c_created c) (c_run c sched)) as (_ & ? & H3).
  { clear Hd. assert (c_inv2 x (c_created c) c) as H0; [split_and!; [done|done|]; intros; left; by eapply Ht|]. revert H0.
    generalize (c_created c) as cr. clear Hi Ht. revert c. induction sched as [|j sched IH]; intros c cr H; [done|].
    apply IH. by apply c_inv2_step. }
  split; [|done]. destruct (H3 _ _ Hd) as [?|[?|[= ->]]]; done.
Qed.
(** A single thread gets the object after at most four steps. *)
Theorem singleton_single_thread : c_threads (c_run (c_start 1) [0; 0; 0; 0]%nat) = [TDone (Ret 0%nat)].
Proof. done. Qed.

(** What a user would expect of the first call made by two threads at once, "both get the one object", is false: *)
Definition both_get_the_one_object (c : cstate) : Prop :=
  exists x, c_created c = [x] /\ c_threads c = [TDone (Ret x); TDone (Ret x)].
(** one of them may get an exception, *)
Theorem singleton_threads_throw_refuted :
  ~ (forall sched, (forall t, t ∈ c_threads (c_run (c_start 2) sched) -> exists r, t = TDone r) ->
     forall i r, c_threads (c_run (c_start 2) sched) !! i = Some (TDone r) -> exists x, r = Ret x).
Proof.
  intros H. destruct (H [0; 1; 0; 0; 0; 1]%nat) with (i := 1%nat) (r := @Throw nat InvalidOperation) as [x Hx]; [|done|done].
  intros t. change (t ∈ [TDone (Ret 0%nat); TDone (@Throw nat InvalidOperation)] -> exists r, t = TDone r). 
  rewrite !elem_of_cons. intros [->|[->|Hx]]; eauto. by apply elem_of_nil in Hx.
Qed.
(** or they get two different objects, one of which is lost: here thread 1 sees both checks before thread 0 stores its object. *)
Theorem singleton_threads_two_objects_refuted :
  exists sched x y, x <> y /\ c_threads (c_run (c_start 2) sched) = [TDone (Ret x); TDone (Ret y)] /\
    c_created (c_run (c_start 2) sched) = [x; y] /\ ~ both_get_the_one_object (c_run (c_start 2) sched).
Proof.
  exists [0; 1; 0; 1; 0; 0; 1; 1]%nat, 0%nat, 1%nat. split_and!; [done|done|done|]. intros (x & H & _). done.
Qed.

(** Non-vacuity: construct, get, destroy, get again. *)
Example singleton_history :
  exists s, s_reach s /\ s_live s = [1%nat] /\
    s_calls s_start [SConstruct true; SGet true; SDestroy 0%nat; SGet true; SConstruct true] (SState (Some 1%nat) [1%nat] 3)
      [Ret 0%nat; Ret 0%nat; Ret 0%nat; Ret 1%nat; Throw InvalidOperation].
Proof.
  eexists. split_and!; [| |do 5 (econstructor; [reflexivity|]); constructor].
  - eapply (sr_step _ (SGet true)); [eapply (sr_step _ (SDestroy 0)); [eapply (sr_step _ (SConstruct true)); [constructor|reflexivity]|reflexivity]|reflexivity].
  - reflexivity.
Qed.
