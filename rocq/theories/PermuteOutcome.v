From stdpp Require Import prelude list.
From Coq Require Import Lia.
From Verif Require Import Base PermuteModel PermuteProofs Spec_Permute.

Lemma nxt_some p k x : p !! k = Some x -> nxt p k = x.
Proof. intros H. unfold nxt. rewrite H. done. Qed.

(** below [i] every step is defined *)
Lemma leads_iter p i x t : p !! i = Some x -> (forall j, j < i -> is_Some (p !! j)) ->
  (forall s, s < t -> Nat.iter s (nxt p) x < i) -> leads_to p i (Nat.iter t (nxt p) x).
Proof.
  intros Hx Hp. induction t as [|t IH]; intros H; [by constructor|].
  simpl. destruct (Hp (Nat.iter t (nxt p) x)) as [y Hy]; [apply H; lia|].
  rewrite (nxt_some _ _ _ Hy). eapply lead_next; [apply IH; intros; apply H; lia|exact Hy].
Qed.
Lemma leads_iter_inv p i x k : p !! i = Some x -> leads_to p i k -> exists t, k = Nat.iter t (nxt p) x.
Proof.
  intros Hx. induction 1 as [k Hk|k k' _ [t ->] Hk].
  - exists 0. simpl. congruence.
  - exists (S t). simpl. by rewrite (nxt_some _ _ _ Hk).
Qed.
Lemma chase_escapes p i x f r : p !! i = Some x -> (forall j, j < i -> is_Some (p !! j)) ->
  chase f p i x = Some (Some r) -> escapes p i.
Proof.
  intros Hx Hp H. apply chase_iter in H as (t & _ & -> & Hir & Hs); [|done].
  exists (Nat.iter t (nxt p) x). split; [by apply leads_iter|done].
Qed.
Lemma chase_stuck p i x : p !! i = Some x -> (forall j, j < i -> is_Some (p !! j)) ->
  chase (S i) p i x = None -> ~ escapes p i.
Proof.
  intros Hx Hp H (k & Hk & Hik). destruct (leads_iter_inv _ _ _ _ Hx Hk) as [t ->].
  pose proof (chase_none_forever p i x Hp H (S t)) as Hn.
  rewrite chase_none_iter in Hn by done. specialize (Hn t). lia.
Qed.

Definition good (p : list nat) i := in_range p i /\ escapes p i.
Lemma loop_outcome {T} f todo i (c c' : list T) p r :
  length c = length p -> i + todo = length p -> length p < f -> permute_loop f todo i c p = (c', r) ->
  match r with
  | Ret _ => forall j, i <= j < length p -> good p j
  | Throw e => exists j, i <= j < length p /\ ~ in_range p j /\ forall j', i <= j' < j -> good p j'
  | Diverge => exists j, i <= j < length p /\ in_range p j /\ ~ escapes p j /\ forall j', i <= j' < j -> good p j'
  | UB => False
  end.
Proof.
  intros Hc Hl Hf. revert i c Hc Hl. induction todo as [|todo IH]; intros i c Hc Hl; cbn [permute_loop].
  { intros [= <- <-]. intros j Hj. lia. }
  destruct (lookup_lt_is_Some_2 p i) as [x Hx]; [lia|]. rewrite Hx.
  assert (Hp : forall j, j < i -> is_Some (p !! j)) by (intros j Hj; apply lookup_lt_is_Some_2; lia).
  destruct (Nat.leb_spec (length c) x) as [Hle|Hlt].
  { intros [= <- <-]. exists i. split; [lia|]. split; [|intros; lia].
    intros (y & Hy & Hlt). rewrite Hx in Hy. injection Hy as ->. lia. }
  assert (Hin : in_range p i) by (exists x; split; [done|lia]).
  destruct (chase f p i x) as [[k|]|] eqn:Hch.
  - intros H. assert (Hg : good p i) by (split; [done|eapply chase_escapes; eauto]).
    apply IH in H; [|destruct (Nat.ltb i k); [by rewrite swap_length|done]|lia].
    destruct r as [[]|e| |].
    + intros j Hj. destruct (decide (j = i)) as [->|]; [done|apply H; lia].
    + destruct H as (j & Hj & Hb & Hr). exists j. split; [lia|]. split; [done|].
      intros j' Hj'. destruct (decide (j' = i)) as [->|]; [done|apply Hr; lia].
    + done.
    + destruct H as (j & Hj & Hi & Hb & Hr). exists j. split; [lia|]. split; [done|]. split; [done|].
      intros j' Hj'. destruct (decide (j' = i)) as [->|]; [done|apply Hr; lia].
  - by apply chase_no_ub in Hch.
  - intros [= <- <-]. exists i. split; [lia|]. split; [done|]. split; [|intros; lia].
    apply (chase_stuck p i x); [done..|].
    destruct (chase (S i) p i x) as [o|] eqn:Ho; [|done].
    rewrite (chase_mono (S i) f _ _ _ _ Ho ltac:(lia)) in Hch. discriminate.
Qed.

Lemma permute_outcome_lemma {T} (c : list T) p : length c = length p ->
  (snd (permute c p) = Ret tt <-> forall i, i < length p -> good p i) /\
  (snd (permute c p) = Throw OutOfBound <->
     exists i, i < length p /\ ~ in_range p i /\ forall j, j < i -> good p j) /\
  ((forall fuel, snd (permute_fuel fuel c p) = Diverge) <->
     exists i, i < length p /\ in_range p i /\ ~ escapes p i /\ forall j, j < i -> good p j) /\
  (snd (permute c p) = Ret tt \/ snd (permute c p) = Throw OutOfBound \/ forall fuel, snd (permute_fuel fuel c p) = Diverge).
Proof.
  intros Hl. destruct (permute_fuel_complete c p) as [_ Hd].
  assert (Hdd : (forall fuel, snd (permute_fuel fuel c p) = Diverge) <-> snd (permute c p) = Diverge).
  { split; [intros H; apply H|exact Hd]. }
  rewrite Hdd. clear Hd Hdd.
  destruct (permute c p) as [c' r] eqn:E.
  assert (Ho := E). unfold permute, permute_fuel in Ho. rewrite Hl, Nat.eqb_refl in Ho.
  assert (He : forall e, r = Throw e -> e = OutOfBound).
  { intros e ->. rewrite <- Hl in Ho at 2. apply permute_loop_throw in Ho as [-> _]. done. }
  apply loop_outcome in Ho; [|done|lia|lia]. cbn [snd].
  destruct r as [[]|e| |].
  - assert (G : forall j, j < length p -> good p j) by (intros j Hj; apply Ho; lia).
    split; [done|]. split; [|split; [|by left]].
    + split; [done|]. intros (i & Hi & Hb & _). destruct (G i Hi). done.
    + split; [done|]. intros (i & Hi & _ & Hb & _). destruct (G i Hi). done.
  - rewrite (He e eq_refl). destruct Ho as (i & Hi & Hb & G).
    split; [|split; [|split; [|auto]]].
    + split; [done|]. intros H. by destruct (H i ltac:(lia)).
    + split; [|done]. intros _. exists i. split; [lia|]. split; [done|]. intros j Hj. apply G. lia.
    + split; [done|]. intros (j & Hj & Hr & He' & G').
      exfalso. destruct (Nat.lt_trichotomy i j) as [H|[->|H]]; [by destruct (G' i H)|done|by destruct (G j ltac:(lia))].
  - done.
  - destruct Ho as (i & Hi & Hr & Hb & G).
    split; [|split; [|split; [|auto]]].
    + split; [done|]. intros H. by destruct (H i ltac:(lia)).
    + split; [done|]. intros (j & Hj & He' & G').
      exfalso. destruct (Nat.lt_trichotomy i j) as [H|[->|H]]; [by destruct (G' i H)|done|by destruct (G j ltac:(lia))].
    + split; [|done]. intros _. exists i. split; [lia|]. split; [done|]. split; [done|]. intros j Hj. apply G. lia.
Qed.
