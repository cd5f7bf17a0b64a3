From stdpp Require Import prelude list.
From Coq Require Import Lia.
From Verif Require Import Base PermuteModel.

(** ** The inner loop *)

Lemma chase_mono f f' p i k r : chase f p i k = Some r -> f <= f' -> chase f' p i k = Some r.
Proof.
  revert f' k. induction f as [|f IH]; intros f' k H Hle; [discriminate|].
  destruct f' as [|f']; [lia|]. cbn [chase] in *.
  destruct (Nat.ltb k i); [|exact H].
  destruct (p !! k) as [k'|]; [|exact H]. apply IH; [exact H|lia].
Qed.

(** iterating the index vector *)
Definition nxt (p : list nat) (k : nat) : nat := default 0 (p !! k).

Lemma chase_iter f p i k r :
  (forall j, j < i -> is_Some (p !! j)) ->
  chase f p i k = Some (Some r) <->
  exists t, t < f /\ r = Nat.iter t (nxt p) k /\ i <= r /\
            forall s, s < t -> Nat.iter s (nxt p) k < i.
Proof.
  intros Hp. revert k. induction f as [|f IH]; intros k.
  { simpl. split; [discriminate|]. intros (t & Ht & _); lia. }
  cbn [chase]. destruct (Nat.ltb_spec k i) as [Hlt|Hge].
  - destruct (Hp k Hlt) as [k' Hk']. rewrite Hk', IH. split.
    + intros (t & Ht & Hr & Hir & Hs). exists (S t). split; [lia|].
      assert (Hn : nxt p k = k') by (unfold nxt; rewrite Hk'; done).
      assert (Hit : forall s, Nat.iter (S s) (nxt p) k = Nat.iter s (nxt p) k').
      { intros s. rewrite Nat.iter_succ_r, Hn. done. }
      rewrite Hit. split; [done|]. split; [done|].
      intros [|s] Hlt'; [exact Hlt|]. rewrite Hit. apply Hs; lia.
    + intros (t & Ht & Hr & Hir & Hs).
      assert (Hn : nxt p k = k') by (unfold nxt; rewrite Hk'; done).
      assert (Hit : forall s, Nat.iter (S s) (nxt p) k = Nat.iter s (nxt p) k').
      { intros s. rewrite Nat.iter_succ_r, Hn. done. }
      destruct t as [|t]; [simpl in Hr; lia|].
      rewrite Hit in Hr. exists t. split; [lia|]. split; [done|]. split; [done|].
      intros s Hlt'. rewrite <- Hit. apply Hs; lia.
  - split.
    + intros [= <-]. exists 0. simpl. repeat split; [lia|lia|intros; lia].
    + intros (t & Ht & Hr & Hir & Hs). destruct t as [|t]; [simpl in Hr; congruence|].
      specialize (Hs 0 ltac:(lia)). simpl in Hs. lia.
Qed.

Lemma chase_no_ub f p i k :
  (forall j, j < i -> is_Some (p !! j)) -> chase f p i k <> Some None.
Proof.
  intros Hp. revert k. induction f as [|f IH]; intros k; [discriminate|]. cbn [chase].
  destruct (Nat.ltb_spec k i) as [Hlt|Hge]; [|congruence].
  destruct (Hp k Hlt) as [k' ->]. apply IH.
Qed.

(** bounded existentials are decidable *)
Lemma bounded_ex_dec (P : nat -> Prop) m :
  (forall x, {P x} + {~ P x}) -> {exists x, x < m /\ P x} + {~ exists x, x < m /\ P x}.
Proof.
  intros HP. induction m as [|m IH].
  - right. intros (x & Hx & _); lia.
  - destruct IH as [IH|IH].
    + left. destruct IH as (x & Hx & Px). exists x. split; [lia|done].
    + destruct (HP m) as [Pm|Pm]; [left; exists m; split; [lia|done]|].
      right. intros (x & Hx & Px). destruct (decide (x = m)) as [->|Hne]; [done|].
      apply IH. exists x. split; [lia|done].
Defined.

(** pigeonhole: [n+1] values below [n] repeat *)
Lemma pigeon (g : nat -> nat) (n : nat) :
  (forall s, s <= n -> g s < n) -> exists a b, a < b <= n /\ g a = g b.
Proof.
  intros Hg.
  destruct (bounded_ex_dec (fun a => exists b, b < S n /\ (a < b /\ g a = g b)) (S n)) as [D|D].
  { intros a. apply bounded_ex_dec. intros b.
    destruct (lt_dec a b); [|right; lia].
    destruct (Nat.eq_dec (g a) (g b)); [left; lia|right; lia]. }
  { destruct D as (a & Ha & b & Hb & Hab & He). exists a, b. split; [lia|done]. }
  exfalso.
  assert (Hnd : NoDup (map g (seq 0 (S n)))).
  { apply NoDup_alt. intros i j x Hi Hj.
    apply list_lookup_fmap_Some in Hi as (a & Ha & ->).
    apply list_lookup_fmap_Some in Hj as (b & Hb & Hab).
    apply lookup_seq in Ha as [-> Hia]. apply lookup_seq in Hb as [-> Hjb].
    simpl in *. destruct (lt_eq_lt_dec i j) as [[Hlt|He]|Hlt]; [|exact He|].
    - exfalso. apply D. exists i. split; [lia|]. exists j. split; [lia|]. split; [lia|done].
    - exfalso. apply D. exists j. split; [lia|]. exists i. split; [lia|]. split; [lia|done]. }
  assert (Hle : length (map g (seq 0 (S n))) <= length (seq 0 n)).
  { apply submseteq_length, NoDup_submseteq; [exact Hnd|]. intros x Hx.
    apply elem_of_list_fmap in Hx as (s & -> & Hs).
    apply elem_of_seq in Hs. apply elem_of_seq. specialize (Hg s). lia. }
  rewrite map_length, !seq_length in Hle. lia.
Qed.

Lemma chase_none_iter f p i k :
  (forall j, j < i -> is_Some (p !! j)) ->
  chase f p i k = None <-> forall s, s < f -> Nat.iter s (nxt p) k < i.
Proof.
  intros Hp. revert k. induction f as [|f IH]; intros k.
  { simpl. split; [intros; lia|done]. }
  cbn [chase]. destruct (Nat.ltb_spec k i) as [Hlt|Hge].
  - destruct (Hp k Hlt) as [k' Hk']. rewrite Hk', IH.
    assert (Hn : nxt p k = k') by (unfold nxt; rewrite Hk'; done).
    assert (Hit : forall s, Nat.iter (S s) (nxt p) k = Nat.iter s (nxt p) k').
    { intros s. rewrite Nat.iter_succ_r, Hn. done. }
    split.
    + intros H [|s] Hs; [exact Hlt|]. rewrite Hit. apply H; lia.
    + intros H s Hs. rewrite <- Hit. apply H; lia.
  - split; [discriminate|]. intros H. specialize (H 0 ltac:(lia)). simpl in H. lia.
Qed.

Lemma iter_add_fn (f : nat -> nat) a b k : Nat.iter (a + b) f k = Nat.iter a f (Nat.iter b f k).
Proof. induction a as [|a IH]; [done|]. simpl. rewrite IH. done. Qed.

(** running out of [S i] tests means the loop never ends *)
Lemma chase_none_forever p i k :
  (forall j, j < i -> is_Some (p !! j)) ->
  chase (S i) p i k = None -> forall f, chase f p i k = None.
Proof.
  intros Hp H f. rewrite chase_none_iter in H by done. apply chase_none_iter; [done|].
  destruct (pigeon (fun s => Nat.iter s (nxt p) k) i) as (a & b & Hab & He).
  { intros s Hs. apply H; lia. }
  cbn beta in He.
  intros s _. revert s. apply (well_founded_induction lt_wf). intros s IHs.
  destruct (decide (s < b)) as [Hsb|Hsb]; [apply H; lia|].
  replace s with ((s - b) + b) by lia. rewrite iter_add_fn, <- He, <- iter_add_fn.
  apply IHs. lia.
Qed.

(** ** Any index vector: no element lost, no UB *)

Lemma swap_length {T} (c : list T) i k : length (swap c i k) = length c.
Proof. unfold swap. destruct (c !! i), (c !! k); rewrite ?insert_length; done. Qed.

Lemma swap_app {T} (l m e : list T) a b :
  swap (l ++ a :: m ++ b :: e) (length l) (length l + S (length m)) = l ++ b :: m ++ a :: e.
Proof.
  unfold swap.
  rewrite list_lookup_middle by done.
  replace (l ++ a :: m ++ b :: e) with ((l ++ a :: m) ++ b :: e) by (rewrite <- app_assoc; done).
  rewrite list_lookup_middle by (rewrite app_length; simpl; lia).
  rewrite <- app_assoc. simpl.
  replace (length l) with (length l + 0) at 2 by lia. rewrite insert_app_r. simpl.
  rewrite insert_app_r. simpl.
  replace (length m) with (length m + 0) at 1 by lia. rewrite insert_app_r. done.
Qed.

Lemma swap_perm {T} (c : list T) i k : i < k -> swap c i k ≡ₚ c.
Proof.
  intros Hik.
  destruct (c !! i) as [a|] eqn:Ha; [|unfold swap; rewrite Ha; done].
  destruct (c !! k) as [b|] eqn:Hb; [|unfold swap; rewrite Ha, Hb; done].
  pose proof (lookup_lt_Some _ _ _ Hb) as Hlk.
  assert (Hli : length (take i c) = i) by (rewrite take_length; lia).
  assert (Hd : drop (S i) c !! (k - S i) = Some b).
  { rewrite lookup_drop. replace (S i + (k - S i)) with k by lia. done. }
  set (m := take (k - S i) (drop (S i) c)). set (e := drop (S (k - S i)) (drop (S i) c)).
  assert (Hc : c = take i c ++ a :: m ++ b :: e).
  { unfold m, e. rewrite take_drop_middle by done. rewrite take_drop_middle; done. }
  assert (Hlm : length m = k - S i).
  { unfold m. rewrite take_length, drop_length. lia. }
  pose proof (swap_app (take i c) m e a b) as Hs.
  rewrite <- Hc, Hli, Hlm in Hs. replace (i + S (k - S i)) with k in Hs by lia.
  rewrite Hs. transitivity (take i c ++ a :: m ++ b :: e); [|rewrite <- Hc; done].
  apply Permutation_app_head.
  rewrite (Permutation_app_comm m (a :: e)), (Permutation_app_comm m (b :: e)).
  simpl. rewrite (perm_swap a b). do 2 constructor. done.
Qed.

Lemma lookup_swap {T} (c : list T) i k j :
  i < length c -> k < length c ->
  swap c i k !! j = if decide (j = i) then c !! k else if decide (j = k) then c !! i else c !! j.
Proof.
  intros Hi Hk. unfold swap.
  destruct (lookup_lt_is_Some_2 c i Hi) as [a Ha]. destruct (lookup_lt_is_Some_2 c k Hk) as [b Hb].
  rewrite Ha, Hb.
  destruct (decide (j = k)) as [->|Hjk].
  { rewrite list_lookup_insert by (rewrite insert_length; done).
    destruct (decide (k = i)) as [->|]; congruence. }
  rewrite list_lookup_insert_ne by done.
  destruct (decide (j = i)) as [->|Hji]; [rewrite list_lookup_insert; done|].
  rewrite list_lookup_insert_ne; done.
Qed.

Lemma permute_loop_perm {T} fuel todo i (c c' : list T) p r :
  permute_loop fuel todo i c p = (c', r) -> c' ≡ₚ c.
Proof.
  revert i c. induction todo as [|todo IH]; intros i c; cbn [permute_loop].
  { intros [= <- <-]. done. }
  destruct (p !! i) as [pi|]; [|intros [= <- <-]; done].
  destruct (Nat.leb (length c) pi); [intros [= <- <-]; done|].
  destruct (chase fuel p i pi) as [[k|]|]; [|intros [= <- <-]; done..].
  intros H. apply IH in H. rewrite H.
  destruct (Nat.ltb_spec i k); [apply swap_perm; done|done].
Qed.

Lemma permute_fuel_perm {T} fuel (c c' : list T) p r :
  permute_fuel fuel c p = (c', r) -> c' ≡ₚ c.
Proof.
  unfold permute_fuel. destruct (Nat.eqb _ _); [apply permute_loop_perm|intros [= <- <-]; done].
Qed.

Lemma permute_loop_no_ub {T} fuel todo i (c c' : list T) p r :
  i + todo = length p -> permute_loop fuel todo i c p = (c', r) -> r <> UB.
Proof.
  revert i c. induction todo as [|todo IH]; intros i c Hl; cbn [permute_loop].
  { intros [= <- <-]. done. }
  destruct (lookup_lt_is_Some_2 p i) as [pi ->]; [lia|].
  destruct (Nat.leb (length c) pi); [intros [= <- <-]; done|].
  destruct (chase fuel p i pi) as [[k|]|] eqn:Hch; [|exfalso|intros [= <- <-]; done].
  - apply IH. lia.
  - revert Hch. apply chase_no_ub. intros j Hj. apply lookup_lt_is_Some_2. lia.
Qed.

(** all entries read before the loop stopped were in range; a normal return means all are *)
Lemma permute_loop_ret_inrange {T} fuel todo i (c c' : list T) p :
  permute_loop fuel todo i c p = (c', Ret tt) ->
  forall j x, i <= j < i + todo -> p !! j = Some x -> x < length c.
Proof.
  revert i c. induction todo as [|todo IH]; intros i c; cbn [permute_loop].
  { intros _ j x Hj; lia. }
  destruct (p !! i) as [pi|] eqn:Hpi; [|discriminate].
  destruct (Nat.leb_spec (length c) pi) as [|Hlt]; [discriminate|].
  destruct (chase fuel p i pi) as [[k|]|] eqn:Hch; [|discriminate..].
  intros H j x Hj Hx. destruct (decide (j = i)) as [->|Hne]; [congruence|].
  assert (Hl : length (if Nat.ltb i k then swap c i k else c) = length c).
  { destruct (Nat.ltb i k); [apply swap_length|done]. }
  rewrite <- Hl. eapply IH; [exact H| |exact Hx]. lia.
Qed.

(** a throw inside the loop is caused by an out-of-range entry *)
Lemma permute_loop_throw {T} fuel todo i (c c' : list T) p e :
  permute_loop fuel todo i c p = (c', Throw e) ->
  e = OutOfBound /\ exists j x, i <= j < i + todo /\ p !! j = Some x /\ length c <= x.
Proof.
  revert i c. induction todo as [|todo IH]; intros i c; cbn [permute_loop]; [discriminate|].
  destruct (p !! i) as [pi|] eqn:Hpi; [|discriminate].
  destruct (Nat.leb_spec (length c) pi) as [Hle|Hlt].
  { intros [= _ <-]. split; [done|]. exists i, pi. split; [lia|]. done. }
  destruct (chase fuel p i pi) as [[k|]|] eqn:Hch; [|discriminate..].
  intros H. apply IH in H as [-> (j & x & Hj & Hx & Hle)]. split; [done|].
  exists j, x. split; [lia|]. split; [done|].
  destruct (Nat.ltb i k); [rewrite swap_length in Hle|]; done.
Qed.

(** ** More fuel changes nothing: [Diverge] really means divergence *)

Lemma permute_loop_fuel_mono {T} f f' todo i (c c' : list T) p r :
  permute_loop f todo i c p = (c', r) -> r <> Diverge -> f <= f' ->
  permute_loop f' todo i c p = (c', r).
Proof.
  intros H Hr Hf. revert i c H. induction todo as [|todo IH]; intros i c; cbn [permute_loop]; [done|].
  destruct (p !! i) as [pi|]; [|done]. destruct (Nat.leb (length c) pi); [done|].
  destruct (chase f p i pi) as [o|] eqn:Hch.
  - rewrite (chase_mono _ _ _ _ _ _ Hch Hf). destruct o; [apply IH|done].
  - intros [= <- <-]. done.
Qed.

Lemma permute_loop_diverge {T} f todo i (c c' : list T) p :
  i + todo = length p -> length p < f ->
  permute_loop f todo i c p = (c', Diverge) ->
  forall f', exists c'', permute_loop f' todo i c p = (c'', Diverge).
Proof.
  intros Hl Hf H f'. revert i c Hl H.
  induction todo as [|todo IH]; intros i c Hl; cbn [permute_loop]; [done|].
  destruct (p !! i) as [pi|] eqn:Hpi; [|done].
  destruct (Nat.leb (length c) pi); [done|].
  assert (Hp : forall j, j < i -> is_Some (p !! j)).
  { intros j Hj. apply lookup_lt_is_Some_2. lia. }
  destruct (chase f p i pi) as [o|] eqn:Hch.
  - destruct o as [k|]; [|done]. intros H.
    destruct (chase f' p i pi) as [o'|] eqn:Hch'; [|eauto].
    assert (o' = Some k) as ->.
    { destruct (le_lt_dec f f') as [Hle|Hlt].
      - rewrite (chase_mono _ _ _ _ _ _ Hch Hle) in Hch'. congruence.
      - rewrite (chase_mono f' f _ _ _ _ Hch' ltac:(lia)) in Hch. congruence. }
    apply IH; [lia|exact H].
  - intros _. rewrite (chase_none_forever p i pi Hp).
    + eauto.
    + destruct (chase (S i) p i pi) as [o|] eqn:Hx; [|done].
      rewrite (chase_mono (S i) f _ _ _ _ Hx ltac:(lia)) in Hch. discriminate.
Qed.

Lemma permute_fuel_complete {T} (c : list T) p :
  (forall f c' r, permute_fuel f c p = (c', r) -> r <> Diverge -> permute c p = (c', r)) /\
  (snd (permute c p) = Diverge -> forall f, snd (permute_fuel f c p) = Diverge).
Proof.
  assert (Hd : snd (permute c p) = Diverge -> forall f, snd (permute_fuel f c p) = Diverge).
  { unfold permute, permute_fuel. destruct (Nat.eqb_spec (length c) (length p)) as [He|]; [|done].
    destruct (permute_loop _ _ _ _ _) as [c' r] eqn:H. simpl. intros -> f.
    eapply permute_loop_diverge in H as [c'' ->]; [done|lia|lia]. }
  split; [|exact Hd].
  intros f c' r H Hr.
  destruct (permute c p) as [c'' r''] eqn:Hp.
  assert (Hr'' : r'' <> Diverge).
  { intros ->. specialize (Hd eq_refl f). rewrite H in Hd. simpl in Hd. done. }
  revert H Hp. unfold permute, permute_fuel.
  destruct (Nat.eqb (length c) (length p)); [|congruence].
  intros H1 H2. apply (permute_loop_fuel_mono _ (f + S (length p))) in H1; [|done|lia].
  apply (permute_loop_fuel_mono _ (f + S (length p))) in H2; [|done|lia]. congruence.
Qed.

(** ** Valid permutations *)

Section valid.
  Context (p : list nat) (n : nat) (Hp : p ≡ₚ seq 0 n).

  Lemma vp_len : length p = n.
  Proof. rewrite Hp, seq_length. done. Qed.
  Lemma vp_nodup : NoDup p.
  Proof. rewrite Hp. apply NoDup_seq. Qed.
  Lemma vp_lt i x : p !! i = Some x -> x < n.
  Proof. intros H. apply elem_of_list_lookup_2 in H. rewrite Hp in H. apply elem_of_seq in H. lia. Qed.
  Lemma vp_nxt i : i < n -> p !! i = Some (nxt p i).
  Proof. intros H. unfold nxt. destruct (lookup_lt_is_Some_2 p i) as [x ->]; [rewrite vp_len; lia|]. done. Qed.
  Lemma vp_nxt_lt i : i < n -> nxt p i < n.
  Proof. intros H. eapply vp_lt, vp_nxt, H. Qed.
  Lemma vp_inj i j : i < n -> j < n -> nxt p i = nxt p j -> i = j.
  Proof.
    intros Hi Hj He. eapply NoDup_lookup; [exact vp_nodup|apply vp_nxt, Hi|].
    rewrite He. apply vp_nxt, Hj.
  Qed.
  Lemma vp_iter_lt t k : k < n -> Nat.iter t (nxt p) k < n.
  Proof. intros H. induction t as [|t IH]; [done|]. simpl. apply vp_nxt_lt, IH. Qed.
  Lemma vp_iter_inj t a b : a < n -> b < n -> Nat.iter t (nxt p) a = Nat.iter t (nxt p) b -> a = b.
  Proof.
    intros Ha Hb. induction t as [|t IH]; [done|]. simpl. intros He.
    apply IH. eapply vp_inj; [apply vp_iter_lt, Ha|apply vp_iter_lt, Hb|exact He].
  Qed.
  Lemma vp_lookup_some i j : i <= n -> j < i -> is_Some (p !! j).
  Proof. intros Hi Hj. apply lookup_lt_is_Some_2. rewrite vp_len. lia. Qed.

  Lemma chase_valid_terminates f i j :
    i <= j -> j < n -> n < f -> exists r, chase f p i (nxt p j) = Some (Some r).
  Proof.
    intros Hij Hj Hf.
    destruct (chase f p i (nxt p j)) as [[r|]|] eqn:Hc; [eauto| |].
    - exfalso. revert Hc. apply chase_no_ub. intros; eapply (vp_lookup_some i); lia.
    - exfalso. rewrite chase_none_iter in Hc by (intros; eapply (vp_lookup_some i); lia).
      assert (Hc' : forall s, s < f -> Nat.iter (S s) (nxt p) j < i).
      { intros s Hs. rewrite Nat.iter_succ_r. apply Hc, Hs. }
      destruct (pigeon (fun s => Nat.iter (S s) (nxt p) j) i) as (a & b & Hab & He).
      { intros s Hs. apply Hc'. lia. }
      cbn beta in He.
      assert (Hback : j = Nat.iter (b - a) (nxt p) j).
      { apply (vp_iter_inj (S a)); [done|apply vp_iter_lt, Hj|].
        rewrite <- iter_add_fn. replace (S a + (b - a)) with (S b) by lia. exact He. }
      specialize (Hc' (b - a - 1) ltac:(lia)).
      replace (S (b - a - 1)) with (b - a) in Hc' by lia. lia.
  Qed.

  Lemma chase_valid_inj f i a b r :
    i <= a -> a < n -> i <= b -> b < n ->
    chase f p i (nxt p a) = Some (Some r) -> chase f p i (nxt p b) = Some (Some r) -> a = b.
  Proof.
    intros Hia Ha Hib Hb H1 H2.
    apply chase_iter in H1; [|intros; eapply (vp_lookup_some i); lia].
    apply chase_iter in H2; [|intros; eapply (vp_lookup_some i); lia].
    destruct H1 as (t & _ & Ht & _ & Hst). destruct H2 as (s & _ & Hs & _ & Hss).
    assert (Hst' : forall q, q < t -> Nat.iter (S q) (nxt p) a < i).
    { intros q Hq. rewrite Nat.iter_succ_r. apply Hst, Hq. }
    assert (Hss' : forall q, q < s -> Nat.iter (S q) (nxt p) b < i).
    { intros q Hq. rewrite Nat.iter_succ_r. apply Hss, Hq. }
    rewrite <- Nat.iter_succ_r in Ht, Hs.
    destruct (lt_eq_lt_dec t s) as [[Hlt|Heq]|Hlt].
    - exfalso. assert (He : a = Nat.iter (s - t) (nxt p) b).
      { apply (vp_iter_inj (S t)); [done|apply vp_iter_lt, Hb|].
        rewrite <- iter_add_fn. replace (S t + (s - t)) with (S s) by lia. congruence. }
      specialize (Hss' (s - t - 1) ltac:(lia)).
      replace (S (s - t - 1)) with (s - t) in Hss' by lia. lia.
    - subst s. apply (vp_iter_inj (S t)); [done..|congruence].
    - exfalso. assert (He : b = Nat.iter (t - s) (nxt p) a).
      { apply (vp_iter_inj (S s)); [done|apply vp_iter_lt, Ha|].
        rewrite <- iter_add_fn. replace (S s + (t - s)) with (S t) by lia. congruence. }
      specialize (Hst' (t - s - 1) ltac:(lia)).
      replace (S (t - s - 1)) with (t - s) in Hst' by lia. lia.
  Qed.

  Lemma chase_ge_lt f i a r : a < n -> i <= n -> chase f p i a = Some (Some r) -> i <= r < n.
  Proof.
    intros Ha Hi H. apply chase_iter in H; [|intros; eapply (vp_lookup_some i); lia].
    destruct H as (t & _ & -> & Hir & _). split; [done|]. apply vp_iter_lt, Ha.
  Qed.

  (** moving the boundary: the first iterate [> i] *)
  Lemma chase_step f i a q :
    a < n -> i < n -> n < f -> chase f p i a = Some (Some q) ->
    (q <> i -> chase f p (S i) a = Some (Some q)) /\
    (q = i -> forall k, chase f p i (nxt p i) = Some (Some k) -> k <> i ->
              chase f p (S i) a = Some (Some k)).
  Proof.
    intros Ha Hi Hf H.
    assert (HpS : forall j, j < S i -> is_Some (p !! j)) by (intros; eapply (vp_lookup_some (S i)); lia).
    assert (Hpi : forall j, j < i -> is_Some (p !! j)) by (intros; apply HpS; lia).
    apply chase_iter in H; [|done]. destruct H as (t & Ht & -> & Hir & Hst). split.
    - intros Hq. apply chase_iter; [done|]. exists t. repeat split; [done|lia|].
      intros s Hs. specialize (Hst s Hs). lia.
    - intros Hq k Hk Hki. apply chase_iter in Hk; [|done].
      destruct Hk as (t' & Ht' & Hk & Hik & Hst').
      (* total number of steps t + 1 + t'; show the loop ends, then that it ends there *)
      assert (Hit : forall s, Nat.iter (s + S t) (nxt p) a = Nat.iter s (nxt p) (nxt p i)).
      { intros s. rewrite iter_add_fn. simpl. rewrite Hq. done. }
      assert (Hall : forall s, s < t' + S t -> Nat.iter s (nxt p) a < S i).
      { intros s Hs. destruct (decide (s < t)) as [Hlt|]; [specialize (Hst s Hlt); lia|].
        destruct (decide (s = t)) as [->|]; [lia|].
        replace s with ((s - S t) + S t) by lia. rewrite Hit.
        specialize (Hst' (s - S t) ltac:(lia)). lia. }
      assert (Hend : k = Nat.iter (t' + S t) (nxt p) a) by (rewrite Hit; done).
      assert (HlenOK : t' + S t < f).
      { destruct (le_lt_dec f (t' + S t)) as [Hbad|]; [exfalso|lia].
        (* more than n iterates below S i before reaching k: a repetition, then k <= i *)
        destruct (pigeon (fun s => Nat.iter s (nxt p) a) (S i)) as (x & y & Hxy & He).
        { intros s Hs. apply Hall. lia. }
        cbn beta in He.
        assert (Hforever : forall s, Nat.iter s (nxt p) a < S i).
        { apply (well_founded_induction lt_wf). intros s IHs.
          destruct (decide (s < y)) as [|]; [apply Hall; lia|].
          replace s with ((s - y) + y) by lia. rewrite iter_add_fn, <- He, <- iter_add_fn.
          apply IHs. lia. }
        specialize (Hforever (t' + S t)). lia. }
      apply chase_iter; [done|]. exists (t' + S t).
      split; [done|]. split; [done|]. split; [lia|done].
  Qed.

  Lemma permute_loop_valid {T} f (c0 : list T) :
    length c0 = n -> n < f ->
    forall todo i d, i + todo = n -> length d = n ->
    (forall j, j < i -> d !! j = c0 !! nxt p j) ->
    (forall j, i <= j -> j < n -> forall k, chase f p i (nxt p j) = Some (Some k) -> d !! k = c0 !! nxt p j) ->
    exists c', permute_loop f todo i d p = (c', Ret tt) /\
               length c' = n /\ forall j, j < n -> c' !! j = c0 !! nxt p j.
  Proof.
    intros Hc0 Hf. induction todo as [|todo IH]; intros i d Hi Hd Hdone Htodo; cbn [permute_loop].
    { exists d. split; [done|]. split; [done|]. intros j Hj. apply Hdone. lia. }
    rewrite (vp_nxt i) by lia.
    destruct (Nat.leb_spec (length d) (nxt p i)) as [Hle|Hlt].
    { exfalso. pose proof (vp_nxt_lt i ltac:(lia)). lia. }
    destruct (chase_valid_terminates f i i ltac:(lia) ltac:(lia) Hf) as [k Hk].
    rewrite Hk.
    assert (Hki : i <= k < n) by (eapply chase_ge_lt; [|  |exact Hk]; [apply vp_nxt_lt|]; lia).
    set (d' := if Nat.ltb i k then swap d i k else d).
    assert (Hd' : forall j, d' !! j = if decide (j = i) then d !! k else if decide (j = k) then d !! i else d !! j).
    { intros j. unfold d'. destruct (Nat.ltb_spec i k) as [Hik|Hik]; [apply lookup_swap; lia|].
      assert (k = i) as -> by lia. destruct (decide (j = i)) as [->|]; done. }
    apply IH; [lia| | |].
    - unfold d'. destruct (Nat.ltb i k); [rewrite swap_length|]; done.
    - intros j Hj. rewrite Hd'. destruct (decide (j = i)) as [->|Hji].
      + apply Htodo; [lia|lia|exact Hk].
      + rewrite decide_False by lia. apply Hdone. lia.
    - intros j Hij Hj q Hq.
      destruct (chase_valid_terminates f i j ltac:(lia) ltac:(lia) Hf) as [q0 Hq0].
      destruct (chase_step f i (nxt p j) q0 ltac:(apply vp_nxt_lt; lia) ltac:(lia) Hf Hq0) as [H1 H2].
      rewrite Hd'. destruct (decide (q0 = i)) as [Hqi|Hqi].
      + assert (Hkne : k <> i).
        { intros ->. assert (i = j); [|lia].
          eapply (chase_valid_inj f i i j i); [lia|lia|lia|lia|exact Hk|congruence]. }
        specialize (H2 Hqi k Hk Hkne). rewrite H2 in Hq. injection Hq as <-.
        rewrite decide_False by done. rewrite decide_True by done.
        rewrite <- Hqi. apply Htodo; [lia|lia|exact Hq0].
      + specialize (H1 Hqi). rewrite H1 in Hq. injection Hq as <-.
        rewrite decide_False by done. rewrite decide_False.
        * apply Htodo; [lia|lia|exact Hq0].
        * intros ->. assert (i = j); [|lia].
          eapply (chase_valid_inj f i i j k); [lia|lia|lia|lia|exact Hk|exact Hq0].
  Qed.
End valid.

Lemma permute_valid {T} (c : list T) p :
  p ≡ₚ seq 0 (length c) ->
  exists c', permute c p = (c', Ret tt) /\ length c' = length c /\
             forall i k, p !! i = Some k -> c' !! i = c !! k.
Proof.
  intros Hp. pose proof (vp_len p _ Hp) as Hlen.
  unfold permute, permute_fuel. rewrite Hlen, Nat.eqb_refl.
  destruct (permute_loop_valid p (length c) Hp (S (length c)) c eq_refl ltac:(lia)
              (length c) 0 c) as (c' & Hc' & Hl & Hall).
  - lia.
  - done.
  - intros; lia.
  - intros j _ Hj k Hk. cbn [chase] in Hk. destruct (Nat.ltb_spec (nxt p j) 0); [lia|]. congruence.
  - exists c'. split; [done|]. split; [done|]. intros i k Hik.
    assert (i < length c) by (rewrite <- Hlen; eapply lookup_lt_Some; done).
    rewrite Hall by done. unfold nxt. rewrite Hik. done.
Qed.

Lemma permute_never_ub {T} (c c' : list T) p r : permute c p = (c', r) -> r <> UB.
Proof.
  unfold permute, permute_fuel. destruct (Nat.eqb_spec (length c) (length p)) as [He|].
  - apply permute_loop_no_ub. lia.
  - intros [= <- <-]. done.
Qed.

Lemma permute_exceptions {T} (c : list T) p :
  (length c <> length p -> permute c p = (c, Throw OutOfBound)) /\
  (forall c' e, permute c p = (c', Throw e) ->
     e = OutOfBound /\ (length c <> length p \/ exists x, x ∈ p /\ length c <= x)) /\
  (forall c', permute c p = (c', Ret tt) ->
     length c = length p /\ forall x, x ∈ p -> x < length c).
Proof.
  unfold permute, permute_fuel. destruct (Nat.eqb_spec (length c) (length p)) as [He|Hne].
  - split; [done|]. split.
    + intros c' e H. apply permute_loop_throw in H as [-> (j & x & _ & Hx & Hle)].
      split; [done|]. right. exists x. split; [|done]. eapply elem_of_list_lookup_2, Hx.
    + intros c' H. split; [done|]. intros x Hx. apply elem_of_list_lookup in Hx as [j Hj].
      eapply permute_loop_ret_inrange; [exact H| |exact Hj].
      apply lookup_lt_Some in Hj. lia.
  - split; [done|]. split.
    + intros c' e [= <- <-]. auto.
    + discriminate.
Qed.

Lemma permute_diverges_somewhere :
  exists (c : list nat) (p : list nat),
    length c = length p /\ (forall x, x ∈ p -> x < length c) /\
    forall fuel, snd (permute_fuel fuel c p) = Diverge.
Proof.
  exists [10; 20], [0; 0]. split; [done|]. split.
  - intros x Hx. cut (x = 0); [intros ->; simpl; lia|]. set_solver.
  - apply permute_fuel_complete. reflexivity.
Qed.

Lemma distinct_inrange_perm p n :
  length p = n -> (forall x, x ∈ p -> x < n) -> NoDup p -> p ≡ₚ seq 0 n.
Proof.
  intros Hl Hin Hnd.
  assert (Hs : p ⊆+ seq 0 n).
  { apply NoDup_submseteq; [done|]. intros x Hx. apply elem_of_seq. specialize (Hin x Hx). lia. }
  apply submseteq_Permutation_length_le in Hs; [done|]. rewrite seq_length. lia.
Qed.

Lemma permute_distinct_returns {T} (c : list T) p :
  length p = length c -> (forall x, x ∈ p -> x < length c) -> NoDup p ->
  snd (permute c p) = Ret tt /\
  forall fuel c' r, permute_fuel fuel c p = (c', r) -> r <> Diverge -> permute c p = (c', r).
Proof.
  intros Hl Hin Hnd. split; [|apply permute_fuel_complete].
  destruct (permute_valid c p) as (c' & -> & _); [|done].
  apply distinct_inrange_perm; done.
Qed.
