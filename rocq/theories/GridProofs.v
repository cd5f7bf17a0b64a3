From Coq Require Import ZArith Lia Reals Lra.
From Flocq Require Import Core.Raux.
From stdpp Require Import prelude list.
From Verif Require Import Base GridModel Spec_Grid.
Local Open Scope Z_scope.

(** * Mixed radix numbers *)
Notation prodZ := product (only parsing).
Fixpoint linr (n idx : list Z) : Z :=
  match n, idx with _ :: n', i :: idx' => i * prodZ n' + linr n' idx' | _, _ => 0 end.
Fixpoint rk (n idx : list Z) : Z :=
  match n, idx with k :: n', i :: idx' => i + k * rk n' idx' | _, _ => 0 end.

Lemma fold_mul n a : fold_left Z.mul n a = a * prodZ n.
Proof. revert a; induction n as [|x n IH]; intros a; simpl; [lia|]. rewrite IH. lia. Qed.
Lemma fold_add l a : fold_left Z.add l a = a + fold_right Z.add 0 l.
Proof. revert a; induction l as [|x n IH]; intros a; simpl; [lia|]. rewrite IH. lia. Qed.

Lemma lin_prod_cons k n : lin_prod (k :: n) = prodZ n :: lin_prod n.
Proof.
  unfold lin_prod. cbn [length seq map]. f_equal.
  - rewrite fold_mul. simpl. change (drop 0 n) with n. destruct (prodZ n); reflexivity.
  - rewrite <- seq_shift, map_map. apply map_ext. intros i. reflexivity.
Qed.

Lemma lin_prod_linr n idx : fold_right Z.add 0 (zip_with Z.mul (lin_prod n) idx) = linr n idx.
Proof.
  revert idx; induction n as [|k n IH]; intros [|i idx]; try reflexivity.
  rewrite lin_prod_cons. cbn [zip_with fold_right linr]. rewrite IH. lia.
Qed.

Lemma prodZ_pos n : Forall (fun k => 1 <= k) n -> 1 <= prodZ n.
Proof. induction 1; simpl; [lia|]. nia. Qed.

Lemma valid_pos n idx : valid_index n idx -> Forall (fun k => 1 <= k) n.
Proof. induction 1; constructor; [lia|done]. Qed.

Lemma linr_bound n idx : valid_index n idx -> 0 <= linr n idx < prodZ n.
Proof.
  induction 1 as [|i k idx n H H1 IH]; simpl; [lia|].
  change (fold_right Z.mul 1 n) with (product n). nia.
Qed.

Lemma linr_inj n i j : valid_index n i -> valid_index n j -> linr n i = linr n j -> i = j.
Proof.
  intros H; revert j. induction H as [|a k i n H H1 IH]; intros j Hj E.
  - inversion Hj; done.
  - inversion Hj as [|b k' j' n' Hb Hj']; subst. simpl in E.
    pose proof (linr_bound _ _ H1). pose proof (linr_bound _ _ Hj').
    assert (a = b) by nia. subst. f_equal. apply IH; [done|lia].
Qed.

Lemma linr_surj n k : Forall (fun k => 1 <= k) n -> 0 <= k < prodZ n ->
  exists idx, valid_index n idx /\ linr n idx = k.
Proof.
  intros H; revert k. induction H as [|a n Ha Hn IH]; intros k Hk; simpl in *.
  - exists []. split; [constructor|simpl; lia].
  - change (fold_right Z.mul 1 n) with (product n) in *.
    pose proof (prodZ_pos _ Hn) as Hp.
    destruct (IH (k mod prodZ n)) as (idx & Hv & E); [apply Z.mod_pos_bound; lia|].
    exists (k / prodZ n :: idx). split.
    + constructor; [|done]. split; [apply Z.div_pos; lia|].
      apply Z.div_lt_upper_bound; [lia|]. nia.
    + simpl. rewrite E. pose proof (Z.div_mod k (prodZ n)). lia.
Qed.

Lemma rk_bound n idx : valid_index n idx -> 0 <= rk n idx < prodZ n.
Proof.
  induction 1 as [|i k idx n H H1 IH]; simpl; [lia|].
  change (fold_right Z.mul 1 n) with (product n). nia.
Qed.
Lemma rk_inj n i j : valid_index n i -> valid_index n j -> rk n i = rk n j -> i = j.
Proof.
  intros H; revert j. induction H as [|a k i n H H1 IH]; intros j Hj E.
  - inversion Hj; done.
  - inversion Hj as [|b k' j' n' Hb Hj']; subst. simpl in E.
    assert (rk n i = rk n j') by nia. assert (a = b) by nia. subst. f_equal. auto.
Qed.
Lemma rk_surj n k : Forall (fun k => 1 <= k) n -> 0 <= k < prodZ n ->
  exists idx, valid_index n idx /\ rk n idx = k.
Proof.
  intros H; revert k. induction H as [|a n Ha Hn IH]; intros k Hk; simpl in *.
  - exists []. split; [constructor|simpl; lia].
  - change (fold_right Z.mul 1 n) with (product n) in *.
    destruct (IH (k / a)) as (idx & Hv & E).
    { split; [apply Z.div_pos; lia|]. apply Z.div_lt_upper_bound; lia. }
    exists (k mod a :: idx). split.
    + constructor; [|done]. apply Z.mod_pos_bound; lia.
    + simpl. rewrite E. pose proof (Z.div_mod k a). lia.
Qed.

(** * Incrementing *)
Fixpoint inc_rec (n idx : list Z) : option (list Z) :=
  match n, idx with
  | k :: n', x :: idx' =>
      if x + 1 <? k then Some (x + 1 :: idx')
      else option_map (cons 0) (inc_rec n' idx')
  | _, _ => None
  end.

Lemma inc_loop_rec N n idx pre npre :
  N = npre ++ n -> length idx = length n -> length pre = length npre -> idx <> [] ->
  inc_loop N (length idx) (length pre) (pre ++ idx) =
  match inc_rec n idx with Some r => pre ++ r | None => N end.
Proof.
  intros HN HL HP Hne. revert N n pre npre HN HL HP.
  induction idx as [|x idx IH]; [done|]; intros N n pre npre HN HL HP.
  destruct n as [|k n]; [done|]. cbn [length inc_loop].
  rewrite list_lookup_middle by done. subst N. rewrite list_lookup_middle by done.
  cbn [inc_rec]. destruct (x + 1 <? k) eqn:E.
  - rewrite <- (Nat.add_0_r (length pre)), insert_app_r. done.
  - rewrite app_length. cbn [length]. destruct idx as [|y idx].
    + replace (Nat.ltb _ _) with false by (symmetry; apply Nat.ltb_ge; cbn [length]; lia).
      destruct n; [|done]. done.
    + replace (Nat.ltb _ _) with true by (symmetry; apply Nat.ltb_lt; cbn [length]; lia).
      replace (<[length pre := 0]> (pre ++ x :: y :: idx)) with ((pre ++ [0]) ++ y :: idx).
      2:{ rewrite <- (Nat.add_0_r (length pre)) at 1. rewrite insert_app_r. cbn.
          rewrite <- app_assoc. done. }
      replace (S (length pre)) with (length (pre ++ [0])) by (rewrite app_length; simpl; lia).
      pose proof (IH ltac:(done) (npre ++ k :: n) n (pre ++ [0]) (npre ++ [k])) as IH'.
      rewrite IH'.
      * destruct (inc_rec n (y :: idx)); simpl; [rewrite <- app_assoc; done|done].
      * rewrite <- app_assoc. done.
      * simpl in *. lia.
      * rewrite !app_length. simpl. lia.
Qed.

Lemma incrementIndex_rec {T C} (g : grid T C) idx :
  length idx = length (g_n g) -> idx <> [] ->
  incrementIndex g idx = match inc_rec (g_n g) idx with Some r => r | None => g_n g end.
Proof.
  intros HL Hne. unfold incrementIndex.
  pose proof (inc_loop_rec (g_n g) (g_n g) idx [] [] eq_refl HL eq_refl Hne) as H.
  simpl in H. rewrite H. done.
Qed.

Lemma inc_rec_spec n idx : valid_index n idx ->
  match inc_rec n idx with
  | Some r => valid_index n r /\ rk n r = rk n idx + 1
  | None => rk n idx + 1 = prodZ n
  end.
Proof.
  induction 1 as [|i k idx n H H1 IH]; simpl; [lia|].
  change (fold_right Z.mul 1 n) with (product n).
  destruct (i + 1 <? k) eqn:E.
  - apply Z.ltb_lt in E. split; [constructor; [lia|done]|lia].
  - apply Z.ltb_ge in E. destruct (inc_rec n idx) as [r|]; simpl.
    + destruct IH as [IH1 IH2]. split; [constructor; [lia|done]|]. rewrite IH2. nia.
    + nia.
Qed.

Lemma valid_not_n n idx : n <> [] -> valid_index n idx -> idx <> n.
Proof. intros Hn H ->. inversion H; subst; [done|lia]. Qed.

Lemma walk_spec {T C} (g : grid T C) : g_n g <> [] -> forall fuel idx,
  valid_index (g_n g) idx -> (Z.to_nat (prodZ (g_n g) - rk (g_n g) idx) < fuel)%nat ->
  exists l, walk fuel g idx = Some l /\ NoDup l /\
    forall j, j ∈ l <-> valid_index (g_n g) j /\ rk (g_n g) idx <= rk (g_n g) j.
Proof.
  intros Hn. induction fuel as [|f IH]; intros idx Hv Hf; [lia|].
  cbn [walk]. rewrite decide_False by (apply valid_not_n; done).
  rewrite incrementIndex_rec.
  2:{ apply Forall2_length in Hv; done. }
  2:{ intros ->. apply Forall2_length in Hv. destruct (g_n g); done. }
  pose proof (inc_rec_spec _ _ Hv) as Hs. pose proof (rk_bound _ _ Hv) as Hb.
  destruct (inc_rec (g_n g) idx) as [r|].
  - destruct Hs as [Hr Hk]. destruct (IH r Hr) as (l & Hw & Hnd & Hl); [lia|].
    rewrite Hw. exists (idx :: l). split; [done|]. split.
    + constructor; [|done]. rewrite Hl. lia.
    + intros j. rewrite elem_of_cons, Hl. split.
      * intros [->|[? ?]]; split; auto; lia.
      * intros [Hj Hle]. destruct (decide (rk (g_n g) j = rk (g_n g) idx)) as [E|E].
        -- left. eapply rk_inj; eauto.
        -- right. split; [done|lia].
  - destruct f as [|f]; [lia|]. cbn [walk]. rewrite decide_True by done.
    exists [idx]. split; [done|]. split; [apply NoDup_singleton|].
    intros j. rewrite elem_of_list_singleton. split.
    + intros ->. split; [done|lia].
    + intros [Hj Hle]. pose proof (rk_bound _ _ Hj). eapply rk_inj; eauto; lia.
Qed.

(** More fuel does not change a finished walk. *)
Lemma walk_mono {T C} (g : grid T C) f f' idx l :
  (f <= f')%nat -> walk f g idx = Some l -> walk f' g idx = Some l.
Proof.
  revert f' idx l. induction f as [|f IH]; intros f' idx l Hf H; [done|].
  destruct f' as [|f']; [lia|]. cbn [walk] in *. destruct (decide _); [done|].
  destruct (walk f g (incrementIndex g idx)) as [l'|] eqn:E; [|done].
  rewrite (IH f' _ l') by (done || lia). done.
Qed.

(** * Reachable grids *)
Section reach.
Context {T C : Type} (o : coord_ops T) (c0 : C).

Definition gwf (g : grid T C) : Prop :=
  g_n g <> [] /\ length (g_n g) = length (g_res g) /\ length (g_min g) = length (g_res g) /\
  length (g_max g) = length (g_res g) /\
  g_lin g = lin_prod (g_n g) /\ g_tot g = prodZ (g_n g) /\
  length (g_cells g) = Z.to_nat (prodZ (g_n g)) /\
  existsb (c_nonpos o) (g_res g) = false /\
  any2 (fun a b => c_leb o b a) (g_min g) (g_max g) = false /\
  any2 (fun r d => c_ltb o d r) (g_res g) (zip_with (c_sub o) (g_max g) (g_min g)) = false /\
  cell_counts o (g_min g) (g_max g) (g_res g) = Some (g_n g).

Lemma cell_counts_length mn mx rs n :
  length mn = length rs -> length mx = length rs ->
  cell_counts o mn mx rs = Some n -> length n = length rs.
Proof.
  revert mx rs n. induction mn as [|a mn IH]; intros [|b mx] [|r rs] n H1 H2 H; simpl in *; try done.
  - by inversion H.
  - destruct (c_cells _ _ _); [|done]. destruct (cell_counts _ _ _ _) eqn:E; [|done].
    injection H as <-. simpl. f_equal. eapply (IH mx); [lia|lia|exact E].
Qed.

Lemma grid_new_wf mn mx rs g :
  length mn = length rs -> length mx = length rs -> rs <> [] ->
  grid_new o c0 mn mx rs = Ret g ->
  gwf g /\ g_min g = mn /\ g_max g = mx /\ g_res g = rs /\
  g_cells g = replicate (Z.to_nat (prodZ (g_n g))) c0.
Proof.
  intros H1 H2 H3. unfold grid_new.
  destruct (existsb _ _) eqn:E1; [done|].
  destruct (any2 _ mn mx) eqn:E2; [done|].
  destruct (any2 _ rs _) eqn:E3; [done|].
  destruct (cell_counts _ _ _ _) as [n|] eqn:E4; [|done].
  intros [= <-]. pose proof (cell_counts_length _ _ _ _ H1 H2 E4) as HL.
  assert (fold_left Z.mul n 1 = prodZ n) as HP by (rewrite fold_mul; lia).
  split; [|cbn; rewrite HP; done]. unfold gwf. cbn. rewrite HP.
  split; [intros ->; destruct rs; done|]. rewrite replicate_length. repeat split; try done.
Qed.

Lemma setCell_wf (g : grid T C) idx f g' : gwf g -> setCell g idx f = (g', Ret tt) -> gwf g'.
Proof.
  intros H. unfold setCell. destruct (getCell g idx); try done. intros [= <-].
  unfold gwf in *. cbn. rewrite insert_length. done.
Qed.

Lemma reset_wf (g : grid T C) : gwf g -> gwf (grid_reset c0 g).
Proof. unfold gwf, grid_reset. cbn. rewrite map_length. done. Qed.

Lemma reachable_wf (g : grid T C) : grid_reachable o c0 g -> gwf g.
Proof.
  induction 1; [|by eapply setCell_wf|by apply reset_wf].
  match goal with H : grid_new _ _ _ _ _ = Ret _ |- _ => apply grid_new_wf in H as [H _]; done end.
Qed.

Lemma counts_pos_list mn mx rs n : counts_positive o ->
  length mn = length rs -> length mx = length rs ->
  existsb (c_nonpos o) rs = false -> any2 (fun a b => c_leb o b a) mn mx = false ->
  any2 (fun r d => c_ltb o d r) rs (zip_with (c_sub o) mx mn) = false ->
  cell_counts o mn mx rs = Some n -> Forall (fun k => 1 <= k) n.
Proof.
  intros Hp. revert mx rs n.
  induction mn as [|a mn IH]; intros [|b mx] [|r rs] n H1 H2 E1 E2 E3 H; simpl in *; try done.
  - by injection H as <-.
  - apply orb_false_iff in E1 as [? ?], E2 as [? ?], E3 as [? ?].
    destruct (c_cells _ _ _) as [k|] eqn:Ek; [|done].
    destruct (cell_counts _ _ _ _) eqn:E; [|done]. injection H as <-.
    constructor; [eapply Hp; eauto|]. eapply (IH mx rs); (done || lia || exact E).
Qed.

Lemma wf_counts (g : grid T C) : counts_positive o -> gwf g -> Forall (fun k => 1 <= k) (g_n g).
Proof.
  intros Hp (?&?&Ha&Hb&?&?&?&H1&H2&H3&H4).
  exact (counts_pos_list _ _ _ _ Hp Ha Hb H1 H2 H3 H4).
Qed.

Lemma linear_linr (g : grid T C) idx : gwf g -> linear g idx = linr (g_n g) idx.
Proof.
  intros (?&?&?&?&HL&?). unfold linear. rewrite fold_add, HL, lin_prod_linr. lia.
Qed.

Lemma all2_ltb_iff idx n : length idx = length n ->
  all2 Z.ltb idx n = true <-> Forall2 Z.lt idx n.
Proof.
  revert n; induction idx as [|i idx IH]; intros [|k n] HL; simpl; try discriminate HL.
  - split; [constructor|done].
  - rewrite andb_true_iff, Z.ltb_lt, IH by (simpl in HL; lia). split.
    + intros [? ?]. by constructor.
    + by inversion 1.
Qed.

Lemma isValid_valid (g : grid T C) idx : valid_index (g_n g) idx -> isValidIndex g idx = true.
Proof.
  intros H. unfold isValidIndex. apply all2_ltb_iff; [by apply Forall2_length in H|].
  eapply Forall2_impl; [exact H|]. simpl. lia.
Qed.

Lemma getCell_valid (g : grid T C) idx : gwf g -> valid_index (g_n g) idx ->
  exists c, getCell g idx = Ret c /\ g_cells g !! Z.to_nat (linr (g_n g) idx) = Some c.
Proof.
  intros Hg Hv. unfold getCell. rewrite isValid_valid by done.
  rewrite linear_linr by done. unfold vec_get.
  pose proof (linr_bound _ _ Hv). rewrite decide_True by lia.
  destruct (lookup_lt_is_Some_2 (g_cells g) (Z.to_nat (linr (g_n g) idx))) as [c Hc].
  { destruct Hg as (?&?&?&?&?&?&->&_). lia. }
  rewrite Hc. eauto.
Qed.

Lemma setCell_valid (g : grid T C) idx f : gwf g -> valid_index (g_n g) idx ->
  exists c g', getCell g idx = Ret c /\ setCell g idx f = (g', Ret tt) /\
    g_n g' = g_n g /\ g_min g' = g_min g /\ g_max g' = g_max g /\ g_res g' = g_res g /\
    g_cells g' = <[Z.to_nat (linr (g_n g) idx) := f c]> (g_cells g).
Proof.
  intros Hg Hv. destruct (getCell_valid _ _ Hg Hv) as (c & Hc & _).
  unfold setCell. rewrite Hc. rewrite linear_linr by done. eexists _, _. repeat split.
Qed.

Lemma cells_one_to_one (g : grid T C) : counts_positive o -> grid_reachable o c0 g ->
  length (g_cells g) = Z.to_nat (product (g_n g)) /\
  (forall idx, valid_index (g_n g) idx -> exists c, getCell g idx = Ret c) /\
  (forall idx f, valid_index (g_n g) idx -> exists c g',
     getCell g idx = Ret c /\ setCell g idx f = (g', Ret tt) /\ g_n g' = g_n g /\
     getCell g' idx = Ret (f c) /\
     forall idx', valid_index (g_n g) idx' -> idx' <> idx -> getCell g' idx' = getCell g idx') /\
  (forall k c, g_cells g !! k = Some c ->
     exists idx, valid_index (g_n g) idx /\ getCell g idx = Ret c /\
       forall f g', setCell g idx f = (g', Ret tt) -> g_cells g' = <[k := f c]> (g_cells g)).
Proof.
  intros Hp Hr. pose proof (reachable_wf _ Hr) as Hg. pose proof (wf_counts _ Hp Hg) as Hn.
  pose proof Hg as (_&_&_&_&_&_&HC&_).
  split; [done|]. split.
  { intros idx Hv. destruct (getCell_valid _ _ Hg Hv) as (c & ? & _); eauto. }
  split.
  - intros idx f Hv. destruct (setCell_valid g idx f Hg Hv) as (c & g' & H1 & H2 & H3 & _ & _ & _ & H4).
    exists c, g'. do 3 (split; [done|]).
    pose proof (setCell_wf _ _ _ _ Hg H2) as Hg'.
    pose proof (linr_bound _ _ Hv).
    split.
    + destruct (getCell_valid g' idx Hg') as (c' & E1 & E2); [by rewrite H3|].
      rewrite H3, H4, list_lookup_insert in E2 by lia. congruence.
    + intros idx' Hv' Hne. destruct (getCell_valid g' idx' Hg') as (c' & E1 & E2); [by rewrite H3|].
      destruct (getCell_valid g idx' Hg Hv') as (c'' & E3 & E4).
      pose proof (linr_bound _ _ Hv').
      rewrite H3, H4, list_lookup_insert_ne in E2; [congruence|].
      intros E. apply Hne. eapply linr_inj; eauto. lia.
  - intros k c Hk. pose proof (lookup_lt_Some _ _ _ Hk).
    destruct (linr_surj (g_n g) (Z.of_nat k) Hn ltac:(lia)) as (idx & Hv & E).
    exists idx. split; [done|].
    destruct (getCell_valid _ _ Hg Hv) as (c' & E1 & E2). rewrite E, Nat2Z.id in E2.
    split; [congruence|]. intros f g' HS.
    destruct (setCell_valid g idx f Hg Hv) as (c1 & g1 & ? & HS' & _ & _ & _ & _ & HC').
    rewrite HS in HS'. injection HS' as <-. rewrite HC', E, Nat2Z.id. congruence.
Qed.

Lemma zero_valid n : Forall (fun k => 1 <= k) n -> valid_index n (replicate (length n) 0).
Proof. induction 1; simpl; constructor; [lia|done]. Qed.
Lemma rk_zero n : rk n (replicate (length n) 0) = 0.
Proof. induction n; simpl; [done|]. rewrite IHn. lia. Qed.

Lemma walk_all (g : grid T C) : counts_positive o -> grid_reachable o c0 g ->
  exists l, NoDup l /\ (forall j, j ∈ l <-> valid_index (g_n g) j) /\
    forall fuel, (Z.to_nat (product (g_n g)) < fuel)%nat ->
      walk fuel g (replicate (length (g_n g)) 0) = Some l.
Proof.
  intros Hp Hr. pose proof (reachable_wf _ Hr) as Hg. pose proof (wf_counts _ Hp Hg) as Hn.
  destruct (walk_spec g ltac:(apply Hg) (S (Z.to_nat (prodZ (g_n g)))) (replicate (length (g_n g)) 0))
    as (l & H1 & H2 & H3); [by apply zero_valid|rewrite rk_zero; lia|].
  exists l. split; [done|]. split.
  - intros j. rewrite H3, rk_zero. split; [by intros [? _]|].
    intros Hj. split; [done|]. by apply rk_bound.
  - intros fuel Hf. eapply walk_mono; [|exact H1]. lia.
Qed.
End reach.
