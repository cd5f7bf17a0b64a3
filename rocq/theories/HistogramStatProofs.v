From Coq Require Import ZArith Lia Reals Lra.
From Flocq Require Import Core.Raux.
From stdpp Require Import prelude list.
From Verif Require Import Base GridModel Spec_Grid GridProofs GridCoordProofs HistogramModel
  Spec_Histogram HistogramProofs.
Local Open Scope R_scope.

Section reach.
Context {T : Type} (o : coord_ops T).
Definition nonneg (g : grid T R) : Prop := Forall (fun c => 0 <= c) (g_cells g).

Lemma hist_grid g : hist_reachable o g -> grid_reachable o 0 g.
Proof.
  induction 1 as [mn mx rs g H1 H2 H3 H|g p g' _ IH H|g _ IH].
  - exact (gr_new o 0 mn mx rs g H1 H2 H3 H).
  - unfold addSample in H. destruct (isInRange o g p); [|by injection H as <-].
    destruct (getIndex o g p) as [idx| | |]; try done. eapply gr_set; eauto.
  - by constructor.
Qed.

Lemma hist_nonneg g : hist_reachable o g -> nonneg g.
Proof.
  unfold nonneg. induction 1 as [mn mx rs g H1 H2 H3 H|g p g' _ IH H|g _ IH].
  - destruct (grid_new_wf o 0 _ _ _ _ H1 H2 H3 H) as (_ & _ & _ & _ & ->).
    apply Forall_forall. intros x Hx. apply elem_of_replicate in Hx as [-> _]. lra.
  - unfold addSample in H. destruct (isInRange o g p); [|by injection H as <-].
    destruct (getIndex o g p) as [idx| | |]; try done. unfold setCell in H.
    destruct (getCell g idx) as [c| | |] eqn:E; try done. injection H as <-. simpl.
    apply Forall_insert; [done|]. unfold getCell, vec_get in E.
    destruct (isValidIndex g idx); [|done]. destruct (decide _); [|done].
    destruct (g_cells g !! _) as [c'|] eqn:E'; [|done]. injection E as ->.
    rewrite Forall_lookup in IH. specialize (IH _ _ E'). simpl in IH. lra.
  - simpl. clear. induction (g_cells g); constructor; [lra|done].
Qed.
End reach.

(** * Sums *)
Lemma Rsum_app l m : Rsum (l ++ m) = Rsum l + Rsum m.
Proof. induction l as [|x l IH]; simpl; [lra|]. rewrite IH. lra. Qed.
Lemma Rsum_map_mul {A} (f : A -> R) c l : Rsum (map (fun x => f x * c) l) = Rsum (map f l) * c.
Proof. induction l as [|x l IH]; simpl; [lra|]. rewrite IH. lra. Qed.
Lemma Rsum_nonneg l : Forall (fun c => 0 <= c) l -> 0 <= Rsum l.
Proof. induction 1; simpl; lra. Qed.
Lemma bin_sum_le f h l : (forall i c, l !! i = Some c -> f i c <= h i c) -> bin_sum f l <= bin_sum h l.
Proof.
  unfold bin_sum. revert f h. induction l as [|c l IH]; intros f h H; simpl; [lra|].
  specialize (IH (f ∘ S) (h ∘ S) (fun i c Hc => H (S i) c Hc)).
  specialize (H 0%nat c eq_refl). lra.
Qed.
Lemma bin_sum_const k l : bin_sum (fun _ c => k * c) l = k * Rsum l.
Proof.
  unfold bin_sum. induction l as [|c l IH]; simpl; [lra|].
  change ((λ (_ : nat) (c0 : R), k * c0) ∘ S) with (λ (_ : nat) (c0 : R), k * c0).
  rewrite IH. lra.
Qed.

Lemma loop_body_sum (f : R -> list Z -> result R) (h : list Z -> R) l a :
  (forall a i, i ∈ l -> f a i = Ret (a + h i)) -> loop_body f a l = Ret (a + Rsum (map h l)).
Proof.
  revert a. induction l as [|i l IH]; intros a H; simpl; [f_equal; lra|].
  rewrite H by apply elem_of_list_here. simpl. rewrite IH.
  - f_equal. lra.
  - intros a' j Hj. apply H. by apply elem_of_list_further.
Qed.

Section any.
Context {T : Type} (o : coord_ops T) (toR : T -> R).

Lemma indices_all (g : grid T R) : counts_positive o -> grid_reachable o 0 g ->
  exists l, indices g = Some l /\ NoDup l /\ forall j, j ∈ l <-> valid_index (g_n g) j.
Proof.
  intros Hp Hr. destruct (walk_all o 0 g Hp Hr) as (l & H1 & H2 & H3).
  exists l. split; [|done]. unfold indices. apply H3.
  pose proof (reachable_wf _ _ _ Hr) as (_&_&_&_&_&->&_). lia.
Qed.

(** * One dimension *)
Lemma walk_1d (g : grid T R) n : g_n g = [n] -> forall k i fuel, (Z.of_nat i + Z.of_nat k = n)%Z -> (k < fuel)%nat ->
  walk fuel g [Z.of_nat i] = Some (map (fun j => [Z.of_nat j]) (seq i k)).
Proof.
  intros Hn. induction k as [|k IH]; intros i fuel Hi Hf; destruct fuel as [|fuel]; try lia; cbn [walk].
  - rewrite decide_True; [done|]. rewrite Hn. do 2 f_equal. lia.
  - rewrite decide_False by (rewrite Hn; intros [= ?]; lia).
    assert (incrementIndex g [Z.of_nat i] = [Z.of_nat (S i)]) as ->.
    { unfold incrementIndex. rewrite Hn. simpl. destruct (Z.ltb_spec (Z.of_nat i + 1) n).
      - simpl. do 2 f_equal. lia.
      - simpl. f_equal. lia. }
    rewrite (IH (S i)) by lia. done.
Qed.

Lemma indices_1d (g : grid T R) n : gwf o g -> g_n g = [n] -> (1 <= n)%Z ->
  indices g = Some (map (fun j => [Z.of_nat j]) (seq 0 (length (g_cells g)))).
Proof.
  intros (_&_&_&_&_&Ht&HC&_) Hn Hp. unfold indices.
  rewrite HC, Ht, Hn. replace (product [n]) with n by (unfold product; simpl; lia).
  exact (walk_1d g n Hn (Z.to_nat n) 0%nat (S (Z.to_nat n)) ltac:(lia) ltac:(lia)).
Qed.

Lemma cell_1d (g : grid T R) n i c : gwf o g -> g_n g = [n] -> g_cells g !! i = Some c ->
  getCell g [Z.of_nat i] = Ret c.
Proof.
  intros Hw Hn Hc. pose proof (lookup_lt_Some _ _ _ Hc) as HL.
  assert (valid_index (g_n g) [Z.of_nat i]) as Hv.
  { destruct Hw as (_&_&_&_&_&_&HC&_). rewrite HC, Hn in HL. simpl in HL. rewrite Hn.
    repeat constructor; lia. }
  destruct (getCell_valid o g _ Hw Hv) as (c' & -> & Hc'). rewrite Hn in Hc'. simpl in Hc'.
  replace (Z.to_nat (Z.of_nat i * 1 + 0)) with i in Hc' by lia. congruence.
Qed.

Definition centre (a : T) (r : T) (i : nat) : R := toR (c_centre o a (Z.of_nat i) r).

Lemma coord0_1d (g : grid T R) n a r i : gwf o g -> g_n g = [n] -> g_min g = [a] -> g_res g = [r] ->
  (i < length (g_cells g))%nat -> coord0 o toR g [Z.of_nat i] = Ret (centre a r i).
Proof.
  intros Hw Hn Ha Hr HL. unfold coord0, getCoordinates. rewrite isValid_valid.
  - rewrite Ha, Hr. done.
  - destruct Hw as (_&_&_&_&_&_&HC&_). rewrite HC, Hn in HL. simpl in HL. rewrite Hn.
    repeat constructor; lia.
Qed.

Lemma map_seq_imap (F : list Z -> R) (f : nat -> R -> R) l :
  (forall i c, l !! i = Some c -> F [Z.of_nat i] = f i c) ->
  map F (map (fun j => [Z.of_nat j]) (seq 0 (length l))) = imap f l.
Proof.
  intros H. rewrite map_map. apply list_eq. intros i.
  change (map ?f ?l) with (f <$> l). rewrite list_lookup_fmap, list_lookup_imap.
  destruct (l !! i) as [c|] eqn:E.
  - rewrite lookup_seq_lt by by apply lookup_lt_Some in E. simpl. by rewrite (H i c).
  - rewrite lookup_seq_ge by by apply lookup_ge_None in E. done.
Qed.

Lemma each_1d (g : grid T R) n (F : R -> list Z -> result R) (f : nat -> R -> R) :
  gwf o g -> g_n g = [n] -> (1 <= n)%Z ->
  (forall v i c, g_cells g !! i = Some c -> F v [Z.of_nat i] = Ret (v + f i c)) ->
  for_each g F 0 = Ret (bin_sum f (g_cells g)).
Proof.
  intros Hw Hn Hp HF. unfold for_each. rewrite (indices_1d g n) by done.
  rewrite (loop_body_sum _ (fun i => match i with
     | [z] => match g_cells g !! Z.to_nat z with Some c => f (Z.to_nat z) c | None => 0 end
     | _ => 0 end)).
  - f_equal. unfold bin_sum. rewrite Rplus_0_l. f_equal. apply map_seq_imap.
    intros i c Hc. rewrite Nat2Z.id, Hc. done.
  - intros v i Hi. apply elem_of_list_In, in_map_iff in Hi as (j & <- & Hj).
    apply in_seq in Hj. destruct (lookup_lt_is_Some_2 (g_cells g) j) as [c Hc]; [lia|].
    rewrite (HF v j c Hc), Nat2Z.id, Hc. done.
Qed.

Context (g : grid T R) (n : Z) (a r : T).
Hypothesis (Hw : gwf o g) (Hn : g_n g = [n]) (Hp : (1 <= n)%Z) (Ha : g_min g = [a]) (Hres : g_res g = [r]).

Lemma mean_1d : getMean1 o toR g =
  Ret (bin_sum (fun i c => centre a r i * c) (g_cells g) / Rsum (g_cells g)).
Proof.
  unfold getMean1. rewrite (each_1d g n _ (fun i c => centre a r i * c)); [|done..|].
  - simpl. rewrite getSum_Rsum. done.
  - intros v i c Hc. rewrite (coord0_1d g n a r i) by (done || by apply lookup_lt_Some in Hc).
    simpl. rewrite (cell_1d g n i c) by done. done.
Qed.

Lemma variance_1d mean : getMean1 o toR g = Ret mean ->
  getVariance1 o toR g =
  Ret (bin_sum (fun i c => (centre a r i - mean) * (centre a r i - mean) * c) (g_cells g)
       / (Rsum (g_cells g) - 1)).
Proof.
  intros Hm. unfold getVariance1. rewrite Hm. cbn [rbind].
  rewrite (each_1d g n _ (fun i c => (centre a r i - mean) * (centre a r i - mean) * c)); [|done..|].
  - simpl. rewrite getSum_Rsum. done.
  - intros v i c Hc. rewrite (coord0_1d g n a r i) by (done || by apply lookup_lt_Some in Hc).
    simpl. rewrite (cell_1d g n i c) by done. done.
Qed.

Lemma take_S_sum l i c : l !! i = Some c -> Rsum (take (S i) l) = Rsum (take i l) + c.
Proof. intros H. rewrite (take_S_r _ _ c) by done. rewrite Rsum_app. simpl. lra. Qed.

Lemma median_loop_1d sum k i : (i + k = length (g_cells g))%nat ->
  Rsum (take i (g_cells g)) < sum / 2 -> sum / 2 <= Rsum (g_cells g) ->
  exists j, (i <= j < length (g_cells g))%nat /\
    median_loop o toR g sum (Rsum (take i (g_cells g))) (map (fun j => [Z.of_nat j]) (seq i k)) =
      Ret (centre a r j) /\
    Rsum (take j (g_cells g)) < sum / 2 <= Rsum (take (S j) (g_cells g)).
Proof.
  revert i. induction k as [|k IH]; intros i Hik Hlt Hle.
  - exfalso. replace i with (length (g_cells g)) in Hlt by lia. rewrite firstn_all in Hlt. lra.
  - destruct (lookup_lt_is_Some_2 (g_cells g) i) as [c Hc]; [lia|].
    cbn [seq map median_loop]. rewrite (cell_1d g n i c) by done. cbn [rbind].
    pose proof (take_S_sum _ _ _ Hc) as ES. rewrite <- ES.
    destruct (Rle_dec (sum * / 2) (Rsum (take (S i) (g_cells g)))) as [H|H].
    + exists i. split; [lia|]. rewrite (coord0_1d g n a r i) by (done || lia).
      split; [done|]. lra.
    + destruct (IH (S i)) as (j & Hj & E & HS); [lia|lra|done|].
      exists j. split; [lia|]. split; done.
Qed.

Lemma median_1d : 0 < Rsum (g_cells g) -> exists j, (j < length (g_cells g))%nat /\
  getMedian1 o toR g = Ret (centre a r j) /\
  Rsum (take j (g_cells g)) < Rsum (g_cells g) / 2 <= Rsum (take (S j) (g_cells g)).
Proof.
  intros Hs. unfold getMedian1. rewrite (indices_1d g n) by done. rewrite getSum_Rsum.
  destruct (median_loop_1d (Rsum (g_cells g)) (length (g_cells g)) 0) as (j & Hj & E & HS).
  - lia.
  - simpl. lra.
  - lra.
  - simpl in E. exists j. split; [lia|]. split; done.
Qed.

Lemma mode_loop (cells : list R) (L : list (list Z)) (val : list Z -> R) best :
  (forall i, i ∈ L -> getCell g i = Ret (val i)) ->
  exists b, loop_body (fun best i =>
    rbind (getCell g i) (fun c =>
      match best with
      | None => Ret (Some (c, i))
      | Some (m, _) => if Rlt_dec m c then Ret (Some (c, i)) else Ret best
      end)) best L = Ret b /\
    match b with
    | None => best = None /\ L = []
    | Some (m, i) =>
        (best = Some (m, i) \/ (i ∈ L /\ m = val i)) /\
        (forall m' i', best = Some (m', i') -> m' <= m) /\
        (forall j, j ∈ L -> val j <= m) /\
        (forall pre post, L = pre ++ i :: post -> best <> Some (m, i) -> i ∉ pre ->
           (forall j, j ∈ pre -> val j < m) /\ forall m' i', best = Some (m', i') -> m' < m)
    end.
Proof.
  clear -g. revert best. induction L as [|x L IH]; intros best Hval; cbn [loop_body].
  - exists best. split; [done|]. destruct best as [[m i]|]; [|done].
    split; [by left|]. split; [intros ? ? [= <- <-]; lra|]. split.
    + intros j Hj. by apply elem_of_nil in Hj.
    + intros pre post E. by destruct pre.
  - rewrite (Hval x) by apply elem_of_list_here. cbn [rbind].
    assert (forall i, i ∈ L -> getCell g i = Ret (val i)) as Hval'.
    { intros i Hi. apply Hval. by apply elem_of_list_further. }
    set (best' := match best with None => Some (val x, x)
        | Some (m, _) => if Rlt_dec m (val x) then Some (val x, x) else best end).
    destruct (IH best' Hval') as (b & Hb & HP).
    exists b. split.
    { unfold best' in Hb. destruct best as [[m i]|]; [|exact Hb]. destruct (Rlt_dec m (val x)); exact Hb. }
    destruct b as [[m i]|].
    2:{ exfalso. destruct HP as [HP _]. unfold best' in HP. destruct best as [[m i]|]; [|done].
        destruct (Rlt_dec m (val x)); done. }
    destruct HP as (H1 & H2 & H3 & H4).
    assert (val x <= m) as Hx.
    { unfold best' in H2. destruct best as [[m0 i0]|].
      - destruct (Rlt_dec m0 (val x)); [exact (H2 _ _ eq_refl)|].
        specialize (H2 _ _ eq_refl). lra.
      - exact (H2 _ _ eq_refl). }
    split; [|split; [|split]].
    + destruct H1 as [H1|[H1 ->]].
      * unfold best' in H1. destruct best as [[m0 i0]|].
        -- destruct (Rlt_dec m0 (val x)); [|by left].
           injection H1 as <- <-. right. split; [apply elem_of_list_here|done].
        -- injection H1 as <- <-. right. split; [apply elem_of_list_here|done].
      * right. split; [by apply elem_of_list_further|done].
    + intros m' i' E. unfold best' in H2. rewrite E in H2. destruct (Rlt_dec m' (val x)).
      * lra.
      * exact (H2 _ _ eq_refl).
    + intros j Hj. apply elem_of_cons in Hj as [->|Hj]; auto.
    + intros pre post E Hne Hni. destruct pre as [|y pre].
      * injection E as <- <-. split; [intros j Hj; by apply elem_of_nil in Hj|].
        intros m' i' EB.
        destruct H1 as [H1|[H1 HE]].
        -- unfold best' in H1. rewrite EB in H1. destruct (Rlt_dec m' (val x)).
           ++ injection H1 as <-. done.
           ++ exfalso. apply Hne. rewrite EB. done.
        -- (* x occurs again later; its value is the same, so the first one was taken *)
           subst m. unfold best' in *. rewrite EB in *. destruct (Rlt_dec m' (val x)) as [|Hn']; [done|].
           exfalso. specialize (H2 _ _ eq_refl).
           assert (m' = val x) by lra. subst m'.
           apply elem_of_list_split in H1 as H1'.
           destruct (decide (x = i')) as [->|Hxi]; [by apply Hne|].
           destruct (elem_of_list_split_l _ _ H1) as (l1 & l2 & EL & Hl1).
           assert (Some (val x, i') <> Some (val x, x)) as HN by congruence.
           destruct (H4 l1 l2 EL HN Hl1) as [_ HH]. specialize (HH _ _ eq_refl). lra.
      * injection E as -> E. apply not_elem_of_cons in Hni as [Hny Hni].
        assert (best' <> Some (m, i)) as HN.
        { unfold best'. destruct best as [[m0 i0]|].
          - destruct (Rlt_dec m0 (val y)); [congruence|done].
          - congruence. }
        destruct (H4 pre post E HN Hni) as [K1 K2].
        assert (val y < m /\ forall m' i', best = Some (m', i') -> m' < m) as [K3 K4].
        { unfold best' in K2. destruct best as [[m0 i0]|].
          - destruct (Rlt_dec m0 (val y)) as [Hlt|Hge].
            + specialize (K2 _ _ eq_refl). split; [done|]. intros ? ? [= <- <-]. lra.
            + specialize (K2 _ _ eq_refl). split; [lra|]. intros ? ? [= <- <-]. done.
          - specialize (K2 _ _ eq_refl). split; [done|]. done. }
        split; [|done]. intros j Hj. apply elem_of_cons in Hj as [->|Hj]; auto.
Qed.
End any.

Section modes.
Context {T : Type} (o : coord_ops T) (toR : T -> R).

Definition cell_val (g : grid T R) (i : list Z) : R :=
  match getCell g i with Ret c => c | _ => 0 end.

Lemma cell_val_eq g i c : getCell g i = Ret c -> cell_val g i = c.
Proof. unfold cell_val. by intros ->. Qed.

Lemma mode_index_spec (g : grid T R) l : gwf o g -> l <> [] -> indices g = Some l ->
  (forall i, i ∈ l -> valid_index (g_n g) i) -> NoDup l ->
  exists i, mode_index g = Ret (Some (cell_val g i, i)) /\ i ∈ l /\
    (forall j, j ∈ l -> cell_val g j <= cell_val g i) /\
    (forall pre post, l = pre ++ i :: post -> forall j, j ∈ pre -> cell_val g j < cell_val g i).
Proof.
  intros Hw Hne Hi Hv Hnd. unfold mode_index, for_each. rewrite Hi.
  destruct (mode_loop (T:=T) g [] l (cell_val g) None) as (b & -> & HP).
  { intros i H. destruct (getCell_valid o g i Hw (Hv i H)) as (c & E & _). 
    rewrite E. f_equal. symmetry. by apply cell_val_eq. }
  destruct b as [[m i]|]; [|by destruct HP].
  destruct HP as (H1 & H2 & H3 & H4). destruct H1 as [H1|[H1 ->]]; [done|].
  exists i. split; [done|]. split; [done|]. split; [done|].
  intros pre post E j Hj. apply (H4 pre post E); [done| |done].
  rewrite E in Hnd. apply NoDup_app in Hnd as (_ & Hnd & _).
  intros Hin. apply (Hnd i Hin), elem_of_list_here.
Qed.

Lemma mode_1d (g : grid T R) n a r : gwf o g -> g_n g = [n] -> (1 <= n)%Z -> g_min g = [a] -> g_res g = [r] ->
  exists j c, g_cells g !! j = Some c /\ getMode1 o toR g = Ret (centre o toR a r j) /\
    (forall k c', g_cells g !! k = Some c' -> c' <= c /\ ((k < j)%nat -> c' < c)).
Proof.
  intros Hw Hn Hp Ha Hr. pose proof (indices_1d o g n Hw Hn Hp) as Hi.
  set (l := map _ _) in Hi.
  assert (0 < length (g_cells g))%nat as HL.
  { destruct Hw as (_&_&_&_&_&_&->&_). rewrite Hn. simpl. lia. }
  assert (forall i, i ∈ l -> exists j c, i = [Z.of_nat j] /\ g_cells g !! j = Some c /\
    getCell g i = Ret c /\ valid_index (g_n g) i) as Hl.
  { intros i H. apply elem_of_list_In, in_map_iff in H as (j & <- & Hj). apply in_seq in Hj.
    destruct (lookup_lt_is_Some_2 (g_cells g) j) as [c Hc]; [lia|].
    exists j, c. do 2 (split; [done|]). split; [by eapply cell_1d|].
    destruct Hw as (_&_&_&_&_&_&HC&_). rewrite HC, Hn in Hj. simpl in Hj. rewrite Hn.
    repeat constructor; lia. }
  destruct (mode_index_spec g l Hw) as (i & E & Hin & Hmax & Hfirst).
  { unfold l. destruct (g_cells g); [simpl in HL; lia|done]. }
  { done. }
  { intros i H. by destruct (Hl i H) as (? & ? & _ & _ & _ & ?). }
  { unfold l. apply NoDup_ListNoDup, FinFun.Injective_map_NoDup; [|apply seq_NoDup].
    intros x y [= H]. lia. }
  destruct (Hl i Hin) as (j & c & -> & Hc & Hg & _).
  rewrite (cell_val_eq _ _ _ Hg) in *.
  exists j, c. split; [done|]. split.
  - unfold getMode1. rewrite E. cbn [rbind]. eapply coord0_1d; try done. by apply lookup_lt_Some in Hc.
  - intros k c' Hc'.
    assert ([Z.of_nat k] ∈ l) as Hk.
    { apply elem_of_list_In, in_map_iff. exists k. split; [done|]. apply in_seq.
      apply lookup_lt_Some in Hc'. lia. }
    assert (getCell g [Z.of_nat k] = Ret c') as Hg' by by eapply cell_1d.
    rewrite <- (cell_val_eq _ _ _ Hg'). split; [by apply Hmax|]. intros Hkj.
    apply (Hfirst (map (fun j => [Z.of_nat j]) (seq 0 j))
                  (map (fun j => [Z.of_nat j]) (seq (S j) (length (g_cells g) - S j)))).
    + unfold l. pose proof (lookup_lt_Some _ _ _ Hc) as Hj.
      replace (length (g_cells g)) with (j + S (length (g_cells g) - S j))%nat at 1 by lia.
      rewrite seq_app, map_app. done.
    + apply elem_of_list_In, in_map_iff. exists k. split; [done|]. apply in_seq. lia.
Qed.

(** * Several dimensions *)
Lemma mode_M (g : grid T R) : counts_positive o -> grid_reachable o 0 g ->
  exists idx c p, valid_index (g_n g) idx /\ getCell g idx = Ret c /\
    getCoordinates o g idx = Ret p /\ getModeM o g = Ret p /\
    forall idx' c', valid_index (g_n g) idx' -> getCell g idx' = Ret c' -> c' <= c.
Proof.
  intros Hp Hr. destruct (indices_all o g Hp Hr) as (l & Hi & Hnd & Hl).
  pose proof (reachable_wf _ _ _ Hr) as Hw. pose proof (wf_counts _ _ Hp Hw) as Hpos.
  destruct (mode_index_spec g l Hw) as (i & E & Hin & Hmax & _); try done.
  { intros ->. pose proof (proj2 (Hl _) (zero_valid _ Hpos)) as H. by apply elem_of_nil in H. }
  { intros i H. by apply Hl. }
  apply Hl in Hin as Hv. destruct (getCell_valid o g i Hw Hv) as (c & Hc & _).
  exists i, c. unfold getModeM. rewrite E. cbn [rbind]. unfold getCoordinates.
  rewrite isValid_valid by done. eexists. do 4 (split; [done|]).
  intros i' c' Hv' Hc'. rewrite <- (cell_val_eq _ _ _ Hc), <- (cell_val_eq _ _ _ Hc').
  apply Hmax. by apply Hl.
Qed.

(** the contribution of component [k] of the centre of cell [i] *)
Definition comp (g : grid T R) (k : nat) (i : list Z) : R :=
  match getCoordinates o g i with
  | Ret p => match p !! k with Some x => toR x | None => 0 end
  | _ => 0
  end.

Lemma vadd_len a b : length a = length b -> length (vadd a b) = length a.
Proof. intros H. unfold vadd. rewrite zip_with_length. lia. Qed.

Lemma mean_loop (g : grid T R) l m0 : gwf o g -> (forall i, i ∈ l -> valid_index (g_n g) i) ->
  length m0 = length (g_n g) ->
  exists m, loop_body (fun m i => rbind (getCoordinates o g i) (fun p => rbind (getCell g i)
           (fun c => Ret (vadd m (vscale c (map toR p)))))) m0 l = Ret m /\ length m = length (g_n g) /\
    forall k x, m0 !! k = Some x ->
      m !! k = Some (x + Rsum (map (fun i => comp g k i * cell_val g i) l)).
Proof.
  intros Hw. revert m0. induction l as [|i l IH]; intros m0 Hv HL.
  - exists m0. split; [done|]. split; [done|]. intros k x Hx. simpl. rewrite Hx. f_equal. lra.
  - cbn [loop_body]. assert (valid_index (g_n g) i) as Hvi by (apply Hv, elem_of_list_here).
    destruct (getCell_valid o g i Hw Hvi) as (c & Hc & _).
    assert (exists p, getCoordinates o g i = Ret p /\ length p = length (g_n g)) as (p & Ep & Hp).
    { unfold getCoordinates. rewrite isValid_valid by done. eexists. split; [done|].
      pose proof (Forall2_length _ _ _ Hvi). destruct Hw as (_&L1&L2&L3&_).
      destruct (centre_loop_lookup o (g_min g) (g_res g) i) as [-> _]; lia. }
    rewrite Ep, Hc. cbn [rbind].
    assert (length (vadd m0 (vscale c (map toR p))) = length (g_n g)) as HL'.
    { rewrite vadd_len; [done|]. unfold vscale. rewrite !map_length. lia. }
    destruct (IH (vadd m0 (vscale c (map toR p)))) as (m & E & Hm & Hk); [|done|].
    { intros j Hj. apply Hv. by apply elem_of_list_further. }
    exists m. split; [done|]. split; [done|]. intros k x Hx.
    destruct (lookup_both m0 p k x ltac:(lia) Hx) as [y Hy].
    rewrite (Hk k (x + toR y * c)).
    + cbn [map Rsum fold_right]. f_equal.
      assert (comp g k i = toR y) as -> by (unfold comp; rewrite Ep, Hy; done).
      rewrite (cell_val_eq _ _ _ Hc). unfold Rsum. lra.
    + unfold vadd, vscale. rewrite lookup_zip_with, Hx. simpl.
      change (map ?f (map ?h p)) with (f <$> (h <$> p)).
      rewrite !list_lookup_fmap, Hy. done.
Qed.

Lemma mean_M (g : grid T R) : counts_positive o -> grid_reachable o 0 g ->
  exists bins mean, NoDup bins /\ (forall idx, idx ∈ bins <-> valid_index (g_n g) idx) /\
    getMeanM o toR g = Ret mean /\ length mean = length (g_n g) /\
    forall k x, mean !! k = Some x ->
      x = Rsum (map (fun i => comp g k i * cell_val g i) bins) / Rsum (g_cells g).
Proof.
  intros Hp Hr. destruct (indices_all o g Hp Hr) as (l & Hi & Hnd & Hl).
  pose proof (reachable_wf _ _ _ Hr) as Hw.
  exists l. unfold getMeanM, for_each. rewrite Hi.
  destruct (mean_loop g l (replicate (length (g_n g)) 0) Hw) as (m & -> & Hm & Hk).
  { intros i H. by apply Hl. }
  { apply replicate_length. }
  cbn [rbind]. eexists. do 3 (split; [done|]). split; [by rewrite map_length|].
  intros k x Hx. change (map ?f m) with (f <$> m) in Hx. rewrite list_lookup_fmap in Hx.
  destruct (m !! k) as [y|] eqn:Ey; [|done]. simpl in Hx. injection Hx as <-.
  rewrite getSum_Rsum. f_equal.
  assert (replicate (length (g_n g)) 0 !! k = Some 0) as H0.
  { apply lookup_replicate. split; [done|]. apply lookup_lt_Some in Ey. lia. }
  rewrite (Hk k 0 H0) in Ey. injection Ey as <-. lra.
Qed.

Lemma covariance_M (g : grid T R) a b : counts_positive o -> grid_reachable o 0 g ->
  (a < length (g_n g))%nat -> (b < length (g_n g))%nat ->
  exists bins mean ma mb, NoDup bins /\ (forall idx, idx ∈ bins <-> valid_index (g_n g) idx) /\
    getMeanM o toR g = Ret mean /\ mean !! a = Some ma /\ mean !! b = Some mb /\
    getCovarianceM o toR g a b =
      Ret (Rsum (map (fun i => (comp g a i - ma) * (comp g b i - mb) * cell_val g i) bins)
           / (Rsum (g_cells g) - 1)).
Proof.
  intros Hp Hr HA HB. destruct (mean_M g Hp Hr) as (_ & mean & _ & _ & Em & Lm & _).
  destruct (indices_all o g Hp Hr) as (l & Hi & Hnd & Hl).
  pose proof (reachable_wf _ _ _ Hr) as Hw.
  destruct (lookup_lt_is_Some_2 mean a) as [ma Hma]; [lia|].
  destruct (lookup_lt_is_Some_2 mean b) as [mb Hmb]; [lia|].
  exists l, mean, ma, mb. do 5 (split; [done|]).
  unfold getCovarianceM. rewrite Em. cbn [rbind]. unfold for_each. rewrite Hi.
  rewrite (loop_body_sum _ (fun i => (comp g a i - ma) * (comp g b i - mb) * cell_val g i)).
  - cbn [rbind]. rewrite getSum_Rsum. f_equal. f_equal. lra.
  - intros v i Hin. apply Hl in Hin as Hvi.
    destruct (getCell_valid o g i Hw Hvi) as (c & Hc & _).
    assert (exists p, getCoordinates o g i = Ret p /\ length p = length (g_n g)) as (p & Ep & Hlp).
    { unfold getCoordinates. rewrite isValid_valid by done. eexists. split; [done|].
      pose proof (Forall2_length _ _ _ Hvi). destruct Hw as (_&L1&L2&L3&_).
      destruct (centre_loop_lookup o (g_min g) (g_res g) i) as [-> _]; lia. }
    rewrite Ep, Hc. cbn [rbind].
    destruct (lookup_lt_is_Some_2 p a) as [x Hx]; [lia|].
    destruct (lookup_lt_is_Some_2 p b) as [y Hy]; [lia|].
    change (map toR p) with (toR <$> p). rewrite !list_lookup_fmap, Hx, Hy, Hma, Hmb. simpl.
    unfold comp. rewrite Ep, Hx, Hy, (cell_val_eq _ _ _ Hc). done.
Qed.

(** * Normalisation *)
Lemma normalized_sum (g : grid T R) : getSum g <> 0 -> getSum (getNormalized g) = 1.
Proof.
  rewrite !getSum_Rsum. intros H. unfold getNormalized. cbn [g_cells].
  rewrite getSum_Rsum. unfold Rdiv.
  rewrite (Rsum_map_mul (fun c => c)), map_id. by apply Rinv_r.
Qed.
Lemma normalized_cells (g : grid T R) idx c : getCell g idx = Ret c ->
  getCell (getNormalized g) idx = Ret (c / getSum g).
Proof.
  unfold getCell, isValidIndex, linear. cbn. destruct (all2 _ _ _); [|done].
  unfold vec_get. destruct (decide _); [|done]. change (map ?f ?l) with (f <$> l).
  rewrite list_lookup_fmap. destruct (_ !! _); [|done]. simpl. by intros [= ->].
Qed.
End modes.

(** * The mean lies among the centres *)
Lemma mean_bounds lo hi (f : nat -> R) (l : list R) :
  Forall (fun c => 0 <= c) l -> 0 < Rsum l ->
  (forall i, (i < length l)%nat -> lo <= f i <= hi) ->
  lo <= bin_sum (fun i c => f i * c) l / Rsum l <= hi.
Proof.
  intros HN HS Hf.
  assert (lo * Rsum l <= bin_sum (fun i c => f i * c) l) as H1.
  { rewrite <- bin_sum_const. apply bin_sum_le. intros i c Hc.
    rewrite Forall_lookup in HN. specialize (HN i c Hc). apply lookup_lt_Some in Hc.
    specialize (Hf i Hc). simpl in HN. nra. }
  assert (bin_sum (fun i c => f i * c) l <= hi * Rsum l) as H2.
  { rewrite <- bin_sum_const. apply bin_sum_le. intros i c Hc.
    rewrite Forall_lookup in HN. specialize (HN i c Hc). apply lookup_lt_Some in Hc.
    specialize (Hf i Hc). simpl in HN. nra. }
  split.
  - apply Rmult_le_reg_r with (Rsum l); [done|]. unfold Rdiv. rewrite Rmult_assoc, Rinv_l; lra.
  - apply Rmult_le_reg_r with (Rsum l); [done|]. unfold Rdiv. rewrite Rmult_assoc, Rinv_l; lra.
Qed.
