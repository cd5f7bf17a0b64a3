(** C31, C32: [Histogram<T, 1>] and [Histogram<T, M>] (statistics/Histogram1v.tpp,
    HistogramMv.tpp).  Statements only. *)
From Coq Require Import ZArith Lia Reals Lra.
From stdpp Require Import prelude list.
From Verif Require Import Base GridModel Spec_Grid GridProofs GridCoordProofs GridDoubleProofs
  HistogramModel Spec_Histogram HistogramProofs HistogramStatProofs Properties_Grid.
Local Open Scope R_scope.

(** C31, real samples (exact arithmetic): from a fresh histogram, adding any list of samples
    returns; each bin holds the number of samples lying in it, [getSum] the number of samples
    inside the range, and any reordering of the samples gives the same histogram. *)
Theorem histogram_counts_real :
  forall mn mx rs g samples,
    length mn = length rs -> length mx = length rs -> rs <> [] ->
    hist_new (real_ops exact) mn mx rs = Ret g ->
    Forall (fun p => length p = length rs) samples ->
    exists g', addSamples (real_ops exact) g samples = (g', Ret tt) /\ g_n g' = g_n g /\
      (forall idx, valid_index (g_n g) idx ->
         exists m, counts (in_bin g idx) samples m /\ getCell g' idx = Ret (INR m)) /\
      (exists m, counts (inside g) samples m /\ getSum g' = INR m) /\
      (forall samples', samples' ≡ₚ samples ->
         addSamples (real_ops exact) g samples' = (g', Ret tt)).
Proof. exact hist_counts_real. Qed.
Print Assumptions histogram_counts_real.

(** C31, integral samples. *)
Theorem histogram_counts_int :
  forall mn mx rs g samples,
    length mn = length rs -> length mx = length rs -> rs <> [] ->
    hist_new int_ops mn mx rs = Ret g ->
    Forall (fun p => length p = length rs) samples ->
    exists g', addSamples int_ops g samples = (g', Ret tt) /\ g_n g' = g_n g /\
      (forall idx, valid_index (g_n g) idx ->
         exists m, counts (in_bin_int g idx) samples m /\ getCell g' idx = Ret (INR m)) /\
      (exists m, counts (inside_int g) samples m /\ getSum g' = INR m) /\
      (forall samples', samples' ≡ₚ samples -> addSamples int_ops g samples' = (g', Ret tt)).
Proof. exact hist_counts_int. Qed.
Print Assumptions histogram_counts_int.

(** [counts] has exactly one answer. *)
Theorem histogram_count_unique :
  forall (A : Type) (P : A -> Prop) l m m', counts P l m -> counts P l m' -> m = m'.
Proof. exact @counts_det. Qed.

Example histogram_counts_case :
  exists g, hist_new int_ops [0%Z] [10%Z] [2%Z] = Ret g /\ valid_index (g_n g) [1%Z] /\
    Forall (fun p => length p = 1%nat) [[3%Z]; [7%Z]; [2%Z]; [10%Z]; [11%Z]] /\
    counts (in_bin_int g [1%Z]) [[3%Z]; [7%Z]; [2%Z]; [10%Z]; [11%Z]] 2 /\
    getCell (fst (addSamples int_ops g [[3%Z]; [7%Z]; [2%Z]; [10%Z]; [11%Z]])) [1%Z] =
      Ret (0 + 1 + 1).
Proof.
  eexists. split; [reflexivity|]. split; [repeat constructor; simpl; lia|].
  split; [repeat constructor|]. split; [|reflexivity].
  assert (forall g' x, g_min g' = [0%Z] -> g_max g' = [10%Z] -> g_res g' = [2%Z] ->
    in_bin_int g' [1%Z] [x] <-> (2 <= x < 4)%Z) as H.
  { intros g' x E1 E2 E3. unfold in_bin_int, inside_int. rewrite E1, E2, E3. split.
    - intros [_ H]. specialize (H 0%nat _ _ _ _ eq_refl eq_refl eq_refl eq_refl). lia.
    - intros Hx. split; [split; repeat constructor; lia|].
      intros [|k] a r y i; simpl; [intros [= <-] [= <-] [= <-] [= <-]; lia|by rewrite lookup_nil]. }
  apply counts_yes; [apply H; (done || lia)|]. apply counts_no; [rewrite H; (done || lia)|].
  apply counts_yes; [apply H; (done || lia)|]. apply counts_no; [rewrite H; (done || lia)|].
  apply counts_no; [rewrite H; (done || lia)|]. constructor.
Qed.

(** C31 with IEEE doubles (violated): [addSample] of an in-range sample can throw
    [OutOfBoundException] (the grid of [grid_point_to_cell_double_refuted]). *)
Definition fh : result (grid double R) := hist_new double_ops fx_min fx_max fx_res.
Theorem histogram_in_range_sample_double_refuted :
  exists (g : grid double R) (p : list double),
    hist_reachable double_ops g /\ isInRange double_ops g p = true /\
    snd (addSample double_ops g p) = Throw OutOfBound.
Proof.
  assert (K : forall r, fh = r ->
    match r with
    | Ret g => isInRange double_ops g [double_of_Z 0 0] = true /\
               getIndex double_ops g [double_of_Z 0 0] = Ret [2%Z] /\ g_n g = [2%Z]
    | _ => False end -> exists (g : grid double R) (p : list double),
    hist_reachable double_ops g /\ isInRange double_ops g p = true /\
    snd (addSample double_ops g p) = Throw OutOfBound).
  { intros [g| | |] E H; [|destruct H..]. destruct H as (H1 & H2 & H3).
    exists g, [double_of_Z 0 0]. split; [|split].
    - assert (fx_res <> []) as Hne by (intros X; discriminate X).
      exact (hr_new double_ops fx_min fx_max fx_res g eq_refl eq_refl Hne E).
    - exact H1.
    - unfold addSample. rewrite H1, H2. unfold setCell, getCell, isValidIndex. rewrite H3.
      reflexivity. }
  apply (K fh eq_refl). split; [|split]; vm_compute; reflexivity.
Qed.
Print Assumptions histogram_in_range_sample_double_refuted.

(** C31 with IEEE doubles, what holds: in any history [addSample] returns or throws
    [OutOfBoundException] without changing anything; a normal return adds one to one bin or,
    for a sample outside the range (or NaN), changes nothing. *)
Theorem histogram_add_double :
  forall (g : grid double R) (p : list double),
    hist_reachable double_ops g -> length p = length (g_min g) ->
    (isInRange double_ops g p = false /\ addSample double_ops g p = (g, Ret tt)) \/
    (isInRange double_ops g p = true /\ addSample double_ops g p = (g, Throw OutOfBound)) \/
    (isInRange double_ops g p = true /\ exists idx c g',
       valid_index (g_n g) idx /\ getCell g idx = Ret c /\
       addSample double_ops g p = (g', Ret tt) /\ getCell g' idx = Ret (c + 1) /\
       forall idx', valid_index (g_n g) idx' -> idx' <> idx -> getCell g' idx' = getCell g idx').
Proof.
  intros g p Hr HL. apply hist_grid in Hr as Hg.
  unfold addSample. destruct (double_index 0 g p Hg HL) as [[-> _]|(HI & idx & E & HF)]; [by left|].
  right. rewrite HI, E.
  destruct (isValidIndex g idx) eqn:Ev.
  - right. split; [done|].
    assert (valid_index (g_n g) idx) as Hv.
    { unfold isValidIndex in Ev. apply all2_ltb_iff in Ev; [|by apply Forall2_length in HF].
      unfold valid_index. clear -HF Ev. revert Ev. induction HF; [constructor|].
      inversion 1; subst. constructor; [lia|auto]. }
    destruct (cells_one_to_one double_ops 0 g double_counts_positive Hg) as (_ & _ & H & _).
    destruct (H idx (fun c => c + 1) Hv) as (c & g' & H1 & H2 & _ & H3 & H4).
    exists idx, c, g'. auto.
  - left. split; [done|]. unfold setCell, getCell. rewrite Ev. done.
Qed.
Print Assumptions histogram_add_double.

(** C32, one dimension.  In every reachable histogram with at least one counted sample:
    the mean is the count-weighted average of the bin centres and lies between the first and the
    last centre; the variance is the unbiased weighted one; the mode is the centre of the first
    bin with the largest count; the median is the centre of the bin at which the running count
    reaches half of the samples. *)
Theorem histogram_statistics_real :
  forall (g : grid R R) a b r,
    hist_reachable (real_ops exact) g -> g_min g = [a] -> g_max g = [b] -> g_res g = [r] ->
    let bins := g_cells g in
    let centre i := a + (INR i + 1 / 2) * r in
    0 < getSum g ->
    exists mean,
      getMean1 (real_ops exact) (fun x => x) g = Ret mean /\
      mean = bin_sum (fun i c => centre i * c) bins / Rsum bins /\
      centre 0%nat <= mean <= centre (length bins - 1)%nat /\
      getVariance1 (real_ops exact) (fun x => x) g =
        Ret (bin_sum (fun i c => (centre i - mean) * (centre i - mean) * c) bins
             / (Rsum bins - 1)) /\
      (exists i c, bins !! i = Some c /\ getMode1 (real_ops exact) (fun x => x) g = Ret (centre i) /\
         forall k c', bins !! k = Some c' -> c' <= c /\ ((k < i)%nat -> c' < c)) /\
      (exists i, (i < length bins)%nat /\
         getMedian1 (real_ops exact) (fun x => x) g = Ret (centre i) /\
         Rsum (take i bins) < Rsum bins / 2 <= Rsum (take (S i) bins)).
Proof.
  intros g a b r Hr Ha Hb Hres bins ctr HS.
  pose proof (hist_grid _ _ Hr) as Hg. pose proof (reachable_wf _ _ _ Hg) as Hw.
  pose proof (wf_counts _ _ (real_counts_positive _ exact_rounding) Hw) as Hpos.
  assert (exists n, g_n g = [n] /\ (1 <= n)%Z) as (n & Hn & Hn1).
  { destruct Hw as (_&L1&_). rewrite Hres in L1. destruct (g_n g) as [|n [|]]; try done.
    exists n. split; [done|]. by inversion Hpos. }
  assert (forall i, centre (real_ops exact) (fun x => x) a r i = ctr i) as HC.
  { intros i. unfold centre, ctr, real_ops, exact. simpl. rewrite <- INR_IZR_INZ. lra. }
  assert (0 < r) as Hr0.
  { destruct (real_counts _ _ Hg) as [Hok _]. apply (Hok 0%nat a b r); [by rewrite Ha|by rewrite Hb|by rewrite Hres]. }
  assert (HB : forall f h l, (forall i c, f i c = h i c) -> bin_sum f l = bin_sum h l).
  { intros f h l H. apply Rle_antisym; apply bin_sum_le; intros; rewrite H; lra. }
  pose proof (mean_1d (real_ops exact) (fun x => x) g n a r Hw Hn Hn1 Ha Hres) as Hm.
  rewrite (HB _ (fun i c => ctr i * c)) in Hm by (intros; by rewrite HC).
  rewrite getSum_Rsum in HS.
  eexists. split; [exact Hm|]. split; [done|]. split; [|split; [|split]].
  - apply mean_bounds; [by apply (hist_nonneg _ _ Hr)|done|]. intros i Hi. unfold ctr.
    assert (INR 0 <= INR i <= INR (length bins - 1)) by (split; apply le_INR; unfold bins; lia).
    nra.
  - rewrite (variance_1d (real_ops exact) (fun x => x) g n a r Hw Hn Hn1 Ha Hres _ Hm).
    do 2 f_equal. apply HB. intros i c. rewrite HC. done.
  - destruct (mode_1d (real_ops exact) (fun x => x) g n a r Hw Hn Hn1 Ha Hres) as (j & c & H1 & H2 & H3).
    exists j, c. rewrite HC in H2. done.
  - destruct (median_1d (real_ops exact) (fun x => x) g n a r Hw Hn Hn1 Ha Hres HS) as (j & H1 & H2 & H3).
    exists j. rewrite HC in H2. done.
Qed.
Print Assumptions histogram_statistics_real.

(** A reachable one-dimensional histogram with two samples in different bins. *)
Example histogram_statistics_case : exists g : grid R R,
  hist_reachable (real_ops exact) g /\ g_min g = [0] /\ g_max g = [10] /\ g_res g = [2] /\
  getSum g = 2.
Proof.
  destruct (real_ctor 0 [0] [10] [2]) as [[_ [g Hg]]|[H _]]; [done|done| |].
  - assert (hist_reachable (real_ops exact) g) as Hr.
    { exact (hr_new (real_ops exact) [0] [10] [2] g eq_refl eq_refl ltac:(done) Hg). }
    destruct (grid_new_wf (real_ops exact) 0 [0] [10] [2] g eq_refl eq_refl ltac:(done) Hg)
      as (_ & E1 & E2 & E3 & _).
    destruct (hist_counts_real [0] [10] [2] g [[3]; [9]] eq_refl eq_refl ltac:(done) Hg)
      as (g' & HA & _ & _ & (m & Hm & Hs) & _); [repeat constructor|].
    assert (inside g [3] /\ inside g [9]) as [I1 I2].
    { unfold inside. rewrite E1, E2. split; split; repeat constructor; lra. }
    inversion Hm as [|? ? ? _ Hm1|? ? ? HN]; subst; [|done].
    inversion Hm1 as [|? ? ? _ Hm2|? ? ? HN]; subst; [|done]. inversion Hm2; subst.
    simpl in HA. destruct (addSample (real_ops exact) g [3]) as [g1 [[]| | |]] eqn:A1; try done.
    destruct (addSample (real_ops exact) g1 [9]) as [g2 [[]| | |]] eqn:A2; try done.
    injection HA as <-. exists g2. split; [by eapply hr_add, A2; eapply hr_add, A1|].
    assert (forall x y p r, addSample (real_ops exact) x p = (y, r) ->
      g_min y = g_min x /\ g_max y = g_max x /\ g_res y = g_res x) as HP.
    { intros x y p r. unfold addSample, setCell. destruct (isInRange _ _ _); [|by intros [= <- _]].
      destruct (getIndex _ _ _); [|by intros [= <- _]..]. destruct (getCell _ _); by intros [= <- _]. }
    destruct (HP _ _ _ _ A2) as (-> & -> & ->). destruct (HP _ _ _ _ A1) as (-> & -> & ->).
    rewrite Hs. do 3 (split; [done|]). simpl. lra.
  - exfalso. apply H. intros [|k] a b r; simpl; [intros [= <-] [= <-] [= <-]; lra|].
    by rewrite lookup_nil.
Qed.

(** C32, integral samples: the same with the (truncated) centres the class reports. *)
Theorem histogram_statistics_int :
  forall (g : grid Z R) a b r,
    hist_reachable int_ops g -> g_min g = [a] -> g_max g = [b] -> g_res g = [r] ->
    let bins := g_cells g in
    let centre i := IZR (Z.quot (2 * a + (2 * Z.of_nat i + 1) * r) 2) in
    0 < getSum g ->
    exists mean,
      getMean1 int_ops IZR g = Ret mean /\
      mean = bin_sum (fun i c => centre i * c) bins / Rsum bins /\
      getVariance1 int_ops IZR g =
        Ret (bin_sum (fun i c => (centre i - mean) * (centre i - mean) * c) bins
             / (Rsum bins - 1)) /\
      (exists i c, bins !! i = Some c /\ getMode1 int_ops IZR g = Ret (centre i) /\
         forall k c', bins !! k = Some c' -> c' <= c /\ ((k < i)%nat -> c' < c)) /\
      (exists i, (i < length bins)%nat /\ getMedian1 int_ops IZR g = Ret (centre i) /\
         Rsum (take i bins) < Rsum bins / 2 <= Rsum (take (S i) bins)).
Proof.
  intros g a b r Hr Ha Hb Hres bins ctr HS.
  pose proof (hist_grid _ _ Hr) as Hg. pose proof (reachable_wf _ _ _ Hg) as Hw.
  pose proof (wf_counts _ _ int_counts_positive Hw) as Hpos.
  assert (exists n, g_n g = [n] /\ (1 <= n)%Z) as (n & Hn & Hn1).
  { destruct Hw as (_&L1&_). rewrite Hres in L1. destruct (g_n g) as [|n [|]]; try done.
    exists n. split; [done|]. by inversion Hpos. }
  rewrite getSum_Rsum in HS.
  eexists. split; [exact (mean_1d int_ops IZR g n a r Hw Hn Hn1 Ha Hres)|].
  split; [done|]. split; [|split].
  - exact (variance_1d int_ops IZR g n a r Hw Hn Hn1 Ha Hres _
             (mean_1d int_ops IZR g n a r Hw Hn Hn1 Ha Hres)).
  - exact (mode_1d int_ops IZR g n a r Hw Hn Hn1 Ha Hres).
  - exact (median_1d int_ops IZR g n a r Hw Hn Hn1 Ha Hres HS).
Qed.
Print Assumptions histogram_statistics_int.

(** C32, normalisation: the bins are divided by the sum and add up to one. *)
Theorem histogram_normalized :
  forall (T : Type) (g : grid T R), getSum g <> 0 ->
    getSum (getNormalized g) = 1 /\
    forall idx c, getCell g idx = Ret c -> getCell (getNormalized g) idx = Ret (c / getSum g).
Proof.
  exact (fun T g H => conj (normalized_sum g H) (fun idx c => normalized_cells g idx c)).
Qed.
Print Assumptions histogram_normalized.

(** C32, several dimensions, any arithmetic: mean and covariance entries are the weighted sums
    over all bins (each valid index once), the mode is the centre of a bin with maximal count. *)
Theorem histogram_statistics_multi :
  forall (T : Type) (o : coord_ops T) (toR : T -> R) (g : grid T R) a b,
    counts_positive o -> hist_reachable o g ->
    (a < length (g_n g))%nat -> (b < length (g_n g))%nat ->
    let cell i := match getCell g i with Ret c => c | _ => 0 end in
    let centre k i := match getCoordinates o g i with
                      | Ret p => match p !! k with Some x => toR x | None => 0 end
                      | _ => 0
                      end in
    (exists bins mean, NoDup bins /\ (forall idx, idx ∈ bins <-> valid_index (g_n g) idx) /\
       getMeanM o toR g = Ret mean /\ length mean = length (g_n g) /\
       forall k x, mean !! k = Some x ->
         x = Rsum (map (fun i => centre k i * cell i) bins) / Rsum (g_cells g)) /\
    (exists bins mean ma mb, NoDup bins /\
       (forall idx, idx ∈ bins <-> valid_index (g_n g) idx) /\
       getMeanM o toR g = Ret mean /\ mean !! a = Some ma /\ mean !! b = Some mb /\
       getCovarianceM o toR g a b =
         Ret (Rsum (map (fun i => (centre a i - ma) * (centre b i - mb) * cell i) bins)
              / (Rsum (g_cells g) - 1))) /\
    (exists idx c p, valid_index (g_n g) idx /\ getCell g idx = Ret c /\
       getCoordinates o g idx = Ret p /\ getModeM o g = Ret p /\
       forall idx' c', valid_index (g_n g) idx' -> getCell g idx' = Ret c' -> c' <= c).
Proof.
  intros T o toR g a b Hp Hr Ha Hb cell centre. apply hist_grid in Hr.
  exact (conj (mean_M o toR g Hp Hr) (conj (covariance_M o toR g a b Hp Hr Ha Hb)
           (mode_M o g Hp Hr))).
Qed.
Print Assumptions histogram_statistics_multi.
