(** Theorems written against mutants that survived: grids and histograms (C27, C32), the spline of the ego calibrator (C71), stored
    image frames (C53). *)
From stdpp Require Import prelude list.
From Coq Require Import Reals Lra Psatz ZArith FunctionalExtensionality.
From Flocq Require Import Core BinarySingleNaN.
From Verif Require Import Base GridModel Spec_Grid GridProofs HistogramModel VisionModel CalibratorModel EgoKinModel.
From Verif Require RandomizerProofs.
Local Open Scope R_scope.

(** getCoordinates fails, with OutOfBoundException, exactly if some coordinate of the index is too large. *)
Theorem grid_coordinates_domain {T C} (o : coord_ops T) (g : grid T C) idx :
  length idx = length (g_n g) ->
  (Forall2 Z.lt idx (g_n g) -> exists l, getCoordinates o g idx = Ret l) /\
  (~ Forall2 Z.lt idx (g_n g) -> getCoordinates o g idx = Throw OutOfBound).
Proof.
  intros HL. unfold getCoordinates, isValidIndex. split; intros H.
  - rewrite (proj2 (all2_ltb_iff idx (g_n g) HL) H). by eexists.
  - destruct (all2 Z.ltb idx (g_n g)) eqn:E; [|done]. by apply all2_ltb_iff in E.
Qed.

(** Normalising a histogram keeps its bins and divides every count by the sum. *)
Theorem histogram_normalized_bins {T} (g : grid T R) :
  let g' := getNormalized g in
  g_min g' = g_min g /\ g_max g' = g_max g /\ g_res g' = g_res g /\ g_n g' = g_n g /\
  length (g_cells g') = length (g_cells g) /\
  forall i c, g_cells g !! i = Some c -> g_cells g' !! i = Some (c / fold_left Rplus (g_cells g) 0).
Proof.
  cbn zeta. unfold getNormalized. cbn. split_and!; try done; [apply map_length|]. intros i c H. change (map ?f ?l) with (f <$> l).
  by rewrite list_lookup_fmap, H.
Qed.
(** The median of a one-bin histogram with a negative count is the lower bound, not the bin's centre. *)
Theorem histogram_median_negative {T} (o : coord_ops T) toR (a b r : T) (c : R) : c < 0 ->
  getMedian1 o toR (Grid [a] [b] [r] [1%Z] 1%Z [1%Z] [c]) = Ret (toR a).
Proof.
  intros Hc. unfold getMedian1. assert (E : indices (Grid [a] [b] [r] [1%Z] 1%Z [1%Z] [c]) = Some [[0%Z]]) by reflexivity. rewrite E.
  cbn [median_loop]. assert (E2 : getCell (Grid [a] [b] [r] [1%Z] 1%Z [1%Z] [c]) [0%Z] = Ret c) by reflexivity. rewrite E2. cbn [rbind].
  destruct (Rle_dec _ _) as [H|H]; [|done]. exfalso. unfold getSum in H. cbn in H. lra.
Qed.

(** Stored frames are numbered 0, 1, 2, ... in the order of storing, as long as the association is not reset. *)
Lemma vision_numbering_step v d k : vi_next v = Z.of_nat k -> map fst (vi_frames v) = map Z.of_nat (seq 0 k) ->
  exists k', vi_next (vi_addImage v d).1 = Z.of_nat k' /\ map fst (vi_frames (vi_addImage v d).1) = map Z.of_nat (seq 0 k').
Proof.
  intros Hn Hf. unfold vi_addImage. destruct d as [d|]; [|by exists k]. destruct (vi_prev v) as [p|]; [|by exists k].
  destruct (Z.ltb _ _); [|by exists k]. destruct (sort (p_disparities d) !! _); [|by exists k]. destruct (Rlt_dec _ _); [|by exists k].
  exists (S k). split; [cbn; lia|]. cbn [fst vi_ofov vi_frames]. unfold frames_set. rewrite map_app. cbn [map]. rewrite seq_S, map_app. cbn [map]. rewrite Hn. f_equal.
  rewrite <- Hf. f_equal. clear -Hf.
  assert (H : forall e, In e (vi_frames v) -> e.1 <> Z.of_nat k).
  { intros e He. apply (in_map fst) in He. change (map fst (vi_frames v)) with (map fst (vi_frames v)) in He. rewrite Hf in He.
    apply in_map_iff in He as (j & Hj & Hj'). apply in_seq in Hj'. lia. }
  clear Hf. induction (vi_frames v) as [|e l IH]; [done|]. cbn [List.filter]. destruct (Z.eqb_spec e.1 (Z.of_nat k)) as [E|E].
  - exfalso. apply (H e); [by left|done].
  - cbn. f_equal. apply IH. intros e' He'. apply H. by right.
Qed.
Theorem vision_numbering t n images : exists k,
  let v := vi_run (vi_new t n) (map VImage images) in
  vi_next v = Z.of_nat k /\ map fst (vi_frames v) = map Z.of_nat (seq 0 k).
Proof.
  assert (G : forall images v k, vi_next v = Z.of_nat k -> map fst (vi_frames v) = map Z.of_nat (seq 0 k) ->
    exists k', vi_next (vi_run v (map VImage images)) = Z.of_nat k' /\ map fst (vi_frames (vi_run v (map VImage images))) = map Z.of_nat (seq 0 k')).
  { clear. induction images as [|d images IH]; intros v k Hn Hf; [by exists k|].
    destruct (vision_numbering_step v d k Hn Hf) as (k' & Hn' & Hf'). exact (IH _ k' Hn' Hf'). }
  exact (G images (vi_new t n) 0%nat eq_refl eq_refl).
Qed.

(** Ego calibrator: the number of spline segments.  With n measurements over d > 0 seconds: if n / d is at least half above the knots
    per second, the knots per second times d, rounded up; otherwise n. *)
Lemma nearestA_gt x k : 0 <= x -> (k < ZnearestA x)%Z <-> IZR k + / 2 <= x.
Proof.
  intros Hx. destruct (RandomizerProofs.nearestA_nonneg x Hx (ZnearestA x)) as [H _]. specialize (H eq_refl). split; intros Hk.
  - apply Z.le_succ_l, IZR_le in Hk. rewrite succ_IZR in Hk. lra.
  - apply lt_IZR. apply Rnot_le_lt. intros Hc. lra.
Qed.
Theorem ego_segments knots big t0 ts n :
  let d := IZR (List.last (t0 :: ts) t0 - t0) / 10 ^ 9 in
  0 < d -> (Z.of_nat n < 2 ^ 31)%Z -> (0 <= knots)%Z ->
  (IZR knots + / 2 <= INR n / d -> forall s, (0 <= s < 2 ^ 31)%Z ->
     (ego_numSegments knots big (t0 :: ts) n = Some s <-> IZR s - 1 < IZR knots * d <= IZR s)) /\
  (INR n / d < IZR knots + / 2 -> ego_numSegments knots big (t0 :: ts) n = Some (Z.of_nat n)).
Proof.
  intros d Hd Hn Hk. unfold ego_numSegments. fold d. rewrite <- INR_IZR_INZ.
  destruct (Req_EM_T d 0); [lra|]. assert (Hx : 0 <= INR n / d) by (apply Rmult_le_pos; [apply pos_INR|left; apply Rinv_0_lt_compat, Hd]).
  cbn zeta. set (z := ZnearestA (INR n / d)).
  assert (Hz0 : (0 <= z)%Z). { destruct (Z.le_gt_cases 0 z); [done|]. exfalso. assert (Hz : (z <= -1)%Z) by lia. apply IZR_le in Hz.
    destruct (RandomizerProofs.nearestA_nonneg (INR n / d) Hx z) as [H' _]. specialize (H' eq_refl). lra. }
  assert (Hd9 : / 10 ^ 9 <= d).
  { unfold d. assert (Hp : (0 < List.last (t0 :: ts) t0 - t0)%Z).
    { apply lt_IZR. unfold d in Hd. apply (Rmult_lt_reg_r (/ 10 ^ 9)); [apply Rinv_0_lt_compat; lra|]. unfold Rdiv in Hd. lra. }
    assert (Hp' : (1 <= List.last (t0 :: ts) t0 - t0)%Z) by lia. apply IZR_le in Hp'. unfold Rdiv. assert (0 < / 10 ^ 9) by (apply Rinv_0_lt_compat; lra). nra. }
  assert (Hz63 : (z < 2 ^ 63)%Z).
  { destruct (RandomizerProofs.nearestA_nonneg (INR n / d) Hx z) as [H' _]. specialize (H' eq_refl). apply lt_IZR.
    assert (Hb : INR n / d <= IZR (2 ^ 31) * 10 ^ 9).
    { apply (Rmult_le_reg_r d); [exact Hd|]. unfold Rdiv. rewrite Rmult_assoc, Rinv_l, Rmult_1_r by lra.
      apply IZR_lt in Hn. rewrite <- INR_IZR_INZ in Hn. assert (1 <= 10 ^ 9 * d).
      { apply (Rmult_le_compat_l (10 ^ 9)) in Hd9; [|lra]. rewrite Rinv_r in Hd9 by lra. lra. }
      assert (0 <= IZR (2 ^ 31)) by (apply (IZR_le 0); lia). nra. }
    change (IZR (2 ^ 31)) with 2147483648 in Hb. change (IZR (2 ^ 63)) with 9223372036854775808. lra. }
  destruct (Z.leb_spec (- 2 ^ 63) z); [|lia]. destruct (Z.ltb_spec z (2 ^ 63)); [|lia]. cbn [andb]. split.
  - intros Hr s Hs. destruct (Z.ltb_spec knots z) as [_|Hc]; [|exfalso; apply (nearestA_gt _ knots Hx) in Hr; fold z in Hr; lia].
    unfold to_int. split.
    + destruct (_ && _); [|done]. intros [= <-]. split; [|apply Zceil_ub]. assert (Hq := Zceil_lb (IZR knots * d)). lra.
    + intros [H1 H2]. assert (Ec : Zceil (IZR knots * d) = s). { apply Zceil_imp. rewrite minus_IZR. lra. } rewrite Ec.
      destruct (Z.leb_spec (- 2 ^ 31) s); [|lia]. destruct (Z.ltb_spec s (2 ^ 31)); [done|lia].
  - intros Hr. destruct (Z.ltb_spec knots z) as [Hc|_]; [exfalso; apply (nearestA_gt _ knots Hx) in Hc; lra|].
    unfold to_int. destruct (Z.leb_spec (- 2 ^ 31) (Z.of_nat n)); [|lia]. destruct (Z.ltb_spec (Z.of_nat n) (2 ^ 31)); [done|lia].
Qed.

(** A rate that does not fit the type of [lround]: what the C library returns then decides, and so many measurements cannot be counted by an int. *)
Theorem ego_rate_overflow knots big m : (2 ^ 34 <= Z.of_nat m)%Z -> (big <= knots)%Z -> ego_numSegments knots big [0%Z; 1%Z] m = None.
Proof.
  intros Hm Hb. unfold ego_numSegments. cbn [List.last]. replace (IZR (1 - 0) / 10 ^ 9) with (/ 10 ^ 9) by (change (1 - 0)%Z with 1%Z; field).
  destruct (Req_EM_T (/ 10 ^ 9) 0) as [E|_]; [exfalso; assert (0 < / 10 ^ 9) by (apply Rinv_0_lt_compat; lra); lra|].
  assert (Ez : (2 ^ 63 <= ZnearestA (IZR (Z.of_nat m) / / 10 ^ 9))%Z).
  { replace (IZR (Z.of_nat m) / / 10 ^ 9) with (IZR (Z.of_nat m * 10 ^ 9)) by (rewrite mult_IZR; change (IZR (10 ^ 9)) with 1000000000; field).
    rewrite Znearest_IZR || rewrite Zrnd_IZR by typeclasses eauto. lia. }
  cbn zeta. destruct (Z.ltb_spec (ZnearestA (IZR (Z.of_nat m) / / 10 ^ 9)) (2 ^ 63)); [lia|]. rewrite andb_false_r.
  destruct (Z.ltb_spec knots big); [lia|]. unfold to_int. destruct (Z.ltb_spec (Z.of_nat m) (2 ^ 31)); [lia|]. by rewrite andb_false_r.
Qed.
