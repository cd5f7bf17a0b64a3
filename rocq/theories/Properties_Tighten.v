(** Theorems added because wrong programs survived the others (seeded/LOG.jsonl): C29 (centres of binary64 grids), C69/C71 (calibrators: clearing, window,
    number of segments), C111 (standard deviations in the calibration file), C112 (defaults of the camera calibrator). *)
From stdpp Require Import prelude list gmap strings.
From Coq Require Import Reals Lra ZArith Psatz.
From Flocq Require Import Core BinarySingleNaN.
From Verif Require Import Base GridModel GridProofs GridCoordProofs GridDoubleProofs RandomizerModel RandomizerDoubleProofs TimestampProofs
  OptionsModel CameraOptionsModel CalibratorModel CameraDriverModel.
Local Open Scope R_scope.

(** ** C29: the centre of a cell, in binary64 *)
Lemma half_correct : is_finite (double_of_Z 1 (-1)) = true /\ B2R (double_of_Z 1 (-1)) = / 2.
Proof. split; [vm_compute; reflexivity|]. unfold double_of_Z. vm_compute. lra. Qed.
Lemma mul_finite (a x : double) : is_finite (d_mul a x) = true -> B2R (d_mul a x) = rnd64 (B2R a * B2R x).
Proof.
  intros H. generalize (Bmult_correct 53 1024 _ _ mode_NE a x).
  destruct (Rlt_bool _ _); [by intros [? _]|].
  intros E. exfalso. unfold d_mul in H. destruct (Bmult mode_NE a x); simpl in *; try done; destruct (xorb _ _); done.
Qed.
Lemma fmt_int z : (Z.abs z <= 2 ^ 31)%Z -> rnd64 (IZR z) = IZR z.
Proof.
  intros Hz. apply round_generic; [apply valid_rnd_N|]. apply generic_format_FLT. exists (Float radix2 z 0); simpl; [unfold F2R; simpl; lra| |unfold SpecFloat.emin; lia].
  apply Z.le_lt_trans with (2 ^ 31)%Z; [done|]. reflexivity.
Qed.
Lemma fmt_half z : (Z.abs z <= 2 ^ 31)%Z -> rnd64 (IZR z + / 2) = IZR z + / 2.
Proof.
  intros Hz. apply round_generic; [apply valid_rnd_N|]. apply generic_format_FLT. exists (Float radix2 (2 * z + 1) (-1)); simpl.
  - unfold F2R; simpl. rewrite plus_IZR, mult_IZR. lra.
  - apply Z.le_lt_trans with (2 ^ 33)%Z; [lia|]. reflexivity.
  - unfold SpecFloat.emin. lia.
Qed.
Lemma index_half i : (Z.abs i <= 2 ^ 31)%Z ->
  is_finite (d_add (double_of_Z i 0) (double_of_Z 1 (-1))) = true /\ B2R (d_add (double_of_Z i 0) (double_of_Z 1 (-1))) = IZR i + / 2.
Proof.
  intros Hi. destruct (of_Z_correct i Hi) as [Fi Ei]. rewrite fmt_int in Ei by done. destruct half_correct as [Fh Eh].
  assert (Hb : Rabs (IZR i + / 2) <= bpow radix2 63).
  { assert (Rabs (IZR i) <= bpow radix2 31) by (rewrite <- abs_IZR; change (bpow radix2 31) with (IZR (2 ^ 31)); by apply IZR_le).
    apply Rle_trans with (Rabs (IZR i) + Rabs (/ 2)); [apply Rabs_triang|]. rewrite (Rabs_pos_eq (/ 2)) by lra.
    change (bpow radix2 31) with (IZR (2 ^ 31)) in *. change (bpow radix2 63) with (IZR (2 ^ 63)).
    assert (IZR (2 ^ 31) + 1 <= IZR (2 ^ 63)) by (rewrite <- plus_IZR; apply IZR_le; lia). lra. }
  generalize (Bplus_correct 53 1024 _ _ mode_NE (double_of_Z i 0) (double_of_Z 1 (-1)) Fi Fh). rewrite Ei, Eh.
  change (round radix2 (SpecFloat.fexp 53 1024) (round_mode mode_NE) (IZR i + / 2)) with (rnd64 (IZR i + / 2)).
  rewrite Rlt_bool_true.
  - intros (H1 & H2 & _). unfold d_add. rewrite H2. split; [done|]. rewrite H1. by apply fmt_half.
  - by apply no_overflow.
Qed.
Lemma d_add_finite_r (a x : double) : is_finite (d_add a x) = true -> is_finite x = true.
Proof. unfold d_add, Bplus. destruct a as [| | |], x as [|sx| |]; cbn; try done; destruct (Bool.eqb _ _); done. Qed.
Lemma d_add_finite_l (a x : double) : is_finite (d_add a x) = true -> is_finite a = true.
Proof. unfold d_add, Bplus. destruct a as [| | |], x as [|sx| |]; cbn; try done; destruct (Bool.eqb _ _); done. Qed.

(** C29: as long as the result is a number, the centre of cell [i] is min + (i + 1/2) * resolution, computed with one rounding of the product and one of the
    sum: i + 1/2 itself is exact. *)
Theorem grid_double_centre (m s : double) (i : Z) : (Z.abs i <= 2 ^ 31)%Z -> is_finite (c_centre double_ops m i s) = true ->
  B2R (c_centre double_ops m i s) = rnd64 (B2R m + rnd64 ((IZR i + / 2) * B2R s)).
Proof.
  intros Hi Hf. cbn [c_centre double_ops] in *. destruct (index_half i Hi) as [F E].
  pose proof (d_add_finite_r _ _ Hf) as Fr. pose proof (d_add_finite_l _ _ Hf) as Fl.
  rewrite add_finite by done. rewrite mul_finite by done. by rewrite E.
Qed.
(** The hypotheses are met, and the value is the expected one: cell 3 of a grid that starts at 1 with resolution 1/2 has its centre at 2.75. *)
Example grid_double_centre_example :
  is_finite (c_centre double_ops (double_of_Z 1 0) 3 (double_of_Z 1 (-1))) = true /\ B2R (c_centre double_ops (double_of_Z 1 0) 3 (double_of_Z 1 (-1))) = 2.75.
Proof. split; [vm_compute; reflexivity|]. vm_compute. lra. Qed.

(** ** C71: clearing, the window and the number of segments *)
Section cal.
  Context {K D E B P : Type} `{EqDecision K} (h : hooks K D E B P).
  (** clearMeasurements forgets the stored measurements and nothing else; changing the window changes nothing else; neither can fail. *)
  Theorem calibrator_clear_and_window (c : cal K D E B P) (w : R) :
    (let (c', r) := cstep h c Clear in
     r = Ret tt /\ (forall k, c_meas c' k = []) /\ c_start c' = c_start c /\ c_last c' = c_last c /\ c_est c' = c_est c /\ c_gains c' = c_gains c /\
     c_hist c' = c_hist c /\ c_window c' = c_window c /\ c_sent c' = c_sent c) /\
    (let (c', r) := cstep h c (SetWindow w) in
     r = Ret tt /\ c_window c' = w /\ c_meas c' = c_meas c /\ c_start c' = c_start c /\ c_last c' = c_last c /\ c_est c' = c_est c /\
     c_gains c' = c_gains c /\ c_hist c' = c_hist c /\ c_sent c' = c_sent c).
  Proof. split; cbn; done. Qed.
End cal.
Lemma to_int_Some z n : to_int z = Some n <-> n = z /\ (- 2147483648 <= z <= 2147483647)%Z.
Proof.
  unfold to_int. destruct (_ && _) eqn:E.
  - apply andb_true_iff in E as [E1%Z.leb_le E2%Z.ltb_lt]. split; [intros [= <-]; split; [done|lia]|by intros [-> _]].
  - split; [done|]. intros [-> H]. exfalso. apply andb_false_iff in E as [E%Z.leb_gt|E%Z.ltb_ge]; lia.
Qed.
(** C71: the number of segments is defined iff there is time between the first and the last measurement and both the measured rate (rounded to the nearest
    integer) and the count itself fit into an int; it is knots per second times the elapsed time, rounded up, if the measurements are denser than the knots,
    and the number of measurements otherwise. *)
Theorem spline_segments_exact (knots t0 : Z) (ts : list Z) (n : Z) :
  let T := IZR (List.last (t0 :: ts) t0 - t0) / 10 ^ 9 in
  let rate := ZnearestA (INR (S (length ts)) / T) in
  numSegments knots (t0 :: ts) = Some n <->
  T <> 0 /\ (- 2147483648 <= rate <= 2147483647)%Z /\ (- 2147483648 <= n <= 2147483647)%Z /\
  ((knots < rate)%Z /\ n = Zceil (IZR knots * T) \/ (rate <= knots)%Z /\ n = Z.of_nat (S (length ts))).
Proof.
  intros T rate. unfold numSegments. fold T. change (length (t0 :: ts)) with (S (length ts)). rewrite <- INR_IZR_INZ. fold rate.
  destruct (Req_EM_T T 0) as [HT|HT]; [split; [done|by intros [? _]]|].
  destruct (to_int rate) as [r|] eqn:Er.
  - apply to_int_Some in Er as [-> Hr]. destruct (Z.ltb knots rate) eqn:Ek.
    + apply Z.ltb_lt in Ek. rewrite to_int_Some. split; [intros [-> ?]; auto 10|]. intros (_ & _ & Hn & [[_ ->]|[H _]]); [done|lia].
    + apply Z.ltb_ge in Ek. rewrite to_int_Some. split; [intros [-> ?]; auto 10|]. intros (_ & _ & Hn & [[H _]|[_ ->]]); [lia|done].
  - split; [done|]. intros (_ & Hr & _). assert (E : to_int rate = Some rate) by (by apply to_int_Some). congruence.
Qed.

(** ** C111: standard deviations of the camera's parameters *)
(** Before the first batch both are empty vectors; afterwards they are defined iff the marginalised group has at least as many variables as the part asked
    for: entry i is the square root of the i-th variance, counted from the front (projection) or from the part's place at the end (distortion). *)
Theorem cam_std_defined (numBatches : nat) (diag : list R) (dim : nat) (v : list R) :
  (proj_std numBatches diag dim = Some v <->
   numBatches = 0%nat /\ v = [] \/
   numBatches <> 0%nat /\ (dim <= length diag)%nat /\ length v = dim /\ forall i, (i < dim)%nat -> v !! i = sqrt <$> diag !! i) /\
  (dist_std numBatches diag dim = Some v <->
   numBatches = 0%nat /\ v = [] \/
   numBatches <> 0%nat /\ (dim <= length diag)%nat /\ length v = dim /\ forall i, (i < dim)%nat -> v !! i = sqrt <$> diag !! (length diag - dim + i)%nat).
Proof.
  unfold proj_std, dist_std. destruct (Nat.eqb_spec numBatches 0) as [->|Hn].
  { split; (split; [intros [= <-]; by left|]; intros [[_ ->]|[? _]]; done). }
  destruct (Nat.leb_spec dim (length diag)) as [Hd|Hd].
  2:{ split; (split; [done|]; intros [[? _]|(_ & ? & _)]; [done|lia]). }
  assert (U : forall l, length l = dim -> forall (f : nat -> option R), (forall i, (i < dim)%nat -> (List.map sqrt l) !! i = f i) ->
    (Some (List.map sqrt l) = Some v <-> numBatches = 0%nat /\ v = [] \/ numBatches <> 0%nat /\ (dim <= length diag)%nat /\ length v = dim /\
      forall i, (i < dim)%nat -> v !! i = f i)).
  { intros l Hl f Hf. split.
    - intros [= <-]. right. split_and!; [done|done| |done]. by rewrite List.map_length.
    - intros [[? _]|(_ & _ & Hv & H)]; [done|]. f_equal. apply list_eq. intros i. destruct (decide (i < dim)%nat) as [Hi|Hi].
      + rewrite Hf, H by done. done.
      + rewrite !lookup_ge_None_2; [done| |rewrite List.map_length]; lia. }
  split.
  - apply U; [rewrite firstn_length; lia|]. intros i Hi. change (List.map sqrt ?l) with (sqrt <$> l). rewrite list_lookup_fmap.
    change (List.firstn dim diag) with (take dim diag). by rewrite lookup_take.
  - apply U; [rewrite skipn_length; lia|]. intros i Hi. change (List.map sqrt ?l) with (sqrt <$> l). rewrite list_lookup_fmap.
    change (List.skipn ?a ?b) with (drop a b). by rewrite lookup_drop.
Qed.

(** ** C112: the defaults of the camera calibrator and of the validator *)
(** A configuration with only the five required entries gives exactly these options. *)
Theorem cam_options_defaults (fl : R -> R) (t : tree) (pl st ou : bool) (th mi : R) :
  (forall k, k <> "plotCornerReprojection" -> k <> "imageStepping" -> k <> "filterCornerOutliers" -> t_bool t k = Missing)%string ->
  (forall k, k <> "filterCornerSigmaThreshold" -> k <> "filterCornerMinReprojError" -> t_double t k = Missing)%string ->
  (forall k, t_int t k = Missing) -> (forall k, t_string t k = Missing) ->
  (t_bool t "plotCornerReprojection" = Value pl)%string -> (t_bool t "imageStepping" = Value st)%string -> (t_bool t "filterCornerOutliers" = Value ou)%string ->
  (t_double t "filterCornerSigmaThreshold" = Value th)%string -> (t_double t "filterCornerMinReprojError" = Value mi)%string ->
  cam_options_of fl t = Ret
    {| cm_rows := 6; cm_cols := 7; cm_rowSpacing := 0.06; cm_colSpacing := 0.06; cm_adaptive := true; cm_normalize := true; cm_quads := false;
       cm_subpixel := true; cm_video := false; cm_plot := pl; cm_stepping := st; cm_outliers := ou; cm_sigmaThreshold := fl th; cm_minReproj := fl mi;
       cm_type := "pinhole"; cm_landmarks := false; cm_landmarksGroup := 2; cm_calibrationGroup := 0; cm_transformationsGroup := 1; cm_batchNumImages := 1;
       cm_mEstimator := false; cm_sigma2 := 1; cm_verbose := false |} /\
  camv_options_of fl t = Ret
    {| vm_rows := 6; vm_cols := 7; vm_rowSpacing := 0.06; vm_colSpacing := 0.06; vm_adaptive := true; vm_normalize := true; vm_quads := false;
       vm_subpixel := true; vm_video := false; vm_plot := pl; vm_stepping := st; vm_outliers := ou; vm_sigmaThreshold := fl th; vm_minReproj := fl mi;
       vm_type := "pinhole"; vm_sigma2 := 1; vm_verbose := false |}.
Proof.
  intros Hb Hd Hi Hs E1 E2 E3 E4 E5.
  unfold cam_options_of, camv_options_of, getDouble, getBool, getDoubleOr, getBoolOr, getIntOr, getStringOr.
  rewrite E1, E2, E3, E4, E5, !Hi, !Hs, !Hb, !Hd by done. split; reflexivity.
Qed.
Print Assumptions grid_double_centre.
Print Assumptions spline_segments_exact.
Print Assumptions cam_options_defaults.
