(** C112: the camera configuration. *)
From stdpp Require Import prelude list gmap strings pretty.
From Coq Require Import Reals Lra.
From Verif Require Import Base OptionsModel Spec_Options Properties_Options CameraModel CameraDriverModel Properties_CameraDriver CameraOptionsModel.
Local Open Scope string_scope.

(** ** Which key holds which option *)
Definition cam_doubles : list (string * (cam_options -> R)) :=
  [("rowSpacingMeters", cm_rowSpacing); ("colSpacingMeters", cm_colSpacing); ("sigma2", cm_sigma2)].
Definition cam_bools : list (string * (cam_options -> bool)) :=
  [("useAdaptiveThreshold", cm_adaptive); ("normalizeImage", cm_normalize); ("filterQuads", cm_quads); ("doSubpixelRefinement", cm_subpixel);
   ("showExtractionVideo", cm_video); ("estimateLandmarks", cm_landmarks); ("useMEstimator", cm_mEstimator); ("verbose", cm_verbose)].
Definition cam_required_bools : list (string * (cam_options -> bool)) :=
  [("plotCornerReprojection", cm_plot); ("imageStepping", cm_stepping); ("filterCornerOutliers", cm_outliers)].
Definition cam_ints : list (string * (cam_options -> Z)) :=
  [("rows", cm_rows); ("cols", cm_cols); ("landmarksGroupId", cm_landmarksGroup); ("calibrationGroupId", cm_calibrationGroup);
   ("transformationsGroupId", cm_transformationsGroup); ("batchNumImages", cm_batchNumImages)].
(** An optional count: absent and the option has the default, or present and the option is the value modulo 2^64. *)
Definition counts_or {O} (get : string -> entry Z) (table : list (string * (O -> Z))) (d o : O) : Prop :=
  Forall (fun '(k, f) => (exists z, get k = Value z /\ f o = (z mod 2 ^ 64)%Z) \/ get k = Missing /\ f o = f d) table.
Definition float_holds (fl : R -> R) (e : entry R) (x : R) : Prop := exists y, e = Value y /\ x = fl y.
Ltac ctables := unfold counts_or, holds, holds_or, cam_doubles, cam_bools, cam_required_bools, cam_ints in *; rewrite ?Forall_table, ?Forall_table_nil in *.

(** C112: the options are exactly those of the tables; the five detector options have to be there, the others have defaults. *)
Theorem cam_options_read (fl : R -> R) (t : tree) (o : cam_options) :
  cam_options_of fl t = Ret o <->
  counts_or (t_int t) cam_ints cam_options0 o /\ holds_or (t_double t) cam_doubles cam_options0 o /\ holds_or (t_bool t) cam_bools cam_options0 o /\
  holds (t_bool t) cam_required_bools o /\
  float_holds fl (t_double t "filterCornerSigmaThreshold") (cm_sigmaThreshold o) /\ float_holds fl (t_double t "filterCornerMinReprojError") (cm_minReproj o) /\
  (t_string t "cameraProjectionType" = Value (cm_type o) \/ t_string t "cameraProjectionType" = Missing /\ cm_type o = "pinhole").
Proof.
  split.
  - intros H. unfold cam_options_of, getDouble, getBool, getDoubleOr, getBoolOr, getIntOr, getStringOr in H. invert_reads H. injection H as <-. ctables. cbn.
    assert (S : forall e x d, e = Value x \/ e = Missing /\ x = d -> (d mod 2 ^ 64 = d)%Z ->
      (exists z, e = Value z /\ size_of_int x = (z mod 2 ^ 64)%Z) \/ e = Missing /\ size_of_int x = d).
    { intros e x' d [->|[-> ->]] Hd; [left; eauto|right; split; [done|exact Hd]]. }
    split_and!; try done; try (apply S; [eassumption|done]); try (eexists; split; [eassumption|done]).
  - intros H. ctables. unfold float_holds in H.
    assert (S : forall e (y d : Z), (exists z, e = Value z /\ y = (z mod 2 ^ 64)%Z) \/ e = Missing /\ y = d -> (d mod 2 ^ 64 = d)%Z ->
      exists x, need_or e d = Ret x /\ y = size_of_int x).
    { intros e y d [(z & -> & ->)|[-> ->]] Hd; cbn; eexists; (split; [reflexivity|]); [done|]. unfold size_of_int. by rewrite Hd. }
    destruct o as [rows cols rs cs ad no qu su vi pl st ou th mi ty la lg cg tg bn me s2 ve].
    cbn [cm_rows cm_cols cm_rowSpacing cm_colSpacing cm_adaptive cm_normalize cm_quads cm_subpixel cm_video cm_plot cm_stepping cm_outliers cm_sigmaThreshold
      cm_minReproj cm_type cm_landmarks cm_landmarksGroup cm_calibrationGroup cm_transformationsGroup cm_batchNumImages cm_mEstimator cm_sigma2 cm_verbose] in H.
    destruct H as ((A1 & A2 & A3 & A4 & A5 & A6 & _) & B & C & D & (y1 & E1 & ->) & (y2 & E2 & ->) & F).
    apply S in A1 as (x1 & A1 & ->); [|done]. apply S in A2 as (x2 & A2 & ->); [|done]. apply S in A3 as (x3 & A3 & ->); [|done].
    apply S in A4 as (x4 & A4 & ->); [|done]. apply S in A5 as (x5 & A5 & ->); [|done]. apply S in A6 as (x6 & A6 & ->); [|done].
    conj. unfold cam_options_of, getDouble, getBool, getDoubleOr, getBoolOr, getIntOr, getStringOr.
    repeat first [rewrite (proj2 (need_Ret _ _)) by eassumption; cbn [rbind]
      | rewrite (proj2 (need_or_Ret _ _ _)) by eassumption; cbn [rbind]
      | match goal with E : need_or _ _ = Ret _ |- _ => rewrite E; cbn [rbind] end].
    done.
Qed.
(** Reading either succeeds or throws. *)
Theorem cam_options_total (fl : R -> R) (t : tree) :
  came_back (cam_options_of fl t) /\ came_back (camv_options_of fl t).
Proof.
  unfold cam_options_of, camv_options_of, getDouble, getBool, getDoubleOr, getBoolOr, getIntOr, getStringOr.
  split; repeat first [apply came_back_bind; [first [apply came_back_need|apply came_back_need_or]|intros ?] | exact I].
Qed.
(** C112, refuted: the five detector options have defaults in Options, but a configuration that leaves one of them out is refused. *)
Theorem cam_required_keys_refuted (fl : R -> R) (t : tree) :
  t_bool t "plotCornerReprojection" = Missing \/ t_bool t "imageStepping" = Missing \/ t_bool t "filterCornerOutliers" = Missing \/
  t_double t "filterCornerSigmaThreshold" = Missing \/ t_double t "filterCornerMinReprojError" = Missing ->
  cam_options_of fl t = Throw External.
Proof.
  intros H. pose proof (proj1 (cam_options_total fl t)) as Hb.
  assert (Hn : forall o, cam_options_of fl t <> Ret o).
  { intros o Ho. apply cam_options_read in Ho as (_ & _ & _ & Ho & (y1 & Ho4 & _) & (y2 & Ho5 & _) & _).
    unfold holds, cam_required_bools in Ho. rewrite !Forall_table in Ho. destruct Ho as (Ho1 & Ho2 & Ho3 & _).
    destruct H as [H|[H|[H|[H|H]]]]; congruence. }
  assert (He : forall e, cam_options_of fl t = Throw e -> e = External).
  { clear. unfold cam_options_of, getDouble, getBool, getDoubleOr, getBoolOr, getIntOr, getStringOr.
    assert (N : forall A (x : entry A) B (f : A -> result B) e, rbind (need x) f = Throw e -> e = External \/ exists a, f a = Throw e).
    { intros A x B f e. destruct x; cbn; [intros [= <-]; auto..|eauto]. }
    assert (N' : forall A (x : entry A) d B (f : A -> result B) e, rbind (need_or x d) f = Throw e -> e = External \/ exists a, f a = Throw e).
    { intros A x d B f e. destruct x; cbn; [eauto|intros [= <-]; auto|eauto]. }
    intros e He. repeat (first [apply N in He|apply N' in He]; destruct He as [He|[? He]]; [exact He|]). discriminate He. }
  destruct (cam_options_of fl t) as [o|e| |]; [by destruct (Hn o)| |done..]. f_equal. by apply He.
Qed.
(** C112: the validator, given the same section, looks for the same target with the same weights as the calibrator. *)
Theorem cam_validator_agrees (fl : R -> R) (t : tree) (o : cam_options) : cam_options_of fl t = Ret o ->
  camv_options_of fl t = Ret (CamvOptions (cm_rows o) (cm_cols o) (cm_rowSpacing o) (cm_colSpacing o) (cm_adaptive o) (cm_normalize o) (cm_quads o)
    (cm_subpixel o) (cm_video o) (cm_plot o) (cm_stepping o) (cm_outliers o) (cm_sigmaThreshold o) (cm_minReproj o) (cm_type o) (cm_sigma2 o) (cm_verbose o)).
Proof.
  intros H. unfold cam_options_of, getDouble, getBool, getDoubleOr, getBoolOr, getIntOr, getStringOr in H. invert_reads H. injection H as <-. cbn.
  unfold camv_options_of, getDouble, getBool, getDoubleOr, getBoolOr, getIntOr, getStringOr. reads. done.
Qed.
(** The calibrator exists iff its options and its estimator's can be read and the type is one of the two. *)
Theorem cam_calibrator_config {O} (fl : R -> R) (d : tsvd_options) (optimizer : tree -> result O) (t : tree) (o : cam_options) (e : est_config O) :
  cam_calibrator_of fl d optimizer t = Ret (o, e) <->
  cam_options_of fl t = Ret o /\ (cm_type o = "omni" \/ cm_type o = "pinhole") /\ estimator_of d optimizer (subtree t "estimator") = Ret e.
Proof.
  unfold cam_calibrator_of. rewrite rbind_Ret. split.
  - intros (o' & E & H). repeat case_decide; try discriminate H; apply rbind_Ret in H as (e' & E' & [= <- <-]); auto.
  - intros (E & Ht & E'). exists o. split; [done|]. repeat case_decide; rewrite ?E'; try done. by destruct Ht.
Qed.
Theorem cam_calibrator_bad_type {O} (fl : R -> R) (d : tsvd_options) (optimizer : tree -> result O) (t : tree) (o : cam_options) :
  cam_options_of fl t = Ret o -> cm_type o <> "omni" -> cm_type o <> "pinhole" -> cam_calibrator_of fl d optimizer t = Throw BadArgument.
Proof. intros E H1 H2. unfold cam_calibrator_of. rewrite E. cbn. by repeat case_decide. Qed.

(** ** Configurations a user may write *)
Definition camera_config (n g : Z) : tree :=
  Tree (fun k => if decide (k = "filterCornerSigmaThreshold") then Value 2%R else if decide (k = "filterCornerMinReprojError") then Value 0.2%R else Missing)
       (fun k => if decide (k = "batchNumImages") then Value n else if decide (k = "calibrationGroupId") then Value g
                 else if decide (k = "estimator/groupId") then Value 0%Z else Missing)
       (fun k => if decide (k = "plotCornerReprojection") then Value false else if decide (k = "imageStepping") then Value false
                 else if decide (k = "filterCornerOutliers") then Value true else Missing)
       (fun _ => Missing).
(** C112, refuted: a negative number of images per batch is accepted and becomes huge. *)
Theorem cam_negative_batch_refuted (fl : R -> R) :
  exists t o, cam_options_of fl t = Ret o /\ t_int t "batchNumImages" = Value (-1)%Z /\ cm_batchNumImages o = (2 ^ 64 - 1)%Z.
Proof. exists (camera_config (-1) 0). eexists. split; [cbn; reflexivity|]. done. Qed.
(** With so large a batch the program makes one batch of all images, in its last step (any limit above the number of targets). *)
Theorem cam_huge_batch (save : bool) (L : nat) (l : list cimage) (last : outcome) : 0 < targets l -> targets l < L -> Forall calm_image l ->
  last = Accepted \/ last = Rejected -> existsb ci_init l = true ->
  exists c fs, cam_program save L l last = (c, fs, Ret tt) /\ cc_given c = [seq 0 (targets l)].
Proof.
  intros Ht HL Hl Hlast Hi. destruct (cam_program_batches save L l last ltac:(lia) Hl Hlast Hi) as (c & fs & E & Hc & _ & H & _).
  exists c, fs. split; [done|]. destruct (H Ht) as (full & b & Hg & _ & _ & Hn). rewrite Nat.div_small in Hn by done.
  apply length_zero_iff_nil in Hn. subst full. rewrite Hg in *. cbn in *. by rewrite app_nil_r in Hc; subst.
Qed.
(** C112, refuted: the group of the camera's variables and the group the estimator reports on are read from two keys that nothing compares: the calibrator
    is constructed with different ones. *)
Theorem cam_group_ids_refuted (fl : R -> R) (d : tsvd_options) :
  exists t o e, cam_calibrator_of fl d (fun _ => Ret tt) t = Ret (o, e) /\ cm_calibrationGroup o <> ec_margGroupId e.
Proof.
  exists (camera_config 1 5). eexists _, _. split; [cbn; reflexivity|]. done.
Qed.
Print Assumptions cam_options_read.
Print Assumptions cam_calibrator_config.
