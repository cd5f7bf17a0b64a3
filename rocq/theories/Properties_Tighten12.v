(** Tightened after mutation: what the spline library is asked for, and programs with several normal distributions. *)
From stdpp Require Import prelude list.
From Coq Require Import Reals Lra Lia ZArith.
From Flocq Require Import Core.Raux Core.Generic_fmt.
From Verif Require Import Base GeodeticModel SimEngineModel ErrorTermModel CalibratorModel CarDriverModel KinematicsModel Properties_Tighten GridModel NormalModel
  Spec_Normal NormalProofs Spec_NormalProgram.
Local Open Scope R_scope.

(** ** The request to the spline library *)
(** [n] segments for measurements at [times]: knots per second times the elapsed time, rounded up, if the measurements are denser than the knots, and the
    number of measurements otherwise; no number if no time elapsed or an int is too small. *)
Definition segments (knots : Z) (times : list Z) (n : Z) : Prop :=
  exists t0 ts, times = t0 :: ts /\
    let T := IZR (List.last times t0 - t0) / 10 ^ 9 in
    let rate := ZnearestA (INR (length times) / T) in
    T <> 0 /\ (- 2147483648 <= rate <= 2147483647)%Z /\ (- 2147483648 <= n <= 2147483647)%Z /\
    ((knots < rate)%Z /\ n = Zceil (IZR knots * T) \/ (rate <= knots)%Z /\ n = Z.of_nat (length times)).
Lemma segments_model knots times n : numSegments knots times = Some n <-> segments knots times n.
Proof.
  destruct times as [|t0 ts].
  - split; [done|]. by intros (? & ? & ? & _).
  - rewrite spline_segments_exact. split.
    + intros H. exists t0, ts. split; [done|exact H].
    + intros (t1 & ts1 & E & H). injection E as <- <-. exact H.
Qed.

Section fit.
  Context (ypr : v3 -> m3) (unypr : m3 -> v3) (r2quat : m3 -> quat) (angleMod : R -> R) (fit : list Z -> list v3 * list quat -> Z -> result splines).
  Local Notation measured poses := (map (fun x => (m_r_mr (snd x), m_R_r (snd x))) poses).

  (** The splines of both examples come from one request with all stored poses, their own times and the number of segments above; without such a number it
      is undefined, and no other request decides anything. *)
  Theorem spline_fit_request knots b times poses :
    (forall n, segments knots times n -> fit_splines ypr r2quat fit knots b times poses = fit times (init_poses ypr r2quat b poses) n) /\
    ((forall n, ~ segments knots times n) -> fit_splines ypr r2quat fit knots b times poses = UB).
  Proof.
    unfold fit_splines. split.
    - intros n H. by apply segments_model in H as ->.
    - intros H. destruct (numSegments knots times) as [n|] eqn:E; [|done]. apply segments_model in E. by destruct (H n).
  Qed.

  (** ... hence the predictions of the car calibrator are those for the splines fitted to the stored poses with the knots of its options and the present
      estimate of the mounting; likewise in the time-delay example. *)
  Theorem predict_spline_request :
    (forall P o st d d', car_predict ypr unypr r2quat angleMod fit P o st d = Ret d' ->
       exists n s, segments (o_knots o) (map fst (ms_pose st)) n /\
         fit (map fst (ms_pose st)) (init_poses ypr r2quat (p_mount P) (measured (ms_pose st))) n = Ret s /\
         pd_pose d' = pd_pose d ++ predictPoses P s unypr angleMod (ms_pose st) /\ pd_vel d' = pd_vel d ++ predictVelocities P s unypr angleMod (ms_vel st) /\
         pd_dmi d' = pd_dmi d ++ predictDMI P o s unypr angleMod (ms_dmi st) /\
         pd_front d' = pd_front d ++ predictFrontWheels P o s unypr angleMod (ms_front st) /\
         pd_rear d' = pd_rear d ++ predictRearWheels P o s unypr angleMod (ms_rear st) /\
         pd_st d' = pd_st d ++ predictSteering P o s unypr angleMod (ms_st st)) /\
    (forall P o st d d', td_predict ypr unypr r2quat angleMod fit P o st d = Ret d' ->
       exists n s, segments (td_knots o) (map fst (tds_pose st)) n /\
         fit (map fst (tds_pose st)) (init_poses ypr r2quat (c_mount P) (measured (tds_pose st))) n = Ret s /\
         tpd_pose d' = tpd_pose d ++ td_predictPoses P s unypr angleMod (tds_pose st) /\
         tpd_left d' = tpd_left d ++ td_predictLeftWheel P o s unypr angleMod (tds_left st) /\
         tpd_right d' = tpd_right d ++ td_predictRightWheel P o s unypr angleMod (tds_right st)).
  Proof.
    split; intros P o st d d'.
    - unfold car_predict, fit_splines. destruct (numSegments _ _) as [n|] eqn:E; [|done]. apply segments_model in E.
      destruct (fit _ _ n) as [s| | |] eqn:F; try done. cbn [rbind]. intros [= <-]. exists n, s. auto 10.
    - unfold td_predict, fit_splines. destruct (numSegments _ _) as [n|] eqn:E; [|done]. apply segments_model in E.
      destruct (fit _ _ n) as [s| | |] eqn:F; try done. cbn [rbind]. intros [= <-]. exists n, s. auto 10.
  Qed.
End fit.
Example segments_example : segments 5 [0%Z; 1000000000%Z] 2.
Proof.
  exists 0%Z, [1000000000%Z]. split; [done|]. cbn [List.last length]. change (1000000000 - 0)%Z with 1000000000%Z.
  replace (IZR 1000000000 / 10 ^ 9) with 1 by (simpl; field). replace (INR 2 / 1) with (IZR 2) by (simpl; field).
  rewrite (Zrnd_IZR ZnearestA 2). split; [lra|]. split; [lia|]. split; [lia|]. right. split; [lia|done].
Qed.

(** ** Programs with several normal distributions *)
Section program.
  Context (junk : R).
  Local Notation step := (nstep junk).
  Local Notation run := (nrun junk).

  Definition ninv (past : list nline) (s : list (@normal1 R)) : Prop :=
    length s = n_made past /\ forall i d, s !! i = Some d -> n1_ok d /\ n1_mean d = mean_of past i /\ n1_var d = var_of past i.
  Lemma new_good m v : 0 < v -> normal1_new RO junk m v = Ret (Normal1 m v (/ v) (sqrt v) (/ 2 * ln (2 * PI * v))).
  Proof. intros H. unfold normal1_new. by rewrite setVariance_good. Qed.
  Lemma new_bad m v : v <= 0 -> normal1_new RO junk m v = Throw BadArgument.
  Proof. intros H. unfold normal1_new. by rewrite setVariance_bad. Qed.
  Lemma nstep_inv past s c s' r : ninv past s -> step s c = Some (s', r) -> ninv (c :: past) s'.
  Proof.
    intros [Hl Hd] H. destruct c as [m v|i j|i m|i v]; cbn [nstep] in H.
    - destruct (Rle_or_lt v 0) as [Hv|Hv].
      + rewrite new_bad in H by done. simplify_eq. cbn [ninv n_made mean_of var_of]. unfold ninv. cbn [n_made mean_of var_of].
        destruct (Rlt_dec 0 v) as [X|X]; [lra|]. split; [exact Hl|exact Hd].
      + rewrite new_good in H by done. simplify_eq. unfold ninv. cbn [n_made mean_of var_of]. destruct (Rlt_dec 0 v) as [X|X]; [|lra].
        split; [rewrite app_length; simpl; lia|]. intros i d Hi. apply lookup_app_Some in Hi as [Hi|[Hi1 Hi]].
        * pose proof (lookup_lt_Some _ _ _ Hi). destruct (Nat.eqb_spec i (n_made past)); [lia|]. by apply Hd.
        * apply list_lookup_singleton_Some in Hi as [Hi <-]. destruct (Nat.eqb_spec i (n_made past)); [|lia]. repeat split; done.
    - destruct (s !! i) as [di|] eqn:Ei; [|done]. destruct (s !! j) as [dj|] eqn:Ej; [|done]. cbn [mbind option_bind] in H. simplify_eq.
      unfold ninv. cbn [n_made mean_of var_of]. split; [rewrite insert_length; exact Hl|]. intros k d Hk. destruct (decide (k = i)) as [->|Hn].
      + rewrite list_lookup_insert in Hk by (by eapply lookup_lt_Some). simplify_eq. rewrite Nat.eqb_refl. exact (Hd j dj Ej).
      + rewrite list_lookup_insert_ne in Hk by done. destruct (Nat.eqb_spec k i); [done|]. by apply Hd.
    - destruct (s !! i) as [di|] eqn:Ei; [|done]. cbn [mbind option_bind] in H. simplify_eq.
      unfold ninv. cbn [n_made mean_of var_of]. split; [rewrite insert_length; exact Hl|]. intros k d Hk. destruct (decide (k = i)) as [->|Hn].
      + rewrite list_lookup_insert in Hk by (by eapply lookup_lt_Some). simplify_eq. rewrite Nat.eqb_refl.
        destruct (Hd i di Ei) as (O & _ & V). split; [exact O|]. split; [reflexivity|exact V].
      + rewrite list_lookup_insert_ne in Hk by done. destruct (Nat.eqb_spec k i); [done|]. by apply Hd.
    - destruct (s !! i) as [di|] eqn:Ei; [|done]. cbn [mbind option_bind] in H. unfold ninv. cbn [n_made mean_of var_of].
      destruct (Hd i di Ei) as (O & M & V). destruct (Rle_or_lt v 0) as [Hv|Hv].
      + rewrite setVariance_bad in H by done. cbn [fst snd] in H. simplify_eq. destruct (Rlt_dec 0 v) as [X|X]; [lra|]. split; [rewrite insert_length; exact Hl|].
        intros k d Hk. rewrite andb_false_r. destruct (decide (k = i)) as [->|Hn].
        * rewrite list_lookup_insert in Hk by (by eapply lookup_lt_Some). by simplify_eq.
        * rewrite list_lookup_insert_ne in Hk by done. by apply Hd.
      + rewrite setVariance_good in H by done. cbn [fst snd] in H. simplify_eq. destruct (Rlt_dec 0 v) as [X|X]; [|lra]. split; [rewrite insert_length; exact Hl|].
        intros k d Hk. rewrite andb_true_r. destruct (decide (k = i)) as [->|Hn].
        * rewrite list_lookup_insert in Hk by (by eapply lookup_lt_Some). simplify_eq. rewrite Nat.eqb_refl. repeat split; done.
        * rewrite list_lookup_insert_ne in Hk by done. destruct (Nat.eqb_spec k i); [done|]. by apply Hd.
  Qed.
  Lemma nrun_inv h : forall past s s' out, ninv past s -> run s h = Some (s', out) -> ninv (rev h ++ past) s'.
  Proof.
    induction h as [|c h IH]; intros past s s' out Hi H; [by simpl in *; simplify_eq|].
    cbn [nrun] in H. destruct (step s c) as [[s1 o]|] eqn:E; [|done]. cbn [mbind option_bind fst snd] in H.
    destruct (run s1 h) as [[s2 os]|] eqn:E2; [|done]. cbn [mbind option_bind fst snd] in H. simplify_eq.
    simpl. rewrite <- app_assoc. simpl. eapply IH; [|exact E2]. by eapply nstep_inv.
  Qed.

  (** C35.  After any program that makes, assigns and changes any number of one-dimensional normal distributions, each has the mean written last to it and the
      last variance written to it that was positive, and everything else it tells follows from these two; it exists exactly if its constructor was given a
      positive variance. *)
  Theorem normal1_program h s out : run [] h = Some (s, out) ->
    length s = n_made (rev h) /\
    forall i d, s !! i = Some d ->
      let m := mean_of (rev h) i in let v := var_of (rev h) i in
      0 < v /\ getMean d = m /\ getVariance d = v /\ getPrecision d = / v /\ getStandardDeviation d = sqrt v /\
      (forall x, pdf RO d x = / sqrt (2 * PI * v) * exp (- (x - m) ^ 2 / (2 * v))) /\
      (forall x, mahalanobisDistance RO d x = (x - m) ^ 2 / v).
  Proof.
    intros H. assert (I0 : ninv [] []) by (split; [done|intros i d Hi; by rewrite lookup_nil in Hi]).
    destruct (nrun_inv h [] [] s out I0 H) as [Hl Hd]. rewrite app_nil_r in *. split; [exact Hl|].
    intros i d Hi m v. destruct (Hd i d Hi) as ((Hv & Hp & Hs & Hn) & Em & Ev). fold m in Em. fold v in Ev. rewrite Ev in *.
    unfold getMean, getVariance, getPrecision, getStandardDeviation. do 5 (split; [done|]).
    assert (Hm : forall x, mahalanobisDistance RO d x = (x - m) ^ 2 / v).
    { intros x. unfold mahalanobisDistance. cbn [s_mul s_sub real_sops]. rewrite Em, Hp. field. lra. }
    split; [|exact Hm]. intros x. unfold pdf, logpdf. rewrite Hm, half_real. cbn [s_exp s_sub s_mul s_Z real_sops]. rewrite Hn.
    assert (P2 : 0 < 2 * PI * v) by (pose proof PI_RGT_0; nra).
    replace ((0 - / 2) * ((x - m) ^ 2 / v) - / 2 * ln (2 * PI * v)) with (- (x - m) ^ 2 / (2 * v) + - ln (sqrt (2 * PI * v))).
    - rewrite exp_plus, exp_Ropp, exp_ln by (by apply sqrt_lt_R0). ring.
    - assert (L : ln (2 * PI * v) = 2 * ln (sqrt (2 * PI * v))).
      { rewrite <- (sqrt_sqrt (2 * PI * v)) at 1 by lra. rewrite ln_mult by (by apply sqrt_lt_R0). ring. }
      rewrite L. field. lra.
  Qed.
  (** A line throws exactly if it gives a variance that is not positive. *)
  Theorem normal1_program_throws h c s out r : run [] (h ++ [c]) = Some (s, out) -> last out = Some r ->
    r = match c with NNew _ v | NSetVar _ v => if Rlt_dec 0 v then Ret tt else Throw BadArgument | _ => Ret tt end.
  Proof.
    intros H Hr. assert (X : exists s1 s2, step s1 c = Some (s2, r)).
    { clear -H Hr. revert s out H Hr. generalize (@nil (@normal1 R)) as s0. induction h as [|c' h IH]; intros s0 s out H Hr.
      - cbn [app nrun] in H. destruct (step s0 c) as [[s1 o]|] eqn:E; [|done]. cbn [mbind option_bind fst snd] in H. simplify_eq. simpl in Hr. simplify_eq. eauto.
      - cbn [app nrun] in H. destruct (step s0 c') as [[s1 o]|] eqn:E; [|done]. cbn [mbind option_bind fst snd] in H.
        destruct (run s1 (h ++ [c])) as [[s2 os]|] eqn:E2; [|done]. cbn [mbind option_bind fst snd] in H. simplify_eq.
        eapply IH; [exact E2|]. destruct os as [|o' os]; [|exact Hr]. exfalso. clear -E2. destruct h as [|c2 h]; cbn [app nrun] in E2.
        + destruct (step s1 c) as [[? ?]|]; [|done]. by cbn [mbind option_bind fst snd] in E2.
        + destruct (step s1 c2) as [[? ?]|]; [|done]. cbn [mbind option_bind fst snd] in E2. by destruct (run _ (h ++ [c])) as [[? ?]|]. }
    destruct X as (s1 & s2 & X). destruct c as [m v|i j|i m|i v]; cbn [nstep] in X.
    - destruct (Rle_or_lt v 0) as [Hv|Hv]; [rewrite new_bad in X by done|rewrite new_good in X by done]; simplify_eq; destruct (Rlt_dec 0 v); try lra; done.
    - destruct (s1 !! i); [|done]. destruct (s1 !! j); [|done]. cbn [mbind option_bind] in X. by simplify_eq.
    - destruct (s1 !! i); [|done]. cbn [mbind option_bind] in X. by simplify_eq.
    - destruct (s1 !! i); [|done]. cbn [mbind option_bind] in X.
      destruct (Rle_or_lt v 0) as [Hv|Hv]; [rewrite setVariance_bad in X by done|rewrite setVariance_good in X by done]; cbn [fst snd] in X; simplify_eq;
        destruct (Rlt_dec 0 v); try lra; done.
  Qed.
  Example normal1_program_example : exists s out d,
    run [] [NNew 1 4; NNew 2 0; NNew 3 9; NAssign 1 0; NSetMean 0 7; NSetVar 1 (-1)] = Some (s, out) /\ s !! 1%nat = Some d /\ getMean d = 1 /\ getVariance d = 4.
  Proof.
    cbn [nrun nstep]. rewrite new_good by lra. cbn [mbind option_bind fst snd app nrun nstep]. rewrite new_bad by lra.
    cbn [mbind option_bind fst snd app nrun nstep]. rewrite new_good by lra. cbn [mbind option_bind fst snd app nrun nstep].
    cbn. rewrite setVariance_bad by lra. cbn. do 3 eexists. split; [reflexivity|]. split; [reflexivity|]. done.
  Qed.
End program.
