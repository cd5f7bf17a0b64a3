(** Theorems about the egomotion calibrator's dead reckoning, error terms and predictions (C98-C100). *)
From stdpp Require Import prelude list.
From Coq Require Import Reals Lra.
From Verif Require Import Base GeodeticModel Spec_Geodetic Properties_Geodetic SimEngineModel Spec_SimEngine Properties_SimEngine Properties_EgoSim Properties_EgoData
  CalibratorModel Properties_Calibrator KinematicsModel EgoKinModel Spec_EgoKin.
Local Open Scope R_scope.

(** ** Rigid motions *)
Lemma qplus_assoc a b c : qplus a (qplus b c) = qplus (qplus a b) c.
Proof. destruct a as [a1 a2 a3 a4], b as [b1 b2 b3 b4], c as [c1 c2 c3 c4]. unfold qplus. cbn [q0 q1 q2 q3]. f_equal; ring. Qed.
Lemma mul_P_assoc a b c : mul_P a (mul_P b c) = mul_P (mul_P a b) c.
Proof.
  destruct a as [qa [ax ay az]], b as [qb [bx b_y bz]], c as [qc [cx cy cz]]. unfold mul_P, quatRotate. cbn [fst snd]. rewrite qplus_assoc. f_equal.
  rewrite quat2r_qplus, Properties_EgoData.mulv_add. set (u := mulv (quat2r qa) (mulv (quat2r qb) _)). set (v := mulv (quat2r qa) _).
  destruct u as [ux uy uz], v as [wx wy wz]. unfold add3. cbn [vx vy vz]. f_equal; ring.
Qed.
Lemma quat2r_id p : mulv (quat2r (Quat 0 0 0 1)) p = p.
Proof. destruct p as [x y z]. unfold quat2r, mulv, dot3. cbn [q0 q1 q2 q3 r1 r2 r3 vx vy vz]. f_equal; ring. Qed.
Lemma mul_id_l a : mul_P identity_P a = a.
Proof.
  destruct a as [[a b c d] [x y z]]. unfold mul_P, identity_P, quatRotate. cbn [fst snd]. rewrite quat2r_id. unfold qplus, add3. cbn [q0 q1 q2 q3 vx vy vz].
  f_equal; f_equal; ring.
Qed.
Lemma mul_id_r a : mul_P a identity_P = a.
Proof.
  destruct a as [[a b c d] [x y z]]. unfold mul_P, identity_P, quatRotate, mulv, dot3, qplus, add3. cbn [fst snd q0 q1 q2 q3 vx vy vz].
  f_equal; f_equal; ring.
Qed.
Lemma T_of_mul a b : T_of (mul_P a b) = compose_T (T_of a) (T_of b).
Proof.
  apply same_T_eq. intros p. rewrite compose_apply. unfold T_of, mul_P, apply_T, quatRotate. cbn [fst snd rot trans].
  rewrite quat2r_qplus, Properties_EgoData.mulv_add. set (u := mulv (quat2r (fst a)) (mulv (quat2r (fst b)) p)). set (v := mulv (quat2r (fst a)) (snd b)).
  destruct u as [ux uy uz], v as [wx wy wz], (snd a) as [x y z]. unfold add3. cbn [vx vy vz]. f_equal; ring.
Qed.
Lemma unit_mul a b : unit_pose a -> unit_pose b -> unit_pose (mul_P a b).
Proof. unfold unit_pose, mul_P. cbn [fst]. apply unit_qplus. Qed.
Lemma qplus_inv q : unit_quat q -> qplus q (quatInv q) = Quat 0 0 0 1 /\ qplus (quatInv q) q = Quat 0 0 0 1.
Proof. intros H. destruct q as [a b c d]. unfold unit_quat in H. unfold qplus, quatInv. cbn [q0 q1 q2 q3] in *. split; f_equal; lra. Qed.
Lemma unit_orthogonal q : unit_quat q -> orthogonal (quat2r q).
Proof.
  intros H. destruct (qplus_inv q H) as [E1 E2]. rewrite <- quat2r_inv || idtac. split; intros p; rewrite <- quat2r_inv, <- quat2r_qplus, ?E1, ?E2; apply quat2r_id.
Qed.
Definition inv_P (a : pose) : pose := (quatInv (fst a), scale3 (- 1) (mulv (quat2r (quatInv (fst a))) (snd a))).
Lemma inv_P_l a : unit_pose a -> mul_P (inv_P a) a = identity_P.
Proof.
  intros H. unfold mul_P, inv_P, quatRotate. cbn [fst snd]. rewrite (proj2 (qplus_inv _ H)). unfold identity_P. f_equal.
  set (u := mulv _ _). destruct u as [x y z]. unfold add3, scale3. cbn [vx vy vz]. f_equal; ring.
Qed.
Lemma unit_inv_P a : unit_pose a -> unit_pose (inv_P a).
Proof. unfold unit_pose, inv_P. cbn [fst]. apply unit_inv. Qed.

(** ** Dead reckoning *)
Lemma total_app a b : total (a ++ b) = mul_P (total a) (total b).
Proof.
  unfold total. rewrite fold_left_app. generalize (fold_left mul_P a identity_P). intros x. rewrite <- (mul_id_r x) at 1. generalize identity_P. revert x.
  induction b as [|p b IH]; intros x i; [reflexivity|]. cbn [fold_left]. rewrite <- mul_P_assoc. apply IH.
Qed.
Lemma total_cons a l : total (a :: l) = mul_P a (total l).
Proof. rewrite <- (app_nil_l l) at 1. change (a :: [] ++ l) with ([a] ++ l). rewrite total_app. f_equal. unfold total. cbn [fold_left]. apply mul_id_l. Qed.
Lemma total_unit l : Forall unit_pose l -> unit_pose (total l).
Proof.
  induction l as [|a l IH]; intros H; [unfold unit_pose, total, identity_P, unit_quat; cbn; ring|]. apply Forall_cons in H as [Ha Hl].
  rewrite total_cons. apply unit_mul; [exact Ha|by apply IH].
Qed.
Section dead.
  Context {C : Type}.
  Local Notation meas := (Z * motion_meas C)%type.
  Lemma integrate_length prev (l : list meas) : length (integrate prev l) = length l.
  Proof. revert prev. induction l as [|[t m] l IH]; intros prev; [reflexivity|]. cbn [integrate length]. by rewrite IH. Qed.
  Lemma last_cons_ne {A} (x : A) l d d' : List.last (x :: l) d = List.last (x :: l) d'.
  Proof. revert x. induction l as [|y l IH]; intros x; [reflexivity|]. cbn. apply IH. Qed.
  Lemma integrate_last prev (l : list meas) d : List.last (prev :: integrate prev l) d = mul_P prev (total (motions l)).
  Proof.
    revert prev d. induction l as [|[t m] l IH]; intros prev d; cbn [integrate].
    - cbn. by rewrite mul_id_r.
    - change (List.last (mul_P prev (mm_motion m) :: integrate (mul_P prev (mm_motion m)) l) d = mul_P prev (total (motions ((t, m) :: l)))).
      rewrite IH. unfold motions. cbn [map snd]. rewrite total_cons. by rewrite mul_P_assoc.
  Qed.
  Lemma integrate_step prev (l : list meas) i a b t m :
    (prev :: integrate prev l) !! i = Some a -> integrate prev l !! i = Some b -> l !! i = Some (t, m) -> b = mul_P a (mm_motion m).
  Proof.
    revert prev i. induction l as [|[t' m'] l IH]; intros prev i; [discriminate|]. destruct i as [|i]; cbn [integrate].
    - cbn. intros H1 H2 H3. congruence.
    - intros H1 H2 H3. apply (IH (mul_P prev (mm_motion m')) i); assumption.
  Qed.
  Lemma integrate_move G prev (l : list meas) : integrate (mul_P G prev) l = map (mul_P G) (integrate prev l).
  Proof. revert prev. induction l as [|[t m] l IH]; intros prev; [reflexivity|]. cbn [integrate map]. rewrite <- mul_P_assoc. by rewrite IH. Qed.
  Lemma dead_move G prev (l : list meas) : dead_reckoning (mul_P G prev) l = ((dead_reckoning prev l).1, map (mul_P G) (dead_reckoning prev l).2).
  Proof. destruct l as [|[t m] l]; [reflexivity|]. unfold dead_reckoning. cbn [fst snd map]. rewrite integrate_move. reflexivity. Qed.

  (** The poses the splines are fitted to: they start where the previous window ended, at the beginning of the first motion, and every
      measured motion of the reference sensor leads from one to the next, at its time stamp. *)
  Theorem ego_dead_reckoned_poses prev t0 m0 (l : list meas) :
    exists ts ps, dead_reckoning prev ((t0, m0) :: l) = (ts, ps) /\ length ts = S (S (length l)) /\ length ps = S (S (length l)) /\
      ts !! 0%nat = Some (t0 - mm_duration m0)%Z /\ ps !! 0%nat = Some prev /\
      (forall i t m, ((t0, m0) :: l) !! i = Some (t, m) -> ts !! S i = Some t /\
        exists a b, ps !! i = Some a /\ ps !! S i = Some b /\ motion_between (T_of a) (T_of b) (T_of (mm_motion m))).
  Proof.
    eexists _, _. split; [reflexivity|]. cbn [length]. rewrite map_length, integrate_length. cbn [length]. split; [reflexivity|]. split; [reflexivity|].
    split; [reflexivity|]. split; [reflexivity|]. intros i t m Hi. split; [cbn [lookup list_lookup]; change (map fst ((t0, m0) :: l) !! i = Some t);
      rewrite list_lookup_fmap, Hi; reflexivity|].
    pose proof (lookup_lt_Some _ _ _ Hi) as L.
    destruct ((prev :: integrate prev ((t0, m0) :: l)) !! i) as [a|] eqn:Ea.
    2:{ apply lookup_ge_None in Ea. cbn [length] in Ea. rewrite integrate_length in Ea. cbn [length] in Ea, L. lia. }
    destruct (integrate prev ((t0, m0) :: l) !! i) as [b|] eqn:Eb.
    2:{ apply lookup_ge_None in Eb. rewrite integrate_length in Eb. lia. }
    exists a, b. split; [reflexivity|]. split; [exact Eb|]. rewrite (integrate_step _ _ _ _ _ _ _ Ea Eb Hi). intros p. by rewrite T_of_mul, compose_apply.
  Qed.
End dead.

(** ** Moving everything by a rigid motion *)
Lemma qplus_add g a b : qplus g (q_add a b) = q_add (qplus g a) (qplus g b).
Proof. destruct g as [g1 g2 g3 g4], a as [a1 a2 a3 a4], b as [b1 b2 b3 b4]. unfold qplus, q_add. cbn [q0 q1 q2 q3]. f_equal; ring. Qed.
Lemma qplus_sub g a b : qplus g (q_sub a b) = q_sub (qplus g a) (qplus g b).
Proof. destruct g as [g1 g2 g3 g4], a as [a1 a2 a3 a4], b as [b1 b2 b3 b4]. unfold qplus, q_sub. cbn [q0 q1 q2 q3]. f_equal; ring. Qed.
Lemma qplus_opp g a : qplus g (q_opp a) = q_opp (qplus g a).
Proof. destruct g as [g1 g2 g3 g4], a as [a1 a2 a3 a4]. unfold qplus, q_opp. cbn [q0 q1 q2 q3]. f_equal; ring. Qed.
Lemma qplus_norm g a : unit_quat g -> q_norm (qplus g a) = q_norm a.
Proof.
  destruct g as [g1 g2 g3 g4], a as [a1 a2 a3 a4]. unfold unit_quat, q_norm, qplus. cbn [q0 q1 q2 q3]. intros H. f_equal.
  transitivity ((g1 * g1 + g2 * g2 + g3 * g3 + g4 * g4) * (a1 * a1 + a2 * a2 + a3 * a3 + a4 * a4)); [ring|]. rewrite H. ring.
Qed.
Lemma bestQuat_move g p c : unit_quat g -> bestQuat (qplus g p) (qplus g c) = qplus g (bestQuat p c).
Proof.
  intros H. unfold bestQuat. rewrite <- qplus_add, <- qplus_sub, !(qplus_norm g) by exact H. destruct (Rlt_dec _ _); [by rewrite qplus_opp|reflexivity].
Qed.
Lemma last_map {A B} (f : A -> B) l d : List.last (map f l) (f d) = f (List.last l d).
Proof. induction l as [|x [|y l] IH]; [reflexivity|reflexivity|exact IH]. Qed.
Lemma rotPoses_move g qs : unit_quat g -> rotPoses (map (qplus g) qs) = map (qplus g) (rotPoses qs).
Proof.
  intros H. induction qs as [|q qs IH] using rev_ind; [reflexivity|]. rewrite map_app. cbn [map]. rewrite !rotPoses_snoc, IH.
  destruct (rotPoses qs) as [|r rs]; [reflexivity|]. cbn [map]. rewrite map_app. cbn [map]. f_equal. f_equal.
  change (qplus g r :: map (qplus g) rs) with (map (qplus g) (r :: rs)). rewrite last_map. by apply bestQuat_move.
Qed.
Lemma T_of_apply G p : apply_T (T_of G) p = add3 (quatRotate (fst G) p) (snd G).
Proof. reflexivity. Qed.
Lemma move_poses G ps : unit_pose G -> (map snd (map (mul_P G) ps), rotPoses (map fst (map (mul_P G) ps))) = move G (map snd ps, rotPoses (map fst ps)).
Proof.
  intros H. unfold move. cbn [fst snd]. rewrite <- rotPoses_move by exact H. rewrite !map_map. reflexivity.
Qed.

Section calibrator.
  Context {C : Type} (ref : nat) (knots bound : Z) (window : R) (fit : list Z -> list v3 * list quat -> Z -> result splines) (lround_big : Z)
    (err : motion_term C -> list R * R).
  Local Notation meas := (Z * motion_meas C)%type.
  Local Notation initS := (ego_initSplines ref knots fit lround_big).
  Local Notation predict := (ego_predict ref knots bound fit lround_big).
  Local Notation flush := (ego_addMeasurements ref knots bound fit lround_big).
  Local Notation add := (ego_add ref knots bound window fit lround_big).
  Local Notation run := (ego_run ref knots bound window fit lround_big err).
  Local Notation step := (ego_call_step ref knots bound window fit lround_big err).
  Local Notation terms := (motion_terms_of (C:=C) ref bound).
  Local Notation current := (current ref bound).

  (** Building the splines moves the calibrator on by the motions of the reference sensor in the window, whatever happens then. *)
  Lemma initS_state (s : ego_state C) : (initS s).1 = set_prev (mul_P (es_prev s) (total (motions (es_meas s ref)))) s.
  Proof.
    unfold ego_initSplines. destruct (es_meas s ref) as [|[t m] l] eqn:E.
    - cbn [fst]. unfold motions, total. cbn [map fold_left]. rewrite mul_id_r. by destruct s.
    - unfold dead_reckoning. cbv beta iota zeta. rewrite integrate_last. by destruct (ego_numSegments _ _ _ _).
  Qed.
  Lemma initS_no_reference (s : ego_state C) : es_meas s ref = [] -> initS s = (s, Throw StdOutOfRange).
  Proof. intros E. unfold ego_initSplines. by rewrite E. Qed.

  (** ** Error terms of one sensor *)
  Section terms.
    Context (cal : nat -> option (Z * transf)) (sp : splines) (k : nat).
    Definition known : bool := Nat.eqb k ref || match cal k with Some _ => true | None => false end.
    Definition inside (x : meas) : bool :=
      Nat.eqb k ref || match cal k with None => false | Some (d, _) => in_spline (sp_min sp) (sp_max sp) bound (fst x - d) end.
    Definition pose_at (t : Z) : transf :=
      if Nat.eqb k ref then spline_T sp t else match cal k with None => ident_T | Some (d, r_T_s) => compose_T (spline_T sp (t - d)) r_T_s end.
    Lemma current_known t m : known = true -> current cal sp k t = Ret (if inside (t, m) then Some (pose_at t) else None).
    Proof.
      unfold known, inside, pose_at, EgoKinModel.current. cbn [fst]. destruct (Nat.eqb k ref); [reflexivity|]. destruct (cal k) as [[d T]|]; [|discriminate]. intros _.
      cbn [orb]. unfold in_spline. destruct ((sp_max sp <? bound + (t - d)) || (- bound + (t - d) <? sp_min sp))%Z; reflexivity.
    Qed.
    Lemma current_unknown t : known = false -> current cal sp k t = Throw StdOutOfRange.
    Proof. unfold known, EgoKinModel.current. destruct (Nat.eqb k ref); [discriminate|]. by destruct (cal k) as [[d T]|]. Qed.
    Definition term_of (x : meas * meas) : motion_term C :=
      MotionTerm (compose_T (inverse_T (pose_at (fst (fst x)))) (pose_at (fst (snd x)))) (T_of (mm_motion (snd (snd x)))) (mm_sigma2 (snd (snd x))).
    Lemma terms_pairs l : known = true -> forall prev, terms cal sp k (option_map (fun x => pose_at (fst x)) prev) l = Ret (map term_of (motion_pairs inside prev l)).
    Proof.
      intros K. induction l as [|[t m] l IH]; intros prev; [reflexivity|]. cbn [motion_terms_of motion_pairs]. rewrite (current_known t m K). cbn [rbind].
      destruct (inside (t, m)).
      - specialize (IH (Some (t, m))). cbn [option_map fst] in IH. rewrite IH. cbn [rbind]. destruct prev as [p|]; reflexivity.
      - apply IH.
    Qed.
    Lemma terms_unknown prev x l : known = false -> terms cal sp k prev (x :: l) = Throw StdOutOfRange.
    Proof. intros K. destruct x as [t m]. cbn [motion_terms_of]. by rewrite (current_unknown t K). Qed.
    Lemma predict_pairs l : known = true -> forall prev, predictMotion ref bound cal sp err k (option_map (fun x => pose_at (fst x)) prev) l =
      (map (fun x => EgoPred (fst (snd x)) (mt_pred (term_of x)) (fst (err (term_of x))) (snd (err (term_of x)))) (motion_pairs inside prev l), Ret tt).
    Proof.
      intros K. induction l as [|[t m] l IH]; intros prev; [reflexivity|]. cbn [predictMotion motion_pairs]. rewrite (current_known t m K).
      destruct (inside (t, m)).
      - specialize (IH (Some (t, m))). cbn [option_map fst] in IH. rewrite IH. destruct prev as [p|]; reflexivity.
      - apply IH.
    Qed.
    Lemma inside_usable t m : inside (t, m) = true <-> usable ref cal bound sp k t.
    Proof.
      unfold inside, usable. cbn [fst]. destruct (Nat.eqb_spec k ref) as [->|N]; [split; [by left|done]|]. cbn [orb]. destruct (cal k) as [[d T]|].
      - unfold in_spline. rewrite negb_true_iff, orb_false_iff, !Z.ltb_ge. split.
        + intros [H1 H2]. right. exists d, T. split; [reflexivity|lia].
        + intros [->|(d' & T' & E & H)]; [done|]. injection E as <- <-. lia.
      - split; [discriminate|]. intros [->|(d & T & E & _)]; [done|discriminate].
    Qed.
    Lemma pose_at_sensor t p : known = true -> apply_T (pose_at t) p = sensor_at ref cal sp k t p.
    Proof. unfold known, pose_at, sensor_at. destruct (Nat.eqb k ref); [reflexivity|]. destruct (cal k) as [[d T]|]; [|discriminate]. intros _. apply compose_apply. Qed.
  End terms.
  Lemma calibrated_known cal k : calibrated ref cal k -> known cal k = true.
  Proof. unfold known. intros [->|(d & T & -> & _)]; [by rewrite Nat.eqb_refl|]. by rewrite orb_true_r. Qed.
  Lemma pose_at_orthogonal cal sp k t : proper sp -> calibrated ref cal k -> orthogonal (rot (pose_at cal sp k t)).
  Proof.
    intros Hp Hc. unfold pose_at. destruct (Nat.eqb_spec k ref) as [|N]; [apply Hp|]. destruct Hc as [->|(d & T & -> & HT)]; [done|].
    unfold compose_T. cbn [rot]. apply orthogonal_mulm; [apply Hp|exact HT].
  Qed.
  Lemma pairs_ext (f g : meas -> bool) l : (forall x, f x = g x) -> forall prev, motion_pairs f prev l = motion_pairs g prev l.
  Proof. intros E. induction l as [|x l IH]; intros prev; [reflexivity|]. cbn [motion_pairs]. rewrite E, !IH. reflexivity. Qed.
  Lemma zip_tail_lookup {A} (l : list A) i x y : zip l (tail l) !! i = Some (x, y) -> l !! i = Some x /\ l !! S i = Some y.
  Proof. intros H. apply lookup_zip_with_Some in H as (a & b & E & H1 & H2). injection E as <- <-. split; [exact H1|]. destruct l; [discriminate|exact H2]. Qed.
  (** The error terms of a calibrated sensor: one for each usable measurement but the first, comparing the measured motion with the motion
      of the sensor, according to the splines and its calibration, since the previous usable measurement. *)
  Theorem ego_motion_terms cal sp k l ok : proper sp -> calibrated ref cal k -> (forall t m, ok (t, m) = true <-> usable ref cal bound sp k t) ->
    let us := List.filter ok l in
    exists ts, terms cal sp k None l = Ret ts /\ length ts = Nat.pred (length us) /\
      forall i e, ts !! i = Some e -> exists t m t' m', us !! i = Some (t, m) /\ us !! S i = Some (t', m') /\
        mt_meas e = T_of (mm_motion m') /\ mt_cov e = mm_sigma2 m' /\
        forall p, sensor_at ref cal sp k t (apply_T (mt_pred e) p) = sensor_at ref cal sp k t' p.
  Proof.
    intros Hp Hc Hok us. pose proof (calibrated_known _ _ Hc) as K. pose proof (terms_pairs cal sp k l K None) as E. cbn [option_map] in E.
    rewrite (pairs_ext (inside cal sp k) ok) in E by (intros [t m]; apply eq_true_iff_eq; rewrite inside_usable; symmetry; apply Hok).
    destruct (motion_terms ok l) as [M1 M2]. fold us in M1, M2. eexists. split; [exact E|]. rewrite map_length. split; [exact M2|].
    intros i e He. rewrite list_lookup_fmap, M1 in He. destruct (zip us (tail us) !! i) as [[[t m] [t' m']]|] eqn:Ez; [|discriminate]. apply (inj Some) in He. subst e.
    apply zip_tail_lookup in Ez as [E1 E2]. exists t, m, t', m'. split; [exact E1|]. split; [exact E2|]. split; [reflexivity|]. split; [reflexivity|].
    intros p. rewrite <- !pose_at_sensor by exact K. unfold term_of. cbn [mt_pred fst snd]. rewrite compose_apply, inverse_right by (by apply pose_at_orthogonal). reflexivity.
  Qed.
  (** Predictions: for every such error term its error, its squared error and the predicted motion, with the measurement's own time stamp. *)
  Theorem ego_predictions cal sp k l : calibrated ref cal k ->
    exists ts, terms cal sp k None l = Ret ts /\ exists ps, predictMotion ref bound cal sp err k None l = (ps, Ret tt) /\
      map ep_motion ps = map mt_pred ts /\ map ep_error ps = map (fun e => fst (err e)) ts /\ map ep_error2 ps = map (fun e => snd (err e)) ts /\
      Forall2 (fun p e => exists m, In (ep_time p, m) l /\ mt_meas e = T_of (mm_motion m) /\ mt_cov e = mm_sigma2 m) ps ts.
  Proof.
    intros Hc. pose proof (calibrated_known _ _ Hc) as K. pose proof (terms_pairs cal sp k l K None) as E. pose proof (predict_pairs cal sp k l K None) as E'.
    cbn [option_map] in E, E'. eexists. split; [exact E|]. eexists. split; [exact E'|]. rewrite !map_map. split; [reflexivity|]. split; [reflexivity|]. split; [reflexivity|].
    assert (H : forall x y, In (x, y) (motion_pairs (inside cal sp k) None l) -> In y l).
    { intros x y. generalize (inside cal sp k) as ok. generalize (@None meas) as prev. clear. induction l as [|z l IH]; intros prev ok H; [destruct H|].
      cbn [motion_pairs] in H. destruct (ok z); [destruct prev|]; [destruct H as [H|H]; [injection H as _ <-; by left|]| |]; right; eapply IH; exact H. }
    revert H. clear E E'. generalize (motion_pairs (inside cal sp k) None l). intros ps. induction ps as [|[x [t m]] ps IH]; intros H; [constructor|]. cbn [map]. constructor.
    - exists m. split; [|split; reflexivity]. apply (H x). by left.
    - apply IH. intros x' y' Hi. apply (H x'). by right.
  Qed.
  (** Splines through the poses they are fitted to: the reference sensor's error terms are exactly satisfied, wherever the window starts. *)
  Theorem ego_reference_terms_at_start cal sp prev l ts ps : proper sp -> dead_reckoning prev l = (ts, ps) -> Forall unit_pose (prev :: motions l) ->
    (forall i t p, ts !! i = Some t -> ps !! i = Some p -> spline_at sp t = T_of p) ->
    forall es e, terms cal sp ref None l = Ret es -> In e es -> mt_pred e = mt_meas e.
  Proof.
    intros Hp Ed Hu Hi es e Et He. destruct l as [|[t0 m0] l]; [injection Et as <-; destruct He|].
    destruct (ego_dead_reckoned_poses prev t0 m0 l) as (ts' & ps' & E' & _ & _ & _ & _ & H). rewrite Ed in E'. injection E' as <- <-.
    assert (K : calibrated ref cal ref) by (by left).
    destruct (ego_motion_terms cal sp ref ((t0, m0) :: l) (fun _ => true) Hp K) as (es' & E1 & _ & HE).
    { intros t m. split; [intros _; by left|done]. }
    rewrite Et in E1. injection E1 as <-. apply elem_of_list_In, elem_of_list_lookup in He as [i He]. destruct (HE i e He) as (t & m & t' & m' & E1 & E2 & -> & _ & Hm).
    assert (F : forall l' : list meas, List.filter (fun _ => true) l' = l') by (induction l' as [|? ? IH]; [reflexivity|]; simpl; by rewrite IH).
    rewrite F in E1, E2. destruct (H i t m E1) as (T1 & a & b & A1 & B1 & _). destruct (H (S i) t' m' E2) as (T2 & a' & b' & A2 & B2 & M).
    rewrite B1 in A2. injection A2 as ->. unfold sensor_at in Hm. rewrite Nat.eqb_refl in Hm. rewrite (Hi _ _ _ T1 B1), (Hi _ _ _ T2 B2) in Hm.
    apply same_T_eq. intros p. assert (O : orthogonal (rot (T_of a'))) by (rewrite <- (Hi _ _ _ T1 B1); apply Hp).
    rewrite <- (inverse_left (T_of a') (apply_T (mt_pred e) p) O), <- (inverse_left (T_of a') (apply_T (T_of (mm_motion m')) p) O). by rewrite Hm, M.
  Qed.

  (** ** Histories *)
  Lemma predict_state cal order (s : ego_state C) : let s' := (predict cal err order s).1 in
    es_prev s' = mul_P (es_prev s) (total (motions (es_meas s ref))) /\ es_meas s' = es_meas s /\ es_start s' = es_start s /\ es_last s' = es_last s /\ es_sent s' = es_sent s.
  Proof.
    pose proof (initS_state s) as E. unfold ego_predict. destruct (initS s) as [s1 r]. cbn [fst] in E. subst s1.
    destruct r as [sp| | |]; [destruct (predict_all _ _ _ _ _ _ _ _) as [d r]| | |]; repeat split; reflexivity.
  Qed.
  (** A user expects predict() not to change the calibrator.  Whatever its outcome, it moves the start of the next splines on by the motion of
      the reference sensor in the window, as addMeasurements() will do again for the same measurements. *)
  Theorem ego_predict_moves_refuted cal order (s : ego_state C) : unit_pose (es_prev s) ->
    es_prev (predict cal err order s).1 = es_prev s <-> total (motions (es_meas s ref)) = identity_P.
  Proof.
    intros U. destruct (predict_state cal order s) as (-> & _). split; intros H.
    - rewrite <- (mul_id_l (total _)), <- (inv_P_l _ U), <- mul_P_assoc, H. reflexivity.
    - rewrite H. apply mul_id_r.
  Qed.
  Lemma flush_prev cal order r (s : ego_state C) : (flush cal order r s).2 = Ret tt ->
    let s' := (flush cal order r s).1 in es_prev s' = mul_P (es_prev s) (total (motions (es_meas s ref))) /\ (forall k, es_meas s' k = []).
  Proof.
    pose proof (initS_state s) as E. unfold ego_addMeasurements. destruct (initS s) as [s1 r1]. cbn [fst] in E. subst s1.
    destruct r1 as [sp| | |]; [destruct (all_terms _ _ _ _ _ _)| | |]; try discriminate. intros _. split; reflexivity.
  Qed.
  (** The reference sensor's motions among the calls. *)
  Definition reference_motions (l : list (ego_call C)) : list pose :=
    flat_map (fun c => match c with CAdd _ _ _ k _ m => if Nat.eqb k ref then [mm_motion m] else [] | _ => [] end) l.
  (** Without predictions, and as long as no call fails, every motion of the reference sensor is integrated exactly once, in order: the start of
      the next window is the composition of the motions of the finished windows. *)
  Theorem ego_trajectory_total l : Forall (fun c => match c with CAdd _ _ _ _ _ _ | CFlush _ _ _ | CClearPredictions => True | _ => False end) l ->
    forall s, Forall (fun x => snd x = Ret tt) (run s l).2 -> let s' := (run s l).1 in
    mul_P (es_prev s') (total (motions (es_meas s' ref))) = mul_P (mul_P (es_prev s) (total (motions (es_meas s ref)))) (total (reference_motions l)).
  Proof.
    intros Hl. induction l as [|c l IH]; intros s Hr; [cbn [ego_run fst]; change (total (reference_motions [])) with identity_P; by rewrite mul_id_r|].
    apply Forall_cons in Hl as [Hc Hl]. cbn [ego_run] in *. destruct (step s c) as [s1 r] eqn:E. specialize (IH Hl s1). destruct (run s1 l) as [s2 rs]. cbn [fst snd] in *.
    apply Forall_cons in Hr as [Hr1 Hr]. cbn [snd] in Hr1. subst r. rewrite (IH Hr). clear IH Hr.
    assert (Es : mul_P (es_prev s1) (total (motions (es_meas s1 ref))) = mul_P (mul_P (es_prev s) (total (motions (es_meas s ref)))) (total (reference_motions [c]))).
    { destruct c as [cal order r k t m|cal order r|cal order| |]; try done; cbn [ego_call_step] in E.
      - unfold ego_add in E. set (s0 := EgoState _ _ _ _ _ _) in E.
        assert (X : exists s2', (if Rle_dec window (IZR (t - (if (es_start s =? -1)%Z then t else es_start s)) / 10 ^ 9) then flush cal order r s0 else (s0, Ret tt)) = (s2', Ret tt) /\
          mul_P (es_prev s2') (total (motions (es_meas s2' ref))) = mul_P (es_prev s) (total (motions (es_meas s ref))) /\ s1 =
          EgoState (es_prev s2') (fun j => if Nat.eqb j k then es_meas s2' j ++ [(t, m)] else es_meas s2' j) (es_start s2') (es_last s2') (es_pred s2') (es_sent s2')).
        { destruct (Rle_dec _ _) as [L|L].
          - pose proof (flush_prev cal order r s0) as F. destruct (flush cal order r s0) as [s2' r2]. cbn [fst snd] in F. destruct r2 as [[]| | |]; try discriminate.
            destruct (F eq_refl) as [F1 F2]. exists s2'. split; [reflexivity|]. rewrite F1, F2. split; [unfold s0; cbn [es_prev es_meas]; change (total (motions [])) with identity_P; apply mul_id_r|congruence].
          - exists s0. split; [reflexivity|]. split; [reflexivity|]. congruence. }
        destruct X as (s2' & _ & X & ->). cbn [es_prev es_meas]. unfold reference_motions. cbn [flat_map]. rewrite app_nil_r, <- X.
        rewrite (Nat.eqb_sym k ref). destruct (Nat.eqb ref k).
        + unfold motions. rewrite map_app. cbn [map snd]. rewrite total_app, mul_P_assoc. reflexivity.
        + change (total []) with identity_P. by rewrite mul_id_r.
      - pose proof (flush_prev cal order r s) as F. rewrite E in F. destruct (F eq_refl) as [F1 F2]. cbn [fst] in F1, F2. rewrite F1, F2.
        change (total (motions [])) with identity_P. change (total (reference_motions [CFlush cal order r])) with identity_P. by rewrite !mul_id_r.
      - injection E as <-. cbn [ego_clearPredictions es_prev es_meas]. change (total (reference_motions [CClearPredictions])) with identity_P. by rewrite mul_id_r. }
    rewrite Es. rewrite <- mul_P_assoc. f_equal. rewrite <- total_app. f_equal. change (c :: l) with ([c] ++ l). unfold reference_motions. by rewrite flat_map_app.
  Qed.

  (** ** The start of the splines does not matter *)
  Definition gauge (G : pose) (s s' : ego_state C) : Prop :=
    unit_pose G /\ es_prev s' = mul_P G (es_prev s) /\ es_meas s' = es_meas s /\ es_start s' = es_start s /\ es_last s' = es_last s /\ es_sent s' = es_sent s.
  Definition same_outcome {A} (P : A -> A -> Prop) (r r' : result A) : Prop :=
    match r, r' with Ret a, Ret b => P a b | Throw e, Throw e' => e = e' | UB, UB => True | Diverge, Diverge => True | _, _ => False end.
  Lemma initS_gauge G s s' : fit_commutes fit -> gauge G s s' -> gauge G (initS s).1 (initS s').1 /\ same_outcome (moved G) (initS s).2 (initS s').2.
  Proof.
    intros HF (U & Ep & Em & E1 & E2 & E3). split.
    - rewrite !initS_state. unfold gauge, set_prev. cbn [es_prev es_meas es_start es_last es_sent]. rewrite Ep, Em, <- mul_P_assoc. repeat split; assumption.
    - unfold ego_initSplines. rewrite Em, Ep. destruct (es_meas s ref) as [|[t m] l]; [reflexivity|]. rewrite dead_move.
      destruct (dead_reckoning (es_prev s) ((t, m) :: l)) as [ts ps]. cbn [fst snd]. destruct (ego_numSegments _ _ _ _) as [n|]; [|exact I]. cbn [snd].
      rewrite move_poses by exact U. apply (HF G ts (map snd ps, rotPoses (map fst ps)) n U).
  Qed.
  Lemma spline_moved G sp sp' t : moved G sp sp' -> spline_T sp' t = compose_T (T_of G) (spline_T sp t).
  Proof. intros (_ & _ & H). apply same_T_eq. intros p. rewrite compose_apply. apply H. Qed.
  Lemma compose_assoc a b c : compose_T a (compose_T b c) = compose_T (compose_T a b) c.
  Proof. apply same_T_eq. intros p. by rewrite !compose_apply. Qed.
  Lemma transpose_mul A B p : mulv (transpose (SimEngineModel.mulm A B)) p = mulv (transpose B) (mulv (transpose A) p).
  Proof. apply v3_eq; unfold mulv, transpose, SimEngineModel.mulm, dot3; cbn [vx vy vz r1 r2 r3]; ring. Qed.
  Lemma inverse_compose a b : orthogonal (rot a) -> inverse_T (compose_T a b) = compose_T (inverse_T b) (inverse_T a).
  Proof.
    intros [H1 H2]. apply same_T_eq. intros p. rewrite compose_apply. unfold apply_T, inverse_T, compose_T. cbn [rot trans].
    rewrite !transpose_mul, !Properties_EgoData.mulv_add, !Properties_EgoData.mulv_scale, H1.
    set (u := mulv (transpose (rot b)) (mulv (transpose (rot a)) p)). set (v := mulv (transpose (rot b)) (trans b)). set (w := mulv (transpose (rot b)) (mulv _ (trans a))).
    destruct u as [ux uy uz], v as [v1 v2 v3], w as [w1 w2 w3]. unfold add3, scale3. cbn [vx vy vz]. f_equal; ring.
  Qed.
  Lemma relative_moved G a b : unit_pose G -> compose_T (inverse_T (compose_T (T_of G) a)) (compose_T (T_of G) b) = compose_T (inverse_T a) b.
  Proof.
    intros U. rewrite inverse_compose by (by apply unit_orthogonal). apply same_T_eq. intros p. rewrite !compose_apply. rewrite inverse_left; [reflexivity|]. by apply unit_orthogonal.
  Qed.
  Lemma current_moved G cal sp sp' k t : moved G sp sp' -> current cal sp' k t = match current cal sp k t with Ret c => Ret (option_map (compose_T (T_of G)) c) | Throw e => Throw e | UB => UB | Diverge => Diverge end.
  Proof.
    intros M. destruct M as (M1 & M2 & M3) eqn:EM. unfold EgoKinModel.current. rewrite !(spline_moved G sp sp' _ M). rewrite M1, M2.
    destruct (Nat.eqb k ref); [reflexivity|]. destruct (cal k) as [[d T]|]; [|reflexivity]. destruct (_ || _); [reflexivity|]. cbn [option_map].
    by rewrite (spline_moved G sp sp' _ M), compose_assoc.
  Qed.
  Lemma terms_moved G cal sp sp' k l : unit_pose G -> moved G sp sp' -> forall prev, terms cal sp' k (option_map (compose_T (T_of G)) prev) l = terms cal sp k prev l.
  Proof.
    intros U M. induction l as [|[t m] l IH]; intros prev; [reflexivity|]. cbn [motion_terms_of]. rewrite (current_moved G cal sp sp' k t M).
    destruct (current cal sp k t) as [[c|]| | |]; try reflexivity; cbn [rbind option_map]; [|apply IH]. specialize (IH (Some c)). cbn [option_map] in IH. rewrite IH.
    destruct (terms cal sp k (Some c) l) as [rest| | |]; try reflexivity. cbn [rbind]. destruct prev as [p|]; [|reflexivity]. cbn [option_map]. by rewrite relative_moved.
  Qed.
  Lemma all_terms_moved G cal sp sp' store order : unit_pose G -> moved G sp sp' ->
    all_terms (C:=C) ref bound cal sp' store order = all_terms ref bound cal sp store order.
  Proof.
    intros U M. induction order as [|k order IH]; [reflexivity|]. cbn [all_terms]. pose proof (terms_moved G cal sp sp' k (store k) U M None) as E. cbn [option_map] in E. by rewrite E, IH.
  Qed.
  Lemma flush_gauge G cal order r s s' : fit_commutes fit -> gauge G s s' -> gauge G (flush cal order r s).1 (flush cal order r s').1 /\ (flush cal order r s').2 = (flush cal order r s).2.
  Proof.
    intros HF HG. destruct (initS_gauge G s s' HF HG) as [G1 S1]. unfold ego_addMeasurements. destruct (initS s) as [s1 r1], (initS s') as [s1' r1']. cbn [fst snd] in *.
    destruct r1 as [sp|e| |], r1' as [sp'|e'| |]; cbn in S1; try done; [|by subst e'].
    destruct G1 as (U & Ep & Em & E1 & E2 & E3). rewrite Em, (all_terms_moved G cal sp sp' _ _ U S1).
    destruct (all_terms _ _ _ _ _ _) as [b| | |]; cbn [fst snd]; (split; [|reflexivity]); unfold gauge; cbn [es_prev es_meas es_start es_last es_sent]; rewrite ?E1, ?E2, ?E3; repeat split; assumption.
  Qed.
  Lemma add_gauge G cal order r s s' k t m : fit_commutes fit -> gauge G s s' -> gauge G (add cal order r s k t m).1 (add cal order r s' k t m).1 /\ (add cal order r s' k t m).2 = (add cal order r s k t m).2.
  Proof.
    intros HF (U & Ep & Em & E1 & E2 & E3). unfold ego_add. rewrite E1. set (start := if (es_start s =? -1)%Z then t else es_start s).
    set (a := EgoState (es_prev s) _ _ _ _ _). set (a' := EgoState (es_prev s') _ _ _ _ _). assert (GA : gauge G a a') by (unfold gauge, a, a'; cbn [es_prev es_meas es_start es_last es_sent]; repeat split; assumption).
    assert (X : exists b b' r2, (if Rle_dec window (IZR (t - start) / 10 ^ 9) then flush cal order r a else (a, Ret tt)) = (b, r2) /\
      (if Rle_dec window (IZR (t - start) / 10 ^ 9) then flush cal order r a' else (a', Ret tt)) = (b', r2) /\ gauge G b b').
    { destruct (Rle_dec _ _) as [L|L]; [|exists a, a', (Ret tt); repeat split; apply GA]. destruct (flush_gauge G cal order r a a' HF GA) as [F1 F2].
      destruct (flush cal order r a) as [b r2], (flush cal order r a') as [b' r2']. cbn [fst snd] in *. subst r2'. exists b, b', r2. repeat split; apply F1. }
    destruct X as (b & b' & r2 & -> & -> & (U' & P1 & P2 & P3 & P4 & P5)). destruct r2; cbn [fst snd]; (split; [|reflexivity]); unfold gauge; cbn [es_prev es_meas es_start es_last es_sent]; rewrite ?P2, ?P3, ?P4, ?P5; repeat split; assumption.
  Qed.
  (** All motions are rigid: unit quaternions. *)
  Definition rigid_call (c : ego_call C) : Prop := match c with CAdd _ _ _ _ _ m => unit_pose (mm_motion m) | _ => True end.
  Definition rigid_state (s : ego_state C) : Prop := unit_pose (es_prev s) /\ forall k, Forall unit_pose (motions (es_meas s k)).
  Lemma rigid_prev s : rigid_state s -> unit_pose (mul_P (es_prev s) (total (motions (es_meas s ref)))).
  Proof. intros [U H]. apply unit_mul; [exact U|]. apply total_unit, H. Qed.
  Lemma flush_rigid cal order r s : rigid_state s -> rigid_state (flush cal order r s).1.
  Proof.
    intros H. pose proof (rigid_prev s H) as U. pose proof (initS_state s) as E. unfold ego_addMeasurements. destruct (initS s) as [s1 r1]. cbn [fst] in E. subst s1. destruct H as [U0 H].
    destruct r1 as [sp| | |]; [destruct (all_terms _ _ _ _ _ _)| | |]; (split; [exact U|intros k; apply H || constructor]).
  Qed.
  Lemma step_rigid s c : rigid_state s -> rigid_call c -> rigid_state (step s c).1.
  Proof.
    intros H Hc. destruct c as [cal order r k t m|cal order r|cal order| |]; cbn [ego_call_step].
    - unfold ego_add. set (a := EgoState (es_prev s) _ _ _ _ _). assert (HA : rigid_state a) by exact H.
      assert (X : rigid_state (if Rle_dec window (IZR (t - (if (es_start s =? -1)%Z then t else es_start s)) / 10 ^ 9) then flush cal order r a else (a, Ret tt)).1)
        by (destruct (Rle_dec _ _); [by apply flush_rigid|exact HA]).
      destruct (if Rle_dec _ _ then _ else _) as [b r2]. cbn [fst] in X. destruct r2; cbn [fst]; try exact X. destruct X as [X1 X2]. split; [exact X1|]. intros j. cbn [es_meas].
      destruct (Nat.eqb j k); [|apply X2]. unfold motions. rewrite map_app. apply Forall_app. split; [apply X2|]. constructor; [exact Hc|constructor].
    - by apply flush_rigid.
    - destruct (predict_state cal order s) as (E1 & E2 & _). split; [rewrite E1; by apply rigid_prev|]. intros k. rewrite E2. apply H.
    - exact H.
    - split; [apply H|]. intros k. constructor.
  Qed.
  Lemma gauge_trans G G' a b c : gauge G a b -> gauge G' b c -> gauge (mul_P G' G) a c.
  Proof.
    intros (U & P1 & P2 & P3 & P4 & P5) (U' & Q1 & Q2 & Q3 & Q4 & Q5). unfold gauge. rewrite Q1, Q2, Q3, Q4, Q5, P1, P2, P3, P4, P5, mul_P_assoc. repeat split. by apply unit_mul.
  Qed.
  Lemma predict_gauge cal order s : rigid_state s -> exists G, gauge G s (predict cal err order s).1.
  Proof.
    intros H. destruct (predict_state cal order s) as (E1 & E2 & E3 & E4 & E5).
    exists (mul_P (mul_P (es_prev s) (total (motions (es_meas s ref)))) (inv_P (es_prev s))). pose proof (rigid_prev s H) as U. destruct H as [U0 H].
    split; [apply unit_mul; [exact U|by apply unit_inv_P]|]. rewrite E1, E2, E3, E4, E5. split; [|repeat split]. rewrite <- (mul_P_assoc _ (inv_P _)), inv_P_l by exact U0. by rewrite mul_id_r.
  Qed.
  Lemma harmless_from l : fit_commutes fit -> Forall rigid_call l -> forall G s s', rigid_state s' -> gauge G s s' ->
    let a := run s' l in let b := run s (List.filter (fun c => negb (about_predictions c)) l) in
    (exists G', gauge G' b.1 a.1) /\ List.filter (fun x => negb (about_predictions (fst x))) a.2 = b.2.
  Proof.
    intros HF Hl. induction l as [|c l IH]; intros G s s' R HG; [split; [by exists G|reflexivity]|]. apply Forall_cons in Hl as [Hc Hl].
    pose proof (step_rigid s' c R Hc) as R1. cbn [List.filter]. destruct (about_predictions c) eqn:Ab.
    - cbn [negb]. cbn [ego_run]. assert (X : exists G', gauge G' s (step s' c).1).
      { destruct c; try discriminate; cbn [ego_call_step].
        - destruct (predict_gauge cal order s' R) as [G' HG']. eexists. eapply gauge_trans; eassumption.
        - exists G. destruct HG as (U & P1 & P2 & P3 & P4 & P5). repeat split; assumption. }
      destruct X as [G' HG']. destruct (step s' c) as [s1 r]. cbn [fst] in *. specialize (IH Hl G' s s1 R1 HG'). destruct (run s1 l) as [s2 rs]. cbn [fst snd] in *.
      cbn [List.filter fst]. rewrite Ab. cbn [negb]. exact IH.
    - cbn [negb]. cbn [ego_run]. assert (X : gauge G (step s c).1 (step s' c).1 /\ (step s' c).2 = (step s c).2).
      { destruct c as [cal order r k t m|cal order r|cal order| |]; try discriminate; cbn [ego_call_step].
        - by apply add_gauge.
        - by apply flush_gauge.
        - split; [|reflexivity]. destruct HG as (U & P1 & P2 & P3 & P4 & P5). repeat split; assumption. }
      destruct X as [X1 X2]. destruct (step s c) as [s0 r0], (step s' c) as [s1 r]. cbn [fst snd] in *. subst r0. specialize (IH Hl G s0 s1 R1 X1).
      destruct (run s1 l) as [s2 rs], (run s0 _) as [s3 rs3]. cbn [fst snd] in *. destruct IH as [IH1 IH2]. split; [exact IH1|]. cbn [List.filter fst]. rewrite Ab. cbn [negb]. by rewrite IH2.
  Qed.
  (** Still, if the spline fit commutes with rigid motions, predictions do not influence the calibration: leave out all calls that concern predictions
      and the estimator is given exactly the same error terms, the same measurements are pending and all other calls end the same way. *)
  Theorem ego_predict_harmless l : fit_commutes fit -> Forall rigid_call l -> Forall (fun x => defined (snd x)) (run ego_new l).2 ->
    let a := run ego_new l in let b := run ego_new (List.filter (fun c => negb (about_predictions c)) l) in
    es_sent a.1 = es_sent b.1 /\ es_meas a.1 = es_meas b.1 /\ List.filter (fun x => negb (about_predictions (fst x))) a.2 = b.2.
  Proof.
    intros HF Hl _ a b. assert (U : unit_pose identity_P) by (unfold unit_pose, identity_P, unit_quat; cbn [fst q0 q1 q2 q3]; ring).
    destruct (harmless_from l HF Hl identity_P ego_new ego_new) as [[G (_ & _ & E1 & _ & _ & E2)] E3].
    - split; [exact U|]. intros k. constructor.
    - split; [exact U|]. split; [by rewrite mul_id_l|]. repeat split.
    - split; [exact E2|]. split; [exact E1|exact E3].
  Qed.

  (** ** How predict() ends *)
  Lemma predict_all_spec cal sp store order : Forall (fun k => calibrated ref cal k) order -> NoDup order -> forall d,
    exists d', predict_all ref bound cal sp err store order d = (d', Ret tt) /\
      forall k, d' k = d k ++ (if in_dec Nat.eq_dec k order then (predictMotion ref bound cal sp err k None (store k)).1 else []).
  Proof.
    intros Hc Hn. induction order as [|j order IH]; intros d; [exists d; split; [reflexivity|]; intros k; cbn; by rewrite app_nil_r|].
    apply Forall_cons in Hc as [Hj Hc]. apply NoDup_cons in Hn as [Nj Hn]. cbn [predict_all].
    pose proof (predict_pairs cal sp j (store j) (calibrated_known _ _ Hj) None) as E. cbn [option_map] in E. rewrite E.
    destruct (IH Hc Hn (fun i => if Nat.eqb i j then d i ++ (predictMotion ref bound cal sp err j None (store j)).1 else d i)) as (d' & E' & H). rewrite E in E', H. cbn [fst] in E', H. exists d'. split; [exact E'|].
    intros k. rewrite H. destruct (Nat.eqb_spec k j) as [->|N].
    - destruct (in_dec Nat.eq_dec j order) as [I|I]; [exfalso; apply Nj, elem_of_list_In, I|]. rewrite app_nil_r. destruct (in_dec Nat.eq_dec j (j :: order)) as [_|I']; [by rewrite E|exfalso; apply I'; by left].
    - destruct (in_dec Nat.eq_dec k order) as [I|I], (in_dec Nat.eq_dec k (j :: order)) as [I'|I']; try reflexivity.
      + exfalso. apply I'. by right.
      + exfalso. destruct I' as [->|I']; [done|]. exact (I I').
  Qed.
  (** Without a measurement of the reference sensor it throws and changes nothing.  If the splines can be built and all sensors with measurements are
      calibrated it returns and appends the predictions of every sensor to the earlier ones. *)
  Theorem ego_predict_returns cal order s : (es_meas s ref = [] -> predict cal err order s = (s, Throw StdOutOfRange)) /\
    (forall sp, (initS s).2 = Ret sp -> NoDup order -> Forall (fun k => calibrated ref cal k) order ->
      (predict cal err order s).2 = Ret tt /\
      forall k, es_pred (predict cal err order s).1 k = es_pred s k ++ (if in_dec Nat.eq_dec k order then (predictMotion ref bound cal sp err k None (es_meas s k)).1 else [])).
  Proof.
    split; [intros E; unfold ego_predict; by rewrite initS_no_reference|]. intros sp E Hn Hc. pose proof (initS_state s) as E1. unfold ego_predict.
    destruct (initS s) as [s1 r]. cbn [fst snd] in E, E1. subst s1 r. destruct (predict_all_spec cal sp (es_meas s) order Hc Hn (es_pred s)) as (d & Ed & H).
    change (es_meas (set_prev _ s)) with (es_meas s). change (es_pred (set_prev _ s)) with (es_pred s). rewrite Ed. split; [reflexivity|exact H].
  Qed.
  (** A sensor that is not calibrated makes it throw; the sensors that come before it in the map have then been predicted. *)
  Theorem ego_predict_uncalibrated cal o1 k o2 s sp : (initS s).2 = Ret sp -> NoDup o1 -> Forall (fun j => calibrated ref cal j) o1 -> ~ In k o1 ->
    k <> ref -> cal k = None -> es_meas s k <> [] ->
    (predict cal err (o1 ++ k :: o2) s).2 = Throw StdOutOfRange /\
    forall j, es_pred (predict cal err (o1 ++ k :: o2) s).1 j = es_pred s j ++ (if in_dec Nat.eq_dec j o1 then (predictMotion ref bound cal sp err j None (es_meas s j)).1 else []).
  Proof.
    intros E Hn Hc Hk Nk Ek Em. pose proof (initS_state s) as E1. unfold ego_predict. destruct (initS s) as [s1 r]. cbn [fst snd] in E, E1. subst s1 r.
    change (es_meas (set_prev _ s)) with (es_meas s). change (es_pred (set_prev _ s)) with (es_pred s).
    assert (A : forall d, predict_all ref bound cal sp err (es_meas s) (o1 ++ k :: o2) d =
      let '(d', r) := predict_all ref bound cal sp err (es_meas s) o1 d in
      match r with Ret _ => predict_all ref bound cal sp err (es_meas s) (k :: o2) d' | r => (d', r) end).
    { clear -o1. induction o1 as [|j o1 IH]; intros d; [reflexivity|]. cbn [app]. cbn [predict_all]. destruct (predictMotion _ _ _ _ _ j _ _) as [l r]. destruct r; try reflexivity. apply IH. }
    destruct (predict_all_spec cal sp (es_meas s) o1 Hc Hn (es_pred s)) as (d & Ed & H). rewrite A, Ed. cbn [predict_all].
    destruct (es_meas s k) as [|[t m] l] eqn:El; [done|]. cbn [predictMotion]. rewrite current_unknown by (unfold known; rewrite Ek, (proj2 (Nat.eqb_neq _ _) Nk); reflexivity).
    cbn [fst snd es_pred]. split; [reflexivity|]. intros j. rewrite app_nil_r. destruct (Nat.eqb j k); apply H.
  Qed.

  (** ** A sensor without calibration *)
  Lemma all_terms_unknown cal sp (store : nat -> list meas) order k : k <> ref -> cal k = None -> store k <> [] -> In k order -> forall b, all_terms ref bound cal sp store order <> Ret b.
  Proof.
    intros Nk Ek Em. induction order as [|j order IH]; intros Hi b; [destruct Hi|]. cbn [all_terms]. destruct Hi as [->|Hi].
    - destruct (store k) as [|x l]; [done|]. rewrite terms_unknown by (unfold known; rewrite Ek, (proj2 (Nat.eqb_neq _ _) Nk); reflexivity). discriminate.
    - destruct (terms cal sp j None (store j)); try discriminate. cbn [rbind]. specialize (IH Hi). destruct (all_terms _ _ _ _ _ order) as [b'| | |]; try discriminate. exfalso. by apply (IH b').
  Qed.
  (** The user expects an error for that measurement only.  The measurement is accepted; but as soon as the window has elapsed, every add call fails and
      drops its measurement, for ever, as long as the sensor is not calibrated: no batch ever reaches the estimator again.  Every attempt moves
      the start of the splines on. *)
  Theorem ego_uncalibrated_refuted k l : k <> ref -> forall s, es_meas s k <> [] -> (es_start s <> -1)%Z ->
    Forall (fun c => match c with CAdd cal order _ _ t _ => cal k = None /\ In k order /\ window <= IZR (t - es_start s) / 10 ^ 9 | _ => False end) l ->
    Forall (fun x => snd x <> Ret tt) (run s l).2 /\ es_sent (run s l).1 = es_sent s /\ es_meas (run s l).1 = es_meas s /\
    es_prev (run s l).1 = mul_P (es_prev s) (total (concat (repeat (motions (es_meas s ref)) (length l)))).
  Proof.
    intros Nk. induction l as [|c l IH]; intros s Em Es Hl.
    { cbn [ego_run fst snd repeat length concat]. split; [constructor|]. split; [reflexivity|]. split; [reflexivity|]. change (total []) with identity_P. by rewrite mul_id_r. }
    apply Forall_cons in Hl as [Hc Hl]. destruct c as [cal order r j t m| | | |]; try done. destruct Hc as (Ek & Hi & Hw). cbn [ego_run].
    assert (X : exists s1 r1, step s (CAdd cal order r j t m) = (s1, r1) /\ r1 <> Ret tt /\ es_meas s1 = es_meas s /\ es_start s1 = es_start s /\ es_sent s1 = es_sent s /\
      es_prev s1 = mul_P (es_prev s) (total (motions (es_meas s ref)))).
    { cbn [ego_call_step]. unfold ego_add. rewrite (proj2 (Z.eqb_neq _ _) Es). destruct (Rle_dec _ _) as [_|N]; [|contradiction].
      set (a := EgoState (es_prev s) _ _ _ _ _). pose proof (initS_state a) as E1. unfold ego_addMeasurements. destruct (initS a) as [a1 ra]. cbn [fst] in E1. subst a1.
      destruct ra as [sp|e| |]; [|do 2 eexists; split; [reflexivity|]; repeat split; discriminate ..].
      change (es_meas (set_prev _ a)) with (es_meas s). pose proof (all_terms_unknown cal sp (es_meas s) order k Nk Ek Em Hi) as N.
      destruct (all_terms _ _ _ _ _ _) as [b|e| |]; [exfalso; by apply (N b)|do 2 eexists; split; [reflexivity|]; repeat split; discriminate ..]. }
    destruct X as (s1 & r1 & -> & Hr & E1 & E2 & E3 & E4). specialize (IH s1). rewrite E1, E2 in IH. specialize (IH Em Es Hl). destruct (run s1 l) as [s2 rs]. cbn [fst snd] in *.
    destruct IH as (I1 & I2 & I3 & I4). split; [apply List.Forall_cons; [exact Hr|exact I1]|]. rewrite I2, I3, E3, E4 in *. split; [reflexivity|]. split; [reflexivity|].
    rewrite I4. cbn [length repeat concat]. by rewrite total_app, mul_P_assoc.
  Qed.
  (** A single measurement of such a sensor leads there. *)
  Theorem ego_uncalibrated_reached cal order r k t m : 0 < window -> (t <> -1)%Z -> let s := (run ego_new [CAdd cal order r k t m]).1 in
    (run ego_new [CAdd cal order r k t m]).2 = [(CAdd cal order r k t m, Ret tt)] /\ es_meas s k <> [] /\ es_start s = t.
  Proof.
    intros Hw Ht. cbn [ego_run ego_call_step]. unfold ego_add. cbn [ego_new es_start es_meas es_prev es_pred es_sent]. change (-1 =? -1)%Z with true. cbv iota.
    destruct (Rle_dec _ _) as [L|L]; [exfalso; rewrite Z.sub_diag in L; lra|]. cbn [fst snd es_meas es_start]. split; [reflexivity|]. rewrite Nat.eqb_refl. split; [discriminate|reflexivity].
  Qed.
  (** ** Closing a window *)
  Lemma all_terms_concat cal sp (store : nat -> list meas) order b : all_terms ref bound cal sp store order = Ret b <->
    exists tss, Forall2 (fun k ts => terms cal sp k None (store k) = Ret ts) order tss /\ b = concat tss.
  Proof.
    revert b. induction order as [|k order IH]; intros b; cbn [all_terms].
    - split; [intros [= <-]; exists []; split; [constructor|reflexivity]|]. intros (tss & H & ->). inversion H. reflexivity.
    - destruct (terms cal sp k None (store k)) as [ts| | |] eqn:E; cbn [rbind].
      + destruct (all_terms ref bound cal sp store order) as [b'| | |]; cbn [rbind].
        * split.
          { intros [= <-]. destruct (proj1 (IH b') eq_refl) as (tss & H & ->). exists (ts :: tss). split; [constructor; assumption|reflexivity]. }
          intros (tss & H & ->). inversion H as [|? ts' ? tss' E' H']; subst. rewrite E in E'. injection E' as <-.
          assert (X : Ret b' = Ret (concat tss')) by (apply IH; eauto). injection X as ->. reflexivity.
        * split; [discriminate|]. intros (tss & H & ->). inversion H as [|? ts' ? tss' E' H']; subst. assert (X : Throw e = Ret (concat tss')) by (apply IH; eauto). discriminate.
        * split; [discriminate|]. intros (tss & H & ->). inversion H as [|? ts' ? tss' E' H']; subst. assert (X : UB = Ret (concat tss')) by (apply IH; eauto). discriminate.
        * split; [discriminate|]. intros (tss & H & ->). inversion H as [|? ts' ? tss' E' H']; subst. assert (X : Diverge = Ret (concat tss')) by (apply IH; eauto). discriminate.
      + split; [discriminate|]. intros (tss & H & ->). inversion H as [|? ts' ? tss' E' H']; subst. congruence.
      + split; [discriminate|]. intros (tss & H & ->). inversion H as [|? ts' ? tss' E' H']; subst. congruence.
      + split; [discriminate|]. intros (tss & H & ->). inversion H as [|? ts' ? tss' E' H']; subst. congruence.
  Qed.
  (** addMeasurements(): if the splines and the error terms of every sensor can be built, the estimator gets one batch with exactly these terms, the call ends
      as the estimator does, and whatever that is the measurements are gone and the next window starts at the last time stamp seen.  Otherwise nothing reaches the
      estimator, and measurements and window stay.  Predictions are never touched. *)
  Theorem ego_window_closed cal order r (s : ego_state C) : let s' := (flush cal order r s).1 in
    es_pred s' = es_pred s /\ es_last s' = es_last s /\
    ((exists sp tss, (initS s).2 = Ret sp /\ Forall2 (fun k ts => terms cal sp k None (es_meas s k) = Ret ts) order tss /\
        (flush cal order r s).2 = r /\ es_sent s' = es_sent s ++ [concat tss] /\ (forall k, es_meas s' k = []) /\ es_start s' = es_last s) \/
     ((forall sp tss, (initS s).2 = Ret sp -> ~ Forall2 (fun k ts => terms cal sp k None (es_meas s k) = Ret ts) order tss) /\
        (flush cal order r s).2 <> Ret tt /\ es_sent s' = es_sent s /\ es_meas s' = es_meas s /\ es_start s' = es_start s)).
  Proof.
    pose proof (initS_state s) as E. unfold ego_addMeasurements. destruct (initS s) as [s1 r1]. cbn [fst snd] in *. subst s1.
    destruct r1 as [sp|e| |]; cbn [fst snd set_prev es_pred es_last es_sent es_meas es_start].
    - pose proof (all_terms_concat cal sp (es_meas s) order) as A.
      destruct (all_terms ref bound cal sp (es_meas s) order) as [b|e| |]; cbn [fst snd es_pred es_last es_sent es_meas es_start]; (split; [reflexivity|]); (split; [reflexivity|]).
      + left. destruct (proj1 (A b) eq_refl) as (tss & H & ->). exists sp, tss. repeat split; assumption.
      + right. split; [|repeat split; discriminate]. intros sp' tss [= <-] H. assert (X : Throw e = Ret (concat tss)) by (apply A; eauto). discriminate.
      + right. split; [|repeat split; discriminate]. intros sp' tss [= <-] H. assert (X : UB = Ret (concat tss)) by (apply A; eauto). discriminate.
      + right. split; [|repeat split; discriminate]. intros sp' tss [= <-] H. assert (X : Diverge = Ret (concat tss)) by (apply A; eauto). discriminate.
    - split; [reflexivity|]. split; [reflexivity|]. right. split; [discriminate|]. repeat split; discriminate.
    - split; [reflexivity|]. split; [reflexivity|]. right. split; [discriminate|]. repeat split; discriminate.
    - split; [reflexivity|]. split; [reflexivity|]. right. split; [discriminate|]. repeat split; discriminate.
  Qed.
  (** addMotionMeasurement(): within the window the measurement is appended to those of its sensor and nothing else happens; once the window has elapsed the pending
      measurements are processed first, and the new one starts the next window, or is dropped if that fails. *)
  Theorem ego_add_window cal order r k t m (s : ego_state C) :
    let start := if decide (es_start s = -1)%Z then t else es_start s in
    let s0 := EgoState (es_prev s) (es_meas s) start t (es_pred s) (es_sent s) in
    let s' := (add cal order r s k t m).1 in
    (IZR (t - start) / 10 ^ 9 < window ->
      (add cal order r s k t m).2 = Ret tt /\ es_start s' = start /\ es_last s' = t /\ es_sent s' = es_sent s /\ es_prev s' = es_prev s /\ es_pred s' = es_pred s /\
      es_meas s' k = es_meas s k ++ [(t, m)] /\ forall j, j <> k -> es_meas s' j = es_meas s j) /\
    (window <= IZR (t - start) / 10 ^ 9 ->
      (add cal order r s k t m).2 = (flush cal order r s0).2 /\ es_sent s' = es_sent (flush cal order r s0).1 /\
      ((flush cal order r s0).2 = Ret tt -> es_start s' = t /\ es_meas s' k = [(t, m)] /\ forall j, j <> k -> es_meas s' j = []) /\
      ((flush cal order r s0).2 <> Ret tt -> s' = (flush cal order r s0).1)).
  Proof.
    intros start s0 s'. unfold s', ego_add. clear s'.
    assert (Es : (if (es_start s =? -1)%Z then t else es_start s) = start) by (unfold start; destruct (Z.eqb_spec (es_start s) (-1)), (decide (es_start s = -1)%Z); congruence).
    rewrite Es. fold s0. split; intros Hw.
    - destruct (Rle_dec _ _) as [L|_]; [exfalso; lra|]. cbn [fst snd s0 es_start es_last es_sent es_prev es_pred es_meas]. rewrite Nat.eqb_refl.
      repeat (split; [reflexivity|]). intros j Hj. by rewrite (proj2 (Nat.eqb_neq _ _) Hj).
    - destruct (Rle_dec _ _) as [_|L]; [|contradiction]. pose proof (ego_window_closed cal order r s0) as W. destruct (flush cal order r s0) as [s2 r2]. cbn [fst snd] in *.
      destruct W as (_ & _ & W). destruct r2 as [[]|e| |]; cbn [fst snd es_sent es_start es_meas]; (split; [reflexivity|]); (split; [reflexivity|]);
        (split; [|try (intros N; exfalso; by apply N); intros _; reflexivity]); try discriminate.
      intros _. destruct W as [(sp & tss & _ & _ & _ & _ & W1 & W2)|(_ & W & _)]; [|exfalso; by apply W].
      split; [rewrite W2; reflexivity|]. rewrite Nat.eqb_refl, W1. split; [reflexivity|]. intros j Hj. by rewrite (proj2 (Nat.eqb_neq _ _) Hj), W1.
  Qed.
  (** The two clear functions forget exactly what their names say. *)
  Theorem ego_clear (s : ego_state C) :
    (forall k, es_pred (ego_clearPredictions s) k = []) /\ es_meas (ego_clearPredictions s) = es_meas s /\ es_prev (ego_clearPredictions s) = es_prev s /\
      es_start (ego_clearPredictions s) = es_start s /\ es_last (ego_clearPredictions s) = es_last s /\ es_sent (ego_clearPredictions s) = es_sent s /\
    (forall k, es_meas (ego_clearMeasurements s) k = []) /\ es_pred (ego_clearMeasurements s) = es_pred s /\ es_prev (ego_clearMeasurements s) = es_prev s /\
      es_start (ego_clearMeasurements s) = es_start s /\ es_last (ego_clearMeasurements s) = es_last s /\ es_sent (ego_clearMeasurements s) = es_sent s.
  Proof. repeat split; reflexivity. Qed.
End calibrator.

(** ** The hypotheses can be met *)
(** A fit that holds each pose until the next time stamp. *)
Definition hold_index (ts : list Z) (t : Z) : nat := Nat.pred (length (List.filter (fun x => (x <=? t)%Z) ts)).
Definition hold (ts : list Z) (ps : list v3 * list quat) (n : Z) : result splines :=
  match ps with
  | (p :: _, q :: _) => Ret (Splines (List.hd 0%Z ts) (List.last ts 0%Z) (fun t => nth (hold_index ts t) (fst ps) p) (fun _ => V3 0 0 0)
                               (fun t => quat2r (nth (hold_index ts t) (snd ps) q)) (fun _ => V3 0 0 0))
  | _ => Throw External
  end.
Example hold_commutes : fit_commutes hold.
Proof.
  intros G ts [ps qs] n U. unfold move. cbn [fst snd]. destruct ps as [|p ps], qs as [|q qs]; cbn [map hold]; try reflexivity.
  split; [reflexivity|]. split; [reflexivity|]. intros t x. unfold spline_at. cbn [sp_R sp_r fst snd]. set (i := hold_index ts t).
  change (apply_T (T_of G) p :: map (fun p0 => apply_T (T_of G) p0) ps) with (map (fun p0 => apply_T (T_of G) p0) (p :: ps)).
  change (qplus (fst G) q :: map (fun q0 => qplus (fst G) q0) qs) with (map (fun q0 => qplus (fst G) q0) (q :: qs)).
  rewrite (map_nth (fun p0 => apply_T (T_of G) p0)), (map_nth (fun q0 => qplus (fst G) q0)). set (y := nth i (p :: ps) p). set (r := nth i (q :: qs) q).
  unfold apply_T. cbn [rot trans T_of]. rewrite quat2r_qplus, !Properties_EgoData.mulv_add. set (u := mulv (quat2r (fst G)) (mulv (quat2r r) x)). set (v := mulv (quat2r (fst G)) y).
  destruct u as [u1 u2 u3], v as [v1 v2 v3], (snd G) as [g1 g2 g3]. unfold add3. cbn [vx vy vz]. f_equal; ring.
Qed.
(** One metre forward every half second, windows of one second: the third measurement sends the first two to the estimator. *)
Definition ex_motion : motion_meas unit := MotionMeas (Quat 0 0 0 1, V3 1 0 0) 500000000 tt.
Definition ex_add (t : Z) : ego_call unit := CAdd (fun _ => None) [0%nat] (Ret tt) 0 t ex_motion.
Definition ex_call (c : ego_call unit) : Prop := match c with CAdd _ _ _ _ _ m => unit_pose (mm_motion m) | _ => True end.
Lemma ex_segments : ego_numSegments 10 0 [(-500000000)%Z; 0%Z; 500000000%Z] 2 = Some 2%Z.
Proof.
  unfold ego_numSegments. cbn [List.last]. change (500000000 - -500000000)%Z with 1000000000%Z. replace (1000000000 / 10 ^ 9) with 1 by (simpl; field).
  destruct (Req_EM_T 1 0) as [H|_]; [exfalso; lra|]. change (Z.of_nat 2) with 2%Z. replace (2 / 1) with (IZR 2) by field. rewrite (Flocq.Core.Generic_fmt.Zrnd_IZR Flocq.Core.Generic_fmt.ZnearestA 2).
  reflexivity.
Qed.
Example ex_history : exists s e,
  ego_run 0 10 0 1 hold 0 (fun _ => ([], 0)) ego_new [ex_add 0; ex_add 500000000; ex_add 1000000000] =
    (s, map (fun t => (ex_add t, Ret tt)) [0%Z; 500000000%Z; 1000000000%Z]) /\
  es_sent s = [[e]] /\ mt_meas e = T_of (mm_motion ex_motion) /\ mt_pred e = mt_meas e /\ total (motions (es_meas s 0%nat)) = mm_motion ex_motion.
Proof.
  cbn [ego_run ego_call_step ex_add]. unfold ego_add. cbn [ego_new es_start es_meas es_prev es_pred es_sent es_last].
  change (-1 =? -1)%Z with true. cbv iota. destruct (Rle_dec _ _) as [L|_]; [exfalso; rewrite Z.sub_diag in L; lra|]. cbn [es_start es_meas es_prev es_pred es_sent es_last].
  change (0 =? -1)%Z with false. cbv iota. destruct (Rle_dec _ _) as [L|_]; [exfalso; change (500000000 - 0)%Z with 500000000%Z in L; simpl in L; lra|].
  cbn [es_start es_meas es_prev es_pred es_sent es_last]. change (0 =? -1)%Z with false. cbv iota.
  destruct (Rle_dec _ _) as [_|L]; [|exfalso; apply L; change (1000000000 - 0)%Z with 1000000000%Z; simpl; lra].
  unfold ego_addMeasurements, ego_initSplines. cbn [es_meas Nat.eqb app dead_reckoning integrate map fst snd mm_duration ex_motion es_prev length].
  change (0 - 500000000)%Z with (-500000000)%Z. rewrite ex_segments. cbn [map fst snd identity_P].
  set (ps := [(Quat 0 0 0 1, V3 0 0 0); mul_P (Quat 0 0 0 1, V3 0 0 0) (Quat 0 0 0 1, V3 1 0 0); mul_P (mul_P (Quat 0 0 0 1, V3 0 0 0) (Quat 0 0 0 1, V3 1 0 0)) (Quat 0 0 0 1, V3 1 0 0)]).
  set (l := [(0%Z, ex_motion); (500000000%Z, ex_motion)]).
  match goal with |- context [hold ?a ?b ?c] => destruct (hold a b c) as [sp| | |] eqn:Eh end; try (exfalso; discriminate Eh).
  assert (Hr : rotPoses (map fst ps) = [Quat 0 0 0 1; Quat 0 0 0 1; Quat 0 0 0 1]).
  { assert (E : map fst ps = [Quat 0 0 0 1; Quat 0 0 0 1; Quat 0 0 0 1]).
    { unfold ps, mul_P, qplus. cbn [map fst snd q0 q1 q2 q3]. f_equal. f_equal; [f_equal; ring|]. f_equal. f_equal; ring. }
    rewrite E. unfold rotPoses. cbn [fold_left List.last app]. assert (B : bestQuat (Quat 0 0 0 1) (Quat 0 0 0 1) = Quat 0 0 0 1).
    { unfold bestQuat. destruct (Rlt_dec _ _) as [L|_]; [|reflexivity]. exfalso. unfold q_norm, q_add, q_sub in L. cbn [q0 q1 q2 q3] in L.
      apply sqrt_lt_0_alt in L. lra. }
    rewrite !B. reflexivity. }
  assert (HS : (forall t, sp_R sp t = quat2r (nth (hold_index [(-500000000)%Z; 0%Z; 500000000%Z] t) [Quat 0 0 0 1; Quat 0 0 0 1; Quat 0 0 0 1] (Quat 0 0 0 1))) /\
    (forall t, sp_r sp t = nth (hold_index [(-500000000)%Z; 0%Z; 500000000%Z] t) (map snd ps) (V3 0 0 0))).
  { change (hold [(-500000000)%Z; 0%Z; 500000000%Z] (map snd ps, rotPoses (map fst ps)) 2 = Ret sp) in Eh. rewrite Hr in Eh. unfold ps in Eh at 1. cbn [map hold] in Eh.
    apply (f_equal (fun r => match r with Ret x => Some x | _ => None end)) in Eh. apply (inj Some) in Eh. subst sp. split; intros t; reflexivity. }
  destruct HS as [HR Hp]. cbn [all_terms set_prev es_meas Nat.eqb]. fold l.
  pose proof (ego_reference_terms_at_start 0 0 (fun _ => None) sp (Quat 0 0 0 1, V3 0 0 0) l [(-500000000)%Z; 0%Z; 500000000%Z] ps) as H.
  assert (U : unit_quat (Quat 0 0 0 1)) by (unfold unit_quat; cbn [q0 q1 q2 q3]; ring).
  assert (H1 : proper sp).
  { intros t. rewrite HR. apply unit_orthogonal. destruct (hold_index _ t) as [|[|[|[|]]]]; exact U. }
  specialize (H H1 eq_refl).
  assert (H2 : Forall unit_pose ((Quat 0 0 0 1, V3 0 0 0) :: motions l)) by (repeat constructor; exact U). specialize (H H2).
  assert (H3 : forall i t p, [(-500000000)%Z; 0%Z; 500000000%Z] !! i = Some t -> ps !! i = Some p -> spline_at sp t = T_of p).
  { intros i t p Ht Hq. unfold spline_at, T_of. rewrite HR, Hp. assert (Q : fst p = Quat 0 0 0 1).
    { assert (X : map fst ps !! i = Some (fst p)) by (exact (eq_trans (list_lookup_fmap fst ps i) (f_equal (fmap fst) Hq))). unfold ps, mul_P, qplus in X. cbn [map fst snd q0 q1 q2 q3] in X.
      destruct i as [|[|[|]]]; cbn in X; try discriminate; apply (inj Some) in X; rewrite <- X; f_equal; ring. }
    rewrite Q. destruct i as [|[|[|]]]; cbn in Ht; try discriminate; apply (inj Some) in Ht; subst t; cbn in Hq; apply (inj Some) in Hq; subst p; reflexivity. }
  specialize (H H3). cbn [motion_terms_of] in *. unfold l in *. cbn [motion_terms_of EgoKinModel.current Nat.eqb rbind] in *. cbn [app].
  eexists. eexists. split; [reflexivity|]. cbn [es_sent]. split; [reflexivity|]. split; [reflexivity|]. split.
  - apply (H _ _ eq_refl). by left.
  - cbn [es_meas Nat.eqb app]. unfold motions, total. cbn [map snd fold_left mm_motion ex_motion]. apply mul_id_l.
Qed.
