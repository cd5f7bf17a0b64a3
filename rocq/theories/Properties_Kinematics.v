(** Theorems about the kinematic error terms, the spline initialisation and the predictions of the car and time-delay calibrators. *)
From stdpp Require Import prelude list.
From Coq Require Import Reals Lra.
From Flocq Require Import Core.Raux Core.Generic_fmt.
From Verif Require Import Base GeodeticModel Spec_Geodetic Properties_Geodetic SimEngineModel ErrorTermModel CalibratorModel CarDriverModel Spec_CarDriver
  Properties_CarDriver KinematicsModel Spec_Kinematics Spec_SimEngine Properties_SimEngine.
Local Open Scope R_scope.

(** ** Velocities of points of the vehicle *)
Lemma rotation_cross M a b : rotation M -> mulv M (cross3 a b) = cross3 (mulv M a) (mulv M b).
Proof.
  destruct M as [[m11 m12 m13] [m21 m22 m23] [m31 m32 m33]], a as [a1 a2 a3], b as [b1 b2 b3]. unfold rotation. vec. intros (A1 & A2 & A3 & B1 & B2 & B3 & D).
  destruct (cross1 m11 m12 m13 m21 m22 m23 m31 m32 m33) as (Ca & Cb & Cc); try assumption.
  destruct (cross1 m21 m22 m23 m31 m32 m33 m11 m12 m13) as (Cd & Ce & Cf); try lra.
  destruct (cross1 m31 m32 m33 m11 m12 m13 m21 m22 m23) as (Cg & Ch & Ci); try lra.
  unfold cross3. cbn [vx vy vz]. f_equal.
  - rewrite Ca, Cb, Cc at 1. ring.
  - rewrite Cd, Ce, Cf at 1. ring.
  - rewrite Cg, Ch, Ci at 1. ring.
Qed.
Lemma rotation_left M p : rotation M -> mulv (transpose M) (mulv M p) = p.
Proof. intros H. rewrite <- (transpose_invol M) at 2. apply rotation_right. by apply rotation_transpose. Qed.
Lemma mulv_add M a b : mulv M (add3 a b) = add3 (mulv M a) (mulv M b).
Proof. destruct M as [[] [] []], a, b. vec. f_equal; ring. Qed.
Lemma derives3_add f g x a b : derives3 f x a -> derives3 g x b -> derives3 (fun y => add3 (f y) (g y)) x (add3 a b).
Proof. intros (F1 & F2 & F3) (G1 & G2 & G3). repeat split; cbn [add3 vx vy vz]; apply derivable_pt_lim_plus; assumption. Qed.
Lemma derives3_unique f x a b : derives3 f x a -> derives3 f x b -> a = b.
Proof. intros (F1 & F2 & F3) (G1 & G2 & G3). apply v3_eq; eapply uniqueness_limite; eassumption. Qed.
Lemma scale_scale a : scale3 (- 1) (scale3 (- 1) a) = a.
Proof. destruct a as [x y z]. unfold scale3. cbn [vx vy vz]. f_equal; ring. Qed.

Theorem point_velocity_body s r A t p : represents s r A t -> body_velocity r A t p (point_velocity s t p).
Proof.
  intros (v & om & (HR & Hv & Hq) & Er & ER & Ev & Ea). unfold body_velocity, point_velocity, v_v_mv, v_om_mv. rewrite ER, Ev, Ea, scale_scale.
  rewrite mulv_add, rotation_cross by assumption. rewrite !rotation_right by assumption. apply derives3_add; [exact Hv|apply Hq].
Qed.
Lemma body_velocity_is s r A t p w : represents s r A t -> body_velocity r A t p w <-> w = point_velocity s t p.
Proof.
  intros H. split.
  - intros Hw. pose proof (point_velocity_body s r A t p H) as Hp. destruct H as (v & om & (HR & _) & _).
    pose proof (derives3_unique _ _ _ _ Hw Hp) as E. rewrite <- (rotation_left _ w HR), E. by apply rotation_left.
  - intros ->. by apply point_velocity_body.
Qed.
(** The navigation system: velocity of its place and rotation rate of its axes, in its own axes. *)
Theorem imu_velocity_body s r A t b : represents s r A t -> rotation (mt_R b) ->
  let AI := CarDriverModel.mulm (A (seconds t)) (mt_R b) in
  derives3 (fun y => add3 (r y) (mulv (A y) (mt_r b))) (seconds t) (mulv AI (fst (imu_velocity s b t))) /\
  forall q, derives3 (fun y => mulv (CarDriverModel.mulm (A y) (mt_R b)) q) (seconds t) (cross3 (mulv AI (snd (imu_velocity s b t))) (mulv AI q)).
Proof.
  intros H Hb AI. pose proof (point_velocity_body s r A t (mt_r b) H) as Hp. destruct H as (v & om & (HR & Hv & Hq) & Er & ER & Ev & Ea).
  unfold imu_velocity. cbn [fst snd]. split.
  - unfold AI. rewrite mulm_mulv, rotation_right by assumption. exact Hp.
  - intros q. unfold AI. rewrite !mulm_mulv, rotation_right by assumption. unfold v_om_mv. rewrite ER, Ea, scale_scale, rotation_right by assumption.
    specialize (Hq (mulv (mt_R b) q)). destruct Hq as (Q1 & Q2 & Q3). repeat split.
    + eapply derivable_pt_lim_ext; [|exact Q1]. intros y. by rewrite mulm_mulv.
    + eapply derivable_pt_lim_ext; [|exact Q2]. intros y. by rewrite mulm_mulv.
    + eapply derivable_pt_lim_ext; [|exact Q3]. intros y. by rewrite mulm_mulv.
Qed.

(** ** Which error terms a batch gets *)
Lemma ltR_spec a b : ltR a b = true <-> a < b.
Proof. unfold ltR. destruct (Rlt_dec a b); split; [done|done|discriminate|lra]. Qed.
Lemma ltR_false a b : ltR a b = false <-> b <= a.
Proof. unfold ltR. destruct (Rlt_dec a b); split; [discriminate|lra|lra|done]. Qed.
Lemma within_spec o s d t : delayed_in o s d t = true <-> within s (o_delayBound o) (d + t).
Proof. unfold delayed_in, in_spline, within. rewrite negb_true_iff, orb_false_iff, !Z.ltb_ge. lia. Qed.
Lemma left_point_eq e : left_point e = V3 0 e 0.
Proof. unfold left_point, scale3, axis_y. cbn [vx vy vz]. f_equal; ring. Qed.
Lemma right_point_eq e : right_point e = V3 0 (- e) 0.
Proof. unfold right_point, scale3, axis_y. cbn [vx vy vz]. f_equal; ring. Qed.
Lemma front_left_eq L e : front_left_point L e = V3 L e 0.
Proof. unfold front_left_point, scale3, axis_x, axis_y, add3. cbn [vx vy vz]. f_equal; ring. Qed.
Lemma front_right_eq L e : front_right_point L e = V3 L (- e) 0.
Proof. unfold front_right_point, scale3, axis_x, axis_y, add3. cbn [vx vy vz]. f_equal; ring. Qed.
Lemma front_eq L : front_point L = V3 L 0 0.
Proof. unfold front_point, scale3, axis_x. cbn [vx vy vz]. f_equal; ring. Qed.
Lemma origin_velocity s t : point_velocity s t (V3 0 0 0) = v_v_mv s t.
Proof. unfold point_velocity, cross3, add3. cbn [vx vy vz]. destruct (v_v_mv s t) as [x y z]. cbn [vx vy vz]. f_equal; ring. Qed.
Lemma in_flat_map_iff {A B} (f : A -> list B) l y : In y (flat_map f l) <-> exists x, In x l /\ In y (f x).
Proof. apply in_flat_map. Qed.

Section terms.
  Context (P : car_params) (o : car_opts) (s : splines) (r : R -> v3) (A : R -> m3).
  (** The splines represent a motion of the vehicle wherever they are defined. *)
  Hypothesis (HS : forall t, (sp_min s <= t <= sp_max s)%Z -> represents s r A t).
  Hypothesis (HB : (0 <= o_delayBound o)%Z).
  Lemma within_represents t : within s (o_delayBound o) t -> represents s r A t.
  Proof. intros [H1 H2]. apply HS. lia. Qed.

  Theorem car_dmi_terms l x : In x (addDMIErrorTerms P o s l) <->
    exists t m w, In (t, m) l /\ within s (o_delayBound o) (p_t_dmi P + t) /\ body_velocity r A (p_t_dmi P + t) (rear_left P) w /\
      x = EWheel w (k_dmi P) m (V3 (o_dmi o) (o_vy o) (o_vz o)) false.
  Proof.
    unfold addDMIErrorTerms. rewrite in_flat_map_iff. split.
    - intros ([t m] & Hi & Hx). cbv zeta in Hx. destruct (delayed_in o s (p_t_dmi P) t) eqn:D; [|destruct Hx]. destruct Hx as [<-|[]].
      apply within_spec in D. exists t, m. eexists. split; [exact Hi|]. split; [exact D|]. split; [|reflexivity].
      rewrite left_point_eq. apply point_velocity_body. by apply within_represents.
    - intros (t & m & w & Hi & D & Hw & ->). exists (t, m). split; [exact Hi|]. cbv zeta. rewrite (proj2 (within_spec o s _ _) D).
      cbn [negb]. left. rewrite left_point_eq. apply (body_velocity_is s) in Hw; [|by apply within_represents]. rewrite Hw. reflexivity.
  Qed.
  Theorem car_steering_terms l x : In x (addSteeringErrorTerms P o s l) <->
    exists t m w, In (t, m) l /\ within s (o_delayBound o) (p_t_s P + t) /\ body_velocity r A (p_t_s P + t) (fore_middle P) w /\
      o_tolerance o <= Rabs (vx w) /\ x = ESteer w m (o_st o) (p_a P).
  Proof.
    unfold addSteeringErrorTerms. rewrite in_flat_map_iff. split.
    - intros ([t m] & Hi & Hx). cbv zeta in Hx. destruct (delayed_in o s (p_t_s P) t) eqn:D; [|destruct Hx]. cbn [negb] in Hx.
      destruct (too_slow P o s (p_t_s P + t)) eqn:T; [destruct Hx|]. destruct Hx as [<-|[]].
      apply within_spec in D. unfold too_slow in T. apply ltR_false in T. rewrite front_eq in *. exists t, m. eexists.
      split; [exact Hi|]. split; [exact D|]. split; [|split; [exact T|reflexivity]]. apply point_velocity_body. by apply within_represents.
    - intros (t & m & w & Hi & D & Hw & T & ->). exists (t, m). split; [exact Hi|]. cbv zeta. rewrite (proj2 (within_spec o s _ _) D).
      apply (body_velocity_is s) in Hw; [|by apply within_represents]. cbn [negb]. unfold too_slow. rewrite front_eq. fold (fore_middle P). rewrite <- Hw.
      rewrite (proj2 (ltR_false _ _) T). left. reflexivity.
  Qed.
  Lemma backwards_spec t u : represents s r A t -> body_velocity r A t (V3 0 0 0) u -> backwards s t = false <-> 0 <= vx u.
  Proof. intros H Hu. apply (body_velocity_is s) in Hu; [|done]. rewrite origin_velocity in Hu. unfold backwards. rewrite <- Hu. apply ltR_false. Qed.
  Lemma below_spec ml mr : below o ml mr = false <-> o_cutoff o <= ml /\ o_cutoff o <= mr.
  Proof. unfold below. rewrite orb_false_iff, !ltR_false. tauto. Qed.
  Theorem car_front_terms l x : In x (addFrontWheelsErrorTerms P o s l) <->
    exists t ml mr u wl wr, In (t, (ml, mr)) l /\ o_cutoff o <= ml /\ o_cutoff o <= mr /\ within s (o_delayBound o) (p_t_f P + t) /\
      body_velocity r A (p_t_f P + t) (V3 0 0 0) u /\ 0 <= vx u /\
      body_velocity r A (p_t_f P + t) (fore_left P) wl /\ body_velocity r A (p_t_f P + t) (fore_right P) wr /\
      (x = EWheel wl (k_fl P) ml (V3 (o_flw o) (o_vy o) (o_vz o)) true \/ x = EWheel wr (k_fr P) mr (V3 (o_frw o) (o_vy o) (o_vz o)) true).
  Proof.
    unfold addFrontWheelsErrorTerms. rewrite in_flat_map_iff. split.
    - intros ([t [ml mr]] & Hi & Hx). cbv zeta in Hx. destruct (below o ml mr) eqn:B; [destruct Hx|].
      destruct (delayed_in o s (p_t_f P) t) eqn:D; [|destruct Hx]. cbn [negb] in Hx. apply below_spec in B as [B1 B2]. apply within_spec in D.
      pose proof (within_represents _ D) as HR.
      destruct (backwards s (p_t_f P + t)) eqn:K; [destruct Hx|]. pose proof (point_velocity_body s r A _ (V3 0 0 0) HR) as Hu.
      apply (backwards_spec _ _ HR Hu) in K. rewrite front_left_eq, front_right_eq in Hx.
      exists t, ml, mr, (point_velocity s (p_t_f P + t) (V3 0 0 0)), (point_velocity s (p_t_f P + t) (fore_left P)), (point_velocity s (p_t_f P + t) (fore_right P)).
      repeat (split; [first [assumption|by apply point_velocity_body]|]). destruct Hx as [<-|[<-|[]]]; [left|right]; reflexivity.
    - intros (t & ml & mr & u & wl & wr & Hi & B1 & B2 & D & Hu & K & Hl & Hr & Hx). exists (t, (ml, mr)). split; [exact Hi|]. cbv zeta.
      pose proof (within_represents _ D) as HR. rewrite (proj2 (below_spec ml mr) (conj B1 B2)), (proj2 (within_spec o s _ _) D). cbn [negb].
      rewrite (proj2 (backwards_spec _ _ HR Hu) K), front_left_eq, front_right_eq. fold (fore_left P) (fore_right P).
      apply (body_velocity_is s) in Hl as <-; [|done]. apply (body_velocity_is s) in Hr as <-; [|done]. destruct Hx as [->| ->]; [left|right; left]; reflexivity.
  Qed.
  (** With the variances of the front wheels, as found for C70. *)
  Theorem car_rear_terms l x : In x (addRearWheelsErrorTerms P o s l) <->
    exists t ml mr u wl wr, In (t, (ml, mr)) l /\ o_cutoff o <= ml /\ o_cutoff o <= mr /\ within s (o_delayBound o) (p_t_r P + t) /\
      body_velocity r A (p_t_r P + t) (V3 0 0 0) u /\ 0 <= vx u /\
      body_velocity r A (p_t_r P + t) (rear_left P) wl /\ body_velocity r A (p_t_r P + t) (rear_right P) wr /\
      (x = EWheel wl (k_rl P) ml (V3 (o_flw o) (o_vy o) (o_vz o)) false \/ x = EWheel wr (k_rr P) mr (V3 (o_frw o) (o_vy o) (o_vz o)) false).
  Proof.
    unfold addRearWheelsErrorTerms. rewrite in_flat_map_iff. split.
    - intros ([t [ml mr]] & Hi & Hx). cbv zeta in Hx. destruct (below o ml mr) eqn:B; [destruct Hx|].
      destruct (delayed_in o s (p_t_r P) t) eqn:D; [|destruct Hx]. cbn [negb] in Hx. apply below_spec in B as [B1 B2]. apply within_spec in D.
      pose proof (within_represents _ D) as HR.
      destruct (backwards s (p_t_r P + t)) eqn:K; [destruct Hx|]. pose proof (point_velocity_body s r A _ (V3 0 0 0) HR) as Hu.
      apply (backwards_spec _ _ HR Hu) in K. rewrite left_point_eq, right_point_eq in Hx.
      exists t, ml, mr, (point_velocity s (p_t_r P + t) (V3 0 0 0)), (point_velocity s (p_t_r P + t) (rear_left P)), (point_velocity s (p_t_r P + t) (rear_right P)).
      repeat (split; [first [assumption|by apply point_velocity_body]|]). destruct Hx as [<-|[<-|[]]]; [left|right]; reflexivity.
    - intros (t & ml & mr & u & wl & wr & Hi & B1 & B2 & D & Hu & K & Hl & Hr & Hx). exists (t, (ml, mr)). split; [exact Hi|]. cbv zeta.
      pose proof (within_represents _ D) as HR. rewrite (proj2 (below_spec ml mr) (conj B1 B2)), (proj2 (within_spec o s _ _) D). cbn [negb].
      rewrite (proj2 (backwards_spec _ _ HR Hu) K), left_point_eq, right_point_eq. fold (rear_left P) (rear_right P).
      apply (body_velocity_is s) in Hl as <-; [|done]. apply (body_velocity_is s) in Hr as <-; [|done]. destruct Hx as [->| ->]; [left|right; left]; reflexivity.
  Qed.
  (** Velocities and poses of the navigation system: without delay; all poses are used. *)
  Theorem car_velocity_terms l x : rotation (mt_R (p_mount P)) -> In x (addVelocitiesErrorTerms P s l) <->
    exists t m v om, In (t, m) l /\ (sp_min s <= t <= sp_max s)%Z /\
      let AI := CarDriverModel.mulm (A (seconds t)) (mt_R (p_mount P)) in
      derives3 (fun y => add3 (r y) (mulv (A y) (mt_r (p_mount P)))) (seconds t) (mulv AI v) /\
      (forall q, derives3 (fun y => mulv (CarDriverModel.mulm (A y) (mt_R (p_mount P))) q) (seconds t) (cross3 (mulv AI om) (mulv AI q))) /\
      x = EVel v om (r_v_mr m) (r_om_mr m) (sigma2_r_v_mr m) (sigma2_r_om_mr m).
  Proof.
    intros HM. unfold addVelocitiesErrorTerms. rewrite in_flat_map_iff. split.
    - intros ([t m] & Hi & Hx). destruct ((t <? sp_min s) || (sp_max s <? t))%Z eqn:D; [destruct Hx|]. apply orb_false_iff in D as [D1 D2].
      apply Z.ltb_ge in D1, D2. destruct Hx as [<-|[]]. exists t, m. eexists _, _. split; [exact Hi|]. split; [lia|]. cbv zeta.
      destruct (imu_velocity_body s r A t (p_mount P) (HS t ltac:(lia)) HM) as [E1 E2]. split; [exact E1|]. split; [exact E2|]. reflexivity.
    - intros (t & m & v & om & Hi & D & Hv & Hq & ->). exists (t, m). split; [exact Hi|].
      destruct ((t <? sp_min s) || (sp_max s <? t))%Z eqn:D'; [rewrite orb_true_iff, !Z.ltb_lt in D'; lia|]. left. cbv zeta.
      pose proof (HS t ltac:(lia)) as HR. destruct (imu_velocity_body s r A t (p_mount P) HR HM) as [E1 E2].
      set (AI := CarDriverModel.mulm (A (seconds t)) (mt_R (p_mount P))) in *.
      assert (HA : rotation AI) by (apply rotation_mul; [destruct HR as (? & ? & (? & _) & _); assumption|exact HM]).
      assert (Ev : v = fst (imu_velocity s (p_mount P) t)).
      { pose proof (derives3_unique _ _ _ _ Hv E1) as E. rewrite <- (rotation_left AI v HA), E. by apply rotation_left. }
      assert (Eo : om = snd (imu_velocity s (p_mount P) t)).
      { assert (X : forall q, cross3 (mulv AI om) (mulv AI q) = cross3 (mulv AI (snd (imu_velocity s (p_mount P) t))) (mulv AI q))
          by (intros q; exact (derives3_unique _ _ _ _ (Hq q) (E2 q))).
        assert (Y : forall q, cross3 om q = cross3 (snd (imu_velocity s (p_mount P) t)) q).
        { intros q. specialize (X q). rewrite <- !rotation_cross in X by assumption. rewrite <- (rotation_left AI (cross3 om q) HA), X. by apply rotation_left. }
        pose proof (Y (V3 1 0 0)) as Y1. pose proof (Y (V3 0 1 0)) as Y2. destruct om as [o1 o2 o3], (snd (imu_velocity s (p_mount P) t)) as [i1 i2 i3].
        unfold cross3 in Y1, Y2. cbn [vx vy vz] in Y1, Y2. injection Y1 as _ Y12 Y13. injection Y2 as _ _ Y23. f_equal; lra. }
      rewrite Ev, Eo. reflexivity.
  Qed.
  Theorem car_pose_terms l x : (forall t m, In (t, m) l -> (sp_min s <= t <= sp_max s)%Z) -> In x (addPoseErrorTerms P s l) <->
    exists t m, In (t, m) l /\
      x = EPose (add3 (r (seconds t)) (mulv (A (seconds t)) (mt_r (p_mount P))), CarDriverModel.mulm (A (seconds t)) (mt_R (p_mount P)))
            (m_r_mr m) (m_R_r m) (sigma2_m_r_mr m) (sigma2_m_R_r m).
  Proof.
    intros Hl. unfold addPoseErrorTerms. rewrite in_map_iff. split.
    - intros ([t m] & <- & Hi). exists t, m. split; [exact Hi|]. destruct (HS t (Hl _ _ Hi)) as (v & om & _ & Er & ER & _). unfold pose_value.
      rewrite Er, ER. reflexivity.
    - intros (t & m & Hi & ->). exists (t, m). split; [|exact Hi]. destruct (HS t (Hl _ _ Hi)) as (v & om & _ & Er & ER & _). unfold pose_value.
      rewrite Er, ER. reflexivity.
  Qed.
End terms.

(** ** The error terms are those of the window model (CalibratorModel.v), to which C46 and C69-C71 apply *)
Section agree.
  Context (P : car_params) (o : car_opts) (s : splines).
  Definition store_of (st : car_store) (k : car_kind) : list (Z * meas) :=
    match k with
    | CPose => map (fun x => (fst x, MPose (snd x))) (ms_pose st) | CVel => map (fun x => (fst x, MVel (snd x))) (ms_vel st)
    | CDmi => map (fun x => (fst x, MDmi (snd x))) (ms_dmi st)
    | CFront => map (fun x => (fst x, MFront (fst (snd x)) (snd (snd x)))) (ms_front st)
    | CRear => map (fun x => (fst x, MRear (fst (snd x)) (snd (snd x)))) (ms_rear st)
    | CSteer => map (fun x => (fst x, MSteer (snd x))) (ms_st st)
    end.
  Definition delay_of (k : car_kind) : Z :=
    match k with CDmi => p_t_dmi P | CFront => p_t_f P | CRear => p_t_r P | CSteer => p_t_s P | _ => 0 end.
  Definition time_of (x : Z * meas) : Z :=
    match snd x with
    | MFront _ _ => p_t_f P + fst x | MRear _ _ => p_t_r P + fst x | MSteer _ => p_t_s P + fst x | MDmi _ => p_t_dmi P + fst x | _ => fst x
    end.
  Definition cutoff_of (m : meas) : bool := match m with MFront l r | MRear l r => below o l r | _ => false end.
  Definition options_of : car_options := CarOptions (o_usePose o) (o_useVelocities o) (o_dmi o) (o_flw o) (o_frw o) 0 0 (o_st o).
  (** The error term for an entry of the window model. *)
  Definition term_of (x : car_term meas) : option eterm :=
    match x with
    | CtPose (t, MPose m) => Some (EPose (pose_value s (p_mount P) t) (m_r_mr m) (m_R_r m) (sigma2_m_r_mr m) (sigma2_m_R_r m))
    | CtVel (t, MVel m) => let p := imu_velocity s (p_mount P) t in Some (EVel (fst p) (snd p) (r_v_mr m) (r_om_mr m) (sigma2_r_v_mr m) (sigma2_r_om_mr m))
    | CtDmi (t, MDmi m) var => Some (EWheel (point_velocity s (p_t_dmi P + t) (rear_left P)) (k_dmi P) m (V3 var (o_vy o) (o_vz o)) false)
    | CtFl (t, MFront l r) var => Some (EWheel (point_velocity s (p_t_f P + t) (fore_left P)) (k_fl P) l (V3 var (o_vy o) (o_vz o)) true)
    | CtFr (t, MFront l r) var => Some (EWheel (point_velocity s (p_t_f P + t) (fore_right P)) (k_fr P) r (V3 var (o_vy o) (o_vz o)) true)
    | CtRl (t, MRear l r) var => Some (EWheel (point_velocity s (p_t_r P + t) (rear_left P)) (k_rl P) l (V3 var (o_vy o) (o_vz o)) false)
    | CtRr (t, MRear l r) var => Some (EWheel (point_velocity s (p_t_r P + t) (rear_right P)) (k_rr P) r (V3 var (o_vy o) (o_vz o)) false)
    | CtSteer (t, MSteer m) var => Some (ESteer (point_velocity s (p_t_s P + t) (fore_middle P)) m var (p_a P))
    | _ => None
    end.
  Lemma flat_cons {A B} (f : A -> list B) x l : flat_map f (x :: l) = f x ++ flat_map f l.
  Proof. reflexivity. Qed.
  Theorem car_terms_agree st (e : unit) :
    map Some (car_error_terms P o s st)
    = map term_of (car_terms (fun _ => sp_min s) (fun _ => sp_max s) (fun _ => delay_of) (o_delayBound o) cutoff_of options_of
        (fun _ _ x => backwards s (time_of x)) (fun _ _ x => too_slow P o s (time_of x)) e (store_of st)).
  Proof.
    unfold car_error_terms, car_terms. rewrite !map_app. f_equal; [|f_equal; [|f_equal; [|f_equal; [|f_equal]]]].
    - cbn [options_of useVelocities]. destruct (o_useVelocities o); [|reflexivity]. unfold addVelocitiesErrorTerms. cbn [store_of].
      induction (ms_vel st) as [|[t m] l IH]; [reflexivity|]. rewrite flat_cons. cbn [map List.filter fst snd]. rewrite map_app, IH.
      destruct ((t <? sp_min s) || (sp_max s <? t))%Z; reflexivity.
    - cbn [options_of usePose]. destruct (o_usePose o); [|reflexivity]. unfold addPoseErrorTerms. cbn [store_of].
      induction (ms_pose st) as [|[t m] l IH]; [reflexivity|]. cbn [map fst snd]. f_equal. exact IH.
    - unfold addDMIErrorTerms. cbn [store_of].
      induction (ms_dmi st) as [|[t m] l IH]; [reflexivity|]. rewrite flat_cons. cbn [map List.filter fst snd]. rewrite map_app, IH.
      unfold car_in, delayed_in. cbn [delay_of fst]. destruct (in_spline _ _ _ _); [|reflexivity]. cbn [negb map term_of options_of dmiVariance app].
      rewrite left_point_eq. reflexivity.
    - unfold addFrontWheelsErrorTerms. cbn [store_of].
      induction (ms_front st) as [|[t [ml mr]] l IH]; [reflexivity|]. rewrite flat_cons. cbn [map List.filter fst snd]. rewrite map_app, IH.
      unfold car_wheels_ok, car_in, delayed_in. cbn [delay_of fst snd cutoff_of time_of]. destruct (below o ml mr); [reflexivity|].
      destruct (in_spline _ _ _ _); [|reflexivity]. destruct (backwards s _); [reflexivity|]. cbn [negb andb map term_of options_of flwVariance frwVariance app flat_map].
      rewrite front_left_eq, front_right_eq. reflexivity.
    - unfold addRearWheelsErrorTerms. cbn [store_of].
      induction (ms_rear st) as [|[t [ml mr]] l IH]; [reflexivity|]. rewrite flat_cons. cbn [map List.filter fst snd]. rewrite map_app, IH.
      unfold car_wheels_ok, car_in, delayed_in. cbn [delay_of fst snd cutoff_of time_of]. destruct (below o ml mr); [reflexivity|].
      destruct (in_spline _ _ _ _); [|reflexivity]. destruct (backwards s _); [reflexivity|]. cbn [negb andb map term_of options_of flwVariance frwVariance app flat_map].
      rewrite left_point_eq, right_point_eq. reflexivity.
    - unfold addSteeringErrorTerms. cbn [store_of].
      induction (ms_st st) as [|[t m] l IH]; [reflexivity|]. rewrite flat_cons. cbn [map List.filter fst snd]. rewrite map_app, IH.
      unfold car_in, delayed_in. cbn [delay_of fst snd time_of]. destruct (in_spline _ _ _ _); [|reflexivity]. cbn [andb negb].
      destruct (too_slow P o s _); [reflexivity|]. cbn [negb map term_of options_of steeringVariance app]. rewrite front_eq. reflexivity.
  Qed.
End agree.

(** ** Spline initialisation *)
Lemma opp_quat2r q : quat2r (q_opp q) = quat2r q.
Proof. destruct q as [a b c d]. unfold quat2r, q_opp. cbn [q0 q1 q2 q3]. f_equal; f_equal; ring. Qed.
Lemma rotPoses_matrices qs : map quat2r (rotPoses qs) = map quat2r qs.
Proof.
  unfold rotPoses. assert (H : forall acc, map quat2r (fold_left (fun rot q => match rot with [] => [q] | _ => rot ++ [bestQuat (List.last rot q) q] end) qs acc)
    = map quat2r acc ++ map quat2r qs).
  { induction qs as [|q qs IH]; intros acc; simpl; [by rewrite app_nil_r|]. rewrite IH. destruct acc as [|a acc]; [reflexivity|].
    rewrite map_app. cbn [map]. rewrite <- app_assoc. cbn [app]. unfold bestQuat. destruct (Rlt_dec _ _); rewrite ?opp_quat2r; reflexivity. }
  apply (H []).
Qed.
Section initialisation.
  Context (ypr : v3 -> m3) (unypr : m3 -> v3) (r2quat : m3 -> quat) (angleMod : R -> R).
  Hypothesis (HR : forall a, rotation (ypr a)) (HQ : forall M, rotation M -> quat2r (r2quat M) = M).
  Lemma sub_add a b : add3 (sub_v3 a b) b = a.
  Proof. destruct a as [x y z], b as [x' y' z']. unfold add3, sub_v3. cbn [vx vy vz]. f_equal; ring. Qed.
  Lemma mulm_eq A B : (forall p, mulv A p = mulv B p) -> A = B.
  Proof.
    intros H. pose proof (H (V3 1 0 0)) as H1. pose proof (H (V3 0 1 0)) as H2. pose proof (H (V3 0 0 1)) as H3.
    destruct A as [[a1 a2 a3] [a4 a5 a6] [a7 a8 a9]], B as [[b1 b2 b3] [b4 b5 b6] [b7 b8 b9]]. unfold mulv, dot3 in *. cbn [r1 r2 r3 vx vy vz] in *.
    injection H1 as ? ? ?. injection H2 as ? ? ?. injection H3 as ? ? ?. f_equal; f_equal; lra.
  Qed.
  (** The poses the splines are fitted to put the navigation system exactly where it was measured. *)
  Theorem init_poses_consistent b poses i m a : rotation (mt_R b) -> poses !! i = Some (m, a) ->
    exists x q, fst (init_poses ypr r2quat b poses) !! i = Some x /\ snd (init_poses ypr r2quat b poses) !! i = Some q /\
      add3 x (mulv (quat2r q) (mt_r b)) = m /\ CarDriverModel.mulm (quat2r q) (mt_R b) = ypr a.
  Proof.
    intros Hb Hi. unfold init_poses. cbn [fst snd].
    assert (Hq : map quat2r (rotPoses (map (fun '(_, a0) => r2quat (init_rotation ypr b a0)) poses)) !! i = Some (init_rotation ypr b a)).
    { rewrite rotPoses_matrices, map_map, list_lookup_fmap, Hi. cbn [fmap option_fmap option_map]. rewrite HQ; [reflexivity|].
      apply rotation_mul; [apply HR|by apply rotation_transpose]. }
    rewrite list_lookup_fmap in Hq. destruct (rotPoses _ !! i) as [q|] eqn:Eq; [|discriminate]. apply (inj Some) in Hq.
    exists (init_translation ypr b m a), q. split; [by rewrite list_lookup_fmap, Hi|]. split; [reflexivity|]. rewrite Hq. split.
    - unfold init_translation. apply sub_add.
    - apply mulm_eq. intros p. unfold init_rotation. rewrite !mulm_mulv. by rewrite rotation_left.
  Qed.
  (** Hence a spline through these poses has no pose error: none in the position, and the attitude is the measured one; the angle
      errors are zero whenever the measured angles are those the library returns for their rotation. *)
  Theorem pose_error_at_start P s poses i t m x q : rotation (mt_R (p_mount P)) -> poses !! i = Some (t, m) ->
    let ip := init_poses ypr r2quat (p_mount P) (map (fun x => (m_r_mr (snd x), m_R_r (snd x))) poses) in
    fst ip !! i = Some x -> snd ip !! i = Some q -> sp_r s t = x -> sp_R s t = quat2r q ->
    pose_value s (p_mount P) t = (m_r_mr m, ypr (m_R_r m)) /\
    (forall e, predictPoses P s unypr angleMod poses !! i = Some e -> pr_time e = t /\ firstn 3 (pr_error e) = [0; 0; 0] /\
       (unypr (ypr (m_R_r m)) = m_R_r m -> angleMod 0 = 0 -> pr_error e = [0; 0; 0; 0; 0; 0] /\ pr_error2 e = 0)).
  Proof.
    intros Hb Hi ip Hx Hq Er ER.
    destruct (init_poses_consistent (p_mount P) (map (fun x => (m_r_mr (snd x), m_R_r (snd x))) poses) i (m_r_mr m) (m_R_r m) Hb) as (x' & q' & Ex & Eq & E1 & E2).
    { by rewrite list_lookup_fmap, Hi. }
    fold ip in Ex, Eq. rewrite Hx in Ex. injection Ex as <-. rewrite Hq in Eq. injection Eq as <-.
    assert (V : pose_value s (p_mount P) t = (m_r_mr m, ypr (m_R_r m))) by (unfold pose_value; rewrite Er, ER, E1, E2; reflexivity).
    split; [exact V|]. intros e He. unfold predictPoses in He. rewrite list_lookup_fmap, Hi in He. apply (inj Some) in He. subst e. rewrite V.
    cbn [pr_time pr_error pr_error2 fst snd eval_term]. unfold pose_error, coords, sub_v3, chi3. cbn [fst snd vx vy vz app firstn].
    split; [reflexivity|]. assert (Z : forall z, z - z = 0) by (intros; ring). rewrite !Z.
    split; [reflexivity|]. intros Hu H0. rewrite Hu.
    rewrite !Z, H0. split; [reflexivity|]. unfold Rdiv; ring.
  Qed.
End initialisation.

(** Expected: an exact measurement has no error.  At pitch 90 degrees it may have one, whichever angles the library returns. *)
Definition multiple_of_turn (x : R) : Prop := exists k : Z, x = IZR k * (2 * PI).
Theorem pose_error_gimbal_refuted unypr angleMod m_r : (forall x, angleMod x = 0 -> multiple_of_turn x) ->
  exists a, snd (pose_error unypr angleMod (m_r, euler_ypr a) m_r a) <> V3 0 0 0.
Proof.
  intros HA. set (a1 := V3 0 (PI / 2) 0). set (a2 := V3 1 (PI / 2) 1).
  assert (E : euler_ypr a1 = euler_ypr a2).
  { unfold euler_ypr, a1, a2. cbn [vx vy vz]. rewrite cos_PI2, sin_PI2, cos_0, sin_0. pose proof (sin2_cos2 1) as S. unfold Rsqr in S.
    f_equal; f_equal; try ring; lra. }
  destruct (Req_EM_T (angleMod (vx a1 - vx (unypr (euler_ypr a1)))) 0) as [Z1|N1].
  - destruct (Req_EM_T (angleMod (vx a2 - vx (unypr (euler_ypr a2)))) 0) as [Z2|N2].
    + exfalso. apply HA in Z1, Z2. destruct Z1 as [k1 K1], Z2 as [k2 K2]. rewrite <- E in K2. unfold a1, a2 in K1, K2. cbn [vx] in K1, K2.
      assert (T : 1 = IZR (k2 - k1) * (2 * PI)) by (rewrite minus_IZR; lra). pose proof PI_RGT_0. pose proof PI2_3_2 as H3. unfold PI2 in H3.
      destruct (Z_lt_le_dec 0 (k2 - k1)) as [L|L].
      * assert (L' : (1 <= k2 - k1)%Z) by lia. apply IZR_le in L'. apply (Rmult_le_compat_r (2 * PI)) in L'; lra.
      * apply IZR_le in L. apply (Rmult_le_compat_r (2 * PI)) in L; lra.
    + exists a2. unfold pose_error. cbn [snd]. intros H. injection H as H1 _ _. exact (N2 H1).
  - exists a1. unfold pose_error. cbn [snd]. intros H. injection H as H1 _ _. exact (N1 H1).
Qed.

(** ** Predictions *)
Lemma rnd_sqrt v0 v1 : v0 <> 0 -> v1 * v1 / (v0 * v0) + 1 = (v0 * v0 + v1 * v1) / (v0 * v0).
Proof. intros. field. assumption. Qed.
(** The predicted speed of a wheel that points along its motion: its ground speed, with the sign of the forward velocity. *)
Theorem turned_wheel_ground_speed k w : vx w <> 0 ->
  turned_wheel_speed k w = (if Rlt_dec (vx w) 0 then - (k * ground_speed w) else k * ground_speed w).
Proof.
  intros H. unfold turned_wheel_speed, ground_speed. set (a := vx w) in *. set (b := vy w). rewrite rnd_sqrt by assumption.
  assert (P2 : 0 < a * a) by (destruct (Rdichotomy _ _ H); nra). assert (P : 0 < a * a + b * b) by nra.
  rewrite sqrt_div_alt by assumption. assert (EA : sqrt (a * a) = Rabs a) by exact (sqrt_Rsqr_abs a). rewrite EA. set (S := sqrt (a * a + b * b)).
  assert (HS : 0 < S) by (by apply sqrt_lt_R0). assert (SS : S * S = a * a + b * b) by (apply sqrt_sqrt; lra).
  assert (HA : Rabs a <> 0) by (by apply Rabs_no_R0).
  replace (a / (S / Rabs a) + b * b / (a * (S / Rabs a))) with (Rabs a * (a * a + b * b) / (a * S)) by (field; repeat split; lra || assumption).
  replace (a * a + b * b) with (S * S) by exact SS. destruct (Rlt_dec a 0) as [L|L].
  - rewrite Rabs_left by assumption. field. lra.
  - rewrite Rabs_right by lra. field. lra.
Qed.
Definition rsum_l (l : list R) : R := fold_right Rplus 0 l.
Ltac grow I3 := eapply List.Forall_impl; [|exact I3]; intros ? Hp; cbn beta in Hp |- *;
  repeat match type of Hp with Logic.ex _ => let y := fresh in destruct Hp as [y Hp]; exists y end; destruct Hp as [Hp1 Hp2]; split; [right; exact Hp1|exact Hp2].
Ltac triv3 I3 := split; [reflexivity|split; [first [reflexivity|cbn [map rsum_l fold_right]; ring]|grow I3]].
Section predictions.
  Context (P : car_params) (o : car_opts) (s : splines) (unypr : m3 -> v3) (angleMod : R -> R).
  Local Notation eval := (eval_term unypr angleMod).
  Local Notation errors l := (map (fun x => fst (eval x)) l).
  Local Notation errors2 l := (map (fun x => snd (eval x)) l).
  Lemma rsum_app a b : rsum_l (a ++ b) = rsum_l a + rsum_l b.
  Proof. induction a as [|x a IH]; simpl; [ring|]. rewrite IH. ring. Qed.

  (** Poses, velocities, odometer and steering: one prediction per error term, with the same error and weighted squared error. *)
  Theorem pose_predictions l : map pr_error (predictPoses P s unypr angleMod l) = errors (addPoseErrorTerms P s l) /\
    map pr_error2 (predictPoses P s unypr angleMod l) = errors2 (addPoseErrorTerms P s l) /\
    map pr_time (predictPoses P s unypr angleMod l) = map fst l /\
    Forall2 (fun x p => pr_error p = coords (sub_v3 (m_r_mr (snd x)) (fst (pr_value p))) ++ map angleMod (coords (sub_v3 (m_R_r (snd x)) (snd (pr_value p)))))
      l (predictPoses P s unypr angleMod l).
  Proof.
    unfold predictPoses, addPoseErrorTerms. rewrite !map_map. split; [|split; [|split]]; try (apply map_ext; by intros [t m]).
    induction l as [|[t m] l IH]; [constructor|]. cbn [map]. constructor; [reflexivity|exact IH].
  Qed.
  Theorem velocity_predictions l : map pr_error (predictVelocities P s unypr angleMod l) = errors (addVelocitiesErrorTerms P s l) /\
    map pr_error2 (predictVelocities P s unypr angleMod l) = errors2 (addVelocitiesErrorTerms P s l) /\
    Forall (fun p => exists m, In (pr_time p, m) l /\ pr_error p = coords (sub_v3 (r_v_mr m) (fst (pr_value p))) ++ coords (sub_v3 (r_om_mr m) (snd (pr_value p))))
      (predictVelocities P s unypr angleMod l).
  Proof.
    unfold predictVelocities, addVelocitiesErrorTerms. induction l as [|[t m] l (I1 & I2 & I3)]; [split; [reflexivity|split; [reflexivity|constructor]]|]. rewrite !flat_cons, !map_app, I1, I2.
    destruct ((t <? sp_min s) || (sp_max s <? t))%Z; [triv3 I3|]. cbv zeta. split; [reflexivity|]. split; [reflexivity|]. cbn [app]; apply List.Forall_cons; [|grow I3].
    exists m. cbn [pr_time pr_error pr_value fst snd eval_term]. split; [by left|reflexivity].
  Qed.
  Theorem dmi_predictions l : map pr_error (predictDMI P o s unypr angleMod l) = errors (addDMIErrorTerms P o s l) /\
    map pr_error2 (predictDMI P o s unypr angleMod l) = errors2 (addDMIErrorTerms P o s l) /\
    Forall (fun p => exists t m, In (t, m) l /\ pr_time p = (p_t_dmi P + t)%Z /\ hd 0 (pr_error p) = m - pr_value p) (predictDMI P o s unypr angleMod l).
  Proof.
    unfold predictDMI, addDMIErrorTerms. induction l as [|[t m] l (I1 & I2 & I3)]; [split; [reflexivity|split; [reflexivity|constructor]]|]. rewrite !flat_cons, !map_app, I1, I2.
    destruct (delayed_in _ _ _ _); [|triv3 I3]. cbv zeta. split; [reflexivity|]. split; [reflexivity|]. cbn [app]; apply List.Forall_cons; [|grow I3].
    exists t, m. split; [by left|]. split; reflexivity.
  Qed.
  (** The predicted steering value is the angle of the motion, to be compared with the calibrated polynomial of the raw value. *)
  Theorem steering_predictions l : map pr_error (predictSteering P o s unypr angleMod l) = errors (addSteeringErrorTerms P o s l) /\
    map pr_error2 (predictSteering P o s unypr angleMod l) = errors2 (addSteeringErrorTerms P o s l) /\
    Forall (fun p => exists t m, In (t, m) l /\ pr_time p = (p_t_s P + t)%Z /\
      pr_error p = [angleMod (p_a P 0%nat + p_a P 1%nat * m + p_a P 2%nat * m * m + p_a P 3%nat * m * m * m - pr_value p)]) (predictSteering P o s unypr angleMod l).
  Proof.
    unfold predictSteering, addSteeringErrorTerms. induction l as [|[t m] l (I1 & I2 & I3)]; [split; [reflexivity|split; [reflexivity|constructor]]|]. rewrite !flat_cons, !map_app, I1, I2.
    destruct (delayed_in _ _ _ _); [|triv3 I3]. cbn [negb]. destruct (too_slow _ _ _ _); [triv3 I3|]. cbv zeta.
    split; [reflexivity|]. split; [reflexivity|]. cbn [app]; apply List.Forall_cons; [|grow I3].
    exists t, m. split; [by left|]. split; reflexivity.
  Qed.
  (** Front and rear wheels: one prediction per pair of error terms. *)
  Theorem front_predictions l :
    concat (map pr_error (predictFrontWheels P o s unypr angleMod l)) = concat (errors (addFrontWheelsErrorTerms P o s l)) /\
    rsum_l (map pr_error2 (predictFrontWheels P o s unypr angleMod l)) = rsum_l (errors2 (addFrontWheelsErrorTerms P o s l)) /\
    Forall (fun p => exists t ml mr e1 e2 e4 e5, In (t, (ml, mr)) l /\ pr_time p = (p_t_f P + t)%Z /\
      pr_error p = [ml - fst (pr_value p); e1; e2; mr - snd (pr_value p); e4; e5]) (predictFrontWheels P o s unypr angleMod l).
  Proof.
    unfold predictFrontWheels, addFrontWheelsErrorTerms. induction l as [|[t [ml mr]] l (I1 & I2 & I3)]; [split; [reflexivity|split; [reflexivity|constructor]]|].
    rewrite !flat_cons, !map_app, !concat_app, !rsum_app, I1, I2.
    destruct (below o ml mr); [triv3 I3|]. destruct (delayed_in _ _ _ _); [|triv3 I3]. cbn [negb]. destruct (backwards _ _); [triv3 I3|].
    cbv zeta. split; [cbn [map concat pr_error]; rewrite !app_nil_r, <- app_assoc; reflexivity|].
    split; [cbn [map pr_error2 rsum_l fold_right]; ring|]. cbn [app]; apply List.Forall_cons; [|grow I3].
    exists t, ml, mr. cbn [pr_error pr_value pr_time eval_term fst snd]. unfold coords, v3_of, wheel_error. cbn [vx vy vz app].
    do 4 eexists. split; [by left|]. split; [reflexivity|]. reflexivity.
  Qed.
  Theorem rear_predictions l :
    concat (map pr_error (predictRearWheels P o s unypr angleMod l)) = concat (errors (addRearWheelsErrorTerms P o s l)) /\
    rsum_l (map pr_error2 (predictRearWheels P o s unypr angleMod l)) = rsum_l (errors2 (addRearWheelsErrorTerms P o s l)) /\
    Forall (fun p => exists t ml mr e1 e2 e4 e5, In (t, (ml, mr)) l /\ pr_time p = (p_t_r P + t)%Z /\
      pr_error p = [ml - fst (pr_value p); e1; e2; mr - snd (pr_value p); e4; e5]) (predictRearWheels P o s unypr angleMod l).
  Proof.
    unfold predictRearWheels, addRearWheelsErrorTerms. induction l as [|[t [ml mr]] l (I1 & I2 & I3)]; [split; [reflexivity|split; [reflexivity|constructor]]|].
    rewrite !flat_cons, !map_app, !concat_app, !rsum_app, I1, I2.
    destruct (below o ml mr); [triv3 I3|]. destruct (delayed_in _ _ _ _); [|triv3 I3]. cbn [negb]. destruct (backwards _ _); [triv3 I3|].
    cbv zeta. split; [cbn [map concat pr_error]; rewrite !app_nil_r, <- app_assoc; reflexivity|].
    split; [cbn [map pr_error2 rsum_l fold_right]; ring|]. cbn [app]; apply List.Forall_cons; [|grow I3].
    exists t, ml, mr. cbn [pr_error pr_value pr_time eval_term fst snd]. unfold coords, v3_of, wheel_error. cbn [vx vy vz app].
    do 4 eexists. split; [by left|]. split; [reflexivity|]. reflexivity.
  Qed.
End predictions.

Section whole.
  Context (ypr : v3 -> m3) (unypr : m3 -> v3) (r2quat : m3 -> quat) (angleMod : R -> R).
  Context (fit : list Z -> list v3 * list quat -> Z -> result splines).
  Local Notation predict := (car_predict ypr unypr r2quat angleMod fit).
  Local Notation eval := (eval_term unypr angleMod).
  Local Notation errs l := (concat (map pr_error l)).
  Local Notation errs2 l := (rsum_l (map pr_error2 l)).
  (** The errors predict() reports, and the sum of the squared errors, are those of the error terms that addMeasurements() would put
      into the batch for the same measurements (with poses and velocities in use). *)
  Theorem predict_reports_batch_errors P o st d : o_usePose o = true -> o_useVelocities o = true -> (2 <= length (ms_pose st))%nat ->
    predict P o st clearPredictions = Ret d ->
    exists terms, car_batch_terms ypr r2quat fit P o st = Ret (Some terms) /\
      errs (pd_vel d) ++ errs (pd_pose d) ++ errs (pd_dmi d) ++ errs (pd_front d) ++ errs (pd_rear d) ++ errs (pd_st d) = concat (map (fun x => fst (eval x)) terms) /\
      errs2 (pd_vel d) + errs2 (pd_pose d) + errs2 (pd_dmi d) + errs2 (pd_front d) + errs2 (pd_rear d) + errs2 (pd_st d) = rsum_l (map (fun x => snd (eval x)) terms).
  Proof.
    intros UP UV L. unfold car_predict, car_batch_terms. rewrite (proj2 (Nat.ltb_ge _ _) L).
    destruct (fit_splines _ _ _ _ _ _ _) as [s| | |]; try discriminate. cbn [rbind]. intros H. injection H as <-.
    eexists. split; [reflexivity|]. cbn [pd_pose pd_vel pd_dmi pd_front pd_rear pd_st clearPredictions app]. unfold car_error_terms. rewrite UP, UV.
    destruct (pose_predictions P s unypr angleMod (ms_pose st)) as (A1 & B1 & _ & _).
    destruct (velocity_predictions P s unypr angleMod (ms_vel st)) as (A2 & B2 & _).
    destruct (dmi_predictions P o s unypr angleMod (ms_dmi st)) as (A3 & B3 & _).
    destruct (front_predictions P o s unypr angleMod (ms_front st)) as (A4 & B4 & _).
    destruct (rear_predictions P o s unypr angleMod (ms_rear st)) as (A5 & B5 & _).
    destruct (steering_predictions P o s unypr angleMod (ms_st st)) as (A6 & B6 & _).
    rewrite !map_app, !concat_app, !rsum_app, A1, A2, A3, A4, A5, A6, B1, B2, B3, B4, B5, B6. split; [reflexivity|]. ring.
  Qed.
  (** Predictions accumulate: they are appended to those of earlier calls until clearPredictions(). *)
  Theorem predict_accumulates P o st d d' : predict P o st d = Ret d' ->
    exists n, predict P o st clearPredictions = Ret n /\
      d' = CarPreds (pd_pose d ++ pd_pose n) (pd_vel d ++ pd_vel n) (pd_dmi d ++ pd_dmi n) (pd_front d ++ pd_front n) (pd_rear d ++ pd_rear n) (pd_st d ++ pd_st n).
  Proof.
    unfold car_predict. destruct (fit_splines _ _ _ _ _ _ _) as [s| | |]; try discriminate. cbn [rbind]. intros H. injection H as <-.
    eexists. split; reflexivity.
  Qed.
  (** Expected: predict() copes with too few poses like addMeasurements(), which just returns.  It is undefined. *)
  Theorem predict_few_poses_refuted P o st d : (length (ms_pose st) < 2)%nat ->
    predict P o st d = UB /\ car_batch_terms ypr r2quat fit P o st = Ret None.
  Proof.
    intros L. split; [|unfold car_batch_terms; by rewrite (proj2 (Nat.ltb_lt _ _) L)]. unfold car_predict, fit_splines.
    destruct (ms_pose st) as [|[t m] [|? ?]]; [reflexivity| |simpl in L; lia]. cbn [map fst numSegments List.last].
    rewrite Z.sub_diag. destruct (Req_EM_T (0 / 10 ^ 9) 0) as [_|N]; [reflexivity|]. exfalso. apply N. unfold Rdiv. ring.
  Qed.
End whole.

(** ** Time-delay example *)
Section td.
  Context (P : td_cparams) (o : td_opts) (s : splines) (unypr : m3 -> v3) (angleMod : R -> R) (r : R -> v3) (A : R -> m3).
  Local Notation eval := (eval_term unypr angleMod).
  Local Notation errors l := (map (fun x => fst (eval x)) l).
  Local Notation errors2 l := (map (fun x => snd (eval x)) l).
  Lemma td_in_spec d t : td_in o s d t = true <-> within s (td_bound o) (d + t).
  Proof. unfold td_in, in_spline, within. rewrite negb_true_iff, orb_false_iff, !Z.ltb_ge. lia. Qed.
  Theorem td_wheel_terms l x : (forall t, (sp_min s <= t <= sp_max s)%Z -> represents s r A t) -> (0 <= td_bound o)%Z ->
    (In x (td_left_terms P o s l) <->
      exists t m w, In (t, m) l /\ within s (td_bound o) (c_tl P + t) /\ body_velocity r A (c_tl P + t) (V3 0 (c_b P) 0) w /\
        x = EWheel w (c_kl P) m (V3 (td_lw o) (td_vy o) (td_vz o)) false) /\
    (In x (td_right_terms P o s l) <->
      exists t m w, In (t, m) l /\ within s (td_bound o) (c_tr P + t) /\ body_velocity r A (c_tr P + t) (V3 0 (- c_b P) 0) w /\
        x = EWheel w (c_kr P) m (V3 (td_rw o) (td_vy o) (td_vz o)) false).
  Proof.
    intros HS HB. assert (W : forall t, within s (td_bound o) t -> represents s r A t) by (intros t [H1 H2]; apply HS; lia).
    split; unfold td_left_terms, td_right_terms; rewrite in_flat_map_iff; split.
    - intros ([t m] & Hi & Hx). destruct (td_in o s (c_tl P) t) eqn:D; [|destruct Hx]. destruct Hx as [<-|[]]. apply td_in_spec in D.
      exists t, m. eexists. split; [exact Hi|]. split; [exact D|]. split; [|reflexivity]. rewrite left_point_eq. apply point_velocity_body. by apply W.
    - intros (t & m & w & Hi & D & Hw & ->). exists (t, m). split; [exact Hi|]. rewrite (proj2 (td_in_spec _ _) D). cbn [negb]. left.
      rewrite left_point_eq. apply (body_velocity_is s) in Hw as ->; [|by apply W]. reflexivity.
    - intros ([t m] & Hi & Hx). destruct (td_in o s (c_tr P) t) eqn:D; [|destruct Hx]. destruct Hx as [<-|[]]. apply td_in_spec in D.
      exists t, m. eexists. split; [exact Hi|]. split; [exact D|]. split; [|reflexivity]. rewrite right_point_eq. apply point_velocity_body. by apply W.
    - intros (t & m & w & Hi & D & Hw & ->). exists (t, m). split; [exact Hi|]. rewrite (proj2 (td_in_spec _ _) D). cbn [negb]. left.
      rewrite right_point_eq. apply (body_velocity_is s) in Hw as ->; [|by apply W]. reflexivity.
  Qed.
  Theorem td_predictions_errors l :
    (map pr_error (td_predictPoses P s unypr angleMod l) = errors (td_pose_terms P s l) /\ map pr_error2 (td_predictPoses P s unypr angleMod l) = errors2 (td_pose_terms P s l) /\
      Forall2 (fun x p => pr_time p = fst x /\ pr_error p = coords (sub_v3 (m_r_mr (snd x)) (fst (pr_value p))) ++ map angleMod (coords (sub_v3 (m_R_r (snd x)) (snd (pr_value p)))))
        l (td_predictPoses P s unypr angleMod l)) /\
    (forall lw, map pr_error (td_predictLeftWheel P o s unypr angleMod lw) = errors (td_left_terms P o s lw) /\
      map pr_error2 (td_predictLeftWheel P o s unypr angleMod lw) = errors2 (td_left_terms P o s lw)) /\
    (forall lw, map pr_error (td_predictRightWheel P o s unypr angleMod lw) = errors (td_right_terms P o s lw) /\
      map pr_error2 (td_predictRightWheel P o s unypr angleMod lw) = errors2 (td_right_terms P o s lw)).
  Proof.
    split; [|split].
    - unfold td_predictPoses, td_pose_terms. rewrite !map_map. split; [|split]; try (apply map_ext; by intros [t m]).
      induction l as [|[t m] l IH]; [constructor|]. cbn [map]. constructor; [split; reflexivity|exact IH].
    - unfold td_predictLeftWheel, td_left_terms. induction lw as [|[t m] lw [I1 I2]]; [done|]. rewrite !flat_cons, !map_app, I1, I2.
      destruct (td_in _ _ _ _); split; reflexivity.
    - unfold td_predictRightWheel, td_right_terms. induction lw as [|[t m] lw [I1 I2]]; [done|]. rewrite !flat_cons, !map_app, I1, I2.
      destruct (td_in _ _ _ _); split; reflexivity.
  Qed.
  (** Expected, as for the car: predicted value = measured value - error.  The error term uses the forward velocity, the prediction the
      ground speed: they disagree exactly when the wheel also moves sideways (which the error term penalises) or backwards. *)
  Theorem td_prediction_refuted t m : within s (td_bound o) (c_tl P + t) -> c_kl P <> 0 ->
    let w := point_velocity s (c_tl P + t) (V3 0 (c_b P) 0) in vx w <> 0 ->
    exists p, td_predictLeftWheel P o s unypr angleMod [(t, m)] = [p] /\ pr_time p = t /\
      hd 0 (pr_error p) = m - c_kl P * vx w /\
      pr_value p = (if Rlt_dec (vx w) 0 then - (c_kl P * ground_speed w) else c_kl P * ground_speed w) /\
      (hd 0 (pr_error p) = m - pr_value p <-> vy w = 0).
  Proof.
    intros D K w Hw. unfold td_predictLeftWheel. cbn [flat_map]. rewrite (proj2 (td_in_spec _ _) D). cbn [negb app]. rewrite left_point_eq. fold w.
    eexists. split; [reflexivity|]. cbn [pr_time pr_value pr_error eval_term fst]. unfold coords, v3_of, wheel_error, rvec_of. cbn [hd vx vy vz].
    split; [reflexivity|]. split; [reflexivity|]. rewrite turned_wheel_ground_speed by exact Hw. split; [reflexivity|]. unfold ground_speed.
    set (a := vx w) in *. set (b := vy w). split.
    - intros E. assert (S : sqrt (a * a + b * b) * sqrt (a * a + b * b) = a * a + b * b) by (apply sqrt_sqrt; nra).
      set (q := sqrt (a * a + b * b)) in *. clearbody q a b.
      destruct (Rlt_dec a 0) as [L|L].
      + assert (E' : c_kl P * a = c_kl P * - q) by lra. apply Rmult_eq_reg_l in E'; [|exact K].
        assert (a * a = q * q) by (rewrite E'; ring). apply Rsqr_0_uniq. unfold Rsqr. lra.
      + assert (E' : c_kl P * a = c_kl P * q) by lra. apply Rmult_eq_reg_l in E'; [|exact K].
        assert (a * a = q * q) by (rewrite E'; ring). apply Rsqr_0_uniq. unfold Rsqr. lra.
    - intros ->. replace (a * a + 0 * 0) with (Rsqr a) by (unfold Rsqr; ring). rewrite sqrt_Rsqr_abs. destruct (Rlt_dec a 0) as [L|L].
      + rewrite Rabs_left by exact L. ring.
      + rewrite Rabs_right by lra. ring.
  Qed.
  Theorem td_prediction_right_refuted t m : within s (td_bound o) (c_tr P + t) -> c_kr P <> 0 ->
    let w := point_velocity s (c_tr P + t) (V3 0 (- c_b P) 0) in vx w <> 0 ->
    exists p, td_predictRightWheel P o s unypr angleMod [(t, m)] = [p] /\ pr_time p = t /\
      hd 0 (pr_error p) = m - c_kr P * vx w /\
      pr_value p = (if Rlt_dec (vx w) 0 then - (c_kr P * ground_speed w) else c_kr P * ground_speed w) /\
      (hd 0 (pr_error p) = m - pr_value p <-> vy w = 0).
  Proof.
    intros D K w Hw. unfold td_predictRightWheel. cbn [flat_map]. rewrite (proj2 (td_in_spec _ _) D). cbn [negb app]. rewrite right_point_eq. fold w.
    eexists. split; [reflexivity|]. cbn [pr_time pr_value pr_error eval_term fst]. unfold coords, v3_of, wheel_error, rvec_of. cbn [hd vx vy vz].
    split; [reflexivity|]. split; [reflexivity|]. rewrite turned_wheel_ground_speed by exact Hw. split; [reflexivity|]. unfold ground_speed.
    set (a := vx w) in *. set (b := vy w). split.
    - intros E. assert (S : sqrt (a * a + b * b) * sqrt (a * a + b * b) = a * a + b * b) by (apply sqrt_sqrt; nra).
      set (q := sqrt (a * a + b * b)) in *. clearbody q a b.
      destruct (Rlt_dec a 0) as [L|L].
      + assert (E' : c_kr P * a = c_kr P * - q) by lra. apply Rmult_eq_reg_l in E'; [|exact K].
        assert (a * a = q * q) by (rewrite E'; ring). apply Rsqr_0_uniq. unfold Rsqr. lra.
      + assert (E' : c_kr P * a = c_kr P * q) by lra. apply Rmult_eq_reg_l in E'; [|exact K].
        assert (a * a = q * q) by (rewrite E'; ring). apply Rsqr_0_uniq. unfold Rsqr. lra.
    - intros ->. replace (a * a + 0 * 0) with (Rsqr a) by (unfold Rsqr; ring). rewrite sqrt_Rsqr_abs. destruct (Rlt_dec a 0) as [L|L].
      + rewrite Rabs_left by exact L. ring.
      + rewrite Rabs_right by lra. ring.
  Qed.
End td.

(** ** The hypotheses can be met *)
(** A quaternion for every rotation. *)
Definition pitch_q (h : R) : quat := Quat 0 (- sin (h / 2)) 0 (cos (h / 2)).
Definition roll_q (h : R) : quat := Quat (- sin (h / 2)) 0 0 (cos (h / 2)).
Definition quat_of (M : m3) : quat := let a := angles_of M in qplus (planar (vx a)) (qplus (pitch_q (vy a)) (roll_q (vz a))).
Lemma half_angle h : sin h = 2 * sin (h / 2) * cos (h / 2) /\ cos h = cos (h / 2) * cos (h / 2) - sin (h / 2) * sin (h / 2) /\
  sin (h / 2) * sin (h / 2) + cos (h / 2) * cos (h / 2) = 1.
Proof. split; [|split]; [rewrite <- sin_2a; f_equal; field|rewrite <- cos_2a; f_equal; field|apply sin2_cos2]. Qed.
Lemma pitch_matrix h : quat2r (pitch_q h) = M3 (V3 (cos h) 0 (sin h)) (V3 0 1 0) (V3 (- sin h) 0 (cos h)).
Proof.
  unfold quat2r, pitch_q. cbn [q0 q1 q2 q3]. destruct (half_angle h) as (-> & -> & H). set (s := sin (h / 2)) in *. set (c := cos (h / 2)) in *.
  f_equal; f_equal; try ring; lra.
Qed.
Lemma roll_matrix h : quat2r (roll_q h) = M3 (V3 1 0 0) (V3 0 (cos h) (- sin h)) (V3 0 (sin h) (cos h)).
Proof.
  unfold quat2r, roll_q. cbn [q0 q1 q2 q3]. destruct (half_angle h) as (-> & -> & H). set (s := sin (h / 2)) in *. set (c := cos (h / 2)) in *.
  f_equal; f_equal; try ring; lra.
Qed.
Example quat_of_rotation M : rotation M -> quat2r (quat_of M) = M.
Proof.
  intros HM. transitivity (euler_ypr (angles_of M)); [|by apply euler_angles]. unfold quat_of. destruct (angles_of M) as [y p r]. cbn [vx vy vz].
  apply mulm_eq. intros x. rewrite !quat2r_qplus, planar_yaw, pitch_matrix, roll_matrix. destruct x as [x1 x2 x3].
  unfold yaw, euler_ypr, mulv, dot3. cbn [r1 r2 r3 vx vy vz]. f_equal; ring.
Qed.
(** A vehicle turning in a circle, one radian per second at one metre per second. *)
Definition circle_r (y : R) : v3 := V3 (sin y) (1 - cos y) 0.
Definition circle_A (y : R) : m3 := yaw y.
Definition circle : splines :=
  Splines 0 10000000000 (fun t => circle_r (seconds t)) (fun t => V3 (cos (seconds t)) (sin (seconds t)) 0) (fun t => circle_A (seconds t)) (fun _ => V3 0 0 (- 1)).
Lemma deriv_ext f g x a b : derivable_pt_lim f x a -> (forall y, f y = g y) -> a = b -> derivable_pt_lim g x b.
Proof. intros H E <- e He. destruct (H e He) as [d Hd]. exists d. intros k Hk Hk'. rewrite <- !E. by apply Hd. Qed.
Lemma deriv_circ p q r x : derivable_pt_lim (fun y => p * cos y + q * sin y + r) x (- p * sin x + q * cos x).
Proof.
  eapply deriv_ext; [apply derivable_pt_lim_plus; [apply derivable_pt_lim_plus; [apply (derivable_pt_lim_scal cos p x), derivable_pt_lim_cos|
    apply (derivable_pt_lim_scal sin q x), derivable_pt_lim_sin]|apply (derivable_pt_lim_const r)]| |].
  - intros y. unfold plus_fct, mult_real_fct, fct_cte. reflexivity.
  - ring.
Qed.
Lemma yaw_rotation h : rotation (yaw h).
Proof.
  pose proof (sin2_cos2 h) as H. unfold Rsqr in H. unfold rotation, yaw, dot3, cross3. cbn [r1 r2 r3 vx vy vz].
  repeat split; try ring; try lra; try (unfold det3; cbn; lra).
Qed.
Example circle_represented t : represents circle circle_r circle_A t.
Proof.
  exists (V3 (cos (seconds t)) (sin (seconds t)) 0), (V3 0 0 1). split; [|split; [|split; [|split]]]; try reflexivity.
  2: unfold circle, scale3; cbn [sp_av vx vy vz]; f_equal; ring.
  split; [apply yaw_rotation|]. split.
  - unfold derives3, circle_r. cbn [vx vy vz]. split; [|split].
    + apply derivable_pt_lim_sin.
    + eapply deriv_ext; [apply (deriv_circ (- 1) 0 1)| |]; [intros y; cbv beta|]; ring.
    + apply derivable_pt_lim_const.
  - intros [a b c]. unfold derives3, circle_A, yaw, mulv, cross3, dot3. cbn [r1 r2 r3 vx vy vz]. split; [|split].
    + eapply deriv_ext; [apply (deriv_circ a (- b) 0)| |]; [intros y; cbv beta|]; ring.
    + eapply deriv_ext; [apply (deriv_circ b a 0)| |]; [intros y; cbv beta|]; ring.
    + eapply deriv_ext; [apply (deriv_circ 0 0 c)| |]; [intros y; cbv beta|]; ring.
Qed.
(** Its left rear wheel, half a metre to the left of the centre, moves at half a metre per second. *)
Example circle_wheel t : body_velocity circle_r circle_A t (V3 0 (1 / 2) 0) (V3 (1 / 2) 0 0).
Proof.
  apply (body_velocity_is circle); [apply circle_represented|]. unfold point_velocity, v_v_mv, v_om_mv, circle, circle_A, yaw, transpose, mulv, scale3, cross3, add3, dot3.
  cbn [sp_R sp_v sp_av r1 r2 r3 vx vy vz]. pose proof (sin2_cos2 (seconds t)) as H. unfold Rsqr in H. set (s := sin (seconds t)) in *. set (c := cos (seconds t)) in *.
  f_equal; lra.
Qed.
(** A prediction with two poses and one distance measurement, for a library that fits this circle. *)
Definition ex_params : car_params := CarParams (1 / 2) (1 / 2) 2 (fun _ => 0) 1 1 1 1 2 (Mounting (V3 0 0 1) (yaw 0)) 0 0 0 5.
Definition ex_opts : car_opts := CarOpts true true 1000 (1 / 10) (1 / 10) 5 1 1 1 1 1 1.
Definition ex_pose (y : R) : pose_meas := PoseMeas (add3 (circle_r y) (V3 0 0 1)) (V3 y 0 0) (V3 1 1 1) (V3 1 1 1).
Example ex_predict_dmi m : exists d,
  car_predict euler_ypr angles_of quat_of (fun x => x) (fun _ _ _ => Ret circle) ex_params ex_opts
    (CarStore [(0%Z, ex_pose 0); (1000000000%Z, ex_pose 1)] [] [(1000000%Z, m)] [] [] []) clearPredictions = Ret d /\
  length (pd_pose d) = 2%nat /\ exists p, pd_dmi d = [p] /\ pr_time p = 1000005%Z /\ pr_value p = 1 /\ pr_error p = [m - 1; 0; 0].
Proof.
  unfold car_predict, fit_splines.
  assert (Hn : numSegments 5 [0%Z; 1000000000%Z] = Some 2%Z).
  { unfold numSegments. simpl List.last. change (1000000000 - 0)%Z with 1000000000%Z.
    replace (1000000000 / 10 ^ 9) with 1 by (simpl; field). destruct (Req_EM_T 1 0) as [H|_]; [exfalso; lra|].
    replace (IZR (Z.of_nat (length [0%Z; 1000000000%Z])) / 1) with (IZR 2) by (cbn [length]; change (Z.of_nat 2) with 2%Z; field).
    rewrite (Zrnd_IZR ZnearestA 2). reflexivity. }
  cbn [ms_pose map fst ex_opts o_knots]. rewrite Hn. cbn [rbind]. eexists. split; [reflexivity|].
  cbn [pd_pose pd_dmi ms_pose ms_dmi clearPredictions app]. split; [reflexivity|].
  unfold predictDMI. cbn [flat_map]. replace (delayed_in _ _ _ _) with true by reflexivity. cbn [negb app ex_params p_t_dmi e_r k_dmi].
  eexists. split; [reflexivity|]. cbn [pr_time pr_value pr_error]. split; [reflexivity|].
  assert (E : V3 (1 / 2) 0 0 = point_velocity circle (5 + 1000000) (left_point (1 / 2))).
  { rewrite left_point_eq. apply (body_velocity_is circle circle_r circle_A); [apply circle_represented|apply circle_wheel]. }
  rewrite <- E. cbn [vx]. split; [field|]. cbn [eval_term fst]. unfold coords, v3_of, wheel_error, rvec_of. cbn [vx vy vz].
  f_equal; [field|]. f_equal; [ring|]. f_equal; ring.
Qed.
Example gimbal_hypothesis : forall x, (if Req_EM_T x 0 then 0 else x) = 0 -> multiple_of_turn x.
Proof. intros x. destruct (Req_EM_T x 0) as [->|N]; [|done]. intros _. exists 0%Z. ring. Qed.
