(** C116: the Jacobian of the pose error term. *)
From stdpp Require Import prelude list.
From Coq Require Import Reals Lra Psatz Nsatz.
From Verif Require Import Base GeodeticModel Spec_Geodetic SimEngineModel Spec_CarDriver KinematicsModel ErrorTermModel Spec_ErrorTerm ErrorTermProofs
  Properties_ErrorTerm Properties_CarDriver PoseJacobianModel Spec_PoseJacobian.
Local Open Scope R_scope.

(** ** Angles on a circle *)
Lemma cos_turn a k : cos (a + IZR k * (2 * PI)) = cos a.
Proof.
  assert (P : forall n x, cos (x + INR n * (2 * PI)) = cos x).
  { intros n x. replace (x + INR n * (2 * PI)) with (x + 2 * INR n * PI) by ring. apply cos_period. }
  destruct (Z_le_gt_dec 0 k) as [H|H].
  - rewrite <- (Z2Nat.id k) by lia. rewrite <- INR_IZR_INZ. apply P.
  - rewrite <- (P (Z.to_nat (- k)) (a + IZR k * (2 * PI))). f_equal. rewrite INR_IZR_INZ, Z2Nat.id by lia. rewrite opp_IZR. ring.
Qed.
Lemma sin_turn a k : sin (a + IZR k * (2 * PI)) = sin a.
Proof.
  assert (P : forall n x, sin (x + INR n * (2 * PI)) = sin x).
  { intros n x. replace (x + INR n * (2 * PI)) with (x + 2 * INR n * PI) by ring. apply sin_period. }
  destruct (Z_le_gt_dec 0 k) as [H|H].
  - rewrite <- (Z2Nat.id k) by lia. rewrite <- INR_IZR_INZ. apply P.
  - rewrite <- (P (Z.to_nat (- k)) (a + IZR k * (2 * PI))). f_equal. rewrite INR_IZR_INZ, Z2Nat.id by lia. rewrite opp_IZR. ring.
Qed.
(** The half-angle formula. *)
Lemma angle_half a : - PI < a < PI -> 0 < 1 + cos a /\ a = 2 * atan (sin a / (1 + cos a)).
Proof.
  intros Ha. assert (Hc : 0 < cos (a / 2)) by (apply cos_gt_0; lra).
  assert (E1 : cos a = 2 * cos (a / 2) * cos (a / 2) - 1) by (rewrite <- cos_2a_cos; f_equal; field).
  assert (E2 : sin a = 2 * sin (a / 2) * cos (a / 2)) by (rewrite <- sin_2a; f_equal; field).
  split; [nra|]. rewrite E1, E2.
  replace (2 * sin (a / 2) * cos (a / 2) / (1 + (2 * cos (a / 2) * cos (a / 2) - 1))) with (tan (a / 2)) by (unfold tan; field; repeat split; nra).
  rewrite atan_tan by lra. field.
Qed.
Lemma cos_minus_one a : - PI <= a < PI -> cos a = -1 -> a = - PI.
Proof.
  intros Ha Hc. destruct (Rle_lt_or_eq_dec (- PI) a (proj1 Ha)) as [H|H]; [|done]. exfalso.
  destruct (angle_half a) as [Hp _]; lra.
Qed.
(** An angle in [-pi, pi) with a differentiable sine and cosine (at least near [t], where [g] keeps its sign), away from the jump, is differentiable. *)
Lemma p_circle (g a c s : R -> R) (t dg dc ds : R) : derivable_pt_lim g t dg -> g t <> 0 -> derivable_pt_lim c t dc -> derivable_pt_lim s t ds ->
  (forall x, - PI <= a x < PI) -> (forall x, 0 < g x * g t -> cos (a x) = c x /\ sin (a x) = s x) -> a t <> - PI ->
  derivable_pt_lim a t (c t * ds - s t * dc).
Proof.
  intros Hg Hgt Hc Hs Hr Ha Ht. assert (G : 0 < g t * g t) by nra. destruct (Ha t G) as [Ec Es].
  destruct (angle_half (a t)) as [Hp _]; [pose proof (Hr t); lra|]. rewrite Ec in Hp.
  assert (U : s t * s t + c t * c t = 1) by (rewrite <- Ec, <- Es; pose proof (sin2_cos2 (a t)) as Q; unfold Rsqr in Q; lra).
  assert (V : s t * ds + c t * dc = 0).
  { assert (D1 : derivable_pt_lim (fun x => s x * s x + c x * c x) t ((ds * s t + s t * ds) + (dc * c t + c t * dc))).
    { apply p_plus; by apply p_mult. }
    assert (D2 : derivable_pt_lim (fun x => s x * s x + c x * c x) t 0).
    { apply (p_sign g (fun _ => 1) _ t dg); [done|done| |apply p_const].
      intros x Hx. destruct (Ha x Hx) as [<- <-]. pose proof (sin2_cos2 (a x)) as Q. unfold Rsqr in Q. lra. }
    pose proof (uniqueness_limite _ _ _ _ D1 D2). lra. }
  apply (p_sign g (fun x => if Rlt_dec 0 (g x * g t) then a x else 2 * atan (s x / (1 + c x))) a t dg); [done|done| |].
  { intros x Hx. destruct (Rlt_dec 0 (g x * g t)); [done|lra]. }
  apply (p_sign (fun x => 1 + c x) (fun x => 2 * atan (s x / (1 + c x))) _ t (0 + dc)).
  - apply p_plus; [apply p_const|done].
  - lra.
  - intros x Hx. destruct (Rlt_dec 0 (g x * g t)) as [L|L]; [|done]. destruct (Ha x L) as [E1 E2].
    assert (Hpx : 0 < 1 + c x) by nra. pose proof (Hr x) as Hrx.
    assert (a x <> - PI). { intros E. rewrite E, cos_neg, cos_PI in E1. lra. }
    rewrite <- E1, <- E2. symmetry. apply angle_half. lra.
  - assert (Hd : derivable_pt_lim (fun x => s x / (1 + c x)) t ((ds * (1 + c t) - (0 + dc) * s t) / (Rsqr (1 + c t)))).
    { apply (derivable_pt_lim_div s (fun x => 1 + c x)); [done| |lra]. apply p_plus; [apply p_const|done]. }
    pose proof (p_comp atan (fun x => s x / (1 + c x)) t _ _ (derivable_pt_lim_atan _) Hd) as H.
    pose proof (p_mult (fun _ => 2) (fun x => atan (s x / (1 + c x))) t 0 _ (p_const 2 t) H) as H'. cbv beta in H'.
    eapply p_eq; [exact H'|]. unfold Rsqr. clear - U V Hp. set (C := c t) in *. set (S := s t) in *.
    assert (N : 1 + (S / (1 + C)) ^ 2 = 2 / (1 + C)).
    { apply (Rmult_eq_reg_r ((1 + C) * (1 + C))); [|nra].
      replace ((1 + (S / (1 + C)) ^ 2) * ((1 + C) * (1 + C))) with ((1 + C) * (1 + C) + S * S) by (field; lra).
      replace (2 / (1 + C) * ((1 + C) * (1 + C))) with (2 * (1 + C)) by (field; lra). lra. }
    rewrite N. apply (Rmult_eq_reg_r (1 + C)); [|lra].
    replace ((0 * atan (S / (1 + C)) + 2 * (/ (2 / (1 + C)) * ((ds * (1 + C) - (0 + dc) * S) / ((1 + C) * (1 + C))))) * (1 + C))
      with (ds * (1 + C) - dc * S) by (field; lra).
    replace ((C * ds - S * dc) * (1 + C)) with (C * ds + C * C * ds - S * dc - S * (C * dc)) by ring.
    replace (C * dc) with (- (S * ds)) by lra. replace (C * C) with (1 - S * S) by lra. ring.
Qed.
Lemma p_wrapped (angleMod : R -> R) (g f c s : R -> R) (m t dg dc ds : R) : reduces angleMod ->
  derivable_pt_lim g t dg -> g t <> 0 -> derivable_pt_lim c t dc -> derivable_pt_lim s t ds ->
  (forall x, 0 < g x * g t -> cos (f x) = c x /\ sin (f x) = s x) -> angleMod (m - f t) <> - PI ->
  derivable_pt_lim (fun x => angleMod (m - f x)) t (- (c t * ds - s t * dc)).
Proof.
  intros Hm Hg Hgt Hc Hs Hf Ht.
  assert (Ha : forall x, cos (angleMod (m - f x)) = cos (m - f x) /\ sin (angleMod (m - f x)) = sin (m - f x)).
  { intros x. destruct (Hm (m - f x)) as [_ [k ->]]. by rewrite cos_turn, sin_turn. }
  eapply p_eq.
  - apply (p_circle g (fun x => angleMod (m - f x)) (fun x => cos m * c x + sin m * s x) (fun x => sin m * c x - cos m * s x) t dg
      ((0 * c t + cos m * dc) + (0 * s t + sin m * ds)) ((0 * c t + sin m * dc) - (0 * s t + cos m * ds))); [done|done| | | | |done].
    + apply p_plus; [apply (p_mult (fun _ => cos m) c)|apply (p_mult (fun _ => sin m) s)]; try done; apply p_const.
    + apply p_minus; [apply (p_mult (fun _ => sin m) c)|apply (p_mult (fun _ => cos m) s)]; try done; apply p_const.
    + intros x. apply (proj1 (Hm (m - f x))).
    + intros x Hx. destruct (Ha x) as [-> ->]. destruct (Hf x Hx) as [<- <-]. rewrite cos_minus, sin_minus. split; ring.
  - cbv beta. pose proof (sin2_cos2 m) as Q. unfold Rsqr in Q. set (C := cos m) in *. set (S := sin m) in *. clearbody C S. nsatz.
Qed.

(** ** The S matrix *)
Ltac v3cbn := unfold scale3, cross3, add3, mulv, dot3, transpose, s_matrix, euler_ypr, turning; cbn [vx vy vz r1 r2 r3 scale3 cross3 add3 mulv dot3 transpose s_matrix euler_ypr turning fst snd].
Ltac v3cbn_in H := unfold scale3, cross3, add3, mulv, dot3, transpose, s_matrix, euler_ypr, turning in H; cbn [vx vy vz r1 r2 r3 scale3 cross3 add3 mulv dot3 transpose s_matrix euler_ypr turning fst snd] in H.
(** When angles change with velocity [w], the rotation they describe turns by -(S w): the definition of the S matrix. *)
Theorem s_matrix_defining (a : R -> v3) (t : R) (w : v3) : moves3 a t w ->
  moves33 (fun s => euler_ypr (a s)) t (turning (mulv (s_matrix (a t)) w) (euler_ypr (a t))).
Proof.
  intros (H1 & H2 & H3). unfold moves33, moves3. v3cbn.
  pose proof (p_cos _ _ _ H1). pose proof (p_sin _ _ _ H1). pose proof (p_cos _ _ _ H2). pose proof (p_sin _ _ _ H2).
  pose proof (p_cos _ _ _ H3). pose proof (p_sin _ _ _ H3).
  pose proof (sin2_cos2 (vx (a t))) as Q1. pose proof (sin2_cos2 (vy (a t))) as Q2. unfold Rsqr in *.
  split_and!; (eapply p_eq; [repeat first [eassumption|apply p_plus|apply p_minus|apply p_opp|apply p_mult]|]); cbv beta;
  set (sy := sin (vx (a t))) in *; set (cy := cos (vx (a t))) in *; set (sp := sin (vy (a t))) in *; set (cp := cos (vy (a t))) in *;
  set (sr := sin (vz (a t))); set (cr := cos (vz (a t))); try ring; clearbody sy cy sp cp sr cr; clear - Q1 Q2; nsatz.
Qed.
Lemma p_affine (a b t : R) : derivable_pt_lim (fun s => a + s * b) t b.
Proof.
  eapply p_eq; [apply p_plus; [apply p_const|apply p_mult; [apply derivable_pt_lim_id|apply p_const]]|]. unfold id. ring.
Qed.
(** No other matrix has this property. *)
Theorem s_matrix_unique (S : v3 -> m3) :
  (forall a t w, moves3 a t w -> moves33 (fun s => euler_ypr (a s)) t (turning (mulv (S (a t)) w) (euler_ypr (a t)))) -> S = s_matrix.
Proof.
  intros HS. assert (K : forall a w, mulv (S a) w = mulv (s_matrix a) w).
  { intros a w. set (b := fun s => add3 a (scale3 s w)).
    assert (Hb : moves3 b 0 w). { unfold b, moves3. unfold add3, scale3. cbn [vx vy vz]. split_and!; apply p_affine. }
    assert (E : b 0 = a) by (unfold b, add3, scale3; destruct a as [a1 a2 a3]; cbn [vx vy vz]; f_equal; ring).
    pose proof (HS b 0 w Hb) as H1. pose proof (s_matrix_defining b 0 w Hb) as H2. rewrite E in *.
    set (p := mulv (S a) w) in *. set (q := mulv (s_matrix a) w) in *. pose proof (euler_rotation a) as HR.
    set (M := euler_ypr a) in *. clearbody p q M.
    destruct H1 as ((A1 & A2 & A3) & (B1 & B2 & B3) & (C1 & C2 & C3)). destruct H2 as ((A1' & A2' & A3') & (B1' & B2' & B3') & (C1' & C2' & C3')).
    pose proof (uniqueness_limite _ _ _ _ A1 A1') as U1. pose proof (uniqueness_limite _ _ _ _ A2 A2') as U2. pose proof (uniqueness_limite _ _ _ _ A3 A3') as U3.
    pose proof (uniqueness_limite _ _ _ _ B1 B1') as U4. pose proof (uniqueness_limite _ _ _ _ B2 B2') as U5. pose proof (uniqueness_limite _ _ _ _ B3 B3') as U6.
    pose proof (uniqueness_limite _ _ _ _ C1 C1') as U7. pose proof (uniqueness_limite _ _ _ _ C2 C2') as U8. pose proof (uniqueness_limite _ _ _ _ C3 C3') as U9.
    clear -U1 U2 U3 U4 U5 U6 U7 U8 U9 HR. destruct HR as (R1 & R2 & R3 & R4 & R5 & R6 & _).
    destruct M as [[m11 m12 m13] [m21 m22 m23] [m31 m32 m33]], p as [p1 p2 p3], q as [q1 q2 q3].
    v3cbn_in U1. v3cbn_in U2. v3cbn_in U3. v3cbn_in U4. v3cbn_in U5. v3cbn_in U6. v3cbn_in U7. v3cbn_in U8. v3cbn_in U9.
    v3cbn_in R1. v3cbn_in R2. v3cbn_in R3. v3cbn_in R4. v3cbn_in R5. v3cbn_in R6.
    f_equal; nsatz. }
  apply FunctionalExtensionality.functional_extensionality. intros a.
  pose proof (K a (V3 1 0 0)) as K1. pose proof (K a (V3 0 1 0)) as K2. pose proof (K a (V3 0 0 1)) as K3. clear K.
  destruct (S a) as [[m11 m12 m13] [m21 m22 m23] [m31 m32 m33]]. v3cbn_in K1. v3cbn_in K2. v3cbn_in K3. unfold s_matrix.
  injection K1 as K11 K12 K13. injection K2 as K21 K22 K23. injection K3 as K31 K32 K33. f_equal; f_equal; lra.
Qed.

(** ** Where the Jacobian exists *)
Section jac.
  Context (unypr : m3 -> v3) (Hun : forall M, rotation M -> euler_ypr (unypr M) = M /\ - (PI / 2) <= vy (unypr M) <= PI / 2).
  Lemma det_s a : det3 (s_matrix a) = cos (vy a).
  Proof using Type.
    unfold det3, s_matrix. cbn [vx vy vz r1 r2 r3]. pose proof (sin2_cos2 (vx a)) as Q. unfold Rsqr in Q.
    set (sy := sin (vx a)) in *. set (cy := cos (vx a)) in *. set (cp := cos (vy a)). set (sp := sin (vy a)). clearbody sy cy cp sp. nsatz.
  Qed.
  (** C116, refuted: with the nose straight up or down there is no Jacobian: the matrix that is inverted is singular. *)
  Theorem pose_jacobian_gimbal_refuted (x : v3) (M : m3) : rotation M ->
    (pose_jacobian unypr (x, M) = None <-> vx (r3 M) = 1 \/ vx (r3 M) = - 1).
  Proof using Hun.
    intros HM. destruct (Hun M HM) as [E Hp]. unfold pose_jacobian, inverse3. cbn [snd]. rewrite det_s.
    assert (Es : vx (r3 M) = - sin (vy (unypr M))) by (rewrite <- E at 1; reflexivity).
    pose proof (sin2_cos2 (vy (unypr M))) as Q. unfold Rsqr in Q. rewrite Es.
    destruct (Req_EM_T (cos (vy (unypr M))) 0) as [Z|Z].
    - split; [|done]. intros _. rewrite Z in Q. assert ((sin (vy (unypr M)) - 1) * (sin (vy (unypr M)) + 1) = 0) as [H|H]%Rmult_integral by lra; lra.
    - split; [done|]. intros H. exfalso. apply Z. destruct H; nra.
  Qed.

  Context (angleMod : R -> R) (Hmod : reduces angleMod).
  (** C116: wherever it exists and no angle error is at the jump, the matrix handed to the expression is the derivative of the error with respect to the
      perturbation of the transformation. *)
  Theorem pose_jacobian_derivative (x : R -> v3) (C : R -> m3) (t : R) (u phi m_r m_a : v3) (J : m6) :
    (forall s, rotation (C s)) -> perturbed x C t u phi -> pose_jacobian unypr (x t, C t) = Some J ->
    (let e := snd (pose_error unypr angleMod (x t, C t) m_r m_a) in vx e <> - PI /\ vy e <> - PI /\ vz e <> - PI) ->
    moves3 (fun s => fst (pose_error unypr angleMod (x s, C s) m_r m_a)) t (fst (mul6 J (u, phi))) /\
    moves3 (fun s => snd (pose_error unypr angleMod (x s, C s) m_r m_a)) t (snd (mul6 J (u, phi))).
  Proof using All.
    intros HC [Hx HV] HJ He. unfold pose_jacobian, inverse3 in HJ. cbn [snd] in HJ. rewrite det_s in HJ.
    destruct (Req_EM_T (cos (vy (unypr (C t)))) 0) as [Z|Z]; [done|]. injection HJ as <-.
    split.
    { destruct Hx as (H1 & H2 & H3). unfold pose_error, moves3, mul6, neg6, neg3, eye3, crossMx, sub_v3. cbn [fst snd top_left top_right].
      unfold moves3 in *. v3cbn_in H1. v3cbn_in H2. v3cbn_in H3. v3cbn.
      split_and!; (eapply p_eq; [apply p_minus; [apply p_const|eassumption]|ring]). }
    set (th := fun s => unypr (C s)). fold (th t) in Z |- *.
    assert (Hth : forall s, C s = euler_ypr (th s)) by (intros s; symmetry; by apply Hun).
    assert (Hcp : forall s, 0 <= cos (vy (th s))) by (intros s; apply cos_ge_0; destruct (Hun _ (HC s)) as [_ ?]; unfold th; lra).
    assert (Hcpt : 0 < cos (vy (th t))) by (pose proof (Hcp t); lra).
    destruct HV as ((A1 & A2 & A3) & (B1 & B2 & B3) & (C1 & C2 & C3)).
    unfold moves3 in A1, A2, A3. cbv beta in *.
    pose (G := fun s => vx (r1 (C s)) * vx (r1 (C s)) + vx (r2 (C s)) * vx (r2 (C s))).
    assert (HG : forall s, G s = cos (vy (th s)) * cos (vy (th s))).
    { intros s. unfold G. rewrite Hth. v3cbn. pose proof (sin2_cos2 (vx (th s))) as Q. unfold Rsqr in Q. nsatz. }
    assert (HGt : G t <> 0) by (rewrite HG; nra).
    assert (DG : derivable_pt_lim G t (vx (r1 (turning phi (C t))) * vx (r1 (C t)) + vx (r1 (C t)) * vx (r1 (turning phi (C t))) +
      (vx (r2 (turning phi (C t))) * vx (r2 (C t)) + vx (r2 (C t)) * vx (r2 (turning phi (C t)))))) by (unfold G; apply p_plus; by apply p_mult).
    set (dg := vx (r1 (turning phi (C t))) * _ + _ + _) in DG.
    (* the cosine of the pitch *)
    assert (DP : derivable_pt_lim (fun s => cos (vy (th s))) t
      ((vx (r1 (C t)) * vx (r1 (turning phi (C t))) + vx (r2 (C t)) * vx (r2 (turning phi (C t)))) / cos (vy (th t)))).
    { assert (Eq : forall s, sqrt (vx (r1 (C s)) * vx (r1 (C s)) + vx (r2 (C s)) * vx (r2 (C s))) = cos (vy (th s))).
      { intros s. change (_ + _) with (G s). rewrite HG. by apply sqrt_square. }
      rewrite <- (Eq t). apply (p_ext _ _ _ _ Eq). by apply p_norm. }
    set (dcp := _ / _) in DP.
    assert (Hpos : forall s, 0 < G s * G t -> 0 < cos (vy (th s))).
    { intros s Hs. rewrite !HG in Hs. destruct (Hcp s) as [|E]; [done|]. rewrite <- E in Hs. lra. }
    assert (Dq : forall f df, derivable_pt_lim f t df -> derivable_pt_lim (fun s => f s / cos (vy (th s))) t
      ((df * cos (vy (th t)) - dcp * f t) / Rsqr (cos (vy (th t))))).
    { intros f df Hf. apply (derivable_pt_lim_div f (fun s => cos (vy (th s)))); [done|done|lra]. }
    destruct He as (He1 & He2 & He3). cbn [pose_error snd fst sub_v3 vx vy vz] in He1, He2, He3. unfold sub_v3 in He1, He2, He3. cbn [vx vy vz] in He1, He2, He3.
    fold (th t) in He1, He2, He3.
    pose proof (p_wrapped angleMod G (fun s => vx (th s)) _ _ (vx m_a) t dg _ _ Hmod DG HGt (Dq _ _ A1) (Dq _ _ B1)) as Y.
    pose proof (p_wrapped angleMod G (fun s => vy (th s)) _ _ (vy m_a) t dg _ _ Hmod DG HGt DP (p_opp _ _ _ C1)) as P.
    pose proof (p_wrapped angleMod G (fun s => vz (th s)) _ _ (vz m_a) t dg _ _ Hmod DG HGt (Dq _ _ C3) (Dq _ _ C2)) as Q.
    cbv beta in Y, P, Q.
    assert (HY : forall s, 0 < G s * G t -> cos (vx (th s)) = vx (r1 (C s)) / cos (vy (th s)) /\ sin (vx (th s)) = vx (r2 (C s)) / cos (vy (th s))).
    { intros s Hs%Hpos. rewrite !Hth. v3cbn. split; field; lra. }
    assert (HP : forall s, 0 < G s * G t -> cos (vy (th s)) = cos (vy (th s)) /\ sin (vy (th s)) = - vx (r3 (C s))).
    { intros s _. rewrite !Hth. v3cbn. split; ring. }
    assert (HQ : forall s, 0 < G s * G t -> cos (vz (th s)) = vz (r3 (C s)) / cos (vy (th s)) /\ sin (vz (th s)) = vy (r3 (C s)) / cos (vy (th s))).
    { intros s Hs%Hpos. rewrite !Hth. v3cbn. split; field; lra. }
    specialize (Y HY He1). specialize (P HP He2). specialize (Q HQ He3).
    assert (Et : C t = euler_ypr (th t)) by apply Hth.
    unfold moves3, pose_error, sub_v3, mul6, neg6, neg3, zero3. cbn [snd fst vx vy vz bottom_left bottom_right]. fold (th t).
    unfold dcp in *. clear - Y P Q Et Hcpt. rewrite Et in Y, P, Q.
    v3cbn_in Y. v3cbn_in P. v3cbn_in Q. unfold Rsqr in *.
    split_and!; (eapply p_eq; [eassumption|]); clear Y P Q; v3cbn;
    pose proof (sin2_cos2 (vx (th t))) as Q1; pose proof (sin2_cos2 (vy (th t))) as Q2; pose proof (sin2_cos2 (vz (th t))) as Q3; unfold Rsqr in *;
    set (sy := sin (vx (th t))) in *; set (cy := cos (vx (th t))) in *; set (sp := sin (vy (th t))) in *; set (cp := cos (vy (th t))) in *;
    set (sr := sin (vz (th t))) in *; set (cr := cos (vz (th t))) in *; clearbody sy cy sp cp sr cr;
    unfold Rdiv; rewrite ?Rinv_mult; assert (I : cp * / cp = 1) by (apply Rinv_r; lra); set (ic := / cp) in *; clearbody ic;
    set (p1 := vx phi); set (p2 := vy phi); set (p3 := vz phi); clearbody p1 p2 p3; clear - Q1 Q2 Q3 I; nsatz.
  Qed.
End jac.

(** The hypotheses can be met: a reduction of angles, an extraction of angles, and a transformation that is being turned about the vertical axis. *)
Lemma wrap_reduces : reduces wrap.
Proof.
  intros a. unfold wrap. pose proof PI_RGT_0. destruct (base_Int_part ((a + PI) / (2 * PI))) as [H1 H2].
  assert (E : (a + PI) / (2 * PI) * (2 * PI) = a + PI) by (field; lra). split.
  - set (k := IZR (Int_part _)) in *. set (z := (a + PI) / (2 * PI)) in *.
    assert (0 <= (z - k) * (2 * PI)) by (apply Rmult_le_pos; lra). assert (0 < (k + 1 - z) * (2 * PI)) by (apply Rmult_lt_0_compat; lra). split; lra.
  - exists (- Int_part ((a + PI) / (2 * PI)))%Z. rewrite opp_IZR. ring.
Qed.
Lemma angles_of_contract M : rotation M -> euler_ypr (angles_of M) = M /\ - (PI / 2) <= vy (angles_of M) <= PI / 2.
Proof.
  intros HM. split; [by apply euler_angles|]. unfold angles_of. destruct (Req_EM_T _ _); cbn [vy]; apply asin_bound.
Qed.
Example pose_jacobian_example :
  let x := fun s => V3 (cos s) (- sin s) 0 in let C := fun s => euler_ypr (V3 (- s) 0 0) in
  (forall s, rotation (C s)) /\ perturbed x C 0 (V3 0 0 0) (V3 0 0 1) /\ (exists J, pose_jacobian angles_of (x 0, C 0) = Some J) /\
  (forall m_r, snd (pose_error angles_of wrap (x 0, C 0) m_r (V3 0 0 0)) = V3 0 0 0).
Proof.
  intros x C. assert (HR : forall s, rotation (C s)) by (intros s; apply euler_rotation).
  assert (EC : vx (r3 (C 0)) = 0) by (unfold C; v3cbn; rewrite sin_0; ring).
  split_and!.
  - done.
  - assert (Hc : derivable_pt_lim (fun s => cos s) 0 0) by (eapply p_eq; [apply derivable_pt_lim_cos|rewrite sin_0; ring]).
    assert (Hs : derivable_pt_lim (fun s => sin s) 0 1) by (eapply p_eq; [apply derivable_pt_lim_sin|apply cos_0]).
    assert (Hm : moves3 (fun s => V3 (- s) 0 0) 0 (V3 (- 1) 0 0)).
    { split_and!; cbn [vx vy vz]; [|apply p_const..]. apply (p_opp (fun s => s)). apply derivable_pt_lim_id. }
    split.
    + unfold x, moves3. v3cbn. rewrite cos_0, sin_0. split_and!; (eapply p_eq; [first [eassumption|apply p_opp; eassumption|apply p_const]|ring]).
    + pose proof (s_matrix_defining _ _ _ Hm) as H. unfold C. cbv beta in *.
      replace (mulv (s_matrix (V3 (- 0) 0 0)) (V3 (-1) 0 0)) with (V3 0 0 1) in H; [done|]. v3cbn. f_equal; ring.
  - destruct (pose_jacobian angles_of (x 0, C 0)) as [J|] eqn:E; [by exists J|].
    apply (pose_jacobian_gimbal_refuted angles_of angles_of_contract) in E; [|done]. rewrite EC in E. lra.
  - intros m_r. cbn [pose_error snd]. unfold C.
    assert (E : euler_ypr (V3 (- 0) 0 0) = M3 (V3 1 0 0) (V3 0 1 0) (V3 0 0 1)).
    { v3cbn. rewrite Ropp_0, cos_0, sin_0. f_equal; f_equal; ring. }
    rewrite E. assert (EA : angles_of (M3 (V3 1 0 0) (V3 0 1 0) (V3 0 0 1)) = V3 0 0 0).
    { unfold angles_of. cbn [vx vy vz r1 r2 r3]. rewrite Ropp_0, asin_0, cos_0. destruct (Req_EM_T 1 0); [lra|].
      unfold angle_of. replace (0 / 1) with 0 by field. replace (1 / 1) with 1 by field. destruct (Rle_dec 0 0); [|lra]. by rewrite acos_1. }
    rewrite EA. unfold sub_v3. cbn [vx vy vz]. rewrite Rminus_0_r. assert (W : wrap 0 = 0) by (apply wrap_smooth; pose proof PI_RGT_0; lra). by rewrite W.
Qed.
Print Assumptions pose_jacobian_derivative.
