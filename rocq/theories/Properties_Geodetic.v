(** Properties of bestQuat (C49) and of the geodetic conversions (C52). *)
From Coq Require Import Reals Lra Psatz Lia List.
From Verif Require Import GeodeticModel Spec_Geodetic ErrorTermProofs.
Import ListNotations.
Local Open Scope R_scope.

(** ** bestQuat *)
Lemma sq4 a b c d : 0 <= a * a + b * b + c * c + d * d.
Proof. nra. Qed.
Lemma bestQuat_cases p c : (q_dot p c < 0 /\ bestQuat p c = q_opp c) \/ (0 <= q_dot p c /\ bestQuat p c = c).
Proof.
  unfold bestQuat, q_norm, q_dot. destruct p as [p0 p1 p2 p3], c as [c0 c1 c2 c3]. simpl.
  destruct (Rlt_dec _ _) as [L|L].
  - left. split; [|reflexivity]. apply sqrt_lt_0_alt in L. nra.
  - right. split; [|reflexivity]. apply Rnot_lt_le in L. apply sqrt_le_0 in L; [|apply sq4|apply sq4]. nra.
Qed.
Lemma q_opp_opp q : q_opp (q_opp q) = q.
Proof. destruct q. unfold q_opp. simpl. f_equal; ring. Qed.
Lemma dot_opp p q : q_dot p (q_opp q) = - q_dot p q.
Proof. unfold q_dot, q_opp. simpl. ring. Qed.

(** The result is one of the two quaternions of the same rotation, ... *)
Theorem bestQuat_same_rotation p c : (bestQuat p c = c \/ bestQuat p c = q_opp c) /\ (forall v, q_rotate (bestQuat p c) v = q_rotate c v).
Proof.
  assert (E : forall v, q_rotate (q_opp c) v = q_rotate c v).
  { intros v. unfold q_rotate, q_mul, q_conj, q_opp. simpl. f_equal; ring. }
  destruct (bestQuat_cases p c) as [[_ ->]|[_ ->]]; auto.
Qed.
(** ... the one in the hemisphere of the previous one, ... *)
Theorem bestQuat_hemisphere p c : 0 <= q_dot p (bestQuat p c).
Proof. destruct (bestQuat_cases p c) as [[H ->]|[H ->]]; [rewrite dot_opp|]; lra. Qed.
(** ... hence the closest to it. *)
Theorem bestQuat_closest p c q : q = c \/ q = q_opp c -> q_norm (q_sub p (bestQuat p c)) <= q_norm (q_sub p q).
Proof.
  intros Hq. assert (D : q_dot p q <= q_dot p (bestQuat p c)).
  { destruct (bestQuat_cases p c) as [[H ->]|[H ->]], Hq as [->| ->]; rewrite ?dot_opp; lra. }
  assert (N : q_dot (bestQuat p c) (bestQuat p c) = q_dot q q).
  { destruct (bestQuat_cases p c) as [[H ->]|[H ->]], Hq as [->| ->]; unfold q_dot, q_opp; simpl; ring. }
  unfold q_norm. apply sqrt_le_1_alt. destruct p as [p0 p1 p2 p3], q as [c0 c1 c2 c3], (bestQuat _ c) as [b0 b1 b2 b3].
  unfold q_dot in *. simpl in *. nra.
Qed.
(** Which of the two representatives the caller passes does not matter, except when both are equally close. *)
Theorem bestQuat_representative p c : q_dot p c <> 0 -> bestQuat p (q_opp c) = bestQuat p c.
Proof.
  intros Hn. destruct (bestQuat_cases p c) as [[H ->]|[H ->]], (bestQuat_cases p (q_opp c)) as [[H' ->]|[H' ->]];
    rewrite ?dot_opp in H'; rewrite ?q_opp_opp; try reflexivity; lra.
Qed.

Lemma rotPoses_snoc qs q : rotPoses (qs ++ [q]) = match rotPoses qs with [] => [q] | r => r ++ [bestQuat (last r q) q] end.
Proof. unfold rotPoses. rewrite fold_left_app. simpl. destruct (fold_left _ qs []); reflexivity. Qed.
Lemma rotPoses_length qs : length (rotPoses qs) = length qs.
Proof.
  induction qs as [|q qs IH] using rev_ind; [reflexivity|]. rewrite rotPoses_snoc, app_length.
  destruct (rotPoses qs) eqn:E; [simpl in IH; rewrite <- IH; reflexivity|]. rewrite app_length, <- IH. reflexivity.
Qed.
(** The rotations handed to the spline: one per measurement, each the same rotation as measured, and consecutive ones never
    in opposite hemispheres, whatever representatives were measured. *)
Theorem rotPoses_continuous (qs : list quat) :
  Forall2 (fun m r => (r = m \/ r = q_opp m) /\ forall v, q_rotate r v = q_rotate m v) qs (rotPoses qs)
  /\ (forall l1 a b l2, rotPoses qs = l1 ++ a :: b :: l2 -> 0 <= q_dot a b).
Proof.
  induction qs as [|q qs [IH1 IH2]] using rev_ind.
  { split; [constructor|]. intros [|? ?] a b l2 H; discriminate. }
  rewrite rotPoses_snoc. destruct (rotPoses qs) as [|r0 r] eqn:E.
  - pose proof (rotPoses_length qs) as L. rewrite E in L. destruct qs; [|discriminate]. split.
    + constructor; [split; auto|constructor].
    + intros [|x [|y l1]] a b l2 H; discriminate.
  - split.
    + apply Forall2_app; [exact IH1|]. constructor; [|constructor]. destruct (bestQuat_same_rotation (last (r0 :: r) q) q). split; assumption.
    + intros l1 a b l2 H. destruct l2 as [|x l2] using rev_ind.
      * clear IHl2 || idtac. change (a :: [b]) with ([a] ++ [b]) in H. rewrite app_assoc in H. apply app_inj_tail in H as [H <-].
        assert (La : last (r0 :: r) q = a) by (rewrite H; apply last_last). rewrite La. apply bestQuat_hemisphere.
      * replace (l1 ++ a :: b :: l2 ++ [x]) with ((l1 ++ a :: b :: l2) ++ [x]) in H by (rewrite <- app_assoc; reflexivity).
        apply app_inj_tail in H as [H _]. exact (IH2 _ _ _ _ H).
Qed.
(** A non-trivial case: a measured sequence whose second quaternion is in the other hemisphere is flipped. *)
Example rotPoses_example : rotPoses [Quat 0 0 0 1; Quat 0 0 0 (-1)] = [Quat 0 0 0 1; Quat 0 0 0 1].
Proof.
  unfold rotPoses. simpl. destruct (bestQuat_cases (Quat 0 0 0 1) (Quat 0 0 0 (-1))) as [[H ->]|[H _]].
  - unfold q_opp. simpl. repeat f_equal; ring.
  - unfold q_dot in H. simpl in H. lra.
Qed.

(** ** Geodetic frames *)
Lemma sc x : sin x * sin x + cos x * cos x = 1.
Proof. pose proof (sin2_cos2 x) as H. unfold Rsqr in H. exact H. Qed.
Lemma v3_eq (a b : v3) : vx a = vx b -> vy a = vy b -> vz a = vz b -> a = b.
Proof. destruct a, b. simpl. intros -> -> ->. reflexivity. Qed.

(** Coordinates east, north, up relative to the reference point. *)
Theorem enu_axes x y z lat long e n u :
  apply_T (enu2ecef x y z lat long) (V3 e n u)
  = add3 (V3 x y z) (add3 (scale3 e (east lat long)) (add3 (scale3 n (north lat long)) (scale3 u (up lat long)))).
Proof. apply v3_eq; unfold apply_T, enu2ecef, mulv, transpose, dot3, add3, scale3, east, north, up; simpl; ring. Qed.
Theorem ned_axes x y z lat long n e d :
  apply_T (ned2ecef x y z lat long) (V3 n e d)
  = add3 (V3 x y z) (add3 (scale3 n (north lat long)) (add3 (scale3 e (east lat long)) (scale3 (- d) (up lat long)))).
Proof. apply v3_eq; unfold apply_T, ned2ecef, mulv, transpose, dot3, add3, scale3, east, north, up; simpl; ring. Qed.
(** So the two frames differ by swapping the first two axes and reversing the third. *)
Corollary ned_enu x y z lat long n e d :
  apply_T (ned2ecef x y z lat long) (V3 n e d) = apply_T (enu2ecef x y z lat long) (V3 e n (- d)).
Proof. rewrite ned_axes, enu_axes. apply v3_eq; unfold add3, scale3; simpl; ring. Qed.

Definition axes (e n u : v3) : Prop :=
  dot3 e e = 1 /\ dot3 n n = 1 /\ dot3 u u = 1 /\ dot3 e n = 0 /\ dot3 e u = 0 /\ dot3 n u = 0.
Lemma local_axes lat long : axes (east lat long) (north lat long) (up lat long).
Proof.
  unfold axes, dot3, east, north, up. simpl. pose proof (sc lat) as A. pose proof (sc long) as B.
  set (s := sin lat) in *; set (c := cos lat) in *; set (S := sin long) in *; set (C := cos long) in *.
  repeat split; try ring.
  - rewrite <- B. ring.
  - transitivity (s * s * (S * S + C * C) + c * c); [ring|]. rewrite B, Rmult_1_r. exact A.
  - transitivity (c * c * (S * S + C * C) + s * s); [ring|]. rewrite B, Rmult_1_r. lra.
  - transitivity (s * c * (1 - (S * S + C * C))); [ring|]. rewrite B. ring.
Qed.

Lemma ss x : sin x * sin x = 1 - cos x * cos x.
Proof. pose proof (sc x). lra. Qed.
Ltac geo := cbv [apply_T ecef2enu ecef2ned inverse_T enu2ecef ned2ecef mulv transpose dot3 add3 sub3 scale3 det3 vx vy vz r1 r2 r3 rot trans].
Ltac poly lat long := let A := fresh in let B := fresh in pose proof (ss lat) as A; pose proof (ss long) as B;
  set (s := sin lat) in *; set (c := cos lat) in *; set (S := sin long) in *; set (C := cos long) in *; ring [A B].

(** Converting back and forth is the identity, in both orders. *)
Theorem ecef2enu_inverse x y z lat long p :
  apply_T (ecef2enu x y z lat long) (apply_T (enu2ecef x y z lat long) p) = p
  /\ apply_T (enu2ecef x y z lat long) (apply_T (ecef2enu x y z lat long) p) = p.
Proof. destruct p as [px py pz]. split; apply v3_eq; geo; poly lat long. Qed.
Theorem ecef2ned_inverse x y z lat long p :
  apply_T (ecef2ned x y z lat long) (apply_T (ned2ecef x y z lat long) p) = p
  /\ apply_T (ned2ecef x y z lat long) (apply_T (ecef2ned x y z lat long) p) = p.
Proof. destruct p as [px py pz]. split; apply v3_eq; geo; poly lat long. Qed.
(** All four preserve distances and orientation. *)
Theorem frames_rigid x y z lat long :
  rigid (enu2ecef x y z lat long) /\ rigid (ned2ecef x y z lat long) /\ rigid (ecef2enu x y z lat long) /\ rigid (ecef2ned x y z lat long).
Proof.
  repeat split; try (intros [px py pz] [qx qy qz]; unfold norm3; f_equal); geo; poly lat long.
Qed.

(** The reference point itself becomes the origin. *)
Theorem reference_is_origin lat long x y z :
  apply_T (ecef2enu x y z lat long) (V3 x y z) = V3 0 0 0 /\ apply_T (ecef2ned x y z lat long) (V3 x y z) = V3 0 0 0.
Proof. split; apply v3_eq; geo; ring. Qed.

(** ** WGS84 *)
Lemma e2_bounds : 0 < wgs84_e2 < 1.
Proof. unfold wgs84_e2. lra. Qed.
Lemma a_pos : 0 < wgs84_a.
Proof. unfold wgs84_a. lra. Qed.
Lemma W_pos lat : 0 < 1 - wgs84_e2 * sin lat * sin lat.
Proof. pose proof e2_bounds. pose proof (sc lat). nra. Qed.
Definition N (lat : R) : R := wgs84_a / sqrt (1 - wgs84_e2 * sin lat * sin lat).
Lemma N_pos lat : 0 < N lat.
Proof. unfold N. apply Rdiv_lt_0_compat; [exact a_pos|]. apply sqrt_lt_R0, W_pos. Qed.
Lemma N_sq lat : N lat * N lat * (1 - wgs84_e2 * sin lat * sin lat) = wgs84_a * wgs84_a.
Proof.
  unfold N. pose proof (W_pos lat) as H. assert (Hs := sqrt_sqrt _ (Rlt_le _ _ H)). assert (Hp := sqrt_lt_R0 _ H).
  set (r := sqrt _) in *. rewrite <- Hs. field. lra.
Qed.

(** The altitude is measured along the local vertical. *)
Theorem wgs84_altitude lat long h :
  wgs84ToEcef lat long h = add3 (wgs84ToEcef lat long 0) (scale3 h (up lat long)).
Proof. apply v3_eq; unfold wgs84ToEcef, add3, scale3, up; simpl; ring. Qed.
(** Points of altitude zero are on the ellipsoid, and there the local vertical is the outward normal. *)
Theorem wgs84_on_ellipsoid lat long : on_ellipsoid (wgs84ToEcef lat long 0).
Proof.
  unfold on_ellipsoid, wgs84ToEcef. simpl. fold (N lat). pose proof (N_sq lat) as H. pose proof a_pos as Ha. pose proof e2_bounds as He.
  pose proof (sc lat) as A. pose proof (sc long) as B.
  transitivity (N lat * N lat * (1 - wgs84_e2 * sin lat * sin lat) / (wgs84_a * wgs84_a)).
  - transitivity (N lat * N lat * (cos lat * cos lat * (sin long * sin long + cos long * cos long) + (1 - wgs84_e2) * (sin lat * sin lat)) / (wgs84_a * wgs84_a)).
    + field. split; lra.
    + rewrite B. replace (cos lat * cos lat) with (1 - sin lat * sin lat) by lra. field. lra.
  - rewrite H. field. lra.
Qed.
Theorem wgs84_vertical_is_normal lat long : exists k, 0 < k /\ gradient (wgs84ToEcef lat long 0) = scale3 k (up lat long).
Proof.
  pose proof (N_pos lat) as HN. pose proof a_pos as Ha. pose proof e2_bounds as He.
  exists (2 * N lat / (wgs84_a * wgs84_a)). split; [apply Rdiv_lt_0_compat; nra|].
  apply v3_eq; unfold gradient, wgs84ToEcef, scale3, up; simpl; fold (N lat); field; lra.
Qed.
Lemma W_unfold lat : sqrt (1 - wgs84_e2 * sin lat * sin lat) = wgs84_a / N lat.
Proof. unfold N. pose proof (W_pos lat) as H. assert (Hp := sqrt_lt_R0 _ H). pose proof a_pos. field. lra. Qed.

(** Increasing longitude moves a point to the east, increasing latitude to the north (so the axes of the frames are named
    correctly), at every altitude above the ground; the speeds are the radii of curvature plus the altitude. *)
Theorem wgs84_moves_east lat long h :
  derives3 (fun l => wgs84ToEcef lat l h) long (scale3 ((N lat + h) * cos lat) (east lat long)).
Proof.
  unfold derives3, wgs84ToEcef, scale3, east. simpl. fold (N lat). repeat split.
  - eapply p_eq; [apply p_mult; [apply p_const|apply derivable_pt_lim_cos]|]. cbv beta. ring.
  - eapply p_eq; [apply p_mult; [apply p_const|apply derivable_pt_lim_sin]|]. cbv beta. ring.
  - eapply p_eq; [apply p_const|]. ring.
Qed.
(** The meridional radius of curvature. *)
Definition M (lat : R) : R := wgs84_a * (1 - wgs84_e2) / (sqrt (1 - wgs84_e2 * sin lat * sin lat) * (1 - wgs84_e2 * sin lat * sin lat)).
Lemma M_pos lat : 0 < M lat.
Proof.
  unfold M. pose proof (W_pos lat) as H. assert (Hp := sqrt_lt_R0 _ H). pose proof a_pos. pose proof e2_bounds.
  apply Rdiv_lt_0_compat; apply Rmult_lt_0_compat; lra.
Qed.
Lemma N_derive lat : derivable_pt_lim N lat (M lat * wgs84_e2 * sin lat * cos lat / (1 - wgs84_e2)).
Proof.
  unfold N, M. pose proof (W_pos lat) as H. assert (Hp := sqrt_lt_R0 _ H). assert (Hs := sqrt_sqrt _ (Rlt_le _ _ H)). pose proof e2_bounds as He.
  eapply p_eq.
  - apply (derivable_pt_lim_div (fun _ => wgs84_a) (fun l => sqrt (1 - wgs84_e2 * sin l * sin l))).
    + apply p_const.
    + apply (p_comp sqrt (fun l => 1 - wgs84_e2 * sin l * sin l)); [apply derivable_pt_lim_sqrt; exact H|].
      apply p_minus; [apply p_const|]. apply p_mult; [apply p_mult; [apply p_const|]|]; apply derivable_pt_lim_sin.
    + apply Rgt_not_eq. exact Hp.
  - cbv beta. unfold Rsqr. set (w := 1 - wgs84_e2 * sin lat * sin lat) in *. set (q := sqrt w) in *. rewrite <- Hs. field. split; lra.
Qed.
Theorem wgs84_moves_north lat long h :
  derives3 (fun l => wgs84ToEcef l long h) lat (scale3 (M lat + h) (north lat long)).
Proof.
  pose proof (N_derive lat) as D. pose proof e2_bounds as He.
  assert (HM : M lat * (1 - wgs84_e2 * sin lat * sin lat) = N lat * (1 - wgs84_e2)).
  { unfold M, N. pose proof (W_pos lat) as H. assert (Hp := sqrt_lt_R0 _ H). field. split; lra. }
  set (D' := M lat * wgs84_e2 * sin lat * cos lat / (1 - wgs84_e2)) in *.
  assert (K1 : D' * cos lat - N lat * sin lat = - (M lat * sin lat)).
  { apply (Rmult_eq_reg_r (1 - wgs84_e2)); [|lra]. transitivity (M lat * wgs84_e2 * sin lat * (cos lat * cos lat) - sin lat * (N lat * (1 - wgs84_e2))).
    - unfold D'. field. lra.
    - rewrite <- HM. pose proof (ss lat) as A. ring [A]. }
  assert (K2 : D' * (1 - wgs84_e2) * sin lat + N lat * (1 - wgs84_e2) * cos lat = M lat * cos lat).
  { rewrite <- HM. unfold D'. field. lra. }
  unfold derives3, wgs84ToEcef, scale3, north. cbn [vx vy vz]. repeat split.
  - eapply p_eq.
    + apply (p_mult (fun l => (N l + h) * cos l) (fun _ => cos long)); [|apply p_const].
      apply p_mult; [apply p_plus; [exact D|apply p_const]|apply derivable_pt_lim_cos].
    + cbv beta. transitivity ((D' * cos lat - N lat * sin lat - h * sin lat) * cos long); [ring|]. rewrite K1. ring.
  - eapply p_eq.
    + apply (p_mult (fun l => (N l + h) * cos l) (fun _ => sin long)); [|apply p_const].
      apply p_mult; [apply p_plus; [exact D|apply p_const]|apply derivable_pt_lim_cos].
    + cbv beta. transitivity ((D' * cos lat - N lat * sin lat - h * sin lat) * sin long); [ring|]. rewrite K1. ring.
  - eapply p_eq.
    + apply (p_mult (fun l => N l * (1 - wgs84_e2) + h) sin); [|apply derivable_pt_lim_sin].
      apply p_plus; [apply p_mult; [exact D|apply p_const]|apply p_const].
    + cbv beta. transitivity ((D' * (1 - wgs84_e2) * sin lat + N lat * (1 - wgs84_e2) * cos lat) + h * cos lat); [ring|]. rewrite K2. ring.
Qed.

(** Different geodetic coordinates (altitude not negative) are different points: the conversion loses nothing.  At the
    poles the longitude has no meaning. *)
Lemma pair_long lat l1 l2 : cos lat <> 0 -> - PI < l1 <= PI -> - PI < l2 <= PI ->
  cos lat * cos l1 = cos lat * cos l2 -> cos lat * sin l1 = cos lat * sin l2 -> l1 = l2.
Proof.
  intros Hc H1 H2 Ec Es. apply Rmult_eq_reg_l in Ec; [|exact Hc]. apply Rmult_eq_reg_l in Es; [|exact Hc].
  assert (Z : cos (l1 - l2) = 1) by (rewrite cos_minus, Ec, Es; pose proof (sc l2); lra).
  assert (Y : sin (l1 - l2) = 0) by (rewrite sin_minus, Ec, Es; ring).
  destruct (Rtotal_order l1 l2) as [L|[L|L]]; [|exact L|].
  - exfalso. assert (S0 : sin ((l1 - l2) / 2) = 0).
    { replace (l1 - l2) with (2 * ((l1 - l2) / 2)) in Z by field. rewrite cos_2a_sin in Z. nra. }
    assert (0 < sin ((l2 - l1) / 2)) by (apply sin_gt_0; lra).
    replace ((l1 - l2) / 2) with (- ((l2 - l1) / 2)) in S0 by field. rewrite sin_neg in S0. lra.
  - exfalso. assert (S0 : sin ((l1 - l2) / 2) = 0).
    { replace (l1 - l2) with (2 * ((l1 - l2) / 2)) in Z by field. rewrite cos_2a_sin in Z. nra. }
    assert (0 < sin ((l1 - l2) / 2)) by (apply sin_gt_0; lra). lra.
Qed.
Lemma sin_inj_quarter x y : - (PI / 2) <= x <= PI / 2 -> - (PI / 2) <= y <= PI / 2 -> sin x = sin y -> x = y.
Proof.
  intros Hx Hy E. destruct (Rtotal_order x y) as [L|[L|L]]; [|exact L|].
  - pose proof (sin_increasing_1 x y ltac:(lra) ltac:(lra) ltac:(lra) ltac:(lra) L). lra.
  - pose proof (sin_increasing_1 y x ltac:(lra) ltac:(lra) ltac:(lra) ltac:(lra) L). lra.
Qed.

Lemma sum_sq0 x y z : x * x + y * y + z * z = 0 -> x = 0 /\ y = 0 /\ z = 0.
Proof.
  intros H. pose proof (Rle_0_sqr x) as A. pose proof (Rle_0_sqr y) as B. pose proof (Rle_0_sqr z) as C. unfold Rsqr in *.
  repeat split; apply Rsqr_0_uniq; unfold Rsqr; lra.
Qed.
(** The ellipsoid lies below each of its tangent planes. *)
Lemma below_tangent lat1 long1 lat2 long2 :
  dot3 (up lat1 long1) (sub3 (wgs84ToEcef lat2 long2 0) (wgs84ToEcef lat1 long1 0)) <= 0.
Proof.
  pose proof (wgs84_on_ellipsoid lat1 long1) as E1. pose proof (wgs84_on_ellipsoid lat2 long2) as E2.
  destruct (wgs84_vertical_is_normal lat1 long1) as (k & Hk & G).
  set (P1 := wgs84ToEcef lat1 long1 0) in *. set (P2 := wgs84ToEcef lat2 long2 0) in *.
  assert (Gx := f_equal vx G). assert (Gy := f_equal vy G). assert (Gz := f_equal vz G).
  unfold gradient, scale3 in Gx, Gy, Gz. cbn [vx vy vz] in Gx, Gy, Gz. unfold on_ellipsoid in E1, E2.
  pose proof a_pos as Ha. pose proof e2_bounds as He.
  set (A := / (wgs84_a * wgs84_a)) in *. set (B := / (wgs84_a * wgs84_a * (1 - wgs84_e2))) in *.
  assert (HA : 0 < A) by (apply Rinv_0_lt_compat; nra). assert (HB : 0 < B) by (apply Rinv_0_lt_compat; repeat apply Rmult_lt_0_compat; lra).
  unfold Rdiv in Gx, Gy, Gz, E1, E2. fold A in Gx, Gy, E1, E2. fold B in Gz, E1, E2. clearbody A B.
  assert (Q : k * dot3 (up lat1 long1) (sub3 P2 P1) <= 0).
  { unfold dot3, sub3. cbn [vx vy vz].
    replace (k * _) with ((k * vx (up lat1 long1)) * (vx P2 - vx P1) + (k * vy (up lat1 long1)) * (vy P2 - vy P1) + (k * vz (up lat1 long1)) * (vz P2 - vz P1)) by ring.
    rewrite <- Gx, <- Gy, <- Gz.
    assert (0 <= A * ((vx P1 - vx P2) * (vx P1 - vx P2)) + A * ((vy P1 - vy P2) * (vy P1 - vy P2)) + B * ((vz P1 - vz P2) * (vz P1 - vz P2))).
    { repeat apply Rplus_le_le_0_compat; (apply Rmult_le_pos; [lra|]); apply Rle_0_sqr. }
    lra. }
  nra.
Qed.

Theorem wgs84_injective lat1 long1 h1 lat2 long2 h2 :
  - (PI / 2) <= lat1 <= PI / 2 -> - (PI / 2) <= lat2 <= PI / 2 -> - PI < long1 <= PI -> - PI < long2 <= PI -> 0 <= h1 -> 0 <= h2 ->
  wgs84ToEcef lat1 long1 h1 = wgs84ToEcef lat2 long2 h2 ->
  h1 = h2 /\ lat1 = lat2 /\ (long1 = long2 \/ Rabs lat1 = PI / 2).
Proof.
  intros B1 B2 L1 L2 H1 H2 E. rewrite (wgs84_altitude lat1), (wgs84_altitude lat2) in E.
  pose proof (below_tangent lat1 long1 lat2 long2) as T1. pose proof (below_tangent lat2 long2 lat1 long1) as T2.
  destruct (local_axes lat1 long1) as (_ & _ & U1 & _). destruct (local_axes lat2 long2) as (_ & _ & U2 & _).
  assert (N1 : forall lat long, vx (wgs84ToEcef lat long 0) = N lat * vx (up lat long) /\ vy (wgs84ToEcef lat long 0) = N lat * vy (up lat long)
                 /\ vz (wgs84ToEcef lat long 0) = N lat * (1 - wgs84_e2) * vz (up lat long)).
  { intros. unfold wgs84ToEcef, up. cbn [vx vy vz]. fold (N lat). repeat split; ring. }
  pose proof (N1 lat1 long1) as P1. pose proof (N1 lat2 long2) as P2. clear N1.
  remember (wgs84ToEcef lat1 long1 0) as p1 eqn:Ep1. remember (wgs84ToEcef lat2 long2 0) as p2 eqn:Ep2.
  remember (up lat1 long1) as u1 eqn:Eu1. remember (up lat2 long2) as u2 eqn:Eu2.
  assert (X := f_equal vx E). assert (Y := f_equal vy E). assert (Z := f_equal vz E).
  unfold add3, scale3 in X, Y, Z. cbn [vx vy vz] in X, Y, Z.
  set (c := dot3 u1 u2).
  assert (D1 : h1 - h2 * c <= 0).
  { replace (h1 - h2 * c) with (dot3 u1 (sub3 p2 p1)); [exact T1|]. unfold dot3, sub3. cbn [vx vy vz].
    replace (vx p2 - vx p1) with (h1 * vx u1 - h2 * vx u2) by lra. replace (vy p2 - vy p1) with (h1 * vy u1 - h2 * vy u2) by lra.
    replace (vz p2 - vz p1) with (h1 * vz u1 - h2 * vz u2) by lra.
    transitivity (h1 * dot3 u1 u1 - h2 * c); [unfold c, dot3; ring|]. rewrite U1. ring. }
  assert (D2 : h2 - h1 * c <= 0).
  { replace (h2 - h1 * c) with (dot3 u2 (sub3 p1 p2)); [exact T2|]. unfold dot3, sub3. cbn [vx vy vz].
    replace (vx p1 - vx p2) with (h2 * vx u2 - h1 * vx u1) by lra. replace (vy p1 - vy p2) with (h2 * vy u2 - h1 * vy u1) by lra.
    replace (vz p1 - vz p2) with (h2 * vz u2 - h1 * vz u1) by lra.
    transitivity (h2 * dot3 u2 u2 - h1 * c); [unfold c, dot3; ring|]. rewrite U2. ring. }
  assert (Cc : (vx u1 - vx u2) * (vx u1 - vx u2) + (vy u1 - vy u2) * (vy u1 - vy u2) + (vz u1 - vz u2) * (vz u1 - vz u2) = 2 - 2 * c).
  { transitivity (dot3 u1 u1 + dot3 u2 u2 - 2 * c); [unfold c, dot3; ring|]. rewrite U1, U2. ring. }
  assert (C1 : c <= 1) by (clear - Cc; clearbody c; pose proof (Rle_0_sqr (vx u1 - vx u2)); pose proof (Rle_0_sqr (vy u1 - vy u2)); pose proof (Rle_0_sqr (vz u1 - vz u2)); unfold Rsqr in *; lra).
  clearbody c.
  assert (Hh : h1 = h2) by (clear - D1 D2 C1 H1 H2; assert (h2 * c <= h2) by nra; assert (h1 * c <= h1) by nra; lra). subst h2.
  assert (Heq : u1 = u2).
  { destruct (Req_dec h1 0) as [H0|H0].
    - (* on the ellipsoid: the points coincide, so the normals are parallel unit vectors *)
      rewrite H0 in X, Y, Z. assert (X' : vx p1 = vx p2) by lra. assert (Y' : vy p1 = vy p2) by lra. assert (Z' : vz p1 = vz p2) by lra.
      destruct P1 as (P1x & P1y & P1z), P2 as (P2x & P2y & P2z). pose proof (N_pos lat1) as N1. pose proof (N_pos lat2) as N2. pose proof e2_bounds as He.
      rewrite P1x, P2x in X'. rewrite P1y, P2y in Y'. rewrite P1z, P2z in Z'.
      assert (Zc : N lat1 * vz u1 = N lat2 * vz u2) by (apply (Rmult_eq_reg_r (1 - wgs84_e2)); [lra|lra]).
      assert (NN : N lat1 * N lat1 = N lat2 * N lat2).
      { transitivity (N lat1 * N lat1 * dot3 u1 u1); [rewrite U1; ring|]. transitivity (N lat2 * N lat2 * dot3 u2 u2); [|rewrite U2; ring].
        unfold dot3. transitivity ((N lat1 * vx u1) * (N lat1 * vx u1) + (N lat1 * vy u1) * (N lat1 * vy u1) + (N lat1 * vz u1) * (N lat1 * vz u1)); [ring|].
        rewrite X', Y', Zc. ring. }
      assert (NE : N lat1 = N lat2) by nra. rewrite NE in X', Y', Zc.
      apply v3_eq; apply (Rmult_eq_reg_l (N lat2)); try lra.
    - assert (C2 : c = 1) by (clear - D1 C1 H1 H0; nra). rewrite C2 in Cc. clear - Cc. destruct (sum_sq0 (vx u1 - vx u2) (vy u1 - vy u2) (vz u1 - vz u2)) as (Z1 & Z2 & Z3); [lra|]. apply v3_eq; lra. }
  split; [reflexivity|].
  assert (Elat : lat1 = lat2).
  { apply sin_inj_quarter; [exact B1|exact B2|]. assert (Q := f_equal vz Heq). rewrite Eu1, Eu2 in Q. exact Q. }
  split; [exact Elat|]. destruct (Req_dec (cos lat1) 0) as [C0|C0].
  - right. assert (S0 : sin lat1 = 1 \/ sin lat1 = -1) by (pose proof (sc lat1); rewrite C0 in *; nra).
    pose proof PI_RGT_0. destruct S0 as [S0|S0].
    + assert (lat1 = PI / 2) by (apply sin_inj_quarter; [lra|lra|rewrite sin_PI2; exact S0]). rewrite Rabs_pos_eq; lra.
    + assert (lat1 = - (PI / 2)) by (apply sin_inj_quarter; [lra|lra|rewrite sin_neg, sin_PI2; lra]). rewrite Rabs_left; lra.
  - left. apply (pair_long lat1); [exact C0|exact L1|exact L2| |].
    + assert (Q := f_equal vx Heq). rewrite Eu1, Eu2, <- Elat in Q. exact Q.
    + assert (Q := f_equal vy Heq). rewrite Eu1, Eu2, <- Elat in Q. exact Q.
Qed.
(** The hypotheses are met by, for instance, Zurich (47.4 degrees north, 8.5 degrees east, 400 m), roughly. *)
Example wgs84_hypotheses : - (PI / 2) <= 0.827 <= PI / 2 /\ - PI < 0.149 <= PI /\ 0 <= 400.
Proof. pose proof PI2_1. lra. Qed.
