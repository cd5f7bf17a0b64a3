(** Theorems about the loop of the real-world programs of the car example (CarDriverModel.v), against Spec_CarDriver.v. *)
From stdpp Require Import prelude list.
From Coq Require Import Reals String Lra.
From Verif Require Import Base GeodeticModel Spec_Geodetic Properties_Geodetic CalibratorModel Spec_Calibrator CalibratorProofs Properties_Calibrator CarDriverModel Spec_CarDriver.
Local Open Scope R_scope.

Lemma rad_deg2rad x : rad x = deg2rad x.
Proof. unfold rad, deg2rad. field. Qed.

(** ** Geometry *)
Ltac vec := cbv [mulm mulv transpose dot3 add3 sub3 scale3 det3 in_enu in_ned vx vy vz r1 r2 r3 rot trans] in *.
Lemma mulm_mulv A B p : mulv (mulm A B) p = mulv A (mulv B p).
Proof. destruct A as [[] [] []], B as [[] [] []], p. vec. f_equal; ring. Qed.
Lemma transpose_invol A : transpose (transpose A) = A.
Proof. destruct A as [[] [] []]. reflexivity. Qed.

(** For a rotation the columns are orthonormal too. *)
Section orth.
  Context (a b c d e f g h i : R).
  Hypothesis (A1 : a * a + b * b + c * c = 1) (A2 : d * d + e * e + f * f = 1) (A3 : g * g + h * h + i * i = 1)
    (B1 : a * d + b * e + c * f = 0) (B2 : a * g + b * h + c * i = 0) (B3 : d * g + e * h + f * i = 0).
  Hypothesis (D : a * (e * i - f * h) - b * (d * i - f * g) + c * (d * h - e * g) = 1).
  (** each row is the cross product of the other two *)
  Lemma cross1 : a = e * i - f * h /\ b = f * g - d * i /\ c = d * h - e * g.
  Proof.
    assert (S : (a - (e * i - f * h)) * (a - (e * i - f * h)) + (b - (f * g - d * i)) * (b - (f * g - d * i)) + (c - (d * h - e * g)) * (c - (d * h - e * g)) = 0).
    { transitivity ((a * a + b * b + c * c) - 2 * (a * (e * i - f * h) - b * (d * i - f * g) + c * (d * h - e * g))
        + ((d * d + e * e + f * f) * (g * g + h * h + i * i) - (d * g + e * h + f * i) * (d * g + e * h + f * i))); [ring|].
      rewrite A1, A2, A3, B3, D. ring. }
    apply sum_sq0 in S. lra.
  Qed.
End orth.

(** M M^T = 1 *)
Lemma rotation_right M p : rotation M -> mulv M (mulv (transpose M) p) = p.
Proof.
  destruct M as [[a b c] [d e f] [g h i]], p as [x y z]. unfold rotation. vec. intros (A1 & A2 & A3 & B1 & B2 & B3 & _). f_equal.
  - transitivity (x * (a * a + b * b + c * c) + y * (a * d + b * e + c * f) + z * (a * g + b * h + c * i)); [ring|]. rewrite A1, B1, B2. ring.
  - transitivity (y * (d * d + e * e + f * f) + x * (a * d + b * e + c * f) + z * (d * g + e * h + f * i)); [ring|]. rewrite A2, B1, B3. ring.
  - transitivity (z * (g * g + h * h + i * i) + x * (a * g + b * h + c * i) + y * (d * g + e * h + f * i)); [ring|]. rewrite A3, B2, B3. ring.
Qed.
Lemma rotation_mul A B : rotation A -> rotation B -> rotation (mulm A B).
Proof.
  intros HA HB.
  assert (K : forall u v, dot3 (mulv (transpose B) u) (mulv (transpose B) v) = dot3 u v).
  { intros u v. transitivity (dot3 u (mulv B (mulv (transpose B) v))); [|by rewrite rotation_right].
    destruct B as [[] [] []], u, v. vec. ring. }
  assert (K' : r1 (mulm A B) = mulv (transpose B) (r1 A) /\ r2 (mulm A B) = mulv (transpose B) (r2 A) /\ r3 (mulm A B) = mulv (transpose B) (r3 A)).
  { destruct A as [[] [] []], B as [[] [] []]. vec. repeat split; f_equal; ring. }
  destruct K' as (E1 & E2 & E3). unfold rotation. rewrite E1, E2, E3, !K.
  destruct HA as (A1 & A2 & A3 & A4 & A5 & A6 & DA). destruct HB as (_ & _ & _ & _ & _ & _ & DB).
  repeat split; try assumption.
  transitivity (det3 A * det3 B); [|rewrite DA, DB; ring]. clear. destruct A as [[] [] []], B as [[] [] []]. vec. ring.
Qed.
Lemma rotation_transpose M : rotation M -> rotation (transpose M).
Proof.
  destruct M as [[a b c] [d e f] [g h i]]. unfold rotation. vec. intros (A1 & A2 & A3 & B1 & B2 & B3 & D).
  destruct (cross1 a b c d e f g h i) as (Ca & Cb & Cc); try assumption.
  destruct (cross1 d e f g h i a b c) as (Cd & Ce & Cf); try lra.
  destruct (cross1 g h i a b c d e f) as (Cg & Ch & Ci); try lra.
  repeat split.
  - transitivity (a * (e * i - f * h) + d * (h * c - i * b) + g * (b * f - c * e)); [rewrite <- Ca, <- Cd, <- Cg; ring|lra].
  - transitivity (b * (f * g - d * i) + e * (i * a - g * c) + h * (c * d - a * f)); [rewrite <- Cb, <- Ce, <- Ch; ring|lra].
  - transitivity (c * (d * h - e * g) + f * (g * b - h * a) + i * (a * e - b * d)); [rewrite <- Cc, <- Cf, <- Ci; ring|lra].
  - rewrite Ca, Cd, Cg. ring.
  - rewrite Ca, Cd, Cg. ring.
  - rewrite Cb, Ce, Ch. ring.
  - lra.
Qed.
Lemma rot_enu x y z lat long : rotation (rot (ecef2enu x y z lat long)).
Proof. unfold rotation. geo. repeat split; poly lat long. Qed.
Lemma rot_ned x y z lat long : rotation (rot (ned2ecef x y z lat long)).
Proof. unfold rotation. geo. repeat split; poly lat long. Qed.

(** ** The angles of a rotation exist: the hypotheses on the library's conversions can be met *)
Definition euler_ypr (a : v3) : m3 :=
  let cy := cos (vx a) in let sy := sin (vx a) in let cp := cos (vy a) in let sp := sin (vy a) in let cr := cos (vz a) in let sr := sin (vz a) in
  M3 (V3 (cy * cp) (cy * sp * sr - sy * cr) (cy * sp * cr + sy * sr))
     (V3 (sy * cp) (sy * sp * sr + cy * cr) (sy * sp * cr - cy * sr))
     (V3 (- sp) (cp * sr) (cp * cr)).
Definition angle_of (s c : R) : R := if Rle_dec 0 s then acos c else - acos c.
Definition angles_of (M : m3) : v3 :=
  let p := asin (- vx (r3 M)) in let cp := cos p in
  if Req_EM_T cp 0 then V3 (angle_of (- vy (r1 M)) (vy (r2 M))) p 0
  else V3 (angle_of (vx (r2 M) / cp) (vx (r1 M) / cp)) p (angle_of (vy (r3 M) / cp) (vz (r3 M) / cp)).
Lemma angle_of_spec s c : s * s + c * c = 1 -> sin (angle_of s c) = s /\ cos (angle_of s c) = c.
Proof.
  intros H. assert (B : -1 <= c <= 1) by nra. unfold angle_of. destruct (Rle_dec 0 s) as [L|L].
  - rewrite sin_acos, cos_acos by exact B. split; [|reflexivity]. unfold Rsqr. replace (1 - c * c) with (s * s) by lra. by apply sqrt_square.
  - rewrite sin_neg, cos_neg, sin_acos, cos_acos by exact B. split; [|reflexivity]. unfold Rsqr.
    replace (1 - c * c) with ((- s) * (- s)) by lra. rewrite sqrt_square by lra. ring.
Qed.
Lemma euler_rotation a : rotation (euler_ypr a).
Proof.
  destruct a as [y p r]. unfold rotation, euler_ypr. vec. pose proof (ss y) as Y. pose proof (ss p) as P. pose proof (ss r) as Q.
  set (sy := sin y) in *. set (cy := cos y) in *. set (sp := sin p) in *. set (cp := cos p) in *. set (sr := sin r) in *. set (cr := cos r) in *.
  repeat split; ring [Y P Q].
Qed.
Lemma euler_angles M : rotation M -> euler_ypr (angles_of M) = M.
Proof.
  intros HM. pose proof (rotation_transpose M HM) as HT. destruct M as [[a b c] [d e f] [g h i]]. unfold rotation in HM, HT. vec.
  destruct HM as (A1 & A2 & A3 & B1 & B2 & B3 & D). destruct HT as (C1 & C2 & C3 & _).
  destruct (cross1 a b c d e f g h i) as (Ca & Cb & Cc); try assumption.
  destruct (cross1 d e f g h i a b c) as (Cd & Ce & Cf); try lra.
  unfold euler_ypr, angles_of. vec.
  assert (B : -1 <= - g <= 1) by nra.
  assert (Sp : sin (asin (- g)) = - g) by (apply sin_asin; exact B).
  assert (Cp : cos (asin (- g)) * cos (asin (- g)) = 1 - g * g).
  { pose proof (sc (asin (- g))) as X. rewrite Sp in X. lra. }
  set (p := asin (- g)) in *. set (q := cos p) in *. destruct (Req_EM_T q 0) as [Z|Z].
  - assert (G : g * g = 1) by (rewrite Z in Cp; lra).
    assert (h = 0 /\ i = 0 /\ 0 = 0) as (Zh & Zi & _) by (apply sum_sq0; lra).
    assert (a = 0 /\ d = 0 /\ 0 = 0) as (Za & Zd & _) by (apply sum_sq0; lra).
    subst h i a d. destruct (angle_of_spec (- b) e) as [Es Ec]; [lra|].
    cbv [vx vy vz]. rewrite Es, Ec, sin_0, cos_0, Sp. fold q. rewrite Z. f_equal; f_equal; lra.
  - destruct (angle_of_spec (d / q) (a / q)) as [Es Ec].
    { transitivity ((d * d + a * a) / (q * q)); [field; exact Z|]. rewrite Cp. replace (d * d + a * a) with (1 - g * g) by lra. field. nra. }
    destruct (angle_of_spec (h / q) (i / q)) as [Fs Fc].
    { transitivity ((h * h + i * i) / (q * q)); [field; exact Z|]. rewrite Cp. replace (h * h + i * i) with (1 - g * g) by lra. field. nra. }
    cbv [vx vy vz]. rewrite Es, Ec, Fs, Fc, Sp. fold q.
    assert (K : forall x y, x * (q * q) = y -> y / (q * q) = x) by (intros x y <-; field; exact Z).
    f_equal; f_equal; try (field; exact Z).
    + transitivity ((- (a * g * h) - d * i) / (q * q)); [field; exact Z|]. apply K. rewrite Cp.
      transitivity (b - g * g * b); [ring|]. rewrite Cb at 1. transitivity (- (d * i) + g * (f - g * b)); [ring|].
      replace (f - g * b) with (- (h * a)) by lra. ring.
    + transitivity ((- (a * g * i) + d * h) / (q * q)); [field; exact Z|]. apply K. rewrite Cp.
      transitivity (c - g * g * c); [ring|]. rewrite Cc at 1. transitivity (d * h - g * (e + g * c)); [ring|].
      replace (e + g * c) with (i * a) by lra. ring.
    + transitivity ((- (d * g * h) + a * i) / (q * q)); [field; exact Z|]. apply K. rewrite Cp.
      transitivity (e - g * g * e); [ring|]. rewrite Ce at 1. transitivity (i * a - g * (c + g * e)); [ring|].
      replace (c + g * e) with (d * h) by lra. ring.
    + transitivity ((- (d * g * i) - a * h) / (q * q)); [field; exact Z|]. apply K. rewrite Cp.
      transitivity (f - g * g * f); [ring|]. rewrite Cf at 1. transitivity (- (h * a) + g * (b - g * f)); [ring|].
      replace (b - g * f) with (- (d * i)) by lra. ring.
Qed.

(** ** The loop *)
Ltac neq_topics t := repeat match goal with |- context [String.eqb t ?x] => rewrite (proj2 (String.eqb_neq t x)) by (subst t; intuition congruence) end.
Section loop.
  Context {C : Type} (c0 : C) (correct : C -> Z -> Z -> C * Z) (secToNsec : R -> Z) (ypr : v3 -> m3) (unypr : m3 -> v3) (cfg : car_config).
  Local Notation body := (loop_body correct secToNsec ypr unypr cfg).
  Local Notation loop := (loop correct secToNsec ypr unypr cfg).
  Local Notation read_bag := (read_bag c0 correct secToNsec ypr unypr cfg).
  Local Notation dstate := (@dstate C).

  Lemma loop_filter ms : forall s : dstate, loop s (List.filter (in_view cfg) ms) = loop s ms.
  Proof.
    induction ms as [|m ms IH]; intros s; [reflexivity|]. simpl. destruct (in_view cfg m) eqn:E.
    - simpl. destruct (body s m) as [[s1 l]| | |]; try reflexivity. simpl. by rewrite IH.
    - rewrite IH. unfold in_view in E. simpl in E. rewrite !orb_false_iff in E. destruct E as (E1 & E2 & E3 & E4 & E5 & E6 & _).
      unfold loop_body. rewrite E1, E2, E3, E4, E5, E6. simpl. destruct (loop s ms) as [[]| | |]; reflexivity.
  Qed.

  (** What one message does, in a proper log. *)
  Inductive step_of (s : dstate) (m : message) : dstate -> list call -> Prop :=
  | StepVnp x : topic m = t_vnp cfg -> content m = Vnp x -> step_of s m
      (DState (lastDMITimestamp s) (lastDMIDistance s) (firstVns s) (Some x) (m_T_e s) (corVns s) (corDmi s) (corFw s) (corRw s) (corSt s)) []
  | StepVns0 x : topic m = t_vns cfg -> content m = Vns x -> lastVnp s = None -> step_of s m s []
  | StepVns x p T : topic m = t_vns cfg -> content m = Vns x -> lastVnp s = Some p ->
      T = (if firstVns s then ecef2enu (vx (place x)) (vy (place x)) (vz (place x)) (rad (latitude x)) (rad (longitude x)) else m_T_e s) ->
      step_of s m
      (DState (lastDMITimestamp s) (lastDMIDistance s) false (lastVnp s) T (correct (corVns s) (secToNsec (vns_time1 x)) (vns_stamp x)).1
         (corDmi s) (corFw s) (corRw s) (corSt s))
      [Call (MPose (make_pose ypr unypr T x p)) (correct (corVns s) (secToNsec (vns_time1 x)) (vns_stamp x)).2;
       Call (MVel (make_vel ypr x p)) (correct (corVns s) (secToNsec (vns_time1 x)) (vns_stamp x)).2]
  | StepFws x : topic m = t_fws cfg -> content m = Fws x -> useFw cfg = true -> step_of s m
      (DState (lastDMITimestamp s) (lastDMIDistance s) (firstVns s) (lastVnp s) (m_T_e s) (corVns s) (corDmi s)
         (correct (corFw s) (wh_seq x) (wh_stamp x)).1 (corRw s) (corSt s))
      [Call (MFront (wh_left x) (wh_right x)) (correct (corFw s) (wh_seq x) (wh_stamp x)).2]
  | StepRws x : topic m = t_rws cfg -> content m = Rws x -> useRw cfg = true -> step_of s m
      (DState (lastDMITimestamp s) (lastDMIDistance s) (firstVns s) (lastVnp s) (m_T_e s) (corVns s) (corDmi s) (corFw s)
         (correct (corRw s) (wh_seq x) (wh_stamp x)).1 (corSt s))
      [Call (MRear (wh_left x) (wh_right x)) (correct (corRw s) (wh_seq x) (wh_stamp x)).2]
  | StepSt x : topic m = t_st cfg -> content m = St x -> useSt cfg = true -> step_of s m
      (DState (lastDMITimestamp s) (lastDMIDistance s) (firstVns s) (lastVnp s) (m_T_e s) (corVns s) (corDmi s) (corFw s) (corRw s)
         (correct (corSt s) (st_seq x) (st_stamp x)).1)
      [Call (MSteer (st_value x)) (correct (corSt s) (st_seq x) (st_stamp x)).2]
  | StepDmi0 x : topic m = t_dmi cfg -> content m = Dmi x -> useDMI cfg = true -> lastDMITimestamp s = - 1 -> step_of s m
      (DState (dmi_time1 x) (signedDistanceTraveled x) (firstVns s) (lastVnp s) (m_T_e s) (corVns s) (corDmi s) (corFw s) (corRw s) (corSt s)) []
  | StepDmi x : topic m = t_dmi cfg -> content m = Dmi x -> useDMI cfg = true -> lastDMITimestamp s <> - 1 -> step_of s m
      (DState (dmi_time1 x) (signedDistanceTraveled x) (firstVns s) (lastVnp s) (m_T_e s) (corVns s)
         (correct (corDmi s) (secToNsec (dmi_time1 x)) (dmi_stamp x)).1 (corFw s) (corRw s) (corSt s))
      [Call (MDmi ((signedDistanceTraveled x - lastDMIDistance s) / (dmi_time1 x - lastDMITimestamp s)))
         (correct (corDmi s) (secToNsec (dmi_time1 x)) (dmi_stamp x)).2]
  | StepSkip : topic m <> t_vnp cfg -> topic m <> t_vns cfg ->
      (topic m = t_fws cfg -> useFw cfg = false) -> (topic m = t_rws cfg -> useRw cfg = false) ->
      (topic m = t_st cfg -> useSt cfg = false) -> (topic m = t_dmi cfg -> useDMI cfg = false) -> step_of s m s [].

  Lemma body_step (s : dstate) m : topics_ok cfg -> typed cfg m -> exists s' l, body s m = Ret (s', l) /\ step_of s m s' l.
  Proof.
    intros N (T1 & T2 & T3 & T4 & T5 & T6). unfold topics_ok in N.
    rewrite !NoDup_cons in N. destruct N as (N1 & N2 & N3 & N4 & N5 & _ & _).
    repeat setoid_rewrite not_elem_of_cons in N1. repeat setoid_rewrite not_elem_of_cons in N2. repeat setoid_rewrite not_elem_of_cons in N3.
    repeat setoid_rewrite not_elem_of_cons in N4. repeat setoid_rewrite not_elem_of_cons in N5. destruct m as [t p]. cbn [topic content] in *. unfold loop_body. cbn [topic content].
    destruct (String.eqb_spec t (t_vnp cfg)) as [E1|E1].
    { destruct (T1 E1) as [x ->].
      neq_topics t. simpl. eexists _, _. split; [reflexivity|]. by apply (StepVnp s (Message t (Vnp x)) x). }
    destruct (String.eqb_spec t (t_vns cfg)) as [E2|E2].
    { destruct (T2 E2) as [x ->]. neq_topics t. simpl. unfold block_vns.
      destruct (lastVnp s) as [q|] eqn:EL; simpl.
      - destruct (correct (corVns s) (secToNsec (vns_time1 x)) (vns_stamp x)) as [cor ts] eqn:EC. simpl.
        eexists _, _. split; [reflexivity|].
        pose proof (StepVns s (Message t (Vns x)) x q _ E2 eq_refl EL eq_refl) as H. rewrite EC in H. cbn [fst snd] in H.
        unfold place in H. rewrite !rad_deg2rad in H. rewrite EL in H. exact H.
      - eexists _, _. split; [reflexivity|]. by apply (StepVns0 s (Message t (Vns x)) x). }
    destruct (String.eqb_spec t (t_fws cfg)) as [E3|E3].
    { destruct (T3 E3) as [x ->]. neq_topics t. destruct (useFw cfg) eqn:U; simpl.
      - unfold block_fws. simpl. destruct (correct (corFw s) (wh_seq x) (wh_stamp x)) as [cor ts] eqn:EC. simpl. eexists _, _. split; [reflexivity|].
        pose proof (StepFws s (Message t (Fws x)) x E3 eq_refl U) as H. rewrite EC in H. exact H.
      - eexists _, _. split; [reflexivity|]. apply StepSkip; cbn [topic]; intros; subst; try done; exfalso; intuition congruence. }
    destruct (String.eqb_spec t (t_rws cfg)) as [E4|E4].
    { destruct (T4 E4) as [x ->]. neq_topics t. destruct (useRw cfg) eqn:U; simpl.
      - unfold block_rws. simpl. destruct (correct (corRw s) (wh_seq x) (wh_stamp x)) as [cor ts] eqn:EC. simpl. eexists _, _. split; [reflexivity|].
        pose proof (StepRws s (Message t (Rws x)) x E4 eq_refl U) as H. rewrite EC in H. exact H.
      - eexists _, _. split; [reflexivity|]. apply StepSkip; cbn [topic]; intros; subst; try done; exfalso; intuition congruence. }
    destruct (String.eqb_spec t (t_st cfg)) as [E5|E5].
    { destruct (T5 E5) as [x ->]. neq_topics t. destruct (useSt cfg) eqn:U; simpl.
      - unfold block_st. simpl. destruct (correct (corSt s) (st_seq x) (st_stamp x)) as [cor ts] eqn:EC. simpl. eexists _, _. split; [reflexivity|].
        pose proof (StepSt s (Message t (St x)) x E5 eq_refl U) as H. rewrite EC in H. exact H.
      - eexists _, _. split; [reflexivity|]. apply StepSkip; cbn [topic]; intros; subst; try done; exfalso; intuition congruence. }
    destruct (String.eqb_spec t (t_dmi cfg)) as [E6|E6].
    { destruct (T6 E6) as [x ->]. destruct (useDMI cfg) eqn:U; simpl.
      - unfold block_dmi. simpl. destruct (Req_EM_T (lastDMITimestamp s) (- 1)) as [L|L].
        + eexists _, _. split; [reflexivity|]. by apply (StepDmi0 s (Message t (Dmi x)) x).
        + destruct (correct (corDmi s) (secToNsec (dmi_time1 x)) (dmi_stamp x)) as [cor ts] eqn:EC. simpl. eexists _, _. split; [reflexivity|].
          pose proof (StepDmi s (Message t (Dmi x)) x E6 eq_refl U L) as H. rewrite EC in H. exact H.
      - eexists _, _. split; [reflexivity|]. apply StepSkip; cbn [topic]; intros; subst; done. }
    simpl. eexists _, _. split; [reflexivity|]. apply StepSkip; cbn [topic]; intros; done.
  Qed.

  Lemma loop_steps (P : dstate -> list message -> list call -> Prop) : topics_ok cfg ->
    (forall s, P s [] []) ->
    (forall s m ms s1 l1 l, typed cfg m -> step_of s m s1 l1 -> P s1 ms l -> P s (m :: ms) (l1 ++ l)) ->
    forall ms s, Forall (typed cfg) ms -> exists s' l, loop s ms = Ret (s', l) /\ P s ms l.
  Proof.
    intros N P0 P1. induction ms as [|m ms IH]; intros s T.
    { exists s, []. auto. }
    apply Forall_cons in T as [Tm T]. destruct (body_step s m N Tm) as (s1 & l1 & E & H). destruct (IH s1 T) as (s' & l & E' & H').
    exists s', (l1 ++ l). split; [|eauto]. simpl. rewrite E. simpl. rewrite E'. reflexivity.
  Qed.
  Lemma read_bag_steps (P : dstate -> list message -> list call -> Prop) bag calls : topics_ok cfg -> Forall (typed cfg) bag ->
    (forall s, P s [] []) ->
    (forall s m ms s1 l1 l, typed cfg m -> step_of s m s1 l1 -> P s1 ms l -> P s (m :: ms) (l1 ++ l)) ->
    read_bag bag = Ret calls -> P (driver_init c0) bag calls.
  Proof.
    intros N T P0 P1 E. unfold CarDriverModel.read_bag in E. rewrite loop_filter in E.
    destruct (loop_steps P N P0 P1 bag (driver_init c0) T) as (s' & l & E' & H). rewrite E' in E. simpl in E. by injection E as <-.
  Qed.
  (** A proper log is read to its end. *)
  Theorem car_driver_reads_everything bag : topics_ok cfg -> Forall (typed cfg) bag -> exists calls, read_bag bag = Ret calls.
  Proof.
    intros N T. unfold CarDriverModel.read_bag. rewrite loop_filter.
    destruct (loop_steps (fun _ _ _ => True) N (fun _ => I) (fun _ _ _ _ _ _ _ _ _ => I) bag (driver_init c0) T) as (s' & l & E & _).
    rewrite E. eexists. reflexivity.
  Qed.

  (** *** Navigation solutions *)
  Definition frame_of (s : dstate) (sols : list (vns_msg * vnp_msg)) : transf :=
    if firstVns s then match sols with
                       | (v, _) :: _ => ecef2enu (vx (place v)) (vy (place v)) (vz (place v)) (rad (latitude v)) (rad (longitude v))
                       | [] => m_T_e s end
    else m_T_e s.
  Definition P_vns (s : dstate) (ms : list message) (l : list call) : Prop :=
    let sols := solutions cfg (lastVnp s) ms in
    exists tr : list (pose_meas * vel_meas * Z),
      of_kinds [CPose; CVel] l = flat_map (fun x => [Call (MPose (fst (fst x))) (snd x); Call (MVel (snd (fst x))) (snd x)]) tr /\
      Forall2 (fun vp x => fst (fst x) = make_pose ypr unypr (frame_of s sols) (fst vp) (snd vp) /\ snd (fst x) = make_vel ypr (fst vp) (snd vp)) sols tr /\
      map snd tr = corrected correct (corVns s) (map (fun vp => (secToNsec (vns_time1 (fst vp)), vns_stamp (fst vp))) sols).
  Lemma of_kinds_app ks a b : of_kinds ks (a ++ b) = of_kinds ks a ++ of_kinds ks b.
  Proof. unfold of_kinds. apply List.filter_app. Qed.
  Lemma solutions_vnp last t x ms : solutions cfg last (Message t (Vnp x) :: ms) = solutions cfg (if String.eqb t (t_vnp cfg) then Some x else last) ms.
  Proof. reflexivity. Qed.
  Lemma P_vns_step s m ms s1 l1 l : topics_ok cfg -> typed cfg m -> step_of s m s1 l1 -> P_vns s1 ms l -> P_vns s (m :: ms) (l1 ++ l).
  Proof.
    intros N Ty St (tr & E1 & E2 & E3). unfold P_vns. rewrite of_kinds_app. destruct m as [t p].
    destruct St as [x Ht Hc|x Ht Hc EL|x q T Ht Hc EL ET|x Ht Hc U|x Ht Hc U|x Ht Hc U|x Ht Hc U L|x Ht Hc U L|H1 H2 H3 H4 H5 H6];
      cbn [topic content] in *; try subst p.
    - exists tr. rewrite solutions_vnp, Ht, String.eqb_refl. split; [exact E1|]. split; [exact E2|exact E3].
    - exists tr. cbn [solutions]. rewrite EL in *. split; [exact E1|]. split; [exact E2|exact E3].
    - exists ((make_pose ypr unypr T x q, make_vel ypr x q, (correct (corVns s) (secToNsec (vns_time1 x)) (vns_stamp x)).2) :: tr).
      cbn [solutions lastVnp corVns] in *. rewrite EL in *. rewrite Ht, String.eqb_refl.
      assert (F : frame_of s ((x, q) :: solutions cfg (Some q) ms) = T) by (rewrite ET; unfold frame_of; by destruct (firstVns s)).
      rewrite F. split; [|split].
      + cbn [flat_map]. rewrite E1. reflexivity.
      + constructor; [auto|]. exact E2.
      + simpl. f_equal. exact E3.
    - exists tr. split; [exact E1|]. split; [exact E2|exact E3].
    - exists tr. split; [exact E1|]. split; [exact E2|exact E3].
    - exists tr. split; [exact E1|]. split; [exact E2|exact E3].
    - exists tr. split; [exact E1|]. split; [exact E2|exact E3].
    - exists tr. split; [exact E1|]. split; [exact E2|exact E3].
    - assert (F : solutions cfg (lastVnp s) (Message t p :: ms) = solutions cfg (lastVnp s) ms).
      { destruct p; cbn [solutions]; rewrite ?(proj2 (String.eqb_neq t _) H1), ?(proj2 (String.eqb_neq t _) H2); try reflexivity.
        by destruct (lastVnp s). }
      rewrite F. exists tr. split; [exact E1|]. split; [exact E2|exact E3].
  Qed.
  Lemma P_vns_holds bag calls : topics_ok cfg -> Forall (typed cfg) bag -> read_bag bag = Ret calls -> P_vns (driver_init c0) bag calls.
  Proof.
    intros N T. apply read_bag_steps; try assumption.
    - intros s. exists []. repeat split; constructor.
    - intros. eapply P_vns_step; eauto.
  Qed.
End loop.

Lemma in_enu_ecef x y z lat long q : in_enu lat long (mulv (rot (ecef2enu x y z lat long)) q) = q.
Proof. destruct q as [q1_ q2_ q3_]. apply v3_eq; unfold in_enu, east, north, up; geo; poly lat long. Qed.
Lemma ned_in_ned x y z lat long w : mulv (rot (ned2ecef x y z lat long)) w = in_ned lat long w.
Proof. destruct w as [a b c]. apply v3_eq; unfold in_ned, east, north, up; geo; ring. Qed.

(** Every navigation solution that counts gives one pose and one velocity measurement, in the order of the log and with the
    corrected time of the solution; position, orientation and velocity are those of the solution, in the frame of the first one. *)
Theorem car_solutions {C} (c0 : C) correct secToNsec ypr unypr cfg bag calls sols :
  (forall a, rotation (ypr a)) -> (forall M, rotation M -> ypr (unypr M) = M) ->
  topics_ok cfg -> Forall (typed cfg) bag -> read_bag c0 correct secToNsec ypr unypr cfg bag = Ret calls -> solutions cfg None bag = sols ->
  exists tr : list (pose_meas * vel_meas * Z),
    of_kinds [CPose; CVel] calls = flat_map (fun '(pose, vel, t) => [Call (MPose pose) t; Call (MVel vel) t]) tr /\
    Forall2 (fun '(v, p) '(pose, vel, _) => forall ref p0 rest, sols = (ref, p0) :: rest -> solution_ok ypr ref v p pose vel) sols tr /\
    map snd tr = corrected correct c0 (map (fun '(v, _) => (secToNsec (vns_time1 v), vns_stamp v)) sols).
Proof.
  intros HR HU N T E <-. destruct (P_vns_holds c0 correct secToNsec ypr unypr cfg bag calls N T E) as (tr & E1 & E2 & E3).
  exists tr. cbn [lastVnp driver_init corVns] in *. split; [|split].
  - rewrite E1. apply flat_map_ext. by intros [[? ?] ?].
  - eapply Forall2_impl; [exact E2|]. intros [v p] [[pose vel] t]. cbn [fst snd]. intros [-> ->] ref p0 rest Es. rewrite Es.
    unfold frame_of. cbn [firstVns driver_init]. set (lat := rad (latitude ref)). set (long := rad (longitude ref)).
    set (x := vx (place ref)). set (y := vy (place ref)). set (z := vz (place ref)).
    assert (Ep : V3 x y z = place ref) by (unfold x, y, z; by destruct (place ref)).
    unfold solution_ok, make_pose, make_vel. cbn [m_r_mr m_R_r sigma2_m_R_r r_v_mr r_om_mr]. rewrite <- !rad_deg2rad. fold (place v).
    fold (attitude v). split; [|split; [|split; [|split]]].
    + rewrite <- Ep. rewrite <- (proj2 (ecef2enu_inverse x y z lat long (place v))) at 1. fold lat long.
      destruct (apply_T (ecef2enu x y z lat long) (place v)) as [e n u]. rewrite enu_axes. reflexivity.
    + intros b. fold lat long. rewrite HU by (apply rotation_mul; [apply rotation_mul; [apply rot_enu|apply rot_ned]|apply HR]).
      rewrite !mulm_mulv, in_enu_ecef, ned_in_ned. reflexivity.
    + apply rotation_right, HR.
    + reflexivity.
    + reflexivity.
  - rewrite E3. f_equal. apply map_ext. by intros [? ?].
Qed.
(** In particular the first pose is the origin. *)
Corollary car_first_pose_origin ypr ref p pose vel : solution_ok ypr ref ref p pose vel -> m_r_mr pose = V3 0 0 0.
Proof.
  intros (H & _). set (lat := rad (latitude ref)) in *. set (long := rad (longitude ref)) in *.
  assert (K : in_enu lat long (m_r_mr pose) = V3 0 0 0).
  { destruct (place ref) as [a b c], (in_enu lat long (m_r_mr pose)) as [d e f]. unfold add3 in H. cbn [vx vy vz] in H.
    injection H as H1 H2 H3. apply v3_eq; cbn [vx vy vz]; lra. }
  destruct (m_r_mr pose) as [x y z]. destruct (local_axes lat long) as (A1 & A2 & A3 & B1 & B2 & B3).
  assert (D : forall d, dot3 d (in_enu lat long (V3 x y z)) = 0) by (intros d; rewrite K; unfold dot3; cbn [vx vy vz]; ring).
  assert (L : forall d, dot3 d (in_enu lat long (V3 x y z)) = x * dot3 d (east lat long) + y * dot3 d (north lat long) + z * dot3 d (up lat long)).
  { intros d. unfold in_enu, dot3, add3, scale3. cbn [vx vy vz]. ring. }
  assert (Co : forall u v, dot3 u v = dot3 v u) by (intros u v; unfold dot3; ring).
  f_equal.
  - pose proof (D (east lat long)) as X. rewrite L in X. rewrite A1, B1, B2 in X. lra.
  - pose proof (D (north lat long)) as X. rewrite L in X. rewrite (Co (north lat long) (east lat long)), A2, B1, B3 in X. lra.
  - pose proof (D (up lat long)) as X. rewrite L in X. rewrite (Co (up lat long) (east lat long)), (Co (up lat long) (north lat long)), A3, B2, B3 in X. lra.
Qed.
(** The distance between two positions is the distance between the two places. *)
Corollary car_pose_distances ypr ref v1 p1 pose1 vel1 v2 p2 pose2 vel2 :
  solution_ok ypr ref v1 p1 pose1 vel1 -> solution_ok ypr ref v2 p2 pose2 vel2 ->
  norm3 (sub3 (m_r_mr pose1) (m_r_mr pose2)) = norm3 (sub3 (place v1) (place v2)).
Proof.
  intros (H1 & _) (H2 & _). rewrite H1, H2. set (lat := rad (latitude ref)). set (long := rad (longitude ref)).
  destruct (m_r_mr pose1) as [a1 a2 a3], (m_r_mr pose2) as [b1 b2 b3], (place ref) as [x y z]. unfold norm3. f_equal.
  unfold in_enu, east, north, up. geo. poly lat long.
Qed.

(** ** The covariances *)
Definition ex := V3 1 0 0. Definition ey := V3 0 1 0. Definition ez := V3 0 0 1.
(** The reported variances of the position are those of north, east, down, in this order, although the coordinates are east,
    north, up: with [A] the map from errors in north-east-down to coordinates of the reference frame, the variance of the first
    coordinate is that of the east error.  It is the reported one only if the two errors are equal in size. *)
Theorem car_position_variance_refuted ypr unypr T v p A :
  (forall d, in_enu (rad (latitude v)) (rad (longitude v)) (mulv A d) = in_ned (rad (latitude v)) (rad (longitude v)) d) ->
  let true_cov := cov_entry A (V3 (sqr (northPositionRMSError p)) (sqr (eastPositionRMSError p)) (sqr (downPositionRMSError p))) in
  let reported := sigma2_m_r_mr (make_pose ypr unypr T v p) in
  (true_cov ex ex = sqr (eastPositionRMSError p) /\ true_cov ey ey = sqr (northPositionRMSError p)) /\
  (vx reported = sqr (northPositionRMSError p) /\ vy reported = sqr (eastPositionRMSError p)) /\
  (vx reported = true_cov ex ex <-> sqr (northPositionRMSError p) = sqr (eastPositionRMSError p)).
Proof.
  intros HA true_cov reported. set (lat := rad (latitude v)) in *. set (long := rad (longitude v)) in *.
  destruct (local_axes lat long) as (A1 & A2 & A3 & B1 & B2 & B3).
  assert (Co : forall u v, dot3 u v = dot3 v u) by (intros ? ?; unfold dot3; ring).
  assert (L : forall d q, dot3 d (in_enu lat long q) = vx q * dot3 d (east lat long) + vy q * dot3 d (north lat long) + vz q * dot3 d (up lat long)).
  { intros d q. unfold in_enu, dot3, add3, scale3. cbn [vx vy vz]. ring. }
  assert (L' : forall d q, dot3 d (in_ned lat long q) = vx q * dot3 d (north lat long) + vy q * dot3 d (east lat long) - vz q * dot3 d (up lat long)).
  { intros d q. unfold in_ned, dot3, add3, scale3. cbn [vx vy vz]. ring. }
  assert (K : forall d, mulv A d = V3 (vy d) (vx d) (- vz d)).
  { intros d. pose proof (HA d) as H. apply v3_eq; cbn [vx vy vz].
    - apply (f_equal (dot3 (east lat long))) in H. rewrite L, L', A1, B1, B2 in H. lra.
    - apply (f_equal (dot3 (north lat long))) in H. rewrite L, L', A2, B3, (Co (north lat long) (east lat long)), B1 in H. lra.
    - apply (f_equal (dot3 (up lat long))) in H. rewrite L, L', A3, (Co (up lat long) (east lat long)), B2, (Co (up lat long) (north lat long)), B3 in H. lra. }
  assert (T1 : true_cov ex ex = sqr (eastPositionRMSError p) /\ true_cov ey ey = sqr (northPositionRMSError p)).
  { unfold true_cov, cov_entry. rewrite !K. unfold dot3, ex, ey. cbn [vx vy vz]. split; ring. }
  split; [exact T1|]. split; [split; reflexivity|]. destruct T1 as [-> _]. reflexivity.
Qed.
(** When the errors of all three directions are equal in size, the reported covariance is right for every pose. *)
Theorem car_position_variance_equal ypr unypr T v p A i j : rotation A ->
  sqr (northPositionRMSError p) = sqr (eastPositionRMSError p) -> sqr (eastPositionRMSError p) = sqr (downPositionRMSError p) ->
  cov_entry A (V3 (sqr (northPositionRMSError p)) (sqr (eastPositionRMSError p)) (sqr (downPositionRMSError p))) i j
  = dot3 i (V3 (vx (sigma2_m_r_mr (make_pose ypr unypr T v p)) * vx j) (vy (sigma2_m_r_mr (make_pose ypr unypr T v p)) * vy j)
             (vz (sigma2_m_r_mr (make_pose ypr unypr T v p)) * vz j)).
Proof.
  intros HA H1 H2. unfold make_pose. cbn [sigma2_m_r_mr]. fold (sqr (northPositionRMSError p)) (sqr (eastPositionRMSError p)) (sqr (downPositionRMSError p)).
  rewrite H1, H2. set (q := sqr (downPositionRMSError p)). unfold cov_entry. clear -HA.
  destruct HA as (A1 & A2 & A3 & B1 & B2 & B3 & _).
  transitivity (q * dot3 i (V3 (dot3 (r1 A) (r1 A) * vx j + dot3 (r1 A) (r2 A) * vy j + dot3 (r1 A) (r3 A) * vz j)
    (dot3 (r1 A) (r2 A) * vx j + dot3 (r2 A) (r2 A) * vy j + dot3 (r2 A) (r3 A) * vz j)
    (dot3 (r1 A) (r3 A) * vx j + dot3 (r2 A) (r3 A) * vy j + dot3 (r3 A) (r3 A) * vz j))).
  - clear. destruct A as [[] [] []], i, j. unfold dot3, mulv. vec. ring.
  - rewrite A1, A2, A3, B1, B2, B3. destruct i, j. vec. ring.
Qed.
(** The variances of the velocity are those of north, east and down too, although the velocity is that in the vehicle frame:
    when the vehicle heads east, the variance of the forward velocity is the one of the east velocity. *)
Theorem car_velocity_variance_refuted ypr v p : rotation (ypr (attitude v)) -> mulv (ypr (attitude v)) ex = ey ->
  let true_cov := cov_entry (transpose (ypr (attitude v)))
    (V3 (sqr (northVelocityRMSError p)) (sqr (eastVelocityRMSError p)) (sqr (downVelocityRMSError p))) in
  let reported := sigma2_r_v_mr (make_vel ypr v p) in
  true_cov ex ex = sqr (eastVelocityRMSError p) /\ vx reported = sqr (northVelocityRMSError p).
Proof.
  intros HR HE. split; [|reflexivity].
  destruct (ypr (attitude v)) as [[a b c] [d e f] [g h i]]. unfold cov_entry, ex, ey in *. clear HR. vec.
  injection HE as E1 E2 E3. assert (a = 0) by lra. assert (d = 1) by lra. assert (g = 0) by lra. subst. ring.
Qed.

(** ** Wheels, steering, odometer *)
Section sensors.
  Context {C : Type} (c0 : C) (correct : C -> Z -> Z -> C * Z) (secToNsec : R -> Z) (ypr : v3 -> m3) (unypr : m3 -> v3) (cfg : car_config).
  Local Notation read_bag := (read_bag c0 correct secToNsec ypr unypr cfg).
  Local Notation step_of := (step_of correct secToNsec ypr unypr cfg).
  Local Notation dstate := (@dstate C).

  Lemma on_topic_cons {A} t (f : payload -> option A) m ms :
    on_topic t f (m :: ms) = (if String.eqb (topic m) t then match f (content m) with Some x => [x] | None => [] end else []) ++ on_topic t f ms.
  Proof. unfold on_topic. simpl. destruct (String.eqb (topic m) t); [|reflexivity]. by destruct (f (content m)). Qed.
  Lemma on_topic_other {A} t (f : payload -> option A) m ms : topic m <> t -> on_topic t f (m :: ms) = on_topic t f ms.
  Proof. intros H. rewrite on_topic_cons, (proj2 (String.eqb_neq _ _) H). reflexivity. Qed.
  Lemma on_topic_this {A} t (f : payload -> option A) m x ms : topic m = t -> f (content m) = Some x -> on_topic t f (m :: ms) = x :: on_topic t f ms.
  Proof. intros <- H. rewrite on_topic_cons, String.eqb_refl, H. reflexivity. Qed.

  Definition P_fws (s : dstate) (ms : list message) (l : list call) : Prop :=
    let xs := on_topic (t_fws cfg) as_fws ms in
    of_kinds [CFront] l = if useFw cfg then zip_with (fun x t => Call (MFront (wh_left x) (wh_right x)) t) xs
                                              (corrected correct (corFw s) (map (fun x => (wh_seq x, wh_stamp x)) xs)) else [].
  Definition P_rws (s : dstate) (ms : list message) (l : list call) : Prop :=
    let xs := on_topic (t_rws cfg) as_rws ms in
    of_kinds [CRear] l = if useRw cfg then zip_with (fun x t => Call (MRear (wh_left x) (wh_right x)) t) xs
                                              (corrected correct (corRw s) (map (fun x => (wh_seq x, wh_stamp x)) xs)) else [].
  Definition P_st (s : dstate) (ms : list message) (l : list call) : Prop :=
    let xs := on_topic (t_st cfg) as_st ms in
    of_kinds [CSteer] l = if useSt cfg then zip_with (fun x t => Call (MSteer (st_value x)) t) xs
                                              (corrected correct (corSt s) (map (fun x => (st_seq x, st_stamp x)) xs)) else [].

  Ltac topics N := unfold topics_ok in N; rewrite !NoDup_cons in N; destruct N as (N1 & N2 & N3 & N4 & N5 & _ & _);
    repeat setoid_rewrite not_elem_of_cons in N1; repeat setoid_rewrite not_elem_of_cons in N2; repeat setoid_rewrite not_elem_of_cons in N3;
    repeat setoid_rewrite not_elem_of_cons in N4; repeat setoid_rewrite not_elem_of_cons in N5.
  Lemma P_fws_step s m ms s1 l1 l : topics_ok cfg -> typed cfg m -> step_of s m s1 l1 -> P_fws s1 ms l -> P_fws s (m :: ms) (l1 ++ l).
  Proof.
    intros N Ty St H. topics N. unfold P_fws in *. rewrite of_kinds_app.
    destruct St as [x Ht Hc|x Ht Hc EL|x q T Ht Hc EL ET|x Ht Hc U|x Ht Hc U|x Ht Hc U|x Ht Hc U L|x Ht Hc U L|H1 H2 H3 H4 H5 H6];
      try (rewrite on_topic_other by (rewrite Ht; intuition congruence); exact H).
    - rewrite (on_topic_this _ _ m x) by (auto; by rewrite Hc). rewrite U in *. cbn [map corrected zip_with]. f_equal. exact H.
    - destruct (String.eqb_spec (topic m) (t_fws cfg)) as [E|E]; [rewrite (H3 E) in *; exact H|rewrite on_topic_other by exact E; exact H].
  Qed.
  Lemma P_rws_step s m ms s1 l1 l : topics_ok cfg -> typed cfg m -> step_of s m s1 l1 -> P_rws s1 ms l -> P_rws s (m :: ms) (l1 ++ l).
  Proof.
    intros N Ty St H. topics N. unfold P_rws in *. rewrite of_kinds_app.
    destruct St as [x Ht Hc|x Ht Hc EL|x q T Ht Hc EL ET|x Ht Hc U|x Ht Hc U|x Ht Hc U|x Ht Hc U L|x Ht Hc U L|H1 H2 H3 H4 H5 H6];
      try (rewrite on_topic_other by (rewrite Ht; intuition congruence); exact H).
    - rewrite (on_topic_this _ _ m x) by (auto; by rewrite Hc). rewrite U in *. cbn [map corrected zip_with]. f_equal. exact H.
    - destruct (String.eqb_spec (topic m) (t_rws cfg)) as [E|E]; [rewrite (H4 E) in *; exact H|rewrite on_topic_other by exact E; exact H].
  Qed.
  Lemma P_st_step s m ms s1 l1 l : topics_ok cfg -> typed cfg m -> step_of s m s1 l1 -> P_st s1 ms l -> P_st s (m :: ms) (l1 ++ l).
  Proof.
    intros N Ty St H. topics N. unfold P_st in *. rewrite of_kinds_app.
    destruct St as [x Ht Hc|x Ht Hc EL|x q T Ht Hc EL ET|x Ht Hc U|x Ht Hc U|x Ht Hc U|x Ht Hc U L|x Ht Hc U L|H1 H2 H3 H4 H5 H6];
      try (rewrite on_topic_other by (rewrite Ht; intuition congruence); exact H).
    - rewrite (on_topic_this _ _ m x) by (auto; by rewrite Hc). rewrite U in *. cbn [map corrected zip_with]. f_equal. exact H.
    - destruct (String.eqb_spec (topic m) (t_st cfg)) as [E|E]; [rewrite (H5 E) in *; exact H|rewrite on_topic_other by exact E; exact H].
  Qed.

  (** Wheel speeds and steering: one measurement per message of an active sensor, with its values, in the order of the log, at
      times that depend on nothing but the messages of this sensor; none of an inactive one. *)
  Theorem car_wheels_and_steering bag calls : topics_ok cfg -> Forall (typed cfg) bag -> read_bag bag = Ret calls ->
    (let xs := on_topic (t_fws cfg) as_fws bag in
     of_kinds [CFront] calls = if useFw cfg then zip_with (fun x t => Call (MFront (wh_left x) (wh_right x)) t) xs
                                                  (corrected correct c0 (map (fun x => (wh_seq x, wh_stamp x)) xs)) else []) /\
    (let xs := on_topic (t_rws cfg) as_rws bag in
     of_kinds [CRear] calls = if useRw cfg then zip_with (fun x t => Call (MRear (wh_left x) (wh_right x)) t) xs
                                                 (corrected correct c0 (map (fun x => (wh_seq x, wh_stamp x)) xs)) else []) /\
    (let xs := on_topic (t_st cfg) as_st bag in
     of_kinds [CSteer] calls = if useSt cfg then zip_with (fun x t => Call (MSteer (st_value x)) t) xs
                                                  (corrected correct c0 (map (fun x => (st_seq x, st_stamp x)) xs)) else []).
  Proof.
    intros N T E. split; [|split].
    - apply (read_bag_steps c0 correct secToNsec ypr unypr cfg P_fws bag calls N T); [|intros; eapply P_fws_step; eauto|exact E].
      intros s. unfold P_fws. simpl. by destruct (useFw cfg).
    - apply (read_bag_steps c0 correct secToNsec ypr unypr cfg P_rws bag calls N T); [|intros; eapply P_rws_step; eauto|exact E].
      intros s. unfold P_rws. simpl. by destruct (useRw cfg).
    - apply (read_bag_steps c0 correct secToNsec ypr unypr cfg P_st bag calls N T); [|intros; eapply P_st_step; eauto|exact E].
      intros s. unfold P_st. simpl. by destruct (useSt cfg).
  Qed.

  (** *** The odometer *)
  Definition speed_call (a b : dmi_msg) (t : Z) : call :=
    Call (MDmi ((signedDistanceTraveled b - signedDistanceTraveled a) / (dmi_time1 b - dmi_time1 a))) t.
  Definition dmi_calls (ds : list dmi_msg) (c : C) : list call :=
    zip_with (fun p t => speed_call (fst p) (snd p) t) (zip ds (tail ds))
      (corrected correct c (map (fun d => (secToNsec (dmi_time1 d), dmi_stamp d)) (tail ds))).
  Definition P_dmi (s : dstate) (ms : list message) (l : list call) : Prop :=
    Forall (fun d => dmi_time1 d <> - 1) (on_topic (t_dmi cfg) as_dmi ms) ->
    of_kinds [CDmi] l =
    if useDMI cfg then
      dmi_calls (if Req_EM_T (lastDMITimestamp s) (- 1) then on_topic (t_dmi cfg) as_dmi ms
                 else DmiMsg 0 (lastDMITimestamp s) (lastDMIDistance s) :: on_topic (t_dmi cfg) as_dmi ms) (corDmi s)
    else [].
  Lemma dmi_calls_first st1 st2 t d ds c : dmi_calls (DmiMsg st1 t d :: ds) c = dmi_calls (DmiMsg st2 t d :: ds) c.
  Proof. unfold dmi_calls. destruct ds; reflexivity. Qed.
  Lemma P_dmi_step s m ms s1 l1 l : topics_ok cfg -> typed cfg m -> step_of s m s1 l1 -> P_dmi s1 ms l -> P_dmi s (m :: ms) (l1 ++ l).
  Proof.
    intros N Ty St H. topics N. unfold P_dmi in *. rewrite of_kinds_app.
    destruct St as [x Ht Hc|x Ht Hc EL|x q T Ht Hc EL ET|x Ht Hc U|x Ht Hc U|x Ht Hc U|x Ht Hc U L|x Ht Hc U L|H1 H2 H3 H4 H5 H6];
      try (rewrite on_topic_other by (rewrite Ht; intuition congruence); exact H).
    - rewrite (on_topic_this _ _ m x) by (auto; by rewrite Hc). intros F. apply Forall_cons in F as [Fx F]. specialize (H F).
      rewrite U in *. cbn [lastDMITimestamp lastDMIDistance corDmi] in H. rewrite L. destruct (Req_EM_T (-1) (-1)); [|done].
      destruct (Req_EM_T (dmi_time1 x) (-1)); [done|]. rewrite (dmi_calls_first 0 (dmi_stamp x)) in H. destruct x. exact H.
    - rewrite (on_topic_this _ _ m x) by (auto; by rewrite Hc). intros F. apply Forall_cons in F as [Fx F]. specialize (H F).
      rewrite U in *. cbn [lastDMITimestamp lastDMIDistance corDmi] in H. destruct (Req_EM_T (lastDMITimestamp s) (-1)); [done|].
      destruct (Req_EM_T (dmi_time1 x) (-1)); [done|].
      rewrite (dmi_calls_first 0 (dmi_stamp x)) in H. unfold dmi_calls. cbn [tail map corrected zip zip_with fst snd].
      unfold of_kinds at 1. cbn [List.filter c_meas_of meas_kind]. rewrite bool_decide_true by (apply elem_of_list_here).
      cbn [app]. f_equal. rewrite H. destruct x. reflexivity.
    - destruct (String.eqb_spec (topic m) (t_dmi cfg)) as [E|E]; [|rewrite on_topic_other by exact E; exact H].
      rewrite (H6 E) in *. intros F. apply H. destruct Ty as (_ & _ & _ & _ & _ & T6). destruct (T6 E) as [x Hx].
      rewrite (on_topic_this _ _ m x) in F by (auto; by rewrite Hx). by apply Forall_cons in F as [_ F].
  Qed.
  (** The odometer: every message but the first gives the mean speed since the message before. *)
  Theorem car_odometer bag calls : topics_ok cfg -> Forall (typed cfg) bag -> read_bag bag = Ret calls ->
    let ds := on_topic (t_dmi cfg) as_dmi bag in
    Forall (fun d => dmi_time1 d <> - 1) ds ->
    of_kinds [CDmi] calls =
    if useDMI cfg then
      zip_with (fun '(a, b) t => Call (MDmi ((signedDistanceTraveled b - signedDistanceTraveled a) / (dmi_time1 b - dmi_time1 a))) t)
        (zip ds (tail ds)) (corrected correct c0 (map (fun d => (secToNsec (dmi_time1 d), dmi_stamp d)) (tail ds)))
    else [].
  Proof.
    intros N T E ds F.
    assert (H : P_dmi (driver_init c0) bag calls).
    { apply (read_bag_steps c0 correct secToNsec ypr unypr cfg P_dmi bag calls N T); [|intros; eapply P_dmi_step; eauto|exact E].
      intros s _. destruct (useDMI cfg); [|reflexivity]. destruct (Req_EM_T _ _); reflexivity. }
    unfold P_dmi in H. specialize (H F). cbn [lastDMITimestamp driver_init corDmi] in H. destruct (Req_EM_T (-1) (-1)); [|done].
    rewrite H. destruct (useDMI cfg); [|reflexivity]. unfold dmi_calls. fold ds. apply zip_with_ext; try reflexivity. by intros [a b] t.
  Qed.
End sensors.

Lemma corrected_length {C} (correct : C -> Z -> Z -> C * Z) l : forall c, Datatypes.length (corrected correct c l) = Datatypes.length l.
Proof. induction l as [|[d h] l IH]; intros c; [reflexivity|]. simpl. by rewrite IH. Qed.
(** Hence the speeds add up to the distance travelled. *)
Theorem car_odometer_distance {C} (c0 : C) correct secToNsec ypr unypr cfg bag calls d0 ds :
  topics_ok cfg -> Forall (typed cfg) bag -> read_bag c0 correct secToNsec ypr unypr cfg bag = Ret calls -> useDMI cfg = true ->
  on_topic (t_dmi cfg) as_dmi bag = d0 :: ds -> Forall (fun d => dmi_time1 d <> - 1) (d0 :: ds) ->
  (forall l1 a b l2, d0 :: ds = l1 ++ a :: b :: l2 -> dmi_time1 a <> dmi_time1 b) ->
  travelled (map dmi_time1 (d0 :: ds)) (omap (fun c => match c_meas_of c with MDmi v => Some v | _ => None end) (of_kinds [CDmi] calls))
  = signedDistanceTraveled (List.last ds d0) - signedDistanceTraveled d0.
Proof.
  intros N T E U Ed F Hd. pose proof (car_odometer c0 correct secToNsec ypr unypr cfg bag calls N T E) as H. cbv zeta in H. rewrite Ed in H.
  rewrite (H F), U. clear H. cbn [tail].
  assert (L : Datatypes.length (corrected correct c0 (map (fun d => (secToNsec (dmi_time1 d), dmi_stamp d)) ds)) = Datatypes.length ds)
    by (rewrite corrected_length, map_length; reflexivity).
  revert L. generalize (corrected correct c0 (map (fun d => (secToNsec (dmi_time1 d), dmi_stamp d)) ds)) as ts. clear -Hd.
  revert d0 Hd. induction ds as [|d1 ds IH]; intros d0 Hd ts L; [simpl; ring|]. destruct ts as [|t ts]; [discriminate|].
  assert (Hne : dmi_time1 d0 <> dmi_time1 d1) by (apply (Hd [] d0 d1 ds); reflexivity).
  pose proof (IH d1 (fun l1 a b l2 Q => Hd (d0 :: l1) a b l2 (f_equal (cons d0) Q)) ts ltac:(by injection L)) as IHd.
  set (f := fun c => match c_meas_of c with MDmi v => Some v | _ => None end) in *.
  match goal with |- context [zip_with ?h (zip (d0 :: d1 :: ds) _) _] => set (g := h) in * end.
  assert (X : travelled (map dmi_time1 (d0 :: d1 :: ds)) (omap f (zip_with g (zip (d0 :: d1 :: ds) (d1 :: ds)) (t :: ts)))
    = (signedDistanceTraveled d1 - signedDistanceTraveled d0) / (dmi_time1 d1 - dmi_time1 d0) * (dmi_time1 d1 - dmi_time1 d0)
      + travelled (map dmi_time1 (d1 :: ds)) (omap f (zip_with g (zip (d1 :: ds) ds) ts))) by reflexivity.
  rewrite X, IHd.
  replace (List.last (d1 :: ds) d0) with (List.last ds d1) by (destruct ds as [|d2 ds']; [reflexivity|]; simpl; clear; revert d2; induction ds' as [|d3 ds' IH]; intros; [reflexivity|exact (IH d3)]).
  field. lra.
Qed.

(** ** Where the expectations fail *)
(** -1 marks "no odometer message yet", but is also a possible time: the message after one with time -1 gives no measurement. *)
Theorem car_odometer_refuted {C} (c0 : C) correct secToNsec ypr unypr cfg a b st d :
  topics_ok cfg -> useDMI cfg = true ->
  let bag := [Message (t_dmi cfg) (Dmi a); Message (t_dmi cfg) (Dmi (DmiMsg st (- 1) d)); Message (t_dmi cfg) (Dmi b)] in
  exists calls, read_bag c0 correct secToNsec ypr unypr cfg bag = Ret calls /\ Datatypes.length calls = if Req_EM_T (dmi_time1 a) (- 1) then 0%nat else 1%nat.
Proof.
  intros N U bag. unfold topics_ok in N. rewrite !NoDup_cons in N. destruct N as (N1 & N2 & N3 & N4 & N5 & _ & _).
  repeat setoid_rewrite not_elem_of_cons in N1; repeat setoid_rewrite not_elem_of_cons in N2; repeat setoid_rewrite not_elem_of_cons in N3;
    repeat setoid_rewrite not_elem_of_cons in N4; repeat setoid_rewrite not_elem_of_cons in N5.
  assert (B : forall (s : @dstate C) x, loop_body correct secToNsec ypr unypr cfg s (Message (t_dmi cfg) (Dmi x))
    = rbind (block_dmi correct secToNsec s (Dmi x)) (fun '(s1, l, _) => Ret (s1, l ++ []))).
  { intros s x. unfold loop_body. cbn [topic content]. set (t := t_dmi cfg) in *. rewrite String.eqb_refl.
    repeat match goal with |- context [String.eqb t ?x] => rewrite (proj2 (String.eqb_neq t x)) by intuition congruence end.
    rewrite U. simpl. unfold block_dmi. simpl. destruct (Req_EM_T (lastDMITimestamp s) (- 1)); [reflexivity|]. by destruct (correct _ _ _). }
  unfold read_bag. rewrite loop_filter. unfold bag. cbn [loop]. rewrite B. unfold block_dmi at 1. cbn [as_dmi lastDMITimestamp driver_init].
  destruct (Req_EM_T (-1) (-1)) as [_|]; [|done]. cbn [rbind]. rewrite B. unfold block_dmi at 1. cbn [as_dmi lastDMITimestamp].
  destruct (Req_EM_T (dmi_time1 a) (-1)) as [Ea|Ea].
  - cbn [rbind]. rewrite B. unfold block_dmi. cbn [as_dmi lastDMITimestamp dmi_time1].
    destruct (Req_EM_T (-1) (-1)) as [_|]; [|done]. cbn [rbind]. eexists. split; reflexivity.
  - destruct (correct _ _ _) as [cor ts]. cbn [rbind]. rewrite B. unfold block_dmi. cbn [as_dmi lastDMITimestamp dmi_time1].
    destruct (Req_EM_T (-1) (-1)) as [_|]; [|done]. cbn [rbind]. eexists. split; reflexivity.
Qed.
(** A message of another type on the topic of an active sensor: a null pointer is dereferenced. *)
Theorem car_mistyped_message_refuted {C} (c0 : C) correct secToNsec ypr unypr cfg p rest :
  topics_ok cfg -> useFw cfg = true -> as_fws p = None ->
  read_bag c0 correct secToNsec ypr unypr cfg (Message (t_fws cfg) p :: rest) = UB.
Proof.
  intros N U E. unfold topics_ok in N. rewrite !NoDup_cons in N. destruct N as (N1 & N2 & N3 & N4 & N5 & _ & _).
  repeat setoid_rewrite not_elem_of_cons in N1; repeat setoid_rewrite not_elem_of_cons in N2; repeat setoid_rewrite not_elem_of_cons in N3;
    repeat setoid_rewrite not_elem_of_cons in N4; repeat setoid_rewrite not_elem_of_cons in N5.
  unfold read_bag. rewrite loop_filter. cbn [loop]. unfold loop_body. cbn [topic content]. set (t := t_fws cfg) in *. rewrite String.eqb_refl.
  repeat match goal with |- context [String.eqb t ?x] => rewrite (proj2 (String.eqb_neq t x)) by intuition congruence end.
  rewrite U. simpl. unfold block_fws. rewrite E. reflexivity.
Qed.
(** The same when two active sensors are configured with the same topic, although every message is proper for one of them. *)
Theorem car_same_topic_refuted {C} (c0 : C) correct secToNsec ypr unypr cfg x rest :
  t_rws cfg = t_fws cfg -> t_fws cfg <> t_vnp cfg -> t_fws cfg <> t_vns cfg -> useFw cfg = true -> useRw cfg = true ->
  read_bag c0 correct secToNsec ypr unypr cfg (Message (t_fws cfg) (Fws x) :: rest) = UB.
Proof.
  intros E N1 N2 U1 U2. unfold read_bag. rewrite loop_filter. cbn [loop]. unfold loop_body. cbn [topic content]. rewrite E, String.eqb_refl.
  rewrite (proj2 (String.eqb_neq _ _) N1), (proj2 (String.eqb_neq _ _) N2), U1, U2. simpl. unfold block_fws. simpl.
  destruct (correct _ _ _). reflexivity.
Qed.

(** ** The whole program *)
Section whole.
  Context {E P : Type} (tmin tmax : list (Z * meas) -> Z) (delay : E -> car_kind -> Z) (bound knots : Z) (below_cutoff : meas -> bool) (o : car_options)
    (backward slow : E -> list (Z * meas) -> Z * meas -> bool) (fit : list Z -> Z -> result unit)
    (addBatch : E -> list (car_term meas) -> result R * E) (params : E -> P).
  Local Notation h := (car_hooks tmin tmax delay bound knots below_cutoff o backward slow fit addBatch params).
  Local Notation cal := (cal car_kind meas E (car_term meas) P).

  Lemma addMeasurements_few (c : cal) : (Datatypes.length (c_meas c CPose) < 2)%nat -> addMeasurements h c = (c, Ret tt).
  Proof. intros L. unfold addMeasurements. cbn [h_ready car_hooks]. rewrite (proj2 (Nat.leb_gt _ _) L). reflexivity. Qed.
  Lemma addOne_few (c : cal) k ts d : (Datatypes.length (c_meas c CPose) < 2)%nat -> k <> CPose ->
    exists c', addOne h c k ts d = (c', Ret tt) /\ c_meas c' CPose = c_meas c CPose /\ c_sent c' = c_sent c /\ c_est c' = c_est c
      /\ (forall k', c_meas c' k' = c_meas c k' ++ if decide (k' = k) then [(ts, d)] else []).
  Proof.
    intros L Hk. unfold addOne, addMeasurement. set (c1 := Cal _ ts _ _ _ _ _ _).
    assert (Em : addMeasurements h c1 = (c1, Ret tt)) by (apply addMeasurements_few; exact L).
    assert (X : exists b : bool, (if Rle_dec (c_window c) (IZR (ts - (if (c_start c =? -1)%Z then ts else c_start c)) / 10 ^ 9) then addMeasurements h c1 else (c1, Ret tt)) = (c1, Ret tt))
      by (exists true; destruct (Rle_dec _ _); [exact Em|reflexivity]).
    destruct X as [_ ->]. eexists. split; [reflexivity|]. cbn [c_meas c_sent c_est]. split; [|split; [reflexivity|split; [reflexivity|]]].
    - destruct (decide (CPose = k)); [by subst|reflexivity].
    - intros k'. destruct (decide (k' = k)); [reflexivity|]. by rewrite app_nil_r.
  Qed.
  Lemma make_calls_few l : forall c : cal, (Datatypes.length (c_meas c CPose) < 2)%nat -> Forall (fun x => meas_kind (c_meas_of x) <> CPose) l ->
    exists c', make_calls h c l = (c', Ret tt) /\ c_meas c' CPose = c_meas c CPose /\ c_sent c' = c_sent c /\ c_est c' = c_est c.
  Proof.
    induction l as [|x l IH]; intros c L F; [eexists; by repeat split|]. apply Forall_cons in F as [Fx F].
    destruct (addOne_few c (meas_kind (c_meas_of x)) (c_time x) (c_meas_of x) L Fx) as (c1 & E1 & E2 & E3 & E4 & _).
    destruct (IH c1 ltac:(by rewrite E2) F) as (c' & F1 & F2 & F3 & F4). exists c'. simpl. rewrite E1, F1. split; [reflexivity|].
    rewrite F2, F3, F4. auto.
  Qed.
  (** Without a performance message in the log (or with all of them after the last solution) nothing is ever estimated, and the
      program ends normally. *)
  Theorem car_no_performance_refuted {C} (c0 : C) correct secToNsec ypr unypr cfg bag e w :
    topics_ok cfg -> Forall (typed cfg) bag -> solutions cfg None bag = [] ->
    exists calls c', read_bag c0 correct secToNsec ypr unypr cfg bag = Ret calls /\ program h (cal_new h e w) calls = (c', Ret tt)
      /\ c_sent c' = [] /\ c_est c' = e.
  Proof.
    intros N T S. destruct (car_driver_reads_everything c0 correct secToNsec ypr unypr cfg bag N T) as [calls Ec]. exists calls.
    destruct (P_vns_holds c0 correct secToNsec ypr unypr cfg bag calls N T Ec) as (tr & E1 & E2 & _). cbn [lastVnp driver_init] in E2.
    rewrite S in E2. apply Forall2_nil_inv_l in E2 as ->. cbn [flat_map] in E1.
    assert (F : Forall (fun x => meas_kind (c_meas_of x) <> CPose) calls).
    { apply Forall_forall. intros x Hx HP. assert (X : In x (of_kinds [CPose; CVel] calls)).
      { unfold of_kinds. apply filter_In. split; [by apply elem_of_list_In|]. rewrite HP. reflexivity. }
      rewrite E1 in X. destruct X. }
    destruct (make_calls_few calls (cal_new h e w) ltac:(simpl; lia) F) as (c' & F1 & F2 & F3 & F4).
    exists c'. split; [exact Ec|]. unfold program. rewrite F1. destruct (unprocessedMeasurements c').
    - rewrite addMeasurements_few by (rewrite F2; simpl; lia). auto.
    - auto.
  Qed.
  (** When the program ends normally, whatever was stored last has gone to the estimator, unless fewer than two poses were left. *)
  Theorem car_program_end (c c' : cal) calls : program h c calls = (c', Ret tt) ->
    (forall k, c_meas c' k = []) \/ (Datatypes.length (c_meas c' CPose) < 2)%nat.
  Proof.
    unfold program. destruct (make_calls h c calls) as [c1 r]. destruct r as [u| | |]; try discriminate.
    destruct (unprocessedMeasurements c1) eqn:U.
    - unfold addMeasurements. cbn [h_ready car_hooks]. destruct (Nat.leb 2 (Datatypes.length (c_meas c1 CPose))) eqn:L; simpl.
      + destruct (initSplines _ _ _); try discriminate. destruct (addBatch _ _) as [r e']. destruct r; try discriminate. intros H. injection H as <-.
        left. reflexivity.
      + intros H. injection H as <-. right. apply Nat.leb_gt. exact L.
    - intros H. injection H as <-. left. unfold unprocessedMeasurements in U. simpl in U. rewrite !orb_false_iff in U.
      destruct U as (U1 & U2 & U3 & U4 & U5 & U6 & _).
      assert (K : forall k, negb (Nat.eqb (Datatypes.length (c_meas c1 k)) 0) = false -> c_meas c1 k = []).
      { intros k Hk. apply negb_false_iff, Nat.eqb_eq in Hk. by apply nil_length_inv. }
      intros []; apply K; assumption.
  Qed.
  (** Every measurement read from the log went, in order, to the estimator, or is one of those left at the end. *)
  Lemma make_calls_run l : forall c c' : cal, make_calls h c l = (c', Ret tt) ->
    crun h c (map (fun x => Add (meas_kind (c_meas_of x)) (c_time x) (c_meas_of x)) l) = (c', map (fun _ => Ret tt) l).
  Proof.
    induction l as [|x l IH]; intros c c' H; [by injection H as <-|]. cbn [make_calls map crun cstep] in *.
    destruct (addOne h c _ _ _) as [c1 r]. destruct r as [[]| | |]; try discriminate H. rewrite (IH _ _ H). reflexivity.
  Qed.
  Theorem car_program_conservation e w (c' : cal) calls k : program h (cal_new h e w) calls = (c', Ret tt) ->
    List.concat (map (fun x => w_meas x k) (c_sent c')) ++ c_meas c' k
    = map (fun x => (c_time x, c_meas_of x)) (List.filter (fun x => bool_decide (meas_kind (c_meas_of x) = k)) calls).
  Proof.
    unfold program. destruct (make_calls h (cal_new h e w) calls) as [c1 r] eqn:E1. destruct r as [[]| | |]; try discriminate.
    apply make_calls_run in E1. set (l := map _ calls) in E1. intros H.
    assert (A : forall calls, accepted (map (fun x => Add (meas_kind (c_meas_of x)) (c_time x) (c_meas_of x)) calls) (map (fun _ => Ret tt) calls) k
      = map (fun x => (c_time x, c_meas_of x)) (List.filter (fun x => bool_decide (meas_kind (c_meas_of x) = k)) calls)).
    { clear. induction calls as [|x l IH]; [reflexivity|]. cbn [map accepted List.filter]. rewrite IH. destruct (decide (k = _)) as [->|N].
      - rewrite bool_decide_eq_true_2 by reflexivity. reflexivity.
      - rewrite bool_decide_eq_false_2 by congruence. reflexivity. }
    assert (F : Forall (fun x => ~ is_clear x) l) by (unfold l; apply Forall_map, Forall_true; simpl; tauto).
    pose proof (calibrator_conservation h e w l k F) as C1. cbv zeta in C1. rewrite E1 in C1. cbn [fst snd] in C1. specialize (A calls). fold l in A. rewrite <- A, <- C1.
    destruct (unprocessedMeasurements c1); [|by injection H as <-].
    assert (K : kept c' k = kept c1 k).
    { exact (kept_flush h c1 c' (Ret tt) k H). }
    exact K.
  Qed.
End whole.

(** ** Concrete cases *)
Definition cfg1 : car_config := CarConfig true true false true "fws" "rws" "st" "dmi" "vns" "vnp".
Definition vns1 (h : R) : vns_msg := VnsMsg 10 1 47 8 400 1 2 0 0 0 h 0 0 1.
Definition vnp1 : vnp_msg := VnpMsg 1 2 3 1 2 3 1 1 1.
Definition bag1 : list message :=
  [Message "vns" (Vns (vns1 0)); Message "other" OtherMsg; Message "dmi" (Dmi (DmiMsg 5 1 10)); Message "vnp" (Vnp vnp1);
   Message "vns" (Vns (vns1 90)); Message "fws" (Fws (WheelsMsg 1 20 3 4)); Message "rws" (Rws (WheelsMsg 1 20 3 4));
   Message "dmi" (Dmi (DmiMsg 15 3 14)); Message "vns" (Vns (vns1 45)); Message "st" (St (SteerMsg 1 30 7))].
Example cfg1_ok : topics_ok cfg1 /\ Forall (typed cfg1) bag1.
Proof.
  split.
  - unfold topics_ok. simpl. repeat constructor; set_solver.
  - repeat constructor; intros H; try discriminate H; eauto.
Qed.
Example bag1_solutions : solutions cfg1 None bag1 = [(vns1 90, vnp1); (vns1 45, vnp1)].
Proof. reflexivity. Qed.
Example ypr_hypotheses : (forall a, rotation (euler_ypr a)) /\ (forall M, rotation M -> euler_ypr (angles_of M) = M).
Proof. split; [exact euler_rotation|exact euler_angles]. Qed.
Example heading_east : mulv (euler_ypr (attitude (vns1 90))) ex = ey.
Proof.
  unfold attitude, vns1, euler_ypr, mulv, dot3, ex, ey, rad. cbn [heading pitch roll vx vy vz r1 r2 r3].
  replace (90 / 180 * PI) with (PI / 2) by field. replace (0 / 180 * PI) with 0 by field. rewrite cos_PI2, sin_PI2, cos_0, sin_0. f_equal; ring.
Qed.
(** The map [A] of [car_position_variance_refuted] exists, at every place. *)
Example ned_to_enu lat long : exists A, rotation A /\ forall d, in_enu lat long (mulv A d) = in_ned lat long d.
Proof.
  exists (M3 (V3 0 1 0) (V3 1 0 0) (V3 0 0 (- 1))). split.
  - unfold rotation. vec. repeat split; ring.
  - intros [a b c]. apply v3_eq; unfold in_enu, in_ned, mulv, dot3, add3, scale3; cbn [vx vy vz r1 r2 r3]; ring.
Qed.
Example bag1_speed : Datatypes.length (of_kinds [CDmi] match read_bag tt (fun c _ h => (c, h)) (fun _ => 0%Z) euler_ypr angles_of cfg1 bag1 with Ret l => l | _ => [] end) = 1%nat.
Proof.
  destruct (car_driver_reads_everything tt (fun c _ h => (c, h)) (fun _ => 0%Z) euler_ypr angles_of cfg1 bag1) as [calls E]; [apply cfg1_ok..|].
  rewrite E. pose proof (car_odometer tt (fun c _ h => (c, h)) (fun _ => 0%Z) euler_ypr angles_of cfg1 bag1 calls) as H. cbv zeta in H.
  rewrite H; [reflexivity|apply cfg1_ok|apply cfg1_ok|exact E|]. repeat constructor; simpl; lra.
Qed.
Print Assumptions car_solutions. Print Assumptions car_odometer_distance. Print Assumptions car_no_performance_refuted.
Print Assumptions car_program_conservation.
