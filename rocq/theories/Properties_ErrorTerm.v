(** Properties of the error terms: C50 (Jacobians), C51 (weights). *)
From Coq Require Import Reals Lra Psatz Lia Arith.
From Verif Require Import ErrorTermModel ErrorTermProofs Spec_ErrorTerm.
Local Open Scope R_scope.

Ltac der := repeat match goal with
  | |- derivable_pt_lim (fun _ => ?c) ?t _ => exact (p_const c t)
  | |- derivable_pt_lim (fun s => @?f s + @?g s) _ _ => eapply p_plus
  | |- derivable_pt_lim (fun s => @?f s - @?g s) _ _ => eapply p_minus
  | |- derivable_pt_lim (fun s => @?f s * @?g s) _ _ => eapply p_mult
  | |- derivable_pt_lim (fun s => - (@?f s)) _ _ => eapply p_opp
  | |- derivable_pt_lim (fun s => cos (@?f s)) _ _ => eapply p_cos
  | |- derivable_pt_lim (fun s => sin (@?f s)) _ _ => eapply p_sin
  | H : derivable_pt_lim ?f ?t _ |- derivable_pt_lim ?f ?t _ => exact H
  | H : derivable_pt_lim ?f ?t _ |- derivable_pt_lim (fun s => ?f s) ?t _ => exact H
  end.
Ltac vel H i := let K := fresh "D" in pose proof (H i ltac:(lia)) as K; cbv beta in K.

(** ** 2D laser range finder: odometry *)
Theorem motion_jacobians (T : R) (uk : rvec) (xkm1 xk : R -> rvec) (t : R) (dkm1 dk : rvec) : T <> 0 ->
  has_velocity 3 xkm1 t dkm1 -> has_velocity 3 xk t dk ->
  has_velocity 3 (fun s => motion_error T uk (xkm1 s) (xk s)) t
    (fun i => rmul 3 (motion_jacobian_xkm1 T (xkm1 t) (xk t)) dkm1 i + rmul 3 (motion_jacobian_xk T (xkm1 t) (xk t)) dk i).
Proof.
  intros HT Hm Hk i Hi. vel Hm 0%nat. vel Hm 1%nat. vel Hm 2%nat. vel Hk 0%nat. vel Hk 1%nat. vel Hk 2%nat.
  destruct i as [|[|[|i]]]; [| | |lia]; cbv [motion_error motion_jacobian_xkm1 motion_jacobian_xk rmul rsum rset rzero rident rneg rdivs Nat.eqb andb];
    (eapply p_eq; [der|]); cbv beta; field; exact HT.
Qed.

(** ** 2D laser range finder: range and bearing *)
Section observation.
  Context (xk xl Theta : R -> rvec) (t : R) (dk dl dT : rvec).
  Context (Hk : has_velocity 3 xk t dk) (Hl : has_velocity 2 xl t dl) (HT : has_velocity 3 Theta t dT).
  Let daa : R := dl 0%nat - dk 0%nat - (dT 0%nat * cos (xk t 2%nat) + Theta t 0%nat * (- sin (xk t 2%nat) * dk 2%nat))
                 + (dT 1%nat * sin (xk t 2%nat) + Theta t 1%nat * (cos (xk t 2%nat) * dk 2%nat)).
  Let dbb : R := dl 1%nat - dk 1%nat - (dT 0%nat * sin (xk t 2%nat) + Theta t 0%nat * (cos (xk t 2%nat) * dk 2%nat))
                 - (dT 1%nat * cos (xk t 2%nat) + Theta t 1%nat * (- sin (xk t 2%nat) * dk 2%nat)).
  Lemma obs_ab : derivable_pt_lim (fun s => obs_aa (xk s) (xl s) (Theta s)) t daa
                 /\ derivable_pt_lim (fun s => obs_bb (xk s) (xl s) (Theta s)) t dbb.
  Proof.
    vel Hk 0%nat. vel Hk 1%nat. vel Hk 2%nat. vel Hl 0%nat. vel Hl 1%nat. vel HT 0%nat. vel HT 1%nat.
    split; unfold obs_aa, obs_bb, daa, dbb; cbv zeta; (eapply p_eq; [der|cbv beta; reflexivity]).
  Qed.
  (** The residual is differentiable and its derivative is the sum of the Jacobians times the velocities, whenever the
      landmark is not at the origin of the scanner and the bearing residual is not at the jump of angleMod. *)
  Theorem observation_jacobians (angleMod : R -> R) (r b : R) : periodic angleMod ->
    ~ (obs_aa (xk t) (xl t) (Theta t) = 0 /\ obs_bb (xk t) (xl t) (Theta t) = 0) ->
    smooth_at angleMod (b - (atan2 (obs_bb (xk t) (xl t) (Theta t)) (obs_aa (xk t) (xl t) (Theta t)) - xk t 2%nat - Theta t 2%nat)) ->
    has_velocity 2 (fun s => obs_error angleMod r b (xk s) (xl s) (Theta s)) t
      (fun i => rmul 3 (obs_jacobian_xk (xk t) (xl t) (Theta t)) dk i + rmul 2 (obs_jacobian_xl (xk t) (xl t) (Theta t)) dl i
                + rmul 3 (obs_jacobian_Theta (xk t) (xl t) (Theta t)) dT i).
  Proof.
    intros Hp Hn Hs. destruct obs_ab as [Da Db]. vel Hk 2%nat. vel HT 2%nat.
    set (A := fun s => obs_aa (xk s) (xl s) (Theta s)) in *. set (B := fun s => obs_bb (xk s) (xl s) (Theta s)) in *.
    assert (Hq : A t * A t + B t * B t <> 0).
    { intros E. apply Hn. fold (A t) (B t). split; nra. }
    assert (Hq' : 0 < sqrt (A t * A t + B t * B t)) by (apply sqrt_lt_R0; nra).
    intros i Hi. destruct i as [|[|i]]; [| |lia].
    - unfold obs_error. cbv zeta.
      apply (p_ext (fun s => r - sqrt (A s * A s + B s * B s))); [reflexivity|].
      eapply p_eq; [eapply p_minus; [apply p_const|apply p_norm; [exact Da|exact Db|exact Hq]]|].
      cbv [obs_jacobian_xk obs_jacobian_xl obs_jacobian_Theta rmul rsum rset rzero rneg Nat.eqb andb].
      fold (A t) (B t). unfold daa, dbb. field. lra.
    - unfold obs_error. cbv zeta.
      apply (p_ext (fun s => angleMod ((b + (xk s 2%nat + Theta s 2%nat)) - atan2 (B s) (A s)))); [intros s; f_equal; unfold A, B; ring|].
      eapply p_eq.
      + apply (p_angle angleMod A B (fun s => b + (xk s 2%nat + Theta s 2%nat)) t daa dbb (0 + (dk 2%nat + dT 2%nat)) Hp Da Db); [der|exact Hq|].
        unfold smooth_at in Hs.
        replace (b + (xk t 2%nat + Theta t 2%nat) - atan2 (B t) (A t))
          with (b - (atan2 (obs_bb (xk t) (xl t) (Theta t)) (obs_aa (xk t) (xl t) (Theta t)) - xk t 2%nat - Theta t 2%nat)); [exact Hs|].
        unfold A, B. ring.
      + cbv [obs_jacobian_xk obs_jacobian_xl obs_jacobian_Theta rmul rsum rset rzero rneg Nat.eqb andb].
        fold (A t) (B t). unfold daa, dbb. field. exact Hq.
  Qed.
End observation.

(** ** Car: steering *)
Theorem steering_jacobians (angleMod : R -> R) (m : R) (a v : R -> rvec) (t : R) (da dv : rvec) : periodic angleMod ->
  v t 0%nat <> 0 ->
  smooth_at angleMod (a t 0%nat + a t 1%nat * m + a t 2%nat * m * m + a t 3%nat * m * m * m - atan2 (v t 1%nat) (v t 0%nat)) ->
  has_velocity 4 a t da -> has_velocity 3 v t dv ->
  has_velocity 1 (fun s => steering_error angleMod m (a s) (v s)) t
    (fun i => rmul 4 (steering_jacobian_a m) da i + rmul 3 (steering_jacobian_v (v t)) dv i).
Proof.
  intros Hp H0 Hs Ha Hv i Hi. vel Ha 0%nat. vel Ha 1%nat. vel Ha 2%nat. vel Ha 3%nat. vel Hv 0%nat. vel Hv 1%nat.
  destruct i; [|lia]. unfold steering_error. cbv zeta.
  assert (Q : 0 < v t 0%nat * v t 0%nat) by (pose proof (Rlt_0_sqr _ H0) as Q; exact Q).
  eapply p_eq.
  - apply (p_angle angleMod (fun s => v s 0%nat) (fun s => v s 1%nat)
      (fun s => a s 0%nat + a s 1%nat * m + a s 2%nat * m * m + a s 3%nat * m * m * m) t (dv 0%nat) (dv 1%nat)); [exact Hp|assumption|assumption|der|nra|].
    exact Hs.
  - cbv [steering_jacobian_a steering_jacobian_v rmul rsum rset rzero rneg Nat.eqb andb]. cbv beta. field.
    repeat split; try assumption; nra.
Qed.

(** ** Car: velocities *)
Theorem velocities_jacobians (vm omm : rvec) (v om : R -> rvec) (t : R) (dv dom : rvec) :
  has_velocity 3 v t dv -> has_velocity 3 om t dom ->
  has_velocity 6 (fun s => velocities_error vm omm (v s) (om s)) t
    (fun i => rmul 3 velocities_jacobian_v dv i + rmul 3 velocities_jacobian_om dom i).
Proof.
  intros Hv Ho i Hi. vel Hv 0%nat. vel Hv 1%nat. vel Hv 2%nat. vel Ho 0%nat. vel Ho 1%nat. vel Ho 2%nat.
  destruct i as [|[|[|[|[|[|i]]]]]]; [| | | | | |lia];
    cbv [velocities_error velocities_jacobian_v velocities_jacobian_om rmul rsum rneg rident Nat.ltb Nat.leb Nat.eqb Nat.sub];
    (eapply p_eq; [der|]); cbv beta; ring.
Qed.

(** ** Car: wheels *)
Theorem wheel_jacobians_rear (m : R) (k : R -> R) (v : R -> rvec) (t dk : R) (dv : rvec) :
  derivable_pt_lim k t dk -> has_velocity 3 v t dv ->
  has_velocity 3 (fun s => wheel_error false m (k s) (v s)) t
    (fun i => rmul 3 (wheel_jacobian_v false (k t) (v t)) dv i + rmul 1 (wheel_jacobian_k false (v t)) (fun _ => dk) i).
Proof.
  intros Hk Hv i Hi. vel Hv 0%nat. vel Hv 1%nat. vel Hv 2%nat.
  destruct i as [|[|[|i]]]; [| | |lia]; cbv [wheel_error wheel_jacobian_v wheel_jacobian_k rmul rsum rset rzero rneg Nat.eqb andb];
    (eapply p_eq; [der|]); cbv beta; ring.
Qed.

(** The residual of a front wheel: the signed speed along the wheel. *)
Lemma front_speed v0 v1 : v0 <> 0 -> v0 / sqrt (v1 * v1 / (v0 * v0) + 1) + v1 * v1 / (v0 * sqrt (v1 * v1 / (v0 * v0) + 1))
  = (if Rlt_dec 0 v0 then 1 else - 1) * sqrt (v0 * v0 + v1 * v1).
Proof.
  intros H0. assert (Q : 0 < v0 * v0) by (pose proof (Rlt_0_sqr _ H0) as Q; exact Q).
  replace (v1 * v1 / (v0 * v0) + 1) with ((v0 * v0 + v1 * v1) / (v0 * v0)) by (field; assumption).
  rewrite sqrt_div by nra.
  assert (Hs : 0 < sqrt (v0 * v0 + v1 * v1)) by (apply sqrt_lt_R0; nra).
  set (S := sqrt (v0 * v0 + v1 * v1)) in *.
  assert (HS : S * S = v0 * v0 + v1 * v1) by (apply sqrt_sqrt; nra).
  change (v0 * v0) with (Rsqr v0) at 1 2. rewrite sqrt_Rsqr_abs.
  destruct (Rlt_dec 0 v0) as [L|L].
  - rewrite Rabs_pos_eq by lra.
    replace (v0 / (S / v0) + v1 * v1 / (v0 * (S / v0))) with ((v0 * v0 + v1 * v1) / S) by (field; lra). rewrite <- HS. field. lra.
  - rewrite Rabs_left by lra.
    replace (v0 / (S / - v0) + v1 * v1 / (v0 * (S / - v0))) with (- ((v0 * v0 + v1 * v1) / S)) by (field; lra). rewrite <- HS. field. lra.
Qed.

(** The true derivative of the residual of a front wheel, for a wheel that moves forwards or backwards. *)
Theorem wheel_front_derivative (m : R) (k : R -> R) (v : R -> rvec) (t dk : R) (dv : rvec) :
  v t 0%nat <> 0 -> derivable_pt_lim k t dk -> has_velocity 3 v t dv ->
  has_velocity 3 (fun s => wheel_error true m (k s) (v s)) t
    (fun i => (if Nat.eqb i 0 then (if Rlt_dec 0 (v t 0%nat) then 1 else - 1) else 1) * rmul 3 (wheel_jacobian_v true (k t) (v t)) dv i
              + rmul 1 (wheel_jacobian_k true (v t)) (fun _ => dk) i).
Proof.
  intros H0 Hk Hv i Hi. vel Hv 0%nat. vel Hv 1%nat. vel Hv 2%nat.
  assert (Q : 0 < v t 0%nat * v t 0%nat) by (pose proof (Rlt_0_sqr _ H0) as Q; exact Q).
  assert (Hs : 0 < sqrt (v t 0%nat * v t 0%nat + v t 1%nat * v t 1%nat)) by (apply sqrt_lt_R0; nra).
  destruct i as [|[|[|i]]]; [| | |lia].
  - cbv [wheel_error wheel_jacobian_v wheel_jacobian_k rmul rsum rset rzero rneg Nat.eqb andb].
    set (sg := if Rlt_dec 0 (v t 0%nat) then 1 else - 1).
    apply (p_sign (fun s => v s 0%nat) (fun s => m - k s * (sg * sqrt (v s 0%nat * v s 0%nat + v s 1%nat * v s 1%nat))) _ t (dv 0%nat)); [assumption|exact H0| |].
    + intros s Hs'. cbv beta in Hs'. assert (Hn : v s 0%nat <> 0) by nra. rewrite (front_speed _ _ Hn). unfold sg.
      destruct (Rlt_dec 0 (v s 0%nat)), (Rlt_dec 0 (v t 0%nat)); try reflexivity; nra.
    + eapply p_eq; [eapply p_minus; [apply p_const|]; eapply p_mult; [eassumption|]; eapply p_mult; [apply p_const|]; apply p_norm; [eassumption|eassumption|cbv beta; intros E; nra]|].
      cbv beta. rewrite (front_speed _ _ H0). fold sg. field. lra.
  - cbv [wheel_error wheel_jacobian_v wheel_jacobian_k rmul rsum rset rzero rneg Nat.eqb andb].
    eapply p_eq; [der|]; cbv beta; ring.
  - cbv [wheel_error wheel_jacobian_v wheel_jacobian_k rmul rsum rset rzero rneg Nat.eqb andb].
    eapply p_eq; [der|]; cbv beta; ring.
Qed.
(** What holds: the Jacobians of a front wheel are right as long as the wheel moves forwards. *)
Theorem wheel_jacobians_front_forward (m : R) (k : R -> R) (v : R -> rvec) (t dk : R) (dv : rvec) :
  0 < v t 0%nat -> derivable_pt_lim k t dk -> has_velocity 3 v t dv ->
  has_velocity 3 (fun s => wheel_error true m (k s) (v s)) t
    (fun i => rmul 3 (wheel_jacobian_v true (k t) (v t)) dv i + rmul 1 (wheel_jacobian_k true (v t)) (fun _ => dk) i).
Proof.
  intros H0 Hk Hv i Hi. pose proof (wheel_front_derivative m k v t dk dv ltac:(lra) Hk Hv i Hi) as H. cbv beta in H.
  destruct (Rlt_dec 0 (v t 0%nat)); [|lra]. destruct (Nat.eqb i 0); rewrite Rmult_1_l in H; exact H.
Qed.
(** What fails: a front wheel that rolls backwards (speed -1 along its axis) with unit coefficient: along the curve
    v = (-1 + s, 0, 0) the first residual has derivative -1, the Jacobian times the velocity is +1. *)
Theorem wheel_jacobians_front_refuted : exists (m : R) (k : R -> R) (v : R -> rvec) (dk : R) (dv : rvec),
  derivable_pt_lim k 0 dk /\ has_velocity 3 v 0 dv /\
  derivable_pt_lim (fun s => wheel_error true m (k s) (v s) 0%nat) 0 (- 1) /\
  rmul 3 (wheel_jacobian_v true (k 0) (v 0)) dv 0%nat + rmul 1 (wheel_jacobian_k true (v 0)) (fun _ => dk) 0%nat = 1.
Proof.
  exists 0, (fun _ => 1), (fun s i => if Nat.eqb i 0 then - 1 + s else 0), 0, (fun i => if Nat.eqb i 0 then 1 else 0).
  assert (Hv : has_velocity 3 (fun s i => if Nat.eqb i 0 then - 1 + s else 0) 0 (fun i => if Nat.eqb i 0 then 1 else 0)).
  { intros i _. destruct (Nat.eqb i 0); [|apply derivable_pt_lim_const].
    eapply p_eq; [apply p_plus; [apply p_const|apply derivable_pt_lim_id]|ring]. }
  assert (S1 : sqrt (-1 * -1 + 0 * 0) = 1) by (replace (-1 * -1 + 0 * 0) with 1 by ring; apply sqrt_1).
  assert (E : rmul 3 (wheel_jacobian_v true 1 (fun i => if Nat.eqb i 0 then - 1 + 0 else 0)) (fun i => if Nat.eqb i 0 then 1 else 0) 0%nat = 1).
  { cbv [wheel_jacobian_v rmul rsum rset rzero rneg Nat.eqb andb]. replace (-1 + 0) with (-1) by ring. rewrite S1. field. }
  split; [apply derivable_pt_lim_const|]. split; [exact Hv|]. split.
  - assert (H0 : (fun (s : R) (i : nat) => if Nat.eqb i 0 then - 1 + s else 0) 0 0%nat <> 0) by (cbn; lra).
    pose proof (wheel_front_derivative 0 (fun _ => 1) _ 0 0 _ H0 (p_const 1 0) Hv 0%nat ltac:(lia)) as H.
    cbv beta in H. cbn [Nat.eqb] in H. destruct (Rlt_dec 0 (- 1 + 0)) as [L|L] in H; [lra|]. rewrite E in H.
    replace (- 1 * 1 + _) with (- 1) in H; [exact H|]. cbv [rmul rsum]. ring.
  - rewrite E. cbv [rmul rsum]. ring.
Qed.

(** The steering residual is also differentiable where the Jacobian divides by zero: when the wheel moves sideways. *)
Theorem steering_derivative (angleMod : R -> R) (m : R) (a v : R -> rvec) (t : R) (da dv : rvec) : periodic angleMod ->
  ~ (v t 0%nat = 0 /\ v t 1%nat = 0) ->
  smooth_at angleMod (a t 0%nat + a t 1%nat * m + a t 2%nat * m * m + a t 3%nat * m * m * m - atan2 (v t 1%nat) (v t 0%nat)) ->
  has_velocity 4 a t da -> has_velocity 3 v t dv ->
  has_velocity 1 (fun s => steering_error angleMod m (a s) (v s)) t
    (fun i => da 0%nat + da 1%nat * m + da 2%nat * (m * m) + da 3%nat * (m * m * m)
              + (v t 1%nat * dv 0%nat - v t 0%nat * dv 1%nat) / (v t 0%nat * v t 0%nat + v t 1%nat * v t 1%nat)).
Proof.
  intros Hp H0 Hs Ha Hv i Hi. vel Ha 0%nat. vel Ha 1%nat. vel Ha 2%nat. vel Ha 3%nat. vel Hv 0%nat. vel Hv 1%nat.
  destruct i; [|lia]. unfold steering_error. cbv zeta.
  assert (Q : v t 0%nat * v t 0%nat + v t 1%nat * v t 1%nat <> 0) by (intros E; apply H0; split; nra).
  eapply p_eq.
  - apply (p_angle angleMod (fun s => v s 0%nat) (fun s => v s 1%nat)
      (fun s => a s 0%nat + a s 1%nat * m + a s 2%nat * m * m + a s 3%nat * m * m * m) t (dv 0%nat) (dv 1%nat)); [exact Hp|assumption|assumption|der|exact Q|].
    exact Hs.
  - cbv beta. field. exact Q.
Qed.

(** ** The hypotheses can be met *)
Lemma wrap_periodic : periodic wrap.
Proof.
  intros x. unfold wrap. pose proof PI_RGT_0 as HP.
  replace ((x + 2 * PI + PI) / (2 * PI)) with ((x + PI) / (2 * PI) + IZR 1) by (field; lra).
  set (y := (x + PI) / (2 * PI)).
  assert (E : Int_part (y + IZR 1) = (Int_part y + 1)%Z).
  { destruct (base_Int_part y) as [A B]. unfold Int_part at 1. symmetry. 
    assert (U : (Int_part y + 2)%Z = up (y + IZR 1)); [|lia].
    apply tech_up; rewrite plus_IZR; lra. }
  rewrite E, plus_IZR. ring.
Qed.
Lemma wrap_smooth x : - PI < x < PI -> wrap x = x /\ smooth_at wrap x.
Proof.
  intros Hx. pose proof PI_RGT_0 as HP.
  assert (W : forall y, - PI < y < PI -> wrap y = y).
  { intros y Hy. unfold wrap. replace (Int_part ((y + PI) / (2 * PI))) with 0%Z; [ring|].
    unfold Int_part. enough (1%Z = up ((y + PI) / (2 * PI))) as <- by reflexivity.
    assert (0 < (y + PI) / (2 * PI) < 1).
    { split; [apply Rdiv_lt_0_compat; lra|]. apply (Rmult_lt_reg_r (2 * PI)); [lra|]. field_simplify; lra. }
    apply tech_up; lra. }
  split; [apply W, Hx|]. unfold smooth_at.
  assert (D : 0 < Rmin (x + PI) (PI - x)) by (apply Rmin_pos; lra).
  intros eps He. exists (mkposreal _ D). intros h Hh Hd. simpl in Hd.
  assert (Rmin (x + PI) (PI - x) <= x + PI) by apply Rmin_l. assert (Rmin (x + PI) (PI - x) <= PI - x) by apply Rmin_r.
  apply Rabs_def2 in Hd. rewrite !W by lra. replace ((x + h - x) / h - 1) with 0 by (field; exact Hh). rewrite Rabs_R0. exact He.
Qed.
(** The sensor at the origin, the landmark straight ahead at distance 2, the bearing measured as 1/4. *)
Example observation_hypotheses :
  let xk := fun _ : nat => 0 in let xl := fun i => if Nat.eqb i 0 then 2 else 0 in let Theta := fun _ : nat => 0 in
  periodic wrap /\ ~ (obs_aa xk xl Theta = 0 /\ obs_bb xk xl Theta = 0) /\
  smooth_at wrap (1 / 4 - (atan2 (obs_bb xk xl Theta) (obs_aa xk xl Theta) - xk 2%nat - Theta 2%nat)).
Proof.
  cbv [obs_aa obs_bb Nat.eqb]. split; [exact wrap_periodic|]. split; [lra|].
  replace (0 - 0 - 0 * sin 0 - 0 * cos 0) with 0 by ring. replace (2 - 0 - 0 * cos 0 + 0 * sin 0) with 2 by ring.
  unfold atan2. destruct (Rlt_dec 0 2); [|lra]. replace (0 / 2) with 0 by field. rewrite atan_0.
  apply wrap_smooth. pose proof PI2_1. lra.
Qed.

(** Straight lines are curves to which the theorems apply: from any point in any direction (this is also how
    VectorDesignVariable::update moves the design variables). *)
Lemma line_has_velocity n (x w : rvec) : has_velocity n (fun s i => x i + s * w i) 0 w.
Proof.
  intros i _. eapply p_eq; [apply p_plus; [apply p_const|apply p_mult; [apply derivable_pt_lim_id|apply p_const]]|]. cbv beta. ring.
Qed.
(** So every partial derivative of the odometry residual is the corresponding coefficient of the Jacobian. *)
Corollary motion_partial_derivatives (T : R) (uk xkm1 xk : rvec) (i j : nat) : T <> 0 -> (i < 3)%nat -> (j < 3)%nat ->
  derivable_pt_lim (fun s => motion_error T uk (fun a => xkm1 a + s * (if Nat.eqb a j then 1 else 0)) xk i) 0 (motion_jacobian_xkm1 T xkm1 xk i j)
  /\ derivable_pt_lim (fun s => motion_error T uk xkm1 (fun a => xk a + s * (if Nat.eqb a j then 1 else 0)) i) 0 (motion_jacobian_xk T xkm1 xk i j).
Proof.
  intros HT Hi Hj.
  assert (C : forall x : rvec, has_velocity 3 (fun _ => x) 0 (fun _ => 0)) by (intros x a _; apply p_const).
  split.
  - pose proof (motion_jacobians T uk _ (fun _ => xk) 0 _ _ HT (line_has_velocity 3 xkm1 (fun a => if Nat.eqb a j then 1 else 0)) (C xk) i Hi) as H.
    cbv beta in H. eapply p_eq; [exact H|]. 
    destruct i as [|[|[|i]]]; [| | |lia]; destruct j as [|[|[|j]]]; try lia;
      cbv [motion_jacobian_xkm1 motion_jacobian_xk rmul rsum rset rzero rident rneg rdivs Nat.eqb andb];
      rewrite ?Rmult_0_r, ?Rmult_0_l, ?Rmult_1_r, ?Rplus_0_r, ?Rplus_0_l; field; exact HT.
  - pose proof (motion_jacobians T uk (fun _ => xkm1) _ 0 _ _ HT (C xkm1) (line_has_velocity 3 xk (fun a => if Nat.eqb a j then 1 else 0)) i Hi) as H.
    cbv beta in H. eapply p_eq; [exact H|]. 
    destruct i as [|[|[|i]]]; [| | |lia]; destruct j as [|[|[|j]]]; try lia;
      cbv [motion_jacobian_xkm1 motion_jacobian_xk rmul rsum rset rzero rident rneg rdivs Nat.eqb andb];
      rewrite ?Rmult_0_r, ?Rmult_0_l, ?Rmult_1_r, ?Rplus_0_r, ?Rplus_0_l; field; exact HT.
Qed.

(** ** C51: the weight of a residual *)
(** The contribution of an error term to the cost. *)
Definition cost {M} (n : nat) (toR : M -> rmat) (w : weighting M) (e : rvec) : R := chi_squared n (toR (w_invR w)) e.

(** Setting a new covariance is visible through the accessor, but the cost of every residual stays as it was. *)
Theorem set_covariance_no_effect {M} (n : nat) (toR : M -> rmat) (w : weighting M) (Q : M) (e : rvec) :
  getCovariance (setCovariance w Q) = Q /\ cost n toR (setCovariance w Q) e = cost n toR w e.
Proof. split; reflexivity. Qed.
(** The expectation "after setCovariance the term is weighted as if it had been constructed with that covariance" fails: *)
Theorem weight_follows_covariance_refuted : exists (w : weighting R) (Q : R) (e : rvec), Q <> 0 /\ getCovariance w <> 0 /\
  w = weighting_new Rinv (getCovariance w) /\
  cost 1 (fun x _ _ => x) (setCovariance w Q) e <> cost 1 (fun x _ _ => x) (weighting_new Rinv Q) e.
Proof.
  exists (weighting_new Rinv 1), 4, (fun _ => 2). unfold cost, chi_squared, weighting_new, setCovariance, getCovariance, rmul, rsum. simpl.
  repeat split; try lra.
Qed.
(** It holds for the covariance given to the constructor, and hence after any sequence of setCovariance calls the cost
    is that of the first covariance. *)
Theorem weight_is_first_covariance {M} (inv : M -> M) (n : nat) (toR : M -> rmat) (Q : M) (Qs : list M) (e : rvec) :
  cost n toR (List.fold_left setCovariance Qs (weighting_new inv Q)) e = chi_squared n (toR (inv Q)) e
  /\ getCovariance (List.fold_left setCovariance Qs (weighting_new inv Q)) = List.last Qs Q.
Proof.
  assert (H : forall w, w_invR (List.fold_left setCovariance Qs w) = w_invR w).
  { induction Qs as [|q Qs IH]; intros w; [reflexivity|]. simpl. rewrite IH. reflexivity. }
  split; [unfold cost; rewrite H; reflexivity|].
  assert (L : forall (l : list M) a b c, List.last (a :: l) b = List.last (a :: l) c).
  { induction l as [|x l IH]; intros a b c; [reflexivity|]. exact (IH x b c). }
  assert (G : forall w, getCovariance (List.fold_left setCovariance Qs w) = List.last Qs (getCovariance w)).
  { clear H. induction Qs as [|q Qs IH]; intros w; [reflexivity|]. simpl List.fold_left. rewrite IH.
    destruct Qs as [|q' Qs]; [reflexivity|]. apply (L Qs q'). }
  apply G.
Qed.
