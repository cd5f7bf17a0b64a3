(** The area of the part of the unit square that sampleNormal maps above [s]. *)
From stdpp Require Import prelude list.
From Coq Require Import Reals Lra Psatz.
From Coquelicot Require Import Coquelicot.
From Verif Require Import Spec_Normal Spec_Volume VolumeProofs GaussIntegral.
Local Open Scope R_scope.

Section curve.
  Context (s : R) (Hs : 0 < s).
  Definition rr (y : R) : R := s * s + y * y.
  Definition U (y : R) : R := s / sqrt (rr y) * exp (- rr y / 4).
  Definition V (y : R) : R := y / sqrt (rr y) * exp (- rr y / 4).
  Lemma rr_pos y : 0 < rr y. Proof. unfold rr. nra. Qed.
  Lemma sq_pos y : 0 < sqrt (rr y). Proof. apply sqrt_lt_R0, rr_pos. Qed.
  Lemma sq_sq y : sqrt (rr y) * sqrt (rr y) = rr y. Proof. apply sqrt_sqrt. pose proof (rr_pos y). lra. Qed.
  Lemma ee y : exp (- rr y / 4) * exp (- rr y / 4) = exp (- rr y / 2).
  Proof. rewrite <- exp_plus. f_equal. field. Qed.
  Lemma e_lt1 y : exp (- rr y / 4) < 1.
  Proof. pose proof (rr_pos y). assert (X : exp (- rr y / 4) < exp 0) by (apply exp_increasing; lra). rewrite exp_0 in X. done. Qed.
  Lemma U_pos y : 0 < U y.
  Proof. apply Rmult_lt_0_compat; [apply Rdiv_lt_0_compat; [done|apply sq_pos]|apply exp_pos]. Qed.
  Lemma UV_sq y : U y * U y + V y * V y = exp (- rr y / 2).
  Proof.
    unfold U, V. rewrite <- ee. pose proof (sq_pos y). pose proof (sq_sq y) as E. set (q := sqrt (rr y)) in *. set (e := exp _).
    replace (s / q * e * (s / q * e) + y / q * e * (y / q * e)) with ((s * s + y * y) / (q * q) * (e * e)) by (field; lra).
    rewrite E. fold (rr y). field. pose proof (rr_pos y). lra.
  Qed.
  Lemma U_sq y : U y * U y = s * s / rr y * exp (- rr y / 2).
  Proof.
    unfold U. rewrite <- ee. pose proof (sq_pos y). pose proof (sq_sq y) as E. set (q := sqrt (rr y)) in *. set (e := exp _).
    rewrite <- E. field. lra.
  Qed.
  Lemma U_decr y z : 0 <= y -> y < z -> U z < U y.
  Proof.
    intros Hy Hz. assert (Hr : rr y < rr z) by (unfold rr; nra). pose proof (rr_pos y).
    assert (sqrt (rr y) < sqrt (rr z)) by (apply sqrt_lt_1; lra). pose proof (sq_pos y).
    unfold U. apply Rmult_gt_0_lt_compat.
    - apply exp_pos.
    - apply Rdiv_lt_0_compat; lra.
    - apply Rmult_lt_compat_l; [done|]. apply Rinv_lt_contravar; [|done]. apply Rmult_lt_0_compat; lra.
    - apply exp_increasing. lra.
  Qed.
  Lemma U_le y z : 0 <= y -> y <= z -> U z <= U y.
  Proof. intros Hy [H| ->]; [left; by apply U_decr|lra]. Qed.
  Lemma U_inj y z : 0 <= y -> 0 <= z -> U y = U z -> y = z.
  Proof.
    intros Hy Hz E. destruct (Rtotal_order y z) as [H|[H|H]]; [|done|].
    - pose proof (U_decr y z Hy H). lra.
    - pose proof (U_decr z y Hz H). lra.
  Qed.
  Lemma U_bound y : 0 < y -> U y < s / y.
  Proof.
    intros Hy. unfold U. pose proof (e_lt1 y). pose proof (exp_pos (- rr y / 4)).
    assert (y < sqrt (rr y)).
    { rewrite <- (sqrt_square y) at 1 by lra. apply sqrt_lt_1; unfold rr; nra. }
    assert (s / sqrt (rr y) < s / y).
    { apply Rmult_lt_compat_l; [done|]. apply Rinv_lt_contravar; [|done]. pose proof (sq_pos y). nra. }
    assert (0 < s / sqrt (rr y)) by (apply Rdiv_lt_0_compat; [done|apply sq_pos]). nra.
  Qed.
  Lemma U_0 : U 0 = exp (- (s * s) / 4).
  Proof.
    unfold U, rr. replace (s * s + 0 * 0) with (s * s) by ring. rewrite sqrt_square by lra.
    replace (s / s) with 1 by (field; lra). ring.
  Qed.
  Lemma V_0 : V 0 = 0. Proof. unfold V, Rdiv. ring. Qed.
  Lemma V_nonneg y : 0 <= y -> 0 <= V y.
  Proof.
    intros Hy. apply Rmult_le_pos; [|left; apply exp_pos]. apply Rmult_le_pos; [done|]. left. apply Rinv_0_lt_compat, sq_pos.
  Qed.
  Lemma V_le_exp y : 0 <= y -> V y <= exp (- rr y / 4).
  Proof.
    intros Hy. unfold V. pose proof (exp_pos (- rr y / 4)).
    assert (y <= sqrt (rr y)).
    { rewrite <- (sqrt_square y) at 1 by lra. apply sqrt_le_1; unfold rr; nra. }
    pose proof (sq_pos y). assert (y / sqrt (rr y) <= 1).
    { apply Rmult_le_reg_r with (sqrt (rr y)); [done|]. unfold Rdiv. rewrite Rmult_assoc, Rinv_l by lra. lra. }
    assert (0 <= y / sqrt (rr y)) by (apply Rmult_le_pos; [done|left; by apply Rinv_0_lt_compat]). nra.
  Qed.
  Definition dU (y : R) : R := - (s * y * exp (- rr y / 4) * (/ (sqrt (rr y) * rr y) + / (2 * sqrt (rr y)))).
  Lemma U_derive y : is_derive U y (dU y).
  Proof.
    unfold U, dU, rr. pose proof (rr_pos y) as Hr. pose proof (sq_pos y) as Hq. pose proof (sq_sq y) as E. unfold rr in Hr, Hq, E.
    auto_derive; [split; [done|split; [lra|done]]|].
    change (- (s * s + y * y) * / 4) with (- (s * s + y * y) / 4). set (e := exp _). clearbody e.
    replace (/ (sqrt (s * s + y * y) * (s * s + y * y))) with
      (/ (sqrt (s * s + y * y) * (sqrt (s * s + y * y) * sqrt (s * s + y * y)))) by (by rewrite E).
    set (q := sqrt (s * s + y * y)) in *. clearbody q. change (R_AbsRing : Type) with R in y. field. lra.
  Qed.
  Lemma U_cont y : continuous U y.
  Proof. apply (ex_derive_continuous U). eexists. apply U_derive. Qed.
  Lemma V_cont y : continuous V y.
  Proof.
    apply (ex_derive_continuous V). unfold V, rr. pose proof (rr_pos y) as Hr. pose proof (sq_pos y) as Hq. unfold rr in Hr, Hq.
    auto_derive. split; [done|split; [lra|done]].
  Qed.
  Lemma dU_cont y : continuous dU y.
  Proof.
    apply (ex_derive_continuous dU). unfold dU, rr. pose proof (rr_pos y) as Hr. pose proof (sq_pos y) as Hq. unfold rr in Hr, Hq.
    auto_derive. repeat split; try done; try lra. apply Rgt_not_eq, Rmult_lt_0_compat; done.
  Qed.

  (** The inverse of [U] on the positive half line. *)
  Lemma Y_ex u : 0 < u -> u < U 0 -> {y | 0 <= y /\ U y = u}.
  Proof.
    intros H1 H2.
    destruct (IVT_cor (fun y => U y - u) 0 (s / u)) as [z [Hz Ez]].
    - intros y. apply continuity_pt_filterlim. apply (continuous_minus U (fun _ => u)); [apply U_cont|apply continuous_const].
    - left. by apply Rdiv_lt_0_compat.
    - assert (Hb : U (s / u) < u).
      { pose proof (U_bound (s / u) ltac:(by apply Rdiv_lt_0_compat)) as X. replace (s / (s / u)) with u in X by (field; lra). done. }
      nra.
    - exists z. split; [lra|lra].
  Qed.
  Definition Y (u : R) : R :=
    match Rlt_dec 0 u, Rlt_dec u (U 0) with left h1, left h2 => proj1_sig (Y_ex u h1 h2) | _, _ => 0 end.
  Lemma Y_spec u : 0 < u -> u < U 0 -> 0 <= Y u /\ U (Y u) = u.
  Proof.
    intros H1 H2. unfold Y. destruct (Rlt_dec 0 u); [|lra]. destruct (Rlt_dec u (U 0)); [|lra].
    by destruct (Y_ex u r r0).
  Qed.
  Lemma Y_top u : U 0 <= u -> Y u = 0.
  Proof. intros H. unfold Y. destruct (Rlt_dec 0 u); [|done]. destruct (Rlt_dec u (U 0)); [exfalso; lra|done]. Qed.
  Lemma Y_U y : 0 <= y -> Y (U y) = y.
  Proof.
    intros Hy. destruct (Req_dec y 0) as [->|Hn]; [apply Y_top; lra|].
    destruct (Y_spec (U y) (U_pos y)) as [H1 H2]; [apply U_decr; lra|]. by apply U_inj.
  Qed.
  Lemma Y_nonneg u : 0 <= Y u.
  Proof. unfold Y. destruct (Rlt_dec 0 u); [|lra]. destruct (Rlt_dec u (U 0)); [|lra]. by destruct (Y_ex u r r0) as [? [? ?]]. Qed.
  (** [Y] turns the order round. *)
  Lemma Y_lt u y : 0 < u -> 0 <= y -> U y < u -> Y u < y \/ (Y u = 0 /\ y = 0).
  Proof.
    intros Hu Hy H. destruct (Rlt_dec u (U 0)) as [H0|H0].
    - left. destruct (Y_spec u Hu H0) as [A B]. destruct (Rlt_dec (Y u) y) as [|Hn]; [done|]. exfalso.
      pose proof (U_le y (Y u) Hy ltac:(lra)). lra.
    - rewrite Y_top by lra. lra.
  Qed.
  Lemma Y_gt u y : 0 < u -> 0 <= y -> u < U y -> y < Y u.
  Proof.
    intros Hu Hy H. assert (u < U 0) by (pose proof (U_le 0 y ltac:(lra) Hy); lra).
    destruct (Y_spec u Hu ltac:(done)) as [A B]. destruct (Rlt_dec y (Y u)) as [|Hn]; [done|]. exfalso.
    pose proof (U_le (Y u) y A ltac:(lra)). lra.
  Qed.

  (** Half the width of the slice at [u]. *)
  Definition w (u : R) : R := if Rlt_dec 0 u then V (Y u) else 0.
  Lemma w_U y : 0 <= y -> w (U y) = V y.
  Proof. intros Hy. unfold w. destruct (Rlt_dec 0 (U y)) as [|Hn]; [by rewrite Y_U|]. pose proof (U_pos y). lra. Qed.
  Lemma w_neg u : u <= 0 -> w u = 0. Proof. intros H. unfold w. destruct (Rlt_dec 0 u); [lra|done]. Qed.
  Lemma w_top u : U 0 <= u -> w u = 0.
  Proof. intros H. unfold w. rewrite Y_top by done. rewrite V_0. by destruct (Rlt_dec 0 u). Qed.
  Lemma w_range u : 0 <= w u < 1.
  Proof.
    unfold w. destruct (Rlt_dec 0 u); [|lra]. pose proof (Y_nonneg u) as H. pose proof (V_nonneg _ H). pose proof (V_le_exp _ H).
    pose proof (e_lt1 (Y u)). lra.
  Qed.
  Lemma Y_cont u : 0 < u -> continuous Y u.
  Proof.
    intros Hu. apply continuity_pt_filterlim. intros eps He. simpl.
    set (y := Y u). assert (Hy : 0 <= y) by apply Y_nonneg.
    assert (Hup : exists d, 0 < d /\ forall x, 0 < x -> Rabs (x - u) < d -> Y x < y + eps).
    { assert (U (y + eps / 2) < u).
      { destruct (Rlt_dec u (U 0)) as [H0|H0].
        - destruct (Y_spec u Hu H0) as [_ E]. rewrite <- E. apply U_decr; [apply Y_nonneg|unfold y; lra].
        - pose proof (U_decr 0 (y + eps / 2) ltac:(lra) ltac:(lra)). lra. }
      exists (u - U (y + eps / 2)). split; [lra|]. intros x Hx Hd. apply Rabs_def2 in Hd.
      destruct (Y_lt x (y + eps / 2) Hx ltac:(lra) ltac:(lra)); lra. }
    assert (Hlo : exists d, 0 < d /\ forall x, 0 < x -> Rabs (x - u) < d -> y - eps < Y x).
    { destruct (Rlt_dec y eps) as [Hc|Hc].
      - exists 1. split; [lra|]. intros x _ _. pose proof (Y_nonneg x). lra.
      - assert (H0 : u < U 0).
        { destruct (Rlt_dec u (U 0)) as [|H0]; [done|]. unfold y in Hc. rewrite Y_top in Hc by lra. lra. }
        destruct (Y_spec u Hu H0) as [_ E].
        assert (u < U (y - eps)) by (rewrite <- E at 1; apply U_decr; unfold y in *; lra).
        exists (U (y - eps) - u). split; [lra|]. intros x Hx Hd. apply Rabs_def2 in Hd. apply Y_gt; lra. }
    destruct Hup as (d1 & Hd1 & H1), Hlo as (d2 & Hd2 & H2).
    exists (Rmin u (Rmin d1 d2)). split; [repeat apply Rmin_glb_lt; lra|]. intros x [_ Hx]. unfold R_dist in *.
    assert (Rabs (x - u) < u /\ Rabs (x - u) < d1 /\ Rabs (x - u) < d2) as (Ha & Hb & Hc).
    { pose proof (Rmin_l u (Rmin d1 d2)). pose proof (Rmin_r u (Rmin d1 d2)). pose proof (Rmin_l d1 d2). pose proof (Rmin_r d1 d2). lra. }
    apply Rabs_def2 in Ha as Ha'. specialize (H1 x ltac:(lra) Hb). specialize (H2 x ltac:(lra) Hc).
    apply Rabs_def1; unfold y in *; lra.
  Qed.
  Lemma w_cont u : continuous w u.
  Proof.
    destruct (Rtotal_order u 0) as [Hu|[Hu|Hu]].
    - apply continuous_ext_loc with (fun _ => 0); [|apply continuous_const].
      exists (mkposreal (- u) ltac:(lra)). intros x Hx. apply Rabs_def2 in Hx. simpl in Hx. unfold minus, plus, opp in Hx; simpl in Hx.
      rewrite w_neg; [done|lra].
    - subst u. apply continuity_pt_filterlim. intros eps He. simpl.
      set (y := / eps * 4 + 4).
      assert (Hy : 4 < y) by (unfold y; pose proof (Rinv_0_lt_compat eps He); lra).
      assert (Hsmall : forall z, y < z -> V z < eps).
      { intros z Hz. eapply Rle_lt_trans; [apply V_le_exp; lra|].
        assert (Hz2 : z <= rr z / 4) by (unfold rr; nra).
        apply Rle_lt_trans with (exp (- z)).
        - destruct (Req_dec (- rr z / 4) (- z)) as [->|]; [lra|]. left. apply exp_increasing. lra.
        - rewrite exp_Ropp. assert (Hez : / eps < exp z).
          { apply Rlt_trans with z; [unfold y in Hz; pose proof (Rinv_0_lt_compat eps He); lra|].
            pose proof (exp_ineq1 z ltac:(lra)). lra. }
          pose proof (Rinv_0_lt_compat eps He). rewrite <- (Rinv_inv eps). apply Rinv_lt_contravar; [|done].
          apply Rmult_lt_0_compat; [done|apply exp_pos]. }
      exists (U y). split; [apply U_pos|]. intros x [_ Hx]. unfold R_dist in *. rewrite (w_neg 0) by lra. rewrite Rminus_0_r in *.
      destruct (Rlt_dec 0 x) as [H0|H0].
      + rewrite Rabs_pos_eq in Hx by lra. pose proof (Y_gt x y H0 ltac:(lra) Hx) as Hg.
        unfold w. destruct (Rlt_dec 0 x); [|lra]. rewrite Rabs_pos_eq by (apply V_nonneg, Y_nonneg). by apply Hsmall.
      + rewrite w_neg by lra. rewrite Rabs_R0. done.
    - apply continuous_ext_loc with (fun u => V (Y u)).
      + exists (mkposreal u Hu). intros x Hx. apply Rabs_def2 in Hx. simpl in Hx. unfold minus, plus, opp in Hx; simpl in Hx.
        unfold w. destruct (Rlt_dec 0 x); [done|lra].
      + apply (continuous_comp Y V); [by apply Y_cont|apply V_cont].
  Qed.
  Lemma w_int a b : ex_RInt w a b.
  Proof. apply (@ex_RInt_continuous R_CompleteNormedModule). intros z _. apply w_cont. Qed.

  (** The area under the slice widths. *)
  Definition W : R := RInt w 0 1.
  Definition p : R := s / sqrt 2.
  Lemma p_sq : p * p = s * s / 2.
  Proof.
    unfold p. pose proof (sqrt_sqrt 2 ltac:(lra)) as E. assert (0 < sqrt 2) by (apply sqrt_lt_R0; lra).
    replace (s / sqrt 2 * (s / sqrt 2)) with (s * s / (sqrt 2 * sqrt 2)) by (field; lra). by rewrite E.
  Qed.
  Definition gz (N : R) : R := RInt (fun t => GaussIntegral.g p t) 0 N.
  Lemma gz_ex a b : ex_RInt (fun t => GaussIntegral.g p t) a b.
  Proof. apply (@ex_RInt_continuous R_CompleteNormedModule). intros; apply g_cont. Qed.
  Lemma gz_derive N : is_derive gz N (GaussIntegral.g p N).
  Proof.
    apply (is_derive_RInt (fun t => GaussIntegral.g p t) gz 0 N); [|apply g_cont].
    apply filter_forall. intros y. apply (@RInt_correct R_CompleteNormedModule), gz_ex.
  Qed.
  Definition K (y : R) : R := - / 2 * (s * y * exp (- rr y / 2) / rr y) + / 2 * gz (y / s).
  Lemma K_derive y : is_derive K y (- (dU y * V y)).
  Proof.
    assert (H1 : is_derive (fun y => gz (y / s)) y (/ s * GaussIntegral.g p (y / s))).
    { evar_last; [apply (is_derive_comp gz (fun y => y / s) y (GaussIntegral.g p (y / s)) (/ s)); [apply gz_derive|auto_derive; [done|field; lra]]|done]. }
    pose proof (rr_pos y) as Hr.
    assert (H2 : is_derive (fun y => s * y * exp (- rr y / 2) / rr y) y
      (s * exp (- rr y / 2) * (/ rr y - y * y / rr y - 2 * (y * y) / (rr y * rr y)))).
    { unfold rr in *. auto_derive; [lra|]. change (- (s * s + y * y) * / 2) with (- (s * s + y * y) / 2).
      set (e := exp _). clearbody e. field. change (R_AbsRing : Type) with R in y. lra. }
    evar_last.
    - apply (is_derive_plus (fun y => - / 2 * (s * y * exp (- rr y / 2) / rr y)) (fun y => / 2 * gz (y / s))).
      + apply (is_derive_scal (fun y => s * y * exp (- rr y / 2) / rr y) y (- / 2)). exact H2.
      + apply (is_derive_scal (fun y => gz (y / s)) y (/ 2)). exact H1.
    - unfold plus, scal, mult; simpl. unfold mult; simpl. unfold GaussIntegral.g. rewrite p_sq.
      assert (Ex : - (s * s / 2) * (1 + y / s * (y / s)) = - rr y / 2) by (unfold rr; field; lra). rewrite Ex.
      assert (E1 : 1 + y / s * (y / s) = rr y / (s * s)) by (unfold rr; field; lra). rewrite E1.
      unfold dU, V. rewrite <- ee. pose proof (sq_pos y) as Hq. pose proof (sq_sq y) as E. set (q := sqrt (rr y)) in *. set (e := exp _).
      clearbody q e. rewrite <- E in *. field. split; lra.
  Qed.
  Lemma w_part M : 0 <= M -> RInt w (U M) (U 0) = K M.
  Proof.
    intros HM.
    assert (H1 : is_RInt (fun y => scal (dU y) (w (U y))) M 0 (RInt w (U M) (U 0))).
    { apply (@is_RInt_comp R_CompleteNormedModule w U dU); intros x _; [apply w_cont|]. split; [apply U_derive|apply dU_cont]. }
    assert (H2 : is_RInt (fun y => - (dU y * V y)) 0 M (K M - K 0)).
    { apply (is_RInt_derive K); intros x _; [apply K_derive|].
      apply (continuous_opp (fun y => dU y * V y)). apply (continuous_mult dU V); [apply dU_cont|apply V_cont]. }
    assert (H3 : is_RInt (fun y => scal (dU y) (w (U y))) M 0 (opp (opp (K M - K 0)))).
    { apply (@is_RInt_swap R_NormedModule). apply is_RInt_ext with (fun y => opp (- (dU y * V y))).
      - intros x Hx. rewrite Rmin_left, Rmax_right in Hx by lra. rewrite w_U by lra. unfold opp, scal, mult; simpl. unfold mult; simpl. ring.
      - by apply (@is_RInt_opp R_NormedModule). }
    rewrite <- (is_RInt_unique _ _ _ _ H1), (is_RInt_unique _ _ _ _ H3).
    assert (K 0 = 0) as ->.
    { unfold K, gz. replace (0 / s) with 0 by (field; lra). rewrite RInt_point. unfold zero; simpl. unfold Rdiv. ring. }
    unfold opp; simpl. ring.
  Qed.
  Lemma U_0_lt : U 0 < 1.
  Proof. rewrite U_0. assert (X : exp (- (s * s) / 4) < exp 0) by (apply exp_increasing; nra). rewrite exp_0 in X. done. Qed.
  (** The area is close to the Gaussian integrals. *)
  Lemma W_close N : 1 <= N -> Rabs (W - / 2 * gz N) <= 2 / N.
  Proof.
    intros HN. set (M := s * N). assert (HM : 0 < M) by (unfold M; nra).
    assert (EW : W = RInt w 0 (U M) + K M).
    { unfold W. rewrite <- (RInt_Chasles w 0 (U M) 1) by apply w_int. rewrite <- (RInt_Chasles w (U M) (U 0) 1) by apply w_int.
      rewrite w_part by lra.
      assert (RInt w (U 0) 1 = 0) as ->.
      { apply is_RInt_unique. apply is_RInt_ext with (fun _ => 0).
        - intros x Hx. pose proof U_0_lt. rewrite Rmin_left, Rmax_right in Hx by lra. rewrite w_top by lra. done.
        - pose proof (const_RInt (U 0) 1 0) as X. by rewrite Rmult_0_r in X. }
      unfold plus; simpl. ring. }
    assert (HU : U M <= / N).
    { left. replace (/ N) with (s / M) by (unfold M; field; lra). by apply U_bound. }
    assert (Hw : 0 <= RInt w 0 (U M) <= U M).
    { pose proof (U_pos M). split.
      - apply RInt_ge_0; [lra|apply w_int|]. intros x _. apply w_range.
      - replace (U M) with (RInt (fun _ => 1) 0 (U M)) at 2.
        2:{ apply is_RInt_unique. pose proof (const_RInt 0 (U M) 1) as X. by replace ((U M - 0) * 1) with (U M) in X by ring. }
        apply RInt_le; [lra|apply w_int|eexists; apply const_RInt|]. intros x _. pose proof (w_range x). lra. }
    assert (HK : K M = - / 2 * (s * M * exp (- rr M / 2) / rr M) + / 2 * gz N).
    { unfold K. replace (M / s) with N by (unfold M; field; lra). done. }
    assert (Hq : 0 <= s * M * exp (- rr M / 2) / rr M <= / N).
    { pose proof (rr_pos M) as Hr. pose proof (exp_pos (- rr M / 2)) as He.
      assert (He1 : exp (- rr M / 2) < 1).
      { assert (X : exp (- rr M / 2) < exp 0) by (apply exp_increasing; lra). rewrite exp_0 in X. done. }
      assert (Hc : s * M / rr M <= / N).
      { apply Rmult_le_reg_r with (rr M); [done|]. unfold Rdiv. rewrite Rmult_assoc, Rinv_l, Rmult_1_r by lra.
        apply Rmult_le_reg_l with N; [lra|]. replace (N * (/ N * rr M)) with (rr M) by (field; lra). unfold rr, M. nra. }
      assert (Hc0 : 0 <= s * M / rr M) by (apply Rmult_le_pos; [nra|left; by apply Rinv_0_lt_compat]).
      replace (s * M * exp (- rr M / 2) / rr M) with (s * M / rr M * exp (- rr M / 2)) by (unfold Rdiv; ring). nra. }
    rewrite EW, HK. assert (0 < / N) by (apply Rinv_0_lt_compat; lra). unfold Rdiv. apply Rabs_le. lra.
  Qed.
End curve.

(** ** How the Gaussian integrals depend on the parameter *)
Definition GN (N x : R) : R := RInt (fun t => GaussIntegral.g x t) 0 N.
Lemma GN_derive N x : is_derive (GN N) x (- 2 * exp (- (x * x)) * GaussIntegral.F (x * N)).
Proof.
  assert (HD : forall u t, Derive (fun z => GaussIntegral.g z t) u = GaussIntegral.dg u t) by (intros; apply is_derive_unique, g_derive).
  evar_last.
  - apply (is_derive_RInt_param GaussIntegral.g 0 N x).
    + apply filter_forall. intros y t _. eexists. apply g_derive.
    + intros t _. apply (continuity_2d_pt_ext GaussIntegral.dg); [intros; symmetry; apply HD|apply dg_cont2].
    + apply filter_forall. intros y. apply (@ex_RInt_continuous R_CompleteNormedModule). intros; apply g_cont.
  - assert (E2 : RInt (fun t => x * exp (- ((x * t + 0) * (x * t + 0)))) 0 N =
                 RInt (fun t => exp (- (t * t))) (x * 0 + 0) (x * N + 0)).
    { exact (RInt_comp_lin (fun t => exp (- (t * t))) x 0 0 N (NormalErfProofs.gexp_ex _ _)). }
    rewrite Rmult_0_r, !Rplus_0_r in E2.
    assert (E1 : RInt (fun t => (-2 * exp (- (x * x))) * (x * exp (- ((x * t + 0) * (x * t + 0))))) 0 N =
                 (-2 * exp (- (x * x))) * RInt (fun t => x * exp (- ((x * t + 0) * (x * t + 0)))) 0 N).
    { apply (RInt_scal (fun t => x * exp (- ((x * t + 0) * (x * t + 0))))).
      apply (@ex_RInt_continuous R_CompleteNormedModule). intros z _.
      apply (ex_derive_continuous (fun t => x * exp (- ((x * t + 0) * (x * t + 0))))). auto_derive. done. }
    unfold GaussIntegral.F. rewrite <- E2, <- E1. apply RInt_ext. intros t _. rewrite HD. unfold GaussIntegral.dg.
    replace (- (x * x) * (1 + t * t)) with (- (x * x) + - ((x * t + 0) * (x * t + 0))) by ring. rewrite exp_plus.
    match goal with |- ?a = ?b => change (@eq R a b) end. ring.
Qed.
Lemma F_close x : 0 < x -> 0 <= sqrt PI / 2 - GaussIntegral.F x <= 2 / (sqrt PI * x).
Proof.
  intros Hx. pose proof (erf_tail x Hx) as H1. pose proof (erf_bound x) as [_ H2]. rewrite erf_F in *.
  pose proof PI_RGT_0. assert (Hp : 0 < sqrt PI) by (by apply sqrt_lt_R0).
  pose proof (sqrt_sqrt PI ltac:(lra)) as E. set (r := sqrt PI) in *. set (f := GaussIntegral.F x) in *.
  assert (Ef : f = r / 2 * (2 / r * f)) by (field; lra). split.
  - rewrite Ef. assert (r / 2 * (2 / r * f) < r / 2 * 1) by (apply Rmult_lt_compat_l; lra). lra.
  - rewrite Ef. assert (r / 2 * (1 - 4 / PI * / x) < r / 2 * (2 / r * f)) by (apply Rmult_lt_compat_l; lra).
    replace (2 / (r * x)) with (r / 2 * (4 / PI * / x)) by (rewrite <- E; field; lra). lra.
Qed.
Lemma GN_diff N a b : 0 < a -> a <= b -> 0 < N ->
  Rabs (GN N a - GN N b - sqrt PI * (GaussIntegral.F b - GaussIntegral.F a)) <= 4 * (b - a) / (sqrt PI * a * N).
Proof.
  intros Ha Hab HN. pose proof PI_RGT_0. assert (Hp : 0 < sqrt PI) by (by apply sqrt_lt_R0).
  set (D := fun x => GN N x + sqrt PI * GaussIntegral.F x).
  set (dD := fun x => 2 * exp (- (x * x)) * (sqrt PI / 2 - GaussIntegral.F (x * N))).
  assert (HD : forall x, is_derive D x (dD x)).
  { intros x. evar_last.
    - apply (is_derive_plus (GN N) (fun x => sqrt PI * GaussIntegral.F x)); [apply GN_derive|].
      apply (is_derive_scal GaussIntegral.F x (sqrt PI)). apply F_derive.
    - unfold plus, scal, mult, dD; simpl. unfold mult; simpl. field. }
  destruct (MVT_gen D a b dD) as (c & Hc & E).
  - intros x _. apply HD.
  - intros x _. apply continuity_pt_filterlim. apply (ex_derive_continuous D). eexists. apply HD.
  - rewrite Rmin_left, Rmax_right in Hc by lra.
    replace (GN N a - GN N b - sqrt PI * (GaussIntegral.F b - GaussIntegral.F a)) with (- (D b - D a)) by (unfold D; ring).
    rewrite E, Rabs_Ropp. unfold dD.
    assert (HcN : a * N <= c * N) by (apply Rmult_le_compat_r; lra). assert (0 < a * N) by (by apply Rmult_lt_0_compat).
    pose proof (F_close (c * N) ltac:(lra)) as [F1 F2].
    assert (He : 0 < exp (- (c * c)) <= 1).
    { split; [apply exp_pos|]. assert (X : exp (- (c * c)) < exp 0) by (apply exp_increasing; nra). rewrite exp_0 in X. lra. }
    assert (F3 : 2 / (sqrt PI * (c * N)) <= 2 / (sqrt PI * (a * N))).
    { apply Rmult_le_compat_l; [lra|]. apply Rinv_le_contravar; [by apply Rmult_lt_0_compat|]. apply Rmult_le_compat_l; lra. }
    rewrite Rabs_pos_eq.
    + replace (4 * (b - a) / (sqrt PI * a * N)) with (2 * (2 / (sqrt PI * (a * N))) * (b - a)) by (field; lra).
      apply Rmult_le_compat_r; [lra|]. set (z := sqrt PI / 2 - GaussIntegral.F (c * N)) in *. nra.
    + apply Rmult_le_pos; [|lra]. apply Rmult_le_pos; [|lra]. lra.
Qed.
(** The difference of two areas. *)
Lemma W_diff s t (Hs : 0 < s) (Ht : 0 < t) : s <= t -> W s Hs - W t Ht = / 2 * sqrt PI * (GaussIntegral.F (p t) - GaussIntegral.F (p s)).
Proof.
  intros Hst. set (B := / 2 * sqrt PI * (GaussIntegral.F (p t) - GaussIntegral.F (p s))).
  assert (H2 : 0 < sqrt 2) by (apply sqrt_lt_R0; lra). assert (Hp : 0 < p s) by (by apply Rdiv_lt_0_compat).
  assert (Hpq : p s <= p t) by (apply Rmult_le_compat_r; [left; by apply Rinv_0_lt_compat|done]).
  pose proof PI_RGT_0. assert (Hpi : 0 < sqrt PI) by (by apply sqrt_lt_R0).
  set (k := 4 + 2 * (p t - p s) / (sqrt PI * p s)).
  assert (Hk : 4 <= k).
  { unfold k. assert (0 <= 2 * (p t - p s) / (sqrt PI * p s)); [|lra].
    apply Rmult_le_pos; [lra|]. left. apply Rinv_0_lt_compat. by apply Rmult_lt_0_compat. }
  assert (Hall : forall N, 1 <= N -> Rabs (W s Hs - W t Ht - B) <= k / N).
  { intros N HN. pose proof (W_close s Hs N HN) as A1. pose proof (W_close t Ht N HN) as A2.
    pose proof (GN_diff N (p s) (p t) Hp Hpq ltac:(lra)) as A3. change (gz s N) with (GN N (p s)) in A1. change (gz t N) with (GN N (p t)) in A2.
    replace (W s Hs - W t Ht - B) with ((W s Hs - / 2 * GN N (p s)) - (W t Ht - / 2 * GN N (p t)) +
      / 2 * (GN N (p s) - GN N (p t) - sqrt PI * (GaussIntegral.F (p t) - GaussIntegral.F (p s)))) by (unfold B; ring).
    replace (k / N) with (2 / N + 2 / N + / 2 * (4 * (p t - p s) / (sqrt PI * p s * N))) by (unfold k; field; lra).
    eapply Rle_trans; [apply Rabs_triang|]. apply Rplus_le_compat.
    - unfold Rminus at 1. eapply Rle_trans; [apply Rabs_triang|]. rewrite Rabs_Ropp. lra.
    - rewrite Rabs_mult, (Rabs_pos_eq (/ 2)) by lra. apply Rmult_le_compat_l; lra. }
  destruct (Req_dec (W s Hs - W t Ht - B) 0) as [E|E]; [lra|]. exfalso.
  apply Rabs_pos_lt in E. set (e := Rabs (W s Hs - W t Ht - B)) in *.
  set (N := Rmax 1 (2 * k / e)). specialize (Hall N (Rmax_l _ _)).
  assert (HN : 2 * k / e <= N) by apply Rmax_r. assert (HN1 : 1 <= N) by apply Rmax_l.
  apply (Rmult_le_compat_r e) in HN; [|lra]. replace (2 * k / e * e) with (2 * k) in HN by (field; lra).
  apply (Rmult_le_compat_r N) in Hall; [|lra]. replace (k / N * N) with k in Hall by (field; lra). lra.
Qed.
