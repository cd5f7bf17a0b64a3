(** The volumes of the random numbers with which sampleGamma gives a sample of at most a bound, for all shapes. *)
From stdpp Require Import prelude list.
From Coq Require Import Reals Lra Psatz.
From Coquelicot Require Import Coquelicot.
From Verif Require Import RandomizerModel Spec_Gamma Spec_Volume VolumeProofs Properties_GammaLaw GammaLawProofs NormalVolumeProofs.
Local Open Scope R_scope.
Local Notation acc := Properties_GammaLaw.acc.

Section trial.
  Context (f : R) (Hf : 0 < f < 1).
  Local Notation b := (gb f).
  Lemma b1 : 1 < b. Proof. by apply gb_gt. Qed.
  Lemma inv_b : 0 < 1 / b < 1.
  Proof.
    pose proof b1. split; [apply Rdiv_lt_0_compat; lra|]. apply Rmult_lt_reg_r with b; [lra|].
    unfold Rdiv. rewrite Rmult_assoc, Rinv_l by lra. lra.
  Qed.
  Lemma trial_in u w : 0 < u < 1 -> trial f u w = if Rlt_dec (acc f u) w then None else Some (Some (zval f u)).
  Proof.
    intros Hu. pose proof b1. unfold trial, Properties_GammaLaw.acc, zval. destruct (Rlt_dec 1 (b * u)) as [H1|H1].
    - destruct (Req_EM_T (b - b * u) 0) as [E|E]; [nra|]. done.
    - unfold rpow0. destruct (Req_EM_T (b * u) 0) as [E|E]; [nra|]. done.
  Qed.
  Lemma trial_0 w : w <= 1 -> trial f 0 w = Some (Some 0).
  Proof.
    intros Hw. unfold trial. rewrite Rmult_0_r. destruct (Rlt_dec 1 0); [lra|]. unfold rpow0. destruct (Req_EM_T 0 0); [|done].
    cbn zeta. rewrite Ropp_0, exp_0. destruct (Rlt_dec 1 w); [lra|done].
  Qed.
  Lemma trial_1 w : trial f 1 w = if Rlt_dec 0 w then None else Some None.
  Proof.
    pose proof b1. unfold trial. rewrite Rmult_1_r. destruct (Rlt_dec 1 b); [|lra]. destruct (Req_EM_T (b - b) 0); [|lra]. done.
  Qed.
  Lemma zval_pos u : 0 < u < 1 -> 0 < zval f u.
  Proof.
    intros Hu. unfold zval. destruct (Rlt_dec 1 (b * u)) as [H|H]; [pose proof (zval_big f Hf u ltac:(lra) H); lra|apply exp_pos].
  Qed.
  Lemma zval_le u t : 0 < u < 1 -> 0 < t -> (zval f u <= t <-> u <= phi f t).
  Proof.
    intros Hu Ht. pose proof (zval_phi f Hf u t Hu Ht) as E. split; intros H.
    - destruct (Rle_or_lt u (phi f t)) as [|Hlt]; [done|]. apply E in Hlt. lra.
    - destruct (Rle_or_lt (zval f u) t) as [|Hlt]; [done|]. apply E in Hlt. lra.
  Qed.

  (** The share of second numbers that are accepted. *)
  Definition accx (u : R) : R := if Rle_dec u 0 then 1 else if Rlt_dec u 1 then acc f u else 0.
  Lemma accx_in u : 0 < u < 1 -> accx u = acc f u.
  Proof. intros Hu. unfold accx. destruct (Rle_dec u 0); [lra|]. destruct (Rlt_dec u 1); [done|lra]. Qed.
  Lemma accx_range u : 0 <= accx u <= 1.
  Proof. unfold accx. destruct (Rle_dec u 0); [lra|]. destruct (Rlt_dec u 1); [|lra]. apply acc_range; [done|lra]. Qed.
  Definition f1 (u : R) : R := if Rle_dec u 0 then 1 else exp (- Rpower (b * u) (1 / f)).
  Definition f2 (u : R) : R := if Rlt_dec u 1 then Rpower (- ln ((b - b * u) / f)) (f - 1) else 0.
  Lemma f1_cont u : 0 <= u -> continuous f1 u.
  Proof.
    pose proof b1. intros [Hu|<-].
    - apply (continuous_ext_loc _ (fun u => exp (- exp (1 / f * ln (b * u))))).
      + exists (mkposreal u Hu). intros y Hy. apply Rabs_def2 in Hy. simpl in Hy. unfold minus, plus, opp in Hy; simpl in Hy.
        unfold f1, Rpower. destruct (Rle_dec y 0); [lra|done].
      + apply (ex_derive_continuous (fun u => exp (- exp (1 / f * ln (b * u))))). auto_derive. nra.
    - apply continuity_pt_filterlim. intros eps He. exists (Rpower eps f / b). split; [apply Rdiv_lt_0_compat; [apply Rpower_pos|lra]|].
      intros y [_ Hy]. simpl in *. unfold R_dist in *. rewrite Rminus_0_r in Hy. apply Rabs_def2 in Hy.
      unfold f1 at 2. destruct (Rle_dec 0 0); [|lra]. unfold f1. destruct (Rle_dec y 0) as [|Hn]; [rewrite Rminus_diag_eq, Rabs_R0 by done; lra|].
      assert (Hby : 0 < b * y) by nra.
      assert (Hp : Rpower (b * y) (1 / f) < eps).
      { rewrite <- (Rpower_root eps f) by lra. apply Rpower_lt_base; [done| |apply Rdiv_lt_0_compat; lra].
        destruct Hy as [Hy _]. apply (Rmult_lt_compat_l b) in Hy; [|lra]. replace (b * (Rpower eps f / b)) with (Rpower eps f) in Hy by (field; lra). done. }
      set (q := Rpower (b * y) (1 / f)) in *. assert (Hq : 0 < q) by apply Rpower_pos.
      pose proof (exp_ineq1_le (- q)) as H1. assert (H2 : exp (- q) < exp 0) by (apply exp_increasing; lra). rewrite exp_0 in H2.
      rewrite Rabs_left by lra. lra.
  Qed.
  Lemma f2_cont u : 1 / b <= u <= 1 -> continuous f2 u.
  Proof.
    pose proof b1 as Hb. intros [Hl [Hu| ->]].
    - assert (Hq : 0 < (b - b * u) / f) by (apply Rdiv_lt_0_compat; [nra|lra]).
      assert (Hbu : 1 <= b * u).
      { apply (Rmult_le_compat_l b) in Hl; [|lra]. replace (b * (1 / b)) with 1 in Hl by (field; lra). done. }
      assert (Hz : 0 < - ln ((b - b * u) / f)).
      { assert ((b - b * u) / f <= exp (Ropp 1)).
        { apply Rmult_le_reg_r with f; [lra|]. unfold Rdiv. rewrite Rmult_assoc, Rinv_l by lra. pose proof (a_exp f). lra. }
        assert (ln ((b - b * u) / f) <= ln (exp (Ropp 1))) as X.
        { destruct H as [H|H]; [left; by apply ln_increasing|right; by rewrite H]. } rewrite ln_exp in X. lra. }
      apply (continuous_ext_loc _ (fun u => exp ((f - 1) * ln (- ln ((b - b * u) / f))))).
      + exists (mkposreal (1 - u) ltac:(lra)). intros y Hy. apply Rabs_def2 in Hy. simpl in Hy. unfold minus, plus, opp in Hy; simpl in Hy.
        unfold f2, Rpower. destruct (Rlt_dec y 1); [done|lra].
      + apply (ex_derive_continuous (fun u => exp ((f - 1) * ln (- ln ((b - b * u) / f))))). auto_derive. split; [done|].
        split; [exact Hz|done].
    - apply continuity_pt_filterlim. intros eps He.
      (* a bound on the value: z^(f-1) < eps *)
      set (z0 := Rmax 1 (Rpower (/ eps) (/ (1 - f)))).
      assert (Hz0 : 1 <= z0) by apply Rmax_l. pose proof (phi_lt_1 f Hf z0 ltac:(lra)) as Hphi. pose proof inv_b as Hib.
      exists (Rmin (1 - phi f z0) (1 - 1 / b)). split; [apply Rmin_glb_lt; lra|].
      intros y [_ Hy]. simpl in *. unfold R_dist in *. unfold f2 at 2. destruct (Rlt_dec 1 1); [lra|]. rewrite Rminus_0_r.
      pose proof (Rmin_l (1 - phi f z0) (1 - 1 / b)). pose proof (Rmin_r (1 - phi f z0) (1 - 1 / b)).
      apply Rabs_def2 in Hy. unfold f2. destruct (Rlt_dec y 1) as [Hy1|]; [|rewrite Rabs_R0; lra].
      assert (Hy0 : 0 < y < 1) by lra. assert (Hz : z0 < zval f y) by (apply zval_phi; [done|done|lra|lra]).
      unfold zval in Hz. assert (Hby : 1 < b * y).
      { assert (1 / b < y) as X by lra. apply (Rmult_lt_compat_l b) in X; [|lra]. replace (b * (1 / b)) with 1 in X by (field; lra). done. }
      destruct (Rlt_dec 1 (b * y)); [|lra]. set (z := - ln ((b - b * y) / f)) in *.
      rewrite Rabs_pos_eq by (left; apply Rpower_pos).
      replace (f - 1) with (- (1 - f)) by ring. rewrite Rpower_Ropp. rewrite <- (Rinv_inv eps). apply Rinv_lt_contravar.
      { apply Rmult_lt_0_compat; [by apply Rinv_0_lt_compat|apply Rpower_pos]. }
      assert (E : Rpower (Rpower (/ eps) (/ (1 - f))) (1 - f) = / eps).
      { rewrite Rpower_mult, Rinv_l by lra. apply Rpower_1. by apply Rinv_0_lt_compat. }
      rewrite <- E. apply Rpower_lt_base; [apply Rpower_pos| |lra]. eapply Rle_lt_trans; [apply Rmax_r|exact Hz].
  Qed.
  Lemma accx_int : ex_RInt accx 0 1.
  Proof.
    pose proof b1 as Hb. pose proof inv_b as Hib. assert (Hone : forall u, u < 1 / b -> b * u < 1).
    { intros u Hu. apply (Rmult_lt_compat_l b) in Hu; [|lra]. replace (b * (1 / b)) with 1 in Hu by (field; lra). done. }
    assert (Hone' : forall u, 1 / b < u -> 1 < b * u).
    { intros u Hu. apply (Rmult_lt_compat_l b) in Hu; [|lra]. replace (b * (1 / b)) with 1 in Hu by (field; lra). done. }
    apply (@ex_RInt_Chasles R_NormedModule) with (1 / b).
    - apply ex_RInt_ext with f1.
      + intros u Hu. rewrite Rmin_left, Rmax_right in Hu by lra. rewrite accx_in by lra. unfold f1, Properties_GammaLaw.acc.
        destruct (Rle_dec u 0); [lra|]. destruct (Rlt_dec 1 (b * u)); [|done]. specialize (Hone u ltac:(lra)). lra.
      + apply (@ex_RInt_continuous R_CompleteNormedModule). intros z Hz. rewrite Rmin_left, Rmax_right in Hz by lra. apply f1_cont; lra.
    - apply ex_RInt_ext with f2.
      + intros u Hu. rewrite Rmin_left, Rmax_right in Hu by lra. rewrite accx_in by lra. unfold f2, Properties_GammaLaw.acc.
        destruct (Rlt_dec u 1); [|lra]. specialize (Hone' u ltac:(lra)). destruct (Rlt_dec 1 (b * u)); [done|lra].
      + apply (@ex_RInt_continuous R_CompleteNormedModule). intros z Hz. rewrite Rmin_left, Rmax_right in Hz by lra. apply f2_cont; lra.
  Qed.
  Lemma accx_part u v : 0 <= u -> u <= v -> v <= 1 -> ex_RInt accx u v.
  Proof.
    intros H1 H2 H3. apply (@ex_RInt_Chasles_1 R_CompleteNormedModule) with 1; [lra|]. apply (@ex_RInt_Chasles_2 R_CompleteNormedModule) with 0; [lra|]. apply accx_int.
  Qed.
  Lemma accx_bounds u v : 0 <= u -> u <= v -> v <= 1 -> 0 <= RInt accx u v <= v - u.
  Proof.
    intros H1 H2 H3. split.
    - apply RInt_ge_0; [done|by apply accx_part|]. intros; apply accx_range.
    - replace (v - u) with (RInt (fun _ => 1) u v).
      2:{ apply is_RInt_unique. pose proof (const_RInt u v 1) as X. by replace ((v - u) * 1) with (v - u) in X by ring. }
      apply RInt_le; [done|by apply accx_part|eexists; apply const_RInt|]. intros; apply accx_range.
  Qed.
  (** The probability of accepting. *)
  Definition Acc : R := RInt accx 0 1.
  Lemma VV_diff s t : 0 < s -> s <= t -> f / b * integral (euler f) s t = VV f 0 t - VV f 0 s.
  Proof.
    intros Hs Hst. pose proof b1.
    assert (H1 : is_RInt (fun x => dd f 0 * ee (f + INR 0 - 1) x) s t (VV f 0 t - VV f 0 s)).
    { apply (is_RInt_derive (VV f 0)); intros x Hx; rewrite Rmin_left, Rmax_right in Hx by lra.
      - apply VV_derive; [done|lra].
      - apply (continuous_scal_r (dd f 0) (ee (f + INR 0 - 1))). apply (ex_derive_continuous (ee (f + INR 0 - 1))). eexists. apply ee_derive. lra. }
    assert (H2 : is_RInt (fun x => dd f 0 * ee (f + INR 0 - 1) x) s t (f / b * integral (euler f) s t)).
    { apply is_RInt_ext with (fun x => scal (f / b) (euler f x)).
      - intros x Hx. rewrite Rmin_left, Rmax_right in Hx by lra. rewrite ee_pos by lra. simpl INR. rewrite Rplus_0_r. done.
      - apply (@is_RInt_scal R_NormedModule). apply (@RInt_correct R_CompleteNormedModule). by apply euler_int. }
    rewrite <- (is_RInt_unique _ _ _ _ H1). symmetry. by apply is_RInt_unique.
  Qed.
  Lemma accx_phi t : 0 < t -> RInt accx 0 (phi f t) = VV f 0 t.
  Proof.
    intros Ht. pose proof b1 as Hb. set (B := VV f 0 t).
    destruct (Req_dec (RInt accx 0 (phi f t) - B) 0) as [E|E]; [lra|]. exfalso. apply Rabs_pos_lt in E. set (e := Rabs (RInt accx 0 (phi f t) - B)) in *.
    set (q := fun s => 3 * ee f s + VV f 0 s).
    assert (Hq : continuous q 0).
    { apply (continuous_plus (fun s => 3 * ee f s) (VV f 0)); [|by apply VV_cont]. apply (continuous_scal_r 3 (ee f)). apply ee_cont. lra. }
    apply continuity_pt_filterlim in Hq. destruct (Hq (e / 2) ltac:(lra)) as (d & Hd & Hlim). simpl in Hlim. unfold R_dist in Hlim.
    assert (Hq0 : q 0 = 0) by (unfold q; rewrite ee_neg, VV_neg by lra; ring).
    set (s := Rmin (d / 2) (Rmin 1 (t / 2))).
    assert (Hs : 0 < s <= d / 2 /\ s <= 1 /\ s <= t / 2).
    { unfold s. pose proof (Rmin_l (d / 2) (Rmin 1 (t / 2))). pose proof (Rmin_r (d / 2) (Rmin 1 (t / 2))).
      pose proof (Rmin_l 1 (t / 2)). pose proof (Rmin_r 1 (t / 2)). split; [split; [|lra]|lra]. repeat apply Rmin_glb_lt; lra. }
    destruct Hs as ([Hs0 Hsd] & Hs1 & Hst).
    specialize (Hlim s). rewrite Hq0, !Rminus_0_r in Hlim.
    assert (Hqs : Rabs (q s) < e / 2). { apply Hlim. split; [split; [done|lra]|]. rewrite Rabs_pos_eq; lra. }
    assert (HVs : 0 <= VV f 0 s) by (rewrite <- (VV_neg f 0 0) by lra; apply VV_le; [done|lra]).
    pose proof (ee_nonneg f s) as He0. unfold q in Hqs. rewrite Rabs_pos_eq in Hqs by lra.
    assert (Hphis : phi f s <= 3 * ee f s).
    { unfold phi. destruct (Rle_dec s 1); [|lra]. unfold inv1. rewrite ee_pos in * by done.
      assert (He : / 3 <= exp (- s)).
      { rewrite exp_Ropp. apply Rinv_le_contravar; [apply exp_pos|]. apply Rle_trans with (exp 1); [|apply exp_le_3].
        destruct (Req_dec s 1) as [->|]; [lra|]. left. apply exp_increasing. lra. }
      pose proof (Rpower_pos s f) as Hp. apply Rle_trans with (Rpower s f); [|nra].
      apply Rmult_le_reg_r with b; [lra|]. unfold Rdiv. rewrite Rmult_assoc, Rinv_l by lra. nra. }
    pose proof (phi_pos f Hf s Hs0) as Hp0. pose proof (phi_lt_1 f Hf t Ht) as Hp1.
    assert (Hps : phi f s < phi f t) by (apply phi_lt; lra).
    assert (Esplit : RInt accx 0 (phi f t) = RInt accx 0 (phi f s) + (VV f 0 t - VV f 0 s)).
    { rewrite <- (RInt_Chasles accx 0 (phi f s) (phi f t)) by (apply accx_part; lra). change (plus ?x ?y) with (x + y). f_equal.
      rewrite <- VV_diff by lra. apply is_RInt_unique.
      apply is_RInt_ext with (acc f); [|apply acc_int; lra]. intros u Hu. rewrite Rmin_left, Rmax_right in Hu by lra. symmetry. apply accx_in. lra. }
    pose proof (accx_bounds 0 (phi f s) ltac:(lra) ltac:(lra) ltac:(lra)) as Hbd.
    assert (e <= e / 2); [|lra]. unfold e at 1. rewrite Esplit. unfold B. apply Rabs_le. lra.
  Qed.
  Lemma Acc_limit t : 1 < t -> 0 <= Acc - VV f 0 t <= exp (- t).
  Proof.
    intros Ht. pose proof b1. rewrite <- accx_phi by lra. pose proof (phi_pos f Hf t ltac:(lra)). pose proof (phi_lt_1 f Hf t ltac:(lra)).
    unfold Acc. rewrite <- (RInt_Chasles accx 0 (phi f t) 1) by (apply accx_part; lra). change (plus ?x ?y) with (x + y).
    pose proof (accx_bounds (phi f t) 1 ltac:(lra) ltac:(lra) ltac:(lra)) as Hbd.
    assert (1 - phi f t <= exp (- t)).
    { unfold phi. destruct (Rle_dec t 1); [lra|]. unfold inv2. pose proof (exp_pos (- t)).
      assert (f / b <= 1). { apply Rmult_le_reg_r with b; [lra|]. unfold Rdiv. rewrite Rmult_assoc, Rinv_l by lra. lra. } nra. }
    lra.
  Qed.
  Lemma Acc_range : 0 < Acc <= 1.
  Proof.
    pose proof b1. split.
    - pose proof (Acc_limit 2 ltac:(lra)). assert (0 < VV f 0 2); [|lra]. simpl.
      apply Rdiv_lt_0_compat; [|lra]. assert (0 < ee f 2) by (rewrite ee_pos by lra; apply Rmult_lt_0_compat; apply exp_pos).
      assert (0 <= AA f 2); [|lra]. apply RInt_ge_0; [lra|apply ee_int; lra|]. intros; apply ee_nonneg.
    - pose proof (accx_bounds 0 1). unfold Acc. lra.
  Qed.
  Lemma VV_limit n : forall d, 0 < d -> exists B, 0 < B /\ forall t, B <= t -> Rabs (VV f n t - Acc) < d.
  Proof.
    induction n as [|n IH]; intros d Hd.
    - exists (Rmax 2 (/ d)). split; [apply Rlt_le_trans with 2; [lra|apply Rmax_l]|]. intros t Ht.
      assert (H1 : 2 <= t) by (eapply Rle_trans; [apply Rmax_l|exact Ht]). assert (H2 : / d <= t) by (eapply Rle_trans; [apply Rmax_r|exact Ht]).
      pose proof (Acc_limit t ltac:(lra)) as HA.
      assert (exp (- t) < d).
      { rewrite exp_Ropp. rewrite <- (Rinv_inv d). apply Rinv_lt_contravar.
        - apply Rmult_lt_0_compat; [by apply Rinv_0_lt_compat|apply exp_pos].
        - pose proof (exp_ineq1 t ltac:(lra)). lra. }
      rewrite Rabs_minus_sym, Rabs_pos_eq; lra.
    - destruct (IH (d / 2) ltac:(lra)) as (B1 & HB1 & H1). pose proof (dd_pos f Hf (S n)) as Hdd.
      destruct (ee_top (f + INR n) (d / 2 / dd f (S n)) (fn_pos f Hf n)) as (B2 & HB2 & H2); [apply Rdiv_lt_0_compat; lra|].
      exists (Rmax B1 B2). split; [apply Rlt_le_trans with B1; [lra|apply Rmax_l]|]. intros t Ht.
      specialize (H1 t ltac:(eapply Rle_trans; [apply Rmax_l|exact Ht])). specialize (H2 t ltac:(eapply Rle_trans; [apply Rmax_r|exact Ht])).
      rewrite (VV_rec f Hf n) in H1. pose proof (ee_nonneg (f + INR n) t) as H0. set (x := ee (f + INR n) t) in *.
      apply (Rmult_lt_compat_l (dd f (S n))) in H2; [|done]. replace (dd f (S n) * (d / 2 / dd f (S n))) with (d / 2) in H2 by (field; lra).
      assert (0 <= dd f (S n) * x) by nra. apply Rabs_def2 in H1. apply Rabs_def1; lra.
  Qed.

  (** ** One attempt *)
  Definition hit (t : R) (l : list R) : Prop := match l with u :: w :: _ => exists z, trial f u w = Some (Some z) /\ z <= t | _ => False end.
  Definition rej (l : list R) : Prop := match l with u :: w :: _ => trial f u w = None | _ => False end.
  Lemma hit_volume t : has_volume 2 (hit t) (VV f 0 t).
  Proof.
    set (sl := fun u => if Req_EM_T u 0 then if Rlt_dec t 0 then 0 else 1 else
      if Rlt_dec 0 t then if Rle_dec u (phi f t) then accx u else 0 else 0).
    exists sl. split.
    - intros u Hu. change (fun l => hit t (u :: l)) with
        (fun l => match l with w :: _ => exists z, trial f u w = Some (Some z) /\ z <= t | [] => False end).
      unfold sl. destruct (Req_EM_T u 0) as [->|Hu0].
      + destruct (Rlt_dec t 0) as [H|H].
        * apply has_volume_false. intros [|w l] _ Hc; [tauto|]. inversion Hc; subst. rewrite trial_0 by lra. intros (z & [= <-] & ?). lra.
        * apply has_volume_true. intros [|w l] Hl Hc; [done|]. inversion Hc; subst. rewrite trial_0 by lra. exists 0. split; [done|lra].
      + destruct (Rlt_dec u 1) as [Hu1|Hu1].
        * assert (Hu' : 0 < u < 1) by lra. pose proof (zval_pos u Hu') as Hz. destruct (Rlt_dec 0 t) as [Ht|Ht].
          -- destruct (Rle_dec u (phi f t)) as [Hp|Hp].
             ++ apply (zval_le u t Hu' Ht) in Hp. pose proof (accx_range u) as Hr.
                enough (Hv : has_volume 1 (fun l => match l with w :: _ => exists z, trial f u w = Some (Some z) /\ z <= t | [] => False end) (accx u - 0))
                  by (rewrite Rminus_0_r in Hv; exact Hv).
                apply has_volume_interval; [lra|lra|]. intros w Hw N0 N1. rewrite trial_in by done. rewrite accx_in in * by done.
                destruct (Rlt_dec (acc f u) w); split.
                ** by intros (z & ? & _).
                ** lra.
                ** intros _. lra.
                ** intros _. by eexists.
             ++ apply has_volume_false. intros [|w l] _ _; [tauto|]. rewrite trial_in by done. intros (z & E & Hzt).
                destruct (Rlt_dec (acc f u) w); [done|]. injection E as <-. apply Hp. by apply zval_le.
          -- apply has_volume_false. intros [|w l] _ _; [tauto|]. rewrite trial_in by done. intros (z & E & Hzt).
             destruct (Rlt_dec (acc f u) w); [done|]. injection E as <-. lra.
        * assert (u = 1) as -> by lra.
          assert (H0 : (if Rlt_dec 0 t then if Rle_dec 1 (phi f t) then accx 1 else 0 else 0) = 0).
          { destruct (Rlt_dec 0 t) as [Ht|]; [|done]. pose proof (phi_lt_1 f Hf t Ht). destruct (Rle_dec 1 (phi f t)); [lra|done]. }
          rewrite H0. apply has_volume_false. intros [|w l] _ _; [tauto|]. rewrite trial_1. intros (z & E & _).
          destruct (Rlt_dec 0 w); done.
    - destruct (Rlt_dec 0 t) as [Ht|Ht].
      + pose proof (phi_pos f Hf t Ht). pose proof (phi_lt_1 f Hf t Ht).
        replace (VV f 0 t) with (VV f 0 t + (1 - phi f t) * 0) by ring.
        apply (@is_RInt_Chasles R_NormedModule) with (phi f t).
        * rewrite <- accx_phi by done. apply is_RInt_ext with accx; [|apply (@RInt_correct R_CompleteNormedModule), accx_part; lra].
          intros u Hu. rewrite Rmin_left, Rmax_right in Hu by lra. unfold sl. destruct (Req_EM_T u 0); [lra|].
          destruct (Rlt_dec 0 t); [|done]. destruct (Rle_dec u (phi f t)); [done|lra].
        * eapply is_RInt_ext; [|apply const_RInt]. intros u Hu. rewrite Rmin_left, Rmax_right in Hu by lra. unfold sl.
          destruct (Req_EM_T u 0); [lra|]. destruct (Rlt_dec 0 t); [|done]. destruct (Rle_dec u (phi f t)); [lra|done].
      + rewrite VV_neg by lra. replace 0 with ((1 - 0) * 0) at 2 by ring.
        eapply is_RInt_ext; [|apply const_RInt]. intros u Hu. rewrite Rmin_left, Rmax_right in Hu by lra. unfold sl.
        destruct (Req_EM_T u 0); [lra|]. destruct (Rlt_dec 0 t); [lra|done].
  Qed.
  Lemma rej_volume : has_volume 2 rej (1 - Acc).
  Proof.
    assert (HA : has_volume 2 (fun l => match l with u :: w :: _ => trial f u w <> None | _ => False end) Acc).
    { exists accx. split; [|apply (@RInt_correct R_CompleteNormedModule), accx_int]. intros u Hu.
      change (fun l => match u :: l with _ :: w :: _ => trial f u w <> None | _ => False end) with
        (fun l => match l with w :: _ => trial f u w <> None | [] => False end).
      enough (Hv : has_volume 1 (fun l => match l with w :: _ => trial f u w <> None | [] => False end) (accx u - 0))
        by (rewrite Rminus_0_r in Hv; exact Hv).
      pose proof (accx_range u). apply has_volume_interval; [lra|lra|]. intros w Hw N0 N1.
      destruct (Req_dec u 0) as [->|Hu0]; [|destruct (Req_dec u 1) as [->|Hu1]].
      - rewrite trial_0 by lra. unfold accx in *. destruct (Rle_dec 0 0); [|lra]. split; [lra|done].
      - rewrite trial_1. unfold accx in *. destruct (Rle_dec 1 0); [lra|]. destruct (Rlt_dec 1 1); [lra|].
        destruct (Rlt_dec 0 w); split; try done; lra.
      - rewrite trial_in by lra. rewrite accx_in in * by lra. destruct (Rlt_dec (acc f u) w); split; try done; lra. }
    eapply has_volume_ext; [|apply (has_volume_diff 2 _ (fun _ => True) _ _ HA); [by apply has_volume_true|done]].
    intros [|u [|w [|? l]]] Hl _; simpl in Hl; try lia. cbv beta iota. unfold rej. destruct (trial f u w); split; try done; try tauto.
  Qed.

  (** ** Attempts *)
  Fixpoint gatt (N : nat) (t : R) (l : list R) : Prop :=
    match N with O => False | S N' => hit t (take 2 l) \/ (rej (take 2 l) /\ gatt N' t (drop 2 l)) end.
  Definition kk (N : nat) : R := (1 - (1 - Acc) ^ N) / Acc.
  Lemma gatt_volume N t : has_volume (2 * N) (gatt N t) (kk N * VV f 0 t).
  Proof.
    pose proof Acc_range as HA. induction N as [|N IH].
    - replace (kk 0 * VV f 0 t) with 0 by (unfold kk; rewrite pow_O; field; lra). apply has_volume_false. intros l _ _ [].
    - replace (2 * S N)%nat with (2 + 2 * N)%nat by lia.
      replace (kk (S N) * VV f 0 t) with (VV f 0 t + (1 - Acc) * (kk N * VV f 0 t)).
      2:{ unfold kk. rewrite <- tech_pow_Rmult. field. lra. }
      apply (has_volume_seq 2 (2 * N) _ _ _ _ _ _ (hit_volume t) rej_volume); [|exact IH].
      intros [|u [|w l]]; simpl; [done|done|]. intros (z & -> & _) ?. done.
  Qed.
  Lemma gatt_mono N s t l : s <= t -> gatt N s l -> gatt N t l.
  Proof.
    intros Hst. revert l. induction N as [|N IH]; intros l; [done|]. cbn [gatt]. intros [H|[H1 H2]]; [left|right; auto].
    unfold hit in *. destruct (take 2 l) as [|u [|w l']]; [done|done|]. destruct H as (z & E & Hz). exists z. split; [done|lra].
  Qed.
  (** The integral part first: every number moves the bound. *)
  Fixpoint gsum (n : nat) (T : R -> list R -> Prop) (t : R) (l : list R) : Prop :=
    match n with O => T t l | S n' => match l with u :: l' => gsum n' T (t + ln u) l' | [] => False end end.
  Lemma gsum_volume n m (T : R -> list R -> Prop) k : (forall t, has_volume m (T t) (k * VV f 0 t)) ->
    forall t, has_volume (n + m) (gsum n T t) (k * VV f n t).
  Proof.
    intros HT. induction n as [|n IH]; intros t; [exact (HT t)|].
    exists (fun u => k * VV f n (t + ln u)). split; [intros u _; apply IH|].
    apply (is_RInt_scal (fun u => VV f n (t + ln u)) 0 1 k (VV f (S n) t)). by apply VV_step.
  Qed.
  Lemma gsum_mono n (T : R -> list R -> Prop) : (forall s t l, s <= t -> T s l -> T t l) ->
    forall s t l, s <= t -> gsum n T s l -> gsum n T t l.
  Proof.
    intros HT. induction n as [|n IH]; intros s t l Hst; [by apply HT|]. destruct l as [|u l]; [done|]. cbn [gsum]. apply IH. lra.
  Qed.
End trial.
