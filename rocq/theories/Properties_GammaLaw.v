(** C124, continued: sampleGamma with a shape below one.  The sampler makes trials of two random numbers each and returns the value of
    the first trial it accepts; an accepted value lies between [s] and [t] with a probability proportional to the integral of the
    gamma density there, with the same factor for all [s] and [t]. *)
From stdpp Require Import prelude list.
From Coq Require Import Reals Lra Psatz ZArith.
From Flocq Require Import Core.
From Coquelicot Require Import Coquelicot.
From Verif Require Import Base UniformModel RandomizerModel Spec_Randomizer Spec_Gamma Spec_Volume VolumeProofs
  RandomizerProofs Properties_Randomizer Properties_SamplerLaw.
Local Open Scope R_scope.

Lemma Rpower_base1 e : Rpower 1 e = 1.
Proof. unfold Rpower. rewrite ln_1, Rmult_0_r. apply exp_0. Qed.
Lemma Rpower_lt_base x y e : 0 < x -> x < y -> 0 < e -> Rpower x e < Rpower y e.
Proof. intros Hx Hy He. apply exp_increasing. apply Rmult_lt_compat_l; [done|]. by apply ln_increasing. Qed.
Lemma Rpower_le_base x y e : 0 < x -> x <= y -> 0 < e -> Rpower x e <= Rpower y e.
Proof. intros Hx [H| ->] He; [left; by apply Rpower_lt_base|lra]. Qed.
Lemma Rpower_pos x e : 0 < Rpower x e. Proof. apply exp_pos. Qed.
Lemma Rpower_root x e : 0 < x -> 0 < e -> Rpower (Rpower x e) (1 / e) = x.
Proof. intros Hx He. rewrite Rpower_mult. replace (e * (1 / e)) with 1 by (field; lra). by apply Rpower_1. Qed.
Lemma Rpower_root' x e : 0 < x -> 0 < e -> Rpower (Rpower x (1 / e)) e = x.
Proof. intros Hx He. rewrite Rpower_mult. replace (1 / e * e) with 1 by (field; lra). by apply Rpower_1. Qed.

Section trial.
  Context (a : R) (Ha : 0 < a < 1).
  Definition gb : R := (exp 1 + a) / exp 1.
  Lemma gb_eq : gb = 1 + a / exp 1.
  Proof. unfold gb. field. apply Rgt_not_eq, exp_pos. Qed.
  Lemma gb_gt : 1 < gb.
  Proof. rewrite gb_eq. assert (0 < a / exp 1) by (apply Rdiv_lt_0_compat; [lra|apply exp_pos]). lra. Qed.
  Lemma e_gt : 1 < exp 1. Proof. rewrite <- exp_0 at 1. apply exp_increasing. lra. Qed.
  Lemma a_exp : a * exp (Ropp 1) = gb - 1.
  Proof. rewrite gb_eq, exp_Ropp. field. apply Rgt_not_eq, exp_pos. Qed.

  (** One pass through the loop: [None] is a rejection, [Some None] an infinite value. *)
  Definition trial (u w : R) : option (option R) :=
    if Rlt_dec 1 (gb * u) then
      let z := if Req_EM_T (gb - gb * u) 0 then None else Some (- ln ((gb - gb * u) / a)) in
      if Rlt_dec (match z with None => 0 | Some z => Rpower z (a - 1) end) w then None else Some z
    else let z := rpow0 (gb * u) (1 / a) in
      if Rlt_dec (exp (- z)) w then None else Some (Some z).

  (** The random number that leads to the value [z]. *)
  Definition inv1 (z : R) : R := Rpower z a / gb.
  Definition inv2 (z : R) : R := 1 - a / gb * exp (- z).
  Definition phi (z : R) : R := if Rle_dec z 1 then inv1 z else inv2 z.

  Lemma inv1_1 : inv1 1 = 1 / gb.
  Proof. unfold inv1. by rewrite Rpower_base1. Qed.
  Lemma inv2_1 : inv2 1 = 1 / gb.
  Proof. unfold inv2. pose proof gb_gt. pose proof a_exp. replace (a / gb * exp (Ropp 1)) with ((gb - 1) / gb) by (rewrite <- a_exp; field; lra). field. lra. Qed.
  Lemma inv1_lt x y : 0 < x -> x < y -> inv1 x < inv1 y.
  Proof. intros Hx Hy. apply Rmult_lt_compat_r; [apply Rinv_0_lt_compat; pose proof gb_gt; lra|]. apply Rpower_lt_base; lra. Qed.
  Lemma inv2_lt x y : x < y -> inv2 x < inv2 y.
  Proof.
    intros Hy. unfold inv2. assert (exp (- y) < exp (- x)) by (apply exp_increasing; lra). pose proof gb_gt.
    assert (0 < a / gb) by (apply Rdiv_lt_0_compat; lra). nra.
  Qed.
  Lemma phi_lt x y : 0 < x -> x < y -> phi x < phi y.
  Proof.
    intros Hx Hy. unfold phi. destruct (Rle_dec x 1), (Rle_dec y 1).
    - by apply inv1_lt.
    - assert (inv1 x <= inv1 1) by (destruct (Req_dec x 1) as [->|]; [lra|left; apply inv1_lt; lra]).
      assert (inv2 1 < inv2 y) by (apply inv2_lt; lra). rewrite inv1_1 in *. rewrite inv2_1 in *. lra.
    - lra.
    - by apply inv2_lt.
  Qed.
  Lemma phi_pos x : 0 < x -> 0 < phi x.
  Proof.
    intros Hx. unfold phi. pose proof gb_gt. assert (0 < 1 / gb) by (apply Rdiv_lt_0_compat; lra). destruct (Rle_dec x 1).
    - apply Rdiv_lt_0_compat; [apply Rpower_pos|lra].
    - assert (inv2 1 < inv2 x) by (apply inv2_lt; lra). rewrite inv2_1 in *. lra.
  Qed.
  Lemma phi_lt_1 x : 0 < x -> phi x < 1.
  Proof.
    intros Hx. pose proof gb_gt.
    assert (H2 : forall y, inv2 y < 1).
    { intros y. unfold inv2. assert (0 < a / gb) by (apply Rdiv_lt_0_compat; lra). pose proof (exp_pos (- y)). nra. }
    unfold phi. destruct (Rle_dec x 1); [|apply H2].
    assert (inv1 x <= inv1 1) by (destruct (Req_dec x 1) as [->|]; [lra|left; apply inv1_lt; lra]).
    specialize (H2 1). rewrite inv1_1 in *. rewrite inv2_1 in *. lra.
  Qed.

  (** The value of a trial with first number [u], and the probability that it is accepted. *)
  Definition zval (u : R) : R := if Rlt_dec 1 (gb * u) then - ln ((gb - gb * u) / a) else Rpower (gb * u) (1 / a).
  Definition acc (u : R) : R := if Rlt_dec 1 (gb * u) then Rpower (- ln ((gb - gb * u) / a)) (a - 1) else exp (- Rpower (gb * u) (1 / a)).
  Lemma zval_big u : u < 1 -> 1 < gb * u -> 1 < - ln ((gb - gb * u) / a).
  Proof.
    intros Hu H. pose proof gb_gt. assert (0 < gb - gb * u) by nra.
    assert (Hq : 0 < (gb - gb * u) / a) by (apply Rdiv_lt_0_compat; lra).
    assert ((gb - gb * u) / a < exp (Ropp 1)).
    { apply Rmult_lt_reg_r with a; [lra|]. unfold Rdiv. rewrite Rmult_assoc, Rinv_l by lra. pose proof a_exp. lra. }
    assert (ln ((gb - gb * u) / a) < ln (exp (Ropp 1))) by (by apply ln_increasing). rewrite ln_exp in *. lra.
  Qed.
  Lemma zval_phi u z : 0 < u < 1 -> 0 < z -> (z < zval u <-> phi z < u).
  Proof.
    intros Hu Hz. pose proof gb_gt as Hb. unfold zval, phi.
    assert (Hbu : 0 < gb * u) by nra.
    assert (Hone : forall r, 1 / gb < r <-> 1 < gb * r).
    { intros r. split; intros H.
      - apply (Rmult_lt_compat_l gb) in H; [|lra]. replace (gb * (1 / gb)) with 1 in H by (field; lra). done.
      - apply Rmult_lt_reg_l with gb; [lra|]. replace (gb * (1 / gb)) with 1 by (field; lra). done. }
    assert (Hi1 : z <= 1 -> inv1 z <= 1 / gb).
    { intros H. rewrite <- inv1_1. destruct (Req_dec z 1) as [->|]; [lra|left; apply inv1_lt; lra]. }
    assert (Hi2 : 1 < z -> 1 / gb < inv2 z) by (intros H; rewrite <- inv2_1; apply inv2_lt; lra).
    destruct (Rlt_dec 1 (gb * u)) as [H1|H1], (Rle_dec z 1) as [Hz1|Hz1].
    - pose proof (zval_big u ltac:(lra) H1). specialize (Hi1 Hz1). apply Hone in H1. lra.
    - assert (Hq : 0 < gb - gb * u) by nra. unfold inv2.
      assert (E : 1 - a / gb * exp (- z) < u <-> gb - gb * u < a * exp (- z)).
      { assert (Eb : gb * (1 - a / gb * exp (- z)) = gb - a * exp (- z)) by (field; lra).
        split; intros H; [|apply Rmult_lt_reg_l with gb; lra]. apply (Rmult_lt_compat_l gb) in H; lra. }
      rewrite E. split; intros H.
      + assert (ln ((gb - gb * u) / a) < - z) as H' by lra. apply exp_increasing in H'. rewrite exp_ln in H' by (apply Rdiv_lt_0_compat; lra).
        apply (Rmult_lt_compat_l a) in H'; [|lra]. replace (a * ((gb - gb * u) / a)) with (gb - gb * u) in H' by (field; lra). done.
      + assert ((gb - gb * u) / a < exp (- z)).
        { apply Rmult_lt_reg_l with a; [lra|]. replace (a * ((gb - gb * u) / a)) with (gb - gb * u) by (field; lra). done. }
        assert (H' : ln ((gb - gb * u) / a) < ln (exp (- z))) by (apply ln_increasing; [apply Rdiv_lt_0_compat; lra|done]).
        rewrite ln_exp in H'. lra.
    - unfold inv1. assert (E : Rpower z a / gb < u <-> Rpower z a < gb * u).
      { assert (Eb : gb * (Rpower z a / gb) = Rpower z a) by (field; lra).
        split; intros H; [|apply Rmult_lt_reg_l with gb; lra]. apply (Rmult_lt_compat_l gb) in H; lra. }
      rewrite E. assert (Hia : 0 < 1 / a) by (apply Rdiv_lt_0_compat; lra). split; intros H.
      + rewrite <- (Rpower_root' (gb * u) a) by lra. apply Rpower_lt_base; lra.
      + rewrite <- (Rpower_root z a) by lra. apply Rpower_lt_base; [apply Rpower_pos|done|done].
    - specialize (Hi2 ltac:(lra)). split; intros H.
      + exfalso. assert (Rpower (gb * u) (1 / a) <= 1); [|lra].
        pose proof (Rpower_le_base (gb * u) 1 (1 / a) Hbu ltac:(lra) ltac:(apply Rdiv_lt_0_compat; lra)) as X.
        rewrite Rpower_base1 in X. exact X.
      + exfalso. assert (1 / gb < u) as Hx by lra. apply Hone in Hx. lra.
  Qed.
  Lemma acc_range u : 0 < u < 1 -> 0 <= acc u <= 1.
  Proof.
    intros Hu. unfold acc. destruct (Rlt_dec 1 (gb * u)) as [H|H].
    - split; [left; apply Rpower_pos|]. pose proof (zval_big u ltac:(lra) H) as Hz. set (z := - ln _) in *.
      replace (a - 1) with (- (1 - a)) by ring. rewrite Rpower_Ropp. apply (Rle_trans _ (/ 1)); [apply Rinv_le_contravar; [lra|]|lra].
      pose proof (Rpower_le_base 1 z (1 - a) ltac:(lra) ltac:(lra) ltac:(lra)) as X. rewrite Rpower_base1 in X. exact X.
    - split; [left; apply exp_pos|]. left. pose proof (Rpower_pos (gb * u) (1 / a)) as Hq.
      assert (X : exp (- Rpower (gb * u) (1 / a)) < exp 0) by (apply exp_increasing; lra). rewrite exp_0 in X. exact X.
  Qed.

  Lemma euler_cont z : 0 < z -> continuous (euler a) z.
  Proof.
    intros Hz. apply (continuous_ext_loc _ (fun t => exp ((a - 1) * ln t) * exp (- t))).
    - exists (mkposreal z Hz). intros y _. done.
    - apply (ex_derive_continuous (fun t => exp ((a - 1) * ln t) * exp (- t))). auto_derive. done.
  Qed.
  Lemma euler_int s t : 0 < s -> s <= t -> ex_RInt (euler a) s t.
  Proof.
    intros Hs Ht. apply (@ex_RInt_continuous R_CompleteNormedModule). intros z Hz. rewrite Rmin_left, Rmax_right in Hz by lra.
    apply euler_cont. lra.
  Qed.
  Lemma subst_int (f g dg : R -> R) s t : s <= t ->
    (forall x, s <= x <= t -> continuous f (g x)) -> (forall x, s <= x <= t -> is_derive g x (dg x) /\ continuous dg x) ->
    (forall x, s < x < t -> dg x * f (g x) = a / gb * euler a x) -> ex_RInt (euler a) s t -> g s <= g t ->
    (forall u, g s <= u <= g t -> continuous f u) ->
    is_RInt f (g s) (g t) (a / gb * integral (euler a) s t).
  Proof.
    intros Hst Hf Hg He Hi Hgs Hfu.
    assert (H1 : is_RInt (fun y => scal (dg y) (f (g y))) s t (RInt f (g s) (g t))).
    { apply (@is_RInt_comp R_CompleteNormedModule); intros x Hx; rewrite Rmin_left, Rmax_right in Hx by lra; auto. }
    assert (H2 : is_RInt (fun y => scal (dg y) (f (g y))) s t (a / gb * integral (euler a) s t)).
    { apply is_RInt_ext with (fun x => scal (a / gb) (euler a x)).
      - intros x Hx. rewrite Rmin_left, Rmax_right in Hx by lra. symmetry. apply He. lra.
      - apply (@is_RInt_scal R_NormedModule). by apply (@RInt_correct R_CompleteNormedModule). }
    rewrite <- (is_RInt_unique _ _ _ _ H2), (is_RInt_unique _ _ _ _ H1).
    apply (@RInt_correct R_CompleteNormedModule). apply (@ex_RInt_continuous R_CompleteNormedModule).
    intros z Hz. rewrite Rmin_left, Rmax_right in Hz by lra. by apply Hfu.
  Qed.
  Lemma acc_low s t : 0 < s -> s <= t -> t <= 1 -> is_RInt acc (inv1 s) (inv1 t) (a / gb * integral (euler a) s t).
  Proof.
    intros Hs Hst Ht. pose proof gb_gt as Hb.
    assert (Hmono : inv1 s <= inv1 t) by (destruct (Req_dec s t) as [->|]; [lra|left; apply inv1_lt; lra]).
    assert (Hpos : forall x, 0 < inv1 x) by (intros x; apply Rdiv_lt_0_compat; [apply Rpower_pos|lra]).
    set (f := fun u => exp (- Rpower (gb * u) (1 / a))).
    assert (Hf : forall u, 0 < u -> continuous f u).
    { intros u Hu. apply (ex_derive_continuous (fun u => exp (- exp (1 / a * ln (gb * u))))). auto_derive. nra. }
    apply is_RInt_ext with f.
    - intros u Hu. rewrite Rmin_left, Rmax_right in Hu by lra. unfold acc. destruct (Rlt_dec 1 (gb * u)) as [H|H]; [|done].
      exfalso. assert (inv1 t <= inv1 1) by (destruct (Req_dec t 1) as [->|]; [lra|left; apply inv1_lt; lra]).
      rewrite inv1_1 in *. assert (u < 1 / gb) as Hx by lra. apply (Rmult_lt_compat_l gb) in Hx; [|lra].
      replace (gb * (1 / gb)) with 1 in Hx by (field; lra). lra.
    - apply (subst_int f inv1 (fun z => a * exp ((a - 1) * ln z) / gb)); try done.
      + intros x Hx. apply Hf, Hpos.
      + intros x Hx. split.
        * unfold inv1, Rpower. auto_derive; [lra|].
          replace ((a - 1) * ln x) with (a * ln x + - ln x) by ring. rewrite exp_plus, exp_Ropp, exp_ln by lra. field. lra.
        * apply (ex_derive_continuous (fun z => a * exp ((a - 1) * ln z) / gb)). auto_derive. lra.
      + intros x Hx. unfold f, inv1, euler.
        replace (gb * (Rpower x a / gb)) with (Rpower x a) by (field; lra). rewrite Rpower_root by lra. unfold Rpower. field. lra.
      + by apply euler_int.
      + intros u Hu. apply Hf. specialize (Hpos s). lra.
  Qed.
  Lemma acc_high s t : 1 <= s -> s <= t -> is_RInt acc (inv2 s) (inv2 t) (a / gb * integral (euler a) s t).
  Proof.
    intros Hs Hst. pose proof gb_gt as Hb.
    assert (Hmono : inv2 s <= inv2 t) by (destruct (Req_dec s t) as [->|]; [lra|left; apply inv2_lt; lra]).
    set (f := fun u => Rpower (- ln ((gb - gb * u) / a)) (a - 1)).
    assert (Hval : forall x, (gb - gb * inv2 x) / a = exp (- x)) by (intros x; unfold inv2; field; lra).
    assert (Hf : forall u, 0 < (gb - gb * u) / a -> 0 < - ln ((gb - gb * u) / a) -> continuous f u).
    { intros u Hu Hu'. apply (ex_derive_continuous (fun u => exp ((a - 1) * ln (- ln ((gb - gb * u) / a))))). auto_derive. split; [done|].
      split; [exact Hu'|done]. }
    assert (Hlow : inv2 1 <= inv2 s) by (destruct (Req_dec s 1) as [->|]; [lra|left; apply inv2_lt; lra]). rewrite inv2_1 in Hlow.
    apply is_RInt_ext with f.
    - intros u Hu. rewrite Rmin_left, Rmax_right in Hu by lra. unfold acc. destruct (Rlt_dec 1 (gb * u)) as [H|H]; [done|].
      exfalso. assert (1 / gb < u) as Hx by lra. apply (Rmult_lt_compat_l gb) in Hx; [|lra].
      replace (gb * (1 / gb)) with 1 in Hx by (field; lra). lra.
    - apply (subst_int f inv2 (fun z => a / gb * exp (- z))); try done.
      + intros x Hx. apply Hf; rewrite Hval; [apply exp_pos|rewrite ln_exp; lra].
      + intros x Hx. split.
        * unfold inv2. auto_derive; [done|]. field. lra.
        * apply (ex_derive_continuous (fun z => a / gb * exp (- z))). auto_derive. done.
      + intros x Hx. unfold f, euler. rewrite Hval, ln_exp, Ropp_involutive. ring.
      + apply euler_int; lra.
      + intros u Hu.
        assert (Hu1 : exp (- t) <= (gb - gb * u) / a <= exp (- s)).
        { rewrite <- !Hval. split; (apply Rmult_le_compat_r; [left; apply Rinv_0_lt_compat; lra|nra]). }
        pose proof (exp_pos (- t)). apply Hf; [lra|].
        assert (ln ((gb - gb * u) / a) <= - s).
        { rewrite <- (ln_exp (- s)). destruct (proj2 Hu1) as [H'| ->]; [left; apply ln_increasing; lra|lra]. }
        lra.
  Qed.
  Lemma acc_int s t : 0 < s -> s <= t -> is_RInt acc (phi s) (phi t) (a / gb * integral (euler a) s t).
  Proof.
    intros Hs Hst. unfold phi. destruct (Rle_dec s 1) as [H1|H1], (Rle_dec t 1) as [H2|H2].
    - by apply acc_low.
    - replace (integral (euler a) s t) with (integral (euler a) s 1 + integral (euler a) 1 t).
      2:{ unfold integral. apply (@RInt_Chasles R_CompleteNormedModule); apply euler_int; lra. }
      rewrite Rmult_plus_distr_l. apply (@is_RInt_Chasles R_NormedModule) with (1 / gb).
      + rewrite <- inv1_1. apply acc_low; lra.
      + rewrite <- inv2_1. apply acc_high; lra.
    - lra.
    - apply acc_high; lra.
  Qed.

  (** The random numbers with which a trial is accepted with a value in (s, t]. *)
  Lemma trial_volume s t : 0 < s -> s <= t ->
    has_volume 2 (fun l => match l with u :: w :: _ => exists z, trial u w = Some (Some z) /\ s < z <= t | _ => False end)
      (a / gb * integral (euler a) s t).
  Proof.
    intros Hs Hst. pose proof gb_gt as Hb.
    assert (Hps := phi_pos s Hs). assert (Hpt1 := phi_lt_1 t ltac:(lra)).
    assert (Hpst : phi s <= phi t) by (destruct (Req_dec s t) as [->|]; [lra|left; apply phi_lt; lra]).
    exists (fun u => if Rlt_dec (phi s) u then if Rle_dec u (phi t) then acc u else 0 else 0). split.
    - intros u Hu. change (fun l => match u :: l with _ :: w :: _ => _ | _ => False end) with
        (fun l => match l with w :: _ => exists z, trial u w = Some (Some z) /\ s < z <= t | [] => False end).
      assert (Hz : 0 < u < 1 -> forall w, (exists z, trial u w = Some (Some z) /\ s < z <= t) <-> (w <= acc u /\ s < zval u <= t)).
      { intros Hu' w. unfold trial, acc, zval. destruct (Rlt_dec 1 (gb * u)) as [H|H].
        - destruct (Req_EM_T (gb - gb * u) 0) as [E|E]; [nra|]. cbn zeta.
          destruct (Rlt_dec _ w) as [Hw|Hw]; split.
          + intros (z & ? & _). done.
          + lra.
          + intros (z & [= <-] & ?). split; lra.
          + intros [_ ?]. eexists. split; [done|lra].
        - unfold rpow0. destruct (Req_EM_T (gb * u) 0) as [E|E]; [nra|]. cbn zeta.
          destruct (Rlt_dec _ w) as [Hw|Hw]; split.
          + intros (z & ? & _). done.
          + lra.
          + intros (z & [= <-] & ?). split; lra.
          + intros [_ ?]. eexists. split; [done|lra]. }
      destruct (Rlt_dec (phi s) u) as [H1|H1]; [destruct (Rle_dec u (phi t)) as [H2|H2]|].
      + assert (Hu' : 0 < u < 1) by lra. pose proof (acc_range u Hu') as Hac.
        assert (s < zval u <= t).
        { split; [by apply zval_phi|]. destruct (Rle_or_lt (zval u) t) as [|Hlt]; [done|]. apply zval_phi in Hlt; lra. }
        enough (Hv : has_volume 1 (fun l => match l with w :: _ => exists z, trial u w = Some (Some z) /\ s < z <= t | [] => False end) (acc u - 0))
          by (rewrite Rminus_0_r in Hv; exact Hv).
        apply has_volume_interval; [lra|lra|]. intros w Hw Hw0 Hw1. rewrite (Hz Hu'). split; intros; [lra|split; lra].
      + apply has_volume_false. intros [|w l] _ _; [tauto|].
        destruct (Rlt_dec u 1) as [Hu1|Hu1].
        * rewrite Hz by lra. intros [_ [_ Hc]]. assert (t < zval u); [|lra]. apply zval_phi; lra.
        * assert (u = 1) as -> by lra. intros (z & Ez & Hz2). unfold trial in Ez.
          destruct (Rlt_dec 1 (gb * 1)); [|lra]. destruct (Req_EM_T (gb - gb * 1) 0); [|lra].
          cbn zeta in Ez. destruct (Rlt_dec 0 w); done.
      + apply has_volume_false. intros [|w l] _ _; [tauto|].
        destruct (Rlt_dec 0 u) as [Hu0|Hu0].
        * rewrite Hz by lra. intros [_ [Hc _]]. apply zval_phi in Hc; lra.
        * assert (u = 0) as -> by lra. intros (z & Ez & Hz2). unfold trial in Ez. rewrite Rmult_0_r in Ez.
          destruct (Rlt_dec 1 0); [lra|]. unfold rpow0 in Ez. destruct (Req_EM_T 0 0); [|done].
          cbn zeta in Ez. destruct (Rlt_dec _ w); [done|]. injection Ez as <-. lra.
    - set (f := fun u => _). set (V := a / gb * _). replace V with ((phi s - 0) * 0 + (V + (1 - phi t) * 0)) by ring.
      apply (@is_RInt_Chasles R_NormedModule) with (phi s); [|apply (@is_RInt_Chasles R_NormedModule) with (phi t)].
      + apply is_RInt_ext with (fun _ => 0); [|apply const_RInt].
        intros u Hu. rewrite Rmin_left, Rmax_right in Hu by lra. unfold f. destruct (Rlt_dec (phi s) u); [lra|done].
      + apply is_RInt_ext with acc; [|by apply acc_int].
        intros u Hu. rewrite Rmin_left, Rmax_right in Hu by lra. unfold f. destruct (Rlt_dec (phi s) u); [|lra].
        destruct (Rle_dec u (phi t)); [done|lra].
      + apply is_RInt_ext with (fun _ => 0); [|apply const_RInt].
        intros u Hu. rewrite Rmin_left, Rmax_right in Hu by lra. unfold f. destruct (Rlt_dec (phi s) u); [|done].
        destruct (Rle_dec u (phi t)); [lra|done].
  Qed.
End trial.

Lemma gamma_loop_trials {G} (next : G -> Z * G) RM a : generator next RM -> 0 < a < 1 -> forall fuel g,
  let u i := unit_number next RM g i in
  match gamma_loop next RM rreal fuel a (gb a) g with
  | Some (z, g') => exists i, (i < fuel)%nat /\ g' = advance next (2 * i + 2) g /\
      trial a (u (2 * i)%nat) (u (2 * i + 1)%nat) = Some z /\
      (forall j, (j < i)%nat -> trial a (u (2 * j)%nat) (u (2 * j + 1)%nat) = None)
  | None => forall j, (j < fuel)%nat -> trial a (u (2 * j)%nat) (u (2 * j + 1)%nat) = None
  end.
Proof.
  intros HG Ha. induction fuel as [|fuel IH]; intros g u; [intros j Hj; lia|].
  assert (Hstep : gamma_loop next RM rreal (S fuel) a (gb a) g =
    match trial a (u 0%nat) (u 1%nat) with
    | Some z => Some (z, advance next 2 g) | None => gamma_loop next RM rreal fuel a (gb a) (advance next 2 g) end).
  { cbn [gamma_loop]. rewrite !unit_real. change (advance next 2 g) with (advance next 1 (advance next 1 g)).
    assert (E1 : unit_number next RM (advance next 1 g) 0 = u 1%nat) by (rewrite num_shift; done). unfold trial.
    fold (u 0%nat).
    destruct (Rlt_dec 1 (gb a * u 0%nat)); cbn zeta; rewrite ?unit_real, ?E1; destruct (Rlt_dec _ (u 1%nat)); done. }
  rewrite Hstep. destruct (trial a (u 0%nat) (u 1%nat)) as [z|] eqn:Et.
  - exists 0%nat. split; [lia|]. split; [done|]. split; [done|]. intros j Hj; lia.
  - specialize (IH (advance next 2 g)). cbv zeta in IH.
    assert (Hsh : forall i, unit_number next RM (advance next 2 g) i = u (2 + i)%nat) by (intros i; by rewrite num_shift).
    destruct (gamma_loop next RM rreal fuel a (gb a) (advance next 2 g)) as [[z g']|].
    + destruct IH as (i & Hi & -> & Ht & Hj). exists (S i). split; [lia|].
      rewrite <- advance_add. split; [f_equal; lia|]. rewrite !Hsh in Ht. split.
      * replace (2 * S i)%nat with (2 + 2 * i)%nat by lia. replace (2 + 2 * i + 1)%nat with (2 + (2 * i + 1))%nat by lia. done.
      * intros [|j] Hlt; [done|]. specialize (Hj j ltac:(lia)). rewrite !Hsh in Hj.
        replace (2 * S j)%nat with (2 + 2 * j)%nat by lia. replace (2 + 2 * j + 1)%nat with (2 + (2 * j + 1))%nat by lia. done.
    + intros [|j] Hlt; [done|]. specialize (IH j ltac:(lia)). rewrite !Hsh in IH.
      replace (2 * S j)%nat with (2 + 2 * j)%nat by lia. replace (2 + 2 * j + 1)%nat with (2 + (2 * j + 1))%nat by lia. done.
Qed.

(** The shapes are those for which the code enters the loop; below 2^-52 it takes the fractional part for zero and returns 0. *)
Theorem gamma_fraction_law a rate : / 2 ^ 52 < a < 1 -> 0 < rate ->
  exists attempt : R -> R -> option (option R),
    (forall G (next : G -> Z * G) RM g fuel, generator next RM ->
       let u := unit_number next RM g in
       match sampleGamma next RM rreal fuel a rate g with
       | (Ret x, g') => exists i, (i < fuel)%nat /\ g' = advance next (2 * i + 2) g /\
           attempt (u (2 * i)%nat) (u (2 * i + 1)%nat) = Some x /\
           (forall j, (j < i)%nat -> attempt (u (2 * j)%nat) (u (2 * j + 1)%nat) = None)
       | (Diverge, _) => forall j, (j < fuel)%nat -> attempt (u (2 * j)%nat) (u (2 * j + 1)%nat) = None
       | _ => False
       end) /\
    exists C, 0 < C /\ forall s t, 0 < s -> s <= t -> exists v, is_RInt (gamma_density 1 a rate) s t v /\
      has_volume 2 (fun l => exists u w, l = u :: w :: nil /\ exists x, attempt u w = Some (Some x) /\ s < x <= t) (C * v).
Proof.
  intros [Ha0 Ha1] Hr. assert (H52 : 0 < / 2 ^ 52) by (apply Rinv_0_lt_compat, pow_lt; lra).
  assert (Ha : 0 < a < 1) by lra. pose proof (gb_gt a Ha) as Hb.
  set (scale := fun z => match z with None => None | Some z => Some ((0 + z) / rate) end).
  exists (fun u w => match trial a u w with None => None | Some z => Some (scale z) end). split.
  - intros G next RM g fuel HG u. pose proof (gamma_loop_trials next RM a HG Ha fuel g) as HL. cbv zeta in HL.
    unfold sampleGamma. destruct (Rle_dec a 0); [lra|]. destruct (Rle_dec rate 0); [lra|].
    assert (Ef : Zfloor a = 0%Z) by (apply Zfloor_imp; change (0 + 1)%Z with 1%Z; lra).
    rewrite Ef. unfold to_size_t. rewrite (Zfloor_IZR 0). destruct (Rlt_dec 0 0); [lra|].
    destruct (Rle_dec (IZR (2 ^ 64)) 0) as [H|_].
    { exfalso. assert (0 < IZR (2 ^ 64)) by (apply IZR_lt; lia). lra. }
    change (Z.to_nat 0) with 0%nat. cbn [exp_sum INR]. rewrite Rminus_0_r. rewrite Rabs_pos_eq by lra.
    destruct (Rlt_dec (/ 2 ^ 52) a); [|lra]. fold (gb a).
    destruct (gamma_loop next RM rreal fuel a (gb a) g) as [[[z|] g']|].
    + destruct HL as (i & Hi & -> & Ht & Hj). exists i. split; [done|]. split; [done|]. unfold u. rewrite Ht. split; [done|].
      intros j Hlt. by rewrite Hj.
    + destruct HL as (i & Hi & -> & Ht & Hj). exists i. split; [done|]. split; [done|]. unfold u. rewrite Ht. split; [done|].
      intros j Hlt. by rewrite Hj.
    + intros j Hlt. unfold u. by rewrite HL.
  - exists (a / gb a). split; [apply Rdiv_lt_0_compat; lra|]. intros s t Hs Hst.
    exists (integral (euler a) (rate * s) (rate * t)). split.
    + assert (H1 : is_RInt (fun y => scal rate (euler a (rate * y))) s t (integral (euler a) (rate * s) (rate * t))).
      { apply (@is_RInt_comp R_CompleteNormedModule (euler a) (fun y => rate * y) (fun _ => rate)).
        - intros x Hx. rewrite Rmin_left, Rmax_right in Hx by lra. apply euler_cont. nra.
        - intros x Hx. split; [auto_derive; [done|ring]|]. apply continuous_const. }
      eapply is_RInt_ext; [|exact H1]. intros x Hx. rewrite Rmin_left, Rmax_right in Hx by lra. cbv beta.
      unfold gamma_density, euler, scal; simpl; unfold mult; simpl.
      rewrite <- Rpower_mult_distr by lra.
      match goal with |- ?a = ?b => change (@eq R a b) end.
      replace (Rpower rate a) with (rate * Rpower rate (a - 1)); [field|].
      replace a with (1 + (a - 1)) at 2 by ring. rewrite Rpower_plus, Rpower_1 by done. ring.
    + eapply has_volume_ext; [|apply (trial_volume a Ha (rate * s) (rate * t)); nra].
      intros l Hl _. destruct l as [|u [|w [|? l]]]; simpl in Hl; try lia. cbv beta iota.
      assert (Hz : forall z, (0 + z) / rate * rate = z) by (intros z; field; lra).
      split.
      * intros (z & Ht & Hz1). exists u, w. split; [done|]. rewrite Ht. exists ((0 + z) / rate). split; [done|].
        specialize (Hz z). split; nra.
      * intros (u' & w' & [= <- <-] & x & Hx & Hsx). destruct (trial a u w) as [[z|]|]; [|done|done].
        injection Hx as <-. exists z. split; [done|]. specialize (Hz z). split; nra.
Qed.
