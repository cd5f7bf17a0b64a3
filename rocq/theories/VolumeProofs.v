(** Lemmas about volumes. *)
From stdpp Require Import prelude list.
From Coq Require Import Reals Lra Psatz.
From Coquelicot Require Import Coquelicot.
From Verif Require Import Spec_Volume Spec_Randomizer.
Local Open Scope R_scope.

Definition in_cube (l : list R) : Prop := List.Forall (fun u => 0 <= u <= 1) l.

Lemma const_RInt (a b c : R) : is_RInt (fun _ => c) a b ((b - a) * c).
Proof. apply (@is_RInt_const R_NormedModule). Qed.
Lemma has_volume_ext n : forall P Q v,
  (forall l, length l = n -> in_cube l -> (P l <-> Q l)) -> has_volume n P v -> has_volume n Q v.
Proof.
  induction n as [|n IH]; intros P Q v HPQ H; simpl in *.
  - assert (E : P [] <-> Q []) by (apply HPQ; [done|constructor]). destruct H as [[? ?]|[? ?]]; [left|right]; tauto.
  - destruct H as (f & Hf & HI). exists f. split; [|exact HI]. intros u Hu. eapply IH; [|by apply Hf].
    intros l Hl Hc. apply HPQ; [simpl; lia|by constructor].
Qed.
Lemma has_volume_false n : forall P : list R -> Prop, (forall l, length l = n -> in_cube l -> ~ P l) -> has_volume n P 0.
Proof.
  induction n as [|n IH]; intros P HP; simpl.
  - right. split; [apply HP; [done|constructor]|done].
  - exists (fun _ => 0). split.
    + intros u Hu. apply IH. intros l Hl Hc. apply HP; [simpl; lia|by constructor].
    + pose proof (const_RInt 0 1 0) as H. replace ((1 - 0) * 0) with 0 in H by ring. exact H.
Qed.
Lemma has_volume_true n : forall P : list R -> Prop, (forall l, length l = n -> in_cube l -> P l) -> has_volume n P 1.
Proof.
  induction n as [|n IH]; intros P HP; simpl.
  - left. split; [apply HP; [done|constructor]|done].
  - exists (fun _ => 1). split.
    + intros u Hu. apply IH. intros l Hl Hc. apply HP; [simpl; lia|by constructor].
    + pose proof (const_RInt 0 1 1) as H. replace ((1 - 0) * 1) with 1 in H by ring. exact H.
Qed.
(** The volume is determined by the region. *)
Lemma has_volume_unique n : forall P v w, has_volume n P v -> has_volume n P w -> v = w.
Proof.
  induction n as [|n IH]; intros P v w Hv Hw; simpl in *.
  - destruct Hv as [[? ->]|[? ->]], Hw as [[? ->]|[? ->]]; done.
  - destruct Hv as (f & Hf & If), Hw as (g & Hg & Ig).
    rewrite <- (is_RInt_unique _ _ _ _ If), <- (is_RInt_unique _ _ _ _ Ig).
    apply RInt_ext. intros u Hu. rewrite Rmin_left, Rmax_right in Hu by lra.
    apply (IH (fun l => P (u :: l))); [apply Hf|apply Hg]; lra.
Qed.


(** A function that is [c1] up to [m] and [c2] after it. *)
Lemma step_RInt (f : R -> R) m c1 c2 : 0 <= m <= 1 ->
  (forall u, 0 < u < m -> f u = c1) -> (forall u, m < u < 1 -> f u = c2) ->
  is_RInt f 0 1 (m * c1 + (1 - m) * c2).
Proof.
  intros Hm H1 H2. apply (@is_RInt_Chasles R_NormedModule) with m.
  - apply is_RInt_ext with (fun _ => c1).
    + intros u Hu. rewrite Rmin_left, Rmax_right in Hu by lra. symmetry. apply H1. lra.
    + replace (m * c1) with ((m - 0) * c1) by ring. apply const_RInt.
  - apply is_RInt_ext with (fun _ => c2).
    + intros u Hu. rewrite Rmin_left, Rmax_right in Hu by lra. symmetry. apply H2. lra.
    + apply const_RInt.
Qed.
(** Intervals of the first coordinate. *)
Lemma has_volume_interval (P : list R -> Prop) a b : 0 <= a <= b -> b <= 1 ->
  (forall u, 0 <= u <= 1 -> u <> a -> u <> b -> (P (u :: nil) <-> a < u < b)) -> has_volume 1 P (b - a).
Proof.
  intros Ha Hb HP.
  assert (Hd : forall x, exists w, (P (x :: nil) /\ w = 1) \/ (~ P (x :: nil) /\ w = 0)).
  { intros x. destruct (Classical_Prop.classic (P (x :: nil))); eauto. }
  destruct (Hd a) as [wa Hwa], (Hd b) as [wb Hwb].
  set (f := fun u => if Req_EM_T u a then wa else if Req_EM_T u b then wb else
    if Rlt_dec a u then if Rlt_dec u b then 1 else 0 else 0).
  exists f. split.
  - intros u Hu. simpl. unfold f. destruct (Req_EM_T u a) as [->|Na]; [done|]. destruct (Req_EM_T u b) as [->|Nb]; [done|].
    specialize (HP u Hu Na Nb). destruct (Rlt_dec a u), (Rlt_dec u b); tauto.
  - assert (Hf1 : forall u, a < u < b -> f u = 1).
    { intros u Hu. unfold f. destruct (Req_EM_T u a); [lra|]. destruct (Req_EM_T u b); [lra|].
      destruct (Rlt_dec a u); [|lra]. destruct (Rlt_dec u b); [done|lra]. }
    assert (Hf0 : forall u, u < a \/ b < u -> f u = 0).
    { intros u Hu. unfold f. destruct (Req_EM_T u a); [lra|]. destruct (Req_EM_T u b); [lra|].
      destruct (Rlt_dec a u); [|lra]. destruct (Rlt_dec u b); [lra|lra]. }
    replace (b - a) with ((a - 0) * 0 + ((b - a) * 1 + (1 - b) * 0)) by ring.
    apply (@is_RInt_Chasles R_NormedModule) with a; [|apply (@is_RInt_Chasles R_NormedModule) with b].
    + apply is_RInt_ext with (fun _ => 0); [|apply const_RInt].
      intros u Hu. rewrite Rmin_left, Rmax_right in Hu by lra. symmetry. apply Hf0; lra.
    + apply is_RInt_ext with (fun _ => 1); [|apply const_RInt].
      intros u Hu. rewrite Rmin_left, Rmax_right in Hu by lra. symmetry. apply Hf1; lra.
    + apply is_RInt_ext with (fun _ => 0); [|apply const_RInt].
      intros u Hu. rewrite Rmin_left, Rmax_right in Hu by lra. symmetry. apply Hf0; lra.
Qed.

(** ** Products of uniform numbers *)
Lemma prod_list_nonneg l : in_cube l -> 0 <= prod_list l.
Proof. induction 1; simpl; [lra|]. apply Rmult_le_pos; [lra|done]. Qed.
Lemma prod_list_le_1 l : in_cube l -> prod_list l <= 1.
Proof. intros H. induction H as [|u l Hu Hl IH]; simpl; [lra|]. pose proof (prod_list_nonneg l Hl). nra. Qed.

Definition VP (L : R) (n : nat) (c : R) : R :=
  if Rle_dec c L then 0 else L / c * (ln (c / L) ^ n / INR (fact n)).

Lemma VP_integral L c n : 0 < L -> L < c ->
  is_RInt (fun u => VP L n (c * u)) 0 1 (VP L (S n) c).
Proof.
  intros HL Hc. assert (Hm : 0 < L / c < 1).
  { split; [apply Rdiv_lt_0_compat; lra|]. apply Rmult_lt_reg_r with c; [lra|].
    unfold Rdiv. rewrite Rmult_assoc, Rinv_l by lra. lra. }
  replace (VP L (S n) c) with (0 + VP L (S n) c) by ring.
  apply (@is_RInt_Chasles R_NormedModule) with (L / c).
  - apply is_RInt_ext with (fun _ => 0); [|replace 0 with ((L / c - 0) * 0) at 2 by ring; apply const_RInt].
    intros u Hu. rewrite Rmin_left, Rmax_right in Hu by lra. unfold VP. destruct (Rle_dec (c * u) L) as [|n0]; [done|].
    destruct n0. replace L with (c * (L / c)) by (field; lra). apply Rmult_le_compat_l; lra.
  - set (F := fun u => L / c * (ln (c * u / L) ^ S n / INR (fact (S n)))).
    apply is_RInt_ext with (fun u => L / (c * u) * (ln (c * u / L) ^ n / INR (fact n))).
    + intros u Hu. rewrite Rmin_left, Rmax_right in Hu by lra. unfold VP. destruct (Rle_dec (c * u) L) as [Hle|]; [|done].
      exfalso. assert (c * (L / c) < c * u) by (apply Rmult_lt_compat_l; lra).
      replace (c * (L / c)) with L in * by (field; lra). lra.
    + replace (VP L (S n) c) with (F 1 - F (L / c)).
      2:{ unfold F, VP. destruct (Rle_dec c L); [lra|]. rewrite Rmult_1_r.
          replace (c * (L / c) / L) with 1 by (field; lra). rewrite ln_1, pow_i by lia. unfold Rdiv. ring. }
      apply (is_RInt_derive F (fun u => L / (c * u) * (ln (c * u / L) ^ n / INR (fact n)))).
      * intros u Hu. rewrite Rmin_left, Rmax_right in Hu by lra. unfold F.
        assert (0 < c * u / L) by (apply Rdiv_lt_0_compat; [apply Rmult_lt_0_compat; lra|lra]).
        pose proof (INR_fact_neq_0 n). assert (INR (S n) <> 0) by (apply not_0_INR; lia).
        assert (Ed : INR (fact (S n)) = INR (S n) * INR (fact n)) by (rewrite fact_simpl, mult_INR; done).
        assert (Hd : INR (fact (S n)) <> 0) by apply INR_fact_neq_0.
        set (d := INR (fact (S n))) in *. set (e := INR (fact n)) in *. clearbody d e. set (m := S n) in *.
        assert (Em : Nat.pred m = n) by done. set (q := INR m) in *. clearbody m.
        auto_derive; [done|]. fold q. rewrite Em, Ed. clearbody q.
        change (c * u * / L) with (c * u / L). set (w := ln (c * u / L) ^ n). clearbody w.
        assert (0 < u) by lra. field. repeat split; try lra; auto.
      * intros u Hu. rewrite Rmin_left, Rmax_right in Hu by lra.
        assert (0 < c * u / L) by (apply Rdiv_lt_0_compat; [apply Rmult_lt_0_compat; lra|lra]).
        apply (ex_derive_continuous (fun u => L / (c * u) * (ln (c * u / L) ^ n / INR (fact n)))).
        auto_derive. repeat split; try lra. apply Rgt_not_eq, Rmult_lt_0_compat; lra.
Qed.

(** The numbers whose product first drops to [L] with the [n+1]-th factor. *)
Lemma poisson_volume L n : forall c, 0 < L -> 0 <= c ->
  has_volume (S n) (fun l => L < c * prod_list (take n l) /\ c * prod_list l <= L) (VP L n c).
Proof.
  induction n as [|n IH]; intros c HL Hc.
  - unfold VP. destruct (Rle_dec c L) as [Hle|Hnle].
    + apply has_volume_false. intros l _ _ [H _]. rewrite take_0 in H. simpl in H. lra.
    + replace (L / c * (ln (c / L) ^ 0 / INR (fact 0))) with (L / c - 0) by (simpl; field; lra).
      assert (Hm : 0 < L / c < 1).
      { split; [apply Rdiv_lt_0_compat; lra|]. apply Rmult_lt_reg_r with c; [lra|].
        unfold Rdiv. rewrite Rmult_assoc, Rinv_l by lra. lra. }
      apply has_volume_interval; [lra|lra|]. intros u Hu Hu0 Hu1. rewrite take_0. simpl. rewrite !Rmult_1_r. split.
      * intros [_ H]. split; [lra|]. apply Rmult_lt_reg_l with c; [lra|]. replace (c * (L / c)) with L by (field; lra).
        destruct H as [|E]; [lra|]. destruct Hu1. rewrite <- E. field. lra.
      * intros [_ H]. split; [lra|]. replace L with (c * (L / c)) by (field; lra). apply Rmult_le_compat_l; lra.
  - destruct (Rle_dec c L) as [Hle|Hnle].
    + unfold VP. destruct (Rle_dec c L); [|lra]. apply has_volume_false. intros l _ Hl [H _].
      assert (Hl' : in_cube (take (S n) l)) by (by apply Forall_take).
      pose proof (prod_list_nonneg _ Hl'). pose proof (prod_list_le_1 _ Hl'). nra.
    + exists (fun u => VP L n (c * u)). split; [|apply VP_integral; lra].
      intros u Hu. eapply has_volume_ext; [|apply (IH (c * u)); [done|apply Rmult_le_pos; lra]].
      intros l _ _. cbv beta. rewrite firstn_cons. simpl. rewrite !Rmult_assoc. done.
Qed.

(** The numbers whose product is above [L]. *)
Definition sumV (L : R) (a n : nat) (c : R) : R := fold_right Rplus 0 (map (fun k => VP L k c) (seq a n)).
Definition VE (L : R) (n : nat) (c : R) : R := if Rle_dec c L then 0 else 1 - sumV L 0 n c.
Lemma sumV_integral L c : 0 < L -> L < c -> forall n a,
  is_RInt (fun u => sumV L a n (c * u)) 0 1 (sumV L (S a) n c).
Proof.
  intros HL Hc. induction n as [|n IH]; intros a; unfold sumV; simpl.
  - pose proof (const_RInt 0 1 0) as H. replace ((1 - 0) * 0) with 0 in H by ring. exact H.
  - apply (@is_RInt_plus R_NormedModule (fun u => VP L a (c * u)) (fun u => sumV L (S a) n (c * u))).
    + by apply VP_integral.
    + apply IH.
Qed.
Lemma sumV_zero L c n a : c <= L -> sumV L a n c = 0.
Proof.
  intros H. revert a. induction n as [|n IH]; intros a; unfold sumV; simpl; [done|]. fold (sumV L (S a) n c). rewrite IH.
  unfold VP. destruct (Rle_dec c L); lra.
Qed.
Lemma erlang_volume L n : forall c, 0 < L -> 0 <= c -> has_volume n (fun l => L < c * prod_list l) (VE L n c).
Proof.
  induction n as [|n IH]; intros c HL Hc.
  - simpl. unfold VE, sumV. simpl. destruct (Rle_dec c L); [right|left]; lra.
  - unfold VE. destruct (Rle_dec c L) as [Hle|Hnle].
    + apply has_volume_false. intros l _ Hl H.
      pose proof (prod_list_nonneg _ Hl). pose proof (prod_list_le_1 _ Hl). nra.
    + assert (Hm : 0 < L / c < 1).
      { split; [apply Rdiv_lt_0_compat; lra|]. apply Rmult_lt_reg_r with c; [lra|].
        unfold Rdiv. rewrite Rmult_assoc, Rinv_l by lra. lra. }
      exists (fun u => VE L n (c * u)). split.
      * intros u Hu. eapply has_volume_ext; [|apply (IH (c * u)); [done|apply Rmult_le_pos; lra]].
        intros l _ _. cbv beta. simpl. rewrite !Rmult_assoc. done.
      * set (st := fun u => if Rle_dec (c * u) L then 0 else 1).
        apply is_RInt_ext with (fun u => minus (st u) (sumV L 0 n (c * u))).
        { intros u _. unfold minus, plus, opp; simpl. unfold st, VE. destruct (Rle_dec (c * u) L) as [H|H]; [|ring].
          rewrite sumV_zero by done. ring. }
        replace (1 - sumV L 0 (S n) c) with (minus (L / c * 0 + (1 - L / c) * 1) (sumV L 1 n c)).
        2:{ unfold minus, plus, opp; simpl. unfold sumV at 2. simpl. fold (sumV L 1 n c).
            unfold VP. destruct (Rle_dec c L); [lra|]. simpl. field. lra. }
        apply (@is_RInt_minus R_NormedModule st (fun u => sumV L 0 n (c * u))); [|apply sumV_integral; lra].
        apply step_RInt; [lra| |].
        -- intros u Hu. unfold st. destruct (Rle_dec (c * u) L) as [|H]; [done|]. destruct H.
           replace L with (c * (L / c)) by (field; lra). apply Rmult_le_compat_l; lra.
        -- intros u Hu. unfold st. destruct (Rle_dec (c * u) L) as [H|]; [|done]. exfalso.
           assert (c * (L / c) < c * u) by (apply Rmult_lt_compat_l; lra).
           replace (c * (L / c)) with L in * by (field; lra). lra.
Qed.

Lemma prod_list_draws f n : prod_list (draws f n) = prod_first f n.
Proof.
  unfold draws. induction n as [|n IH]; [done|]. rewrite seq_S, map_app. simpl. rewrite <- IH.
  generalize (map f (seq 0 n)). induction l as [|x l IHl]; simpl; [ring|]. rewrite IHl. ring.
Qed.
Lemma draws_take f n m : (n <= m)%nat -> take n (draws f m) = draws f n.
Proof.
  intros H. unfold draws. replace m with (n + (m - n))%nat by lia. rewrite seq_app, map_app.
  apply take_app_alt. by rewrite map_length, seq_length.
Qed.
