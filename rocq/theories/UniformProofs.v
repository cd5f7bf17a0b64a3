From stdpp Require Import prelude list.
From Coq Require Import Reals Lra Psatz ZArith.
From Coquelicot Require Coquelicot.
From Flocq Require Import Core.
From Verif Require Import Base Spec_Normal NormalProofs CoqDerive UniformModel.
Local Open Scope R_scope.
Local Notation RInt := (@RInt.RInt Hierarchy.R_CompleteNormedModule).
Local Notation is_RInt := (@RInt.is_RInt Hierarchy.R_NormedModule).

Lemma setSupport_real_bad d a b : b <= a -> setSupport ureal d a b = (d, Throw BadArgument).
Proof. intros. unfold setSupport; simpl. destruct (Rle_dec b a); [done|lra]. Qed.
Lemma setSupport_real_good d a b : a < b -> setSupport ureal d a b = (Unif a b (b - a), Ret tt).
Proof. intros. unfold setSupport; simpl. destruct (Rle_dec b a); [lra|done]. Qed.

Lemma unif_reach_real d : unif_reach ureal d -> un_min d < un_max d /\ un_area d = un_max d - un_min d.
Proof.
  assert (HS : forall d a b d' r, setSupport ureal d a b = (d', r) ->
     (un_min d < un_max d /\ un_area d = un_max d - un_min d) \/ r = Ret tt ->
     un_min d' < un_max d' /\ un_area d' = un_max d' - un_min d').
  { intros d0 a b d' r. destruct (Rle_or_lt b a) as [H|H].
    - rewrite setSupport_real_bad by done. intros [= <- <-] [?|?]; done.
    - rewrite setSupport_real_good by done. intros [= <- <-] _. done. }
  induction 1 as [junk a b d H|d a b d' r _ IH H _|d a d' r _ IH H _|d b d' r _ IH H _].
  - revert H. unfold unif_new. destruct (setSupport ureal junk a b) as [d' r] eqn:E.
    destruct r; intros [= <-]. destruct a0. eapply HS; [exact E|by right].
  - eapply HS; [exact H|by left].
  - eapply HS; [exact H|by left].
  - eapply HS; [exact H|by left].
Qed.

Lemma irange_some w z z' : irange w z = Some z' -> z' = z.
Proof. unfold irange. case_match; [by intros [= <-]|done]. Qed.

Lemma setSupport_int_inv w d a b d' r : setSupport (uint w) d a b = (d', r) -> came_back r ->
  (d' = d /\ r = Throw BadArgument) \/
  ((a < b)%Z /\ d' = Unif a b (b - a + 1)%Z /\ r = Ret tt /\ u_area (uint w) a b = Some (b - a + 1)%Z).
Proof.
  unfold setSupport; simpl. destruct (Z.leb_spec b a); [intros [= <- <-] _; by left|].
  destruct (irange w (b - a)) as [x|] eqn:E1; [|intros [= <- <-] []].
  apply irange_some in E1 as ->.
  destruct (irange w (b - a + 1)) as [y|] eqn:E2; [|intros [= <- <-] []].
  apply irange_some in E2 as ->. intros [= <- <-] _. by right.
Qed.

Lemma unif_reach_int_all w d : unif_reach (uint w) d ->
  (un_min d < un_max d)%Z /\ un_area d = (un_max d - un_min d + 1)%Z /\
  u_area (uint w) (un_min d) (un_max d) = Some (un_max d - un_min d + 1)%Z.
Proof.
  assert (HS : forall d a b d' r, setSupport (uint w) d a b = (d', r) -> came_back r ->
     ((un_min d < un_max d)%Z /\ un_area d = (un_max d - un_min d + 1)%Z /\
        u_area (uint w) (un_min d) (un_max d) = Some (un_max d - un_min d + 1)%Z) \/ r = Ret tt ->
     (un_min d' < un_max d')%Z /\ un_area d' = (un_max d' - un_min d' + 1)%Z /\
        u_area (uint w) (un_min d') (un_max d') = Some (un_max d' - un_min d' + 1)%Z).
  { intros d0 a b d' r H Hr. destruct (setSupport_int_inv _ _ _ _ _ _ H Hr) as [[-> ->]|(H1 & -> & -> & H2)].
    - intros [?|?]; done.
    - done. }
  induction 1 as [junk a b d H|d a b d' r _ IH H Hr|d a d' r _ IH H Hr|d b d' r _ IH H Hr].
  - revert H. unfold unif_new. destruct (setSupport (uint w) junk a b) as [d' r] eqn:E.
    destruct r; intros [= <-]. destruct a0. eapply HS; [exact E|done|by right].
  - eapply HS; [exact H|done|by left].
  - eapply HS; [exact H|done|by left].
  - eapply HS; [exact H|done|by left].
Qed.
Lemma unif_reach_int w d : unif_reach (uint w) d ->
  (un_min d < un_max d)%Z /\ un_area d = (un_max d - un_min d + 1)%Z.
Proof. intros H. destruct (unif_reach_int_all w d H) as (? & ? & ?). done. Qed.
Lemma unif_reach_int_area w d : unif_reach (uint w) d ->
  u_area (uint w) (un_min d) (un_max d) = Some (un_max d - un_min d + 1)%Z.
Proof. intros H. by apply unif_reach_int_all. Qed.

Lemma updf_real_in d x : un_min d <= x <= un_max d -> updf ureal d x = / un_area d.
Proof.
  intros H. unfold updf; simpl. destruct (Rle_dec (un_min d) x); [|lra]. destruct (Rle_dec x (un_max d)); [|lra].
  simpl. unfold Rdiv. lra.
Qed.
Lemma updf_real_out d x : x < un_min d \/ un_max d < x -> updf ureal d x = 0.
Proof.
  intros H. unfold updf; simpl. destruct (Rle_dec (un_min d) x); simpl; [|done].
  destruct (Rle_dec x (un_max d)); simpl; [lra|done].
Qed.

Lemma RInt_box f m M a b : m < M -> (forall x, m <= x <= M -> f x = / (M - m)) ->
  (forall x, x < m \/ M < x -> f x = 0) -> a <= m -> M <= b -> RInt f a b = 1.
Proof.
  intros HmM Hin Hout Ha Hb.
  assert (I1 : is_RInt f a m 0).
  { apply (@RInt.is_RInt_ext Hierarchy.R_NormedModule (fun _ => 0)).
    - intros x Hx. rewrite Rmin_left, Rmax_right in Hx by lra. symmetry. apply Hout. lra.
    - pose proof (@RInt.is_RInt_const Hierarchy.R_NormedModule a m 0) as H.
      unfold Hierarchy.scal in H; simpl in H; unfold Hierarchy.mult in H; simpl in H. rewrite Rmult_0_r in H. exact H. }
  assert (I2 : is_RInt f m M 1).
  { apply (@RInt.is_RInt_ext Hierarchy.R_NormedModule (fun _ => / (M - m))).
    - intros x Hx. rewrite Rmin_left, Rmax_right in Hx by lra. symmetry. apply Hin. lra.
    - pose proof (@RInt.is_RInt_const Hierarchy.R_NormedModule m M (/ (M - m))) as H.
      unfold Hierarchy.scal in H; simpl in H; unfold Hierarchy.mult in H; simpl in H. rewrite Rinv_r in H by lra. exact H. }
  assert (I3 : is_RInt f M b 0).
  { apply (@RInt.is_RInt_ext Hierarchy.R_NormedModule (fun _ => 0)).
    - intros x Hx. rewrite Rmin_left, Rmax_right in Hx by lra. symmetry. apply Hout. lra.
    - pose proof (@RInt.is_RInt_const Hierarchy.R_NormedModule M b 0) as H.
      unfold Hierarchy.scal in H; simpl in H; unfold Hierarchy.mult in H; simpl in H. rewrite Rmult_0_r in H. exact H. }
  apply RInt.is_RInt_unique.
  pose proof (RInt.is_RInt_Chasles _ _ _ _ _ _ (RInt.is_RInt_Chasles _ _ _ _ _ _ I1 I2) I3) as H.
  unfold Hierarchy.plus in H; simpl in H. rewrite Rplus_0_l, Rplus_0_r in H. exact H.
Qed.

Lemma var_box d : un_min d < un_max d -> un_area d = un_max d - un_min d ->
  let m := (un_min d + un_max d) / 2 in
  RInt (fun x => (x - m) * (x - m) * updf ureal d x) (un_min d) (un_max d) =
  (un_max d - un_min d) * (un_max d - un_min d) / 12.
Proof.
  intros H1 H2 m. apply RInt.is_RInt_unique.
  apply (@RInt.is_RInt_ext Hierarchy.R_NormedModule (fun x => (x - m) * (x - m) * / un_area d)).
  { intros x Hx. rewrite Rmin_left, Rmax_right in Hx by lra. rewrite updf_real_in; [done|lra]. }
  replace ((un_max d - un_min d) * (un_max d - un_min d) / 12) with
    (@Hierarchy.minus Hierarchy.R_AbelianGroup ((un_max d - m) ^ 3 / 3 * / un_area d) ((un_min d - m) ^ 3 / 3 * / un_area d) : R).
  - apply (@RInt_analysis.is_RInt_derive Hierarchy.R_CompleteNormedModule
      (fun x => (x - m) ^ 3 / 3 * / un_area d) (fun x => (x - m) * (x - m) * / un_area d)).
    + intros x _. apply cube_derive.
    + intros x _. apply square_cont.
  - unfold Hierarchy.minus, Hierarchy.plus, Hierarchy.opp; simpl. rewrite H2. unfold m. field. lra.
Qed.

Lemma mass_box (m M : Z) (f : Z -> R) lo n : (m < M)%Z ->
  (forall x, (m <= x <= M)%Z -> f x = / IZR (M - m + 1)) -> (forall x, (x < m \/ M < x)%Z -> f x = 0) ->
  (lo <= m)%Z -> (M < lo + Z.of_nat n)%Z ->
  Rsum (map (fun k => f (lo + Z.of_nat k)%Z) (seq 0 n)) = 1.
Proof.
  intros HmM Hin Hout Hlo Hn.
  set (p := / IZR (M - m + 1)) in *.
  assert (G : forall n, Rsum (map (fun k => f (lo + Z.of_nat k)%Z) (seq 0 n)) =
     p * IZR (Z.max 0 (Z.min (M + 1) (lo + Z.of_nat n) - m))).
  { clear n Hn. induction n as [|n IH].
    - simpl. rewrite Z.max_l by lia. unfold Rsum; simpl. lra.
    - rewrite seq_S, map_app, Rsum_app, IH. cbn [map Nat.add].
      assert (Hone : forall y, Rsum [y] = y) by (intros; unfold Rsum; simpl; lra). rewrite Hone.
      destruct (Z_lt_ge_dec (lo + Z.of_nat n) m) as [H|H].
      + rewrite Hout by lia. rewrite !Z.max_l by lia. lra.
      + destruct (Z_lt_ge_dec M (lo + Z.of_nat n)) as [H'|H'].
        * rewrite Hout by lia. rewrite !Z.min_l by lia. lra.
        * rewrite Hin by lia. rewrite !Z.min_r by lia. rewrite !Z.max_r by lia.
          replace (lo + Z.of_nat (S n) - m)%Z with (lo + Z.of_nat n - m + 1)%Z by lia.
          rewrite plus_IZR. lra. }
  rewrite G. rewrite Z.min_l by lia. rewrite Z.max_r by lia.
  unfold p. replace (M + 1 - m)%Z with (M - m + 1)%Z by lia. apply Rinv_l.
  intros E. apply eq_IZR in E. lia.
Qed.

Lemma sum_sq_centered (c : R) n :
  Rsum (map (fun k => (INR k - c) * (INR k - c)) (seq 0 n)) =
  INR n * (INR n - 1) * (2 * INR n - 1) / 6 - c * INR n * (INR n - 1) + c * c * INR n.
Proof.
  induction n as [|n IH]; [simpl; unfold Rsum; simpl; lra|].
  rewrite seq_S, map_app, Rsum_app, IH. cbn [map Nat.add].
  assert (Hone : forall y, Rsum [y] = y) by (intros; unfold Rsum; simpl; lra). rewrite Hone.
  rewrite S_INR. field.
Qed.

Lemma var_int w d : (un_min d < un_max d)%Z -> un_area d = (un_max d - un_min d + 1)%Z ->
  (let s := IZR (un_max d - un_min d + 1) in (s * s - 1) / 12) =
  Rsum (map (fun k => let x := (un_min d + Z.of_nat k)%Z in
     (IZR x - IZR (un_min d + un_max d) / 2) * (IZR x - IZR (un_min d + un_max d) / 2) * upmf (uint w) d x)
     (seq 0 (Z.to_nat (un_max d - un_min d + 1)))).
Proof.
  intros H1 H2. set (n := Z.to_nat (un_max d - un_min d + 1)).
  assert (HN : INR n = IZR (un_max d - un_min d + 1)) by (rewrite INR_IZR_INZ; unfold n; f_equal; lia).
  assert (Hn0 : 0 < INR n) by (rewrite HN; apply IZR_lt; lia).
  rewrite (Rsum_ext _ (fun k => / INR n * ((INR k - (INR n - 1) / 2) * (INR k - (INR n - 1) / 2)))).
  - assert (Hscale : forall c (f : nat -> R) l, Rsum (map (fun k => c * f k) l) = c * Rsum (map f l)).
    { intros c f l. induction l as [|x l IH]; cbn [map]; [unfold Rsum; simpl; lra|]. rewrite !Rsum_cons, IH. lra. }
    rewrite Hscale, sum_sq_centered. cbn zeta. rewrite <- HN. field. lra.
  - intros k Hk. apply elem_of_list_In, in_seq in Hk. cbn zeta. unfold upmf, updf; simpl.
    destruct (Z.leb_spec (un_min d) (un_min d + Z.of_nat k)); [|lia].
    destruct (Z.leb_spec (un_min d + Z.of_nat k) (un_max d)); [|lia]. simpl. rewrite H2, <- HN.
    rewrite !plus_IZR, <- INR_IZR_INZ.
    assert (HM : IZR (un_max d) = INR n - 1 + IZR (un_min d)) by (rewrite HN, plus_IZR, minus_IZR; lra).
    rewrite HM. field. lra.
Qed.

(** ** M dimensions *)
Lemma area_prod_real acc a b :
  area_prod ureal acc a b = Some (acc * fold_right Rmult 1 (zip_with (fun a b => b - a) a b)).
Proof.
  revert acc b. induction a as [|x a IH]; intros acc [|y b]; simpl; try (f_equal; lra).
  rewrite IH. f_equal. lra.
Qed.
Lemma areaM_real a b : length a = length b ->
  areaM ureal a b = Some (fold_right Rmult 1 (zip_with (fun a b => b - a) a b)).
Proof. intros _. unfold areaM. rewrite area_prod_real. simpl. f_equal. lra. Qed.

Lemma exists_zip_lt a b : length a = length b ->
  (existsb (fun p => u_le ureal (snd p) (fst p)) (zip a b) = false <-> Forall2 Rlt a b).
Proof.
  revert b. induction a as [|x a IH]; intros [|y b] H; simpl in *; try lia; [done|].
  destruct (Rle_dec y x); simpl.
  - split; [done|]. intros HF. inversion HF; subst. lra.
  - rewrite IH by lia. split; [intros; constructor; [lra|done]|intros HF; by inversion HF].
Qed.
Lemma setSupportM_real d a b : length a = length b ->
  (~ Forall2 Rlt a b -> setSupportM ureal d a b = (d, Throw BadArgument)) /\
  (Forall2 Rlt a b -> setSupportM ureal d a b =
     (UnifM a b (fold_right Rmult 1 (zip_with (fun a b => b - a) a b)), Ret tt)).
Proof.
  intros Hl. unfold setSupportM. rewrite Hl, Nat.eqb_refl. cbn [negb].
  pose proof (exists_zip_lt a b Hl) as HE. split; intros HF.
  - destruct (existsb _ _); [done|]. exfalso. by apply HF, HE.
  - rewrite (proj2 HE HF), areaM_real by done. done.
Qed.
Lemma unifM_reach_real d : unifM_reach ureal d ->
  Forall2 Rlt (um_min d) (um_max d) /\
  um_area d = fold_right Rmult 1 (zip_with (fun a b => b - a) (um_min d) (um_max d)).
Proof.
  assert (HS : forall d a b d' r, setSupportM ureal d a b = (d', r) -> came_back r ->
     (Forall2 Rlt (um_min d) (um_max d) /\
      um_area d = fold_right Rmult 1 (zip_with (fun a b => b - a) (um_min d) (um_max d))) \/ r = Ret tt ->
     Forall2 Rlt (um_min d') (um_max d') /\
      um_area d' = fold_right Rmult 1 (zip_with (fun a b => b - a) (um_min d') (um_max d'))).
  { intros d0 a b d' r H Hr Hc. unfold setSupportM in H.
    destruct (Nat.eqb_spec (length a) (length b)) as [Hl|]; [|injection H as <- <-; done]. cbn [negb] in H.
    pose proof (exists_zip_lt a b Hl) as HE. destruct (existsb _ _).
    - injection H as <- <-. destruct Hc; done.
    - rewrite areaM_real in H by done. injection H as <- <-. simpl. split; [by apply HE|done]. }
  induction 1 as [junk a b d H|d a b d' r _ IH H Hr].
  - revert H. unfold unifM_new. destruct (setSupportM ureal junk a b) as [d' r] eqn:E.
    destruct r; intros [= <-]. destruct a0. eapply HS; [exact E|done|by right].
  - eapply HS; [exact H|done|by left].
Qed.
Lemma forallb_zip_le x y : length x = length y ->
  (forallb (fun p => u_le ureal (fst p) (snd p)) (zip x y) = true <-> Forall2 Rle x y).
Proof.
  revert y. induction x as [|a x IH]; intros [|b y] H; simpl in *; try lia; [done|].
  destruct (Rle_dec a b); simpl.
  - rewrite IH by lia. split; [by constructor|intros HF; by inversion HF].
  - split; [done|]. intros HF. inversion HF; subst; lra.
Qed.
Lemma forallb_zip_ge x y : length x = length y ->
  (forallb (fun p => u_le ureal (snd p) (fst p)) (zip x y) = true <-> Forall2 Rle y x).
Proof.
  revert y. induction x as [|a x IH]; intros [|b y] H; simpl in *; try lia; [done|].
  destruct (Rle_dec b a); simpl.
  - rewrite IH by lia. split; [by constructor|intros HF; by inversion HF].
  - split; [done|]. intros HF. inversion HF; subst; lra.
Qed.
Lemma ugetMeanM_real d :
  ugetMeanM ureal d = Ret (map (fun w => / 2 * w) (zip_with (fun a b => b - a) (um_min d) (um_max d))).
Proof.
  unfold ugetMeanM.
  assert (mapM (fun p => u_diff ureal (fst p) (snd p)) (zip (um_min d) (um_max d)) =
    Some (zip_with (fun a b => b - a) (um_min d) (um_max d))) as ->; [|done].
  generalize (um_min d) (um_max d). induction l as [|x l IH]; intros [|y k]; simpl; try done.
  by rewrite IH.
Qed.
