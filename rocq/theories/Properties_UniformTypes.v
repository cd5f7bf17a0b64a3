(** C120: uniform distributions over integers (signed and unsigned, one and several dimensions) and other types. *)
From stdpp Require Import prelude list.
From Coq Require Import Reals Lra Psatz ZArith.
From Coquelicot Require Coquelicot.
From Flocq Require Import Core.
From Verif Require Import Base Spec_Normal NormalProofs UniformModel UniformProofs UniformTypesModel.
Local Open Scope R_scope.
Local Notation RInt := (@RInt.RInt Hierarchy.R_CompleteNormedModule).

(** ** Unsigned integers *)
(** Every support with min < max is accepted; the number of values is the stored area unless the support is the whole type, for which it
    is 0. *)
Theorem uniform_support_unsigned w d a b : (0 < w)%Z -> (0 <= a < 2 ^ w)%Z -> (0 <= b < 2 ^ w)%Z ->
  ((b <= a)%Z -> setSupport (uunsigned w) d a b = (d, Throw BadArgument)) /\
  ((a < b)%Z -> ~ (a = 0 /\ b = 2 ^ w - 1)%Z -> setSupport (uunsigned w) d a b = (Unif a b (b - a + 1)%Z, Ret tt)) /\
  ((a < b)%Z -> (a = 0 /\ b = 2 ^ w - 1)%Z -> setSupport (uunsigned w) d a b = (Unif a b 0%Z, Ret tt)).
Proof.
  intros Hw Ha Hb. unfold setSupport, uunsigned. cbn [u_le u_area].
  split; [|split].
  - intros H. destruct (Z.leb_spec b a); [done|lia].
  - intros H Hn. destruct (Z.leb_spec b a); [lia|]. rewrite (Z.mod_small (b - a)) by lia. rewrite Z.mod_small by lia. done.
  - intros H [-> ->]. destruct (Z.leb_spec (2 ^ w - 1) 0); [lia|]. rewrite (Z.mod_small (2 ^ w - 1 - 0)) by lia.
    replace (2 ^ w - 1 - 0 + 1)%Z with (1 * 2 ^ w)%Z by lia. by rewrite Z_mod_mult.
Qed.
(** For every support but the whole type the probabilities add up to one and the variance is that of the values. *)
Theorem uniform_mass_unsigned w a b area : (0 < w)%Z -> (0 <= a < b)%Z -> (b < 2 ^ w)%Z -> ~ (a = 0 /\ b = 2 ^ w - 1)%Z ->
  forall junk, unif_new (uunsigned w) junk a b = Ret (Unif a b area) ->
  let d := Unif a b area in
  area = (b - a + 1)%Z /\
  (forall x, (a <= x <= b)%Z -> upmf (uunsigned w) d x = / IZR (b - a + 1)) /\
  (forall x, (x < a \/ b < x)%Z -> upmf (uunsigned w) d x = 0) /\
  (forall lo n, (lo <= a)%Z -> (b < lo + Z.of_nat n)%Z ->
     Rsum (map (fun k => upmf (uunsigned w) d (lo + Z.of_nat k)%Z) (seq 0 n)) = 1) /\
  ugetVariance (uunsigned w) d = Ret ((IZR (b - a + 1) * IZR (b - a + 1) - 1) / 12).
Proof.
  intros Hw Ha Hb Hn junk Hnew d.
  destruct (uniform_support_unsigned w junk a b Hw ltac:(lia) ltac:(lia)) as (_ & Hs & _).
  unfold unif_new in Hnew. rewrite (Hs ltac:(lia) Hn) in Hnew. injection Hnew as <-.
  assert (Hin : forall x, (a <= x <= b)%Z -> upmf (uunsigned w) d x = / IZR (b - a + 1)).
  { intros x Hx. unfold upmf, updf, d, uunsigned. cbn [un_min un_max un_area u_le u_R].
    destruct (Z.leb_spec a x); [|lia]. destruct (Z.leb_spec x b); [|lia]. cbn [andb]. unfold Rdiv. lra. }
  assert (Hout : forall x, (x < a \/ b < x)%Z -> upmf (uunsigned w) d x = 0).
  { intros x Hx. unfold upmf, updf, d, uunsigned. cbn [un_min un_max un_area u_le u_R].
    destruct (Z.leb_spec a x); [|done]. destruct (Z.leb_spec x b); [lia|done]. }
  split; [done|]. split; [done|]. split; [done|]. split.
  - intros lo n Hlo Hn'. apply (mass_box a b); try done. lia.
  - unfold ugetVariance, d, uunsigned. cbn [un_min un_max u_area u_var u_R]. rewrite (Z.mod_small (b - a)) by lia. rewrite Z.mod_small by lia. done.
Qed.
(** A user expects the same of the whole type: its area is 0, so every probability is a division by zero, and the variance is negative. *)
Theorem uniform_whole_unsigned_refuted w junk : (0 < w)%Z ->
  exists d, unif_new (uunsigned w) junk 0%Z (2 ^ w - 1)%Z = Ret d /\ un_area d = 0%Z /\
    ugetVariance (uunsigned w) d = Ret (- / 12).
Proof.
  intros Hw. pose proof (Z.pow_gt_1 2 w ltac:(lia)) as [Hp _]. specialize (Hp Hw).
  destruct (uniform_support_unsigned w junk 0 (2 ^ w - 1) Hw ltac:(lia) ltac:(lia)) as (_ & _ & Hs).
  unfold unif_new. rewrite (Hs ltac:(lia) ltac:(lia)). eexists. split; [reflexivity|]. split; [reflexivity|].
  unfold ugetVariance, uunsigned. cbn [un_min un_max u_area u_var u_R]. rewrite (Z.mod_small (2 ^ w - 1 - 0)) by lia.
  replace (2 ^ w - 1 - 0 + 1)%Z with (1 * 2 ^ w)%Z by lia. rewrite Z_mod_mult. f_equal. lra.
Qed.

(** ** Several dimensions, signed integers *)
(** All points of a box. *)
Fixpoint box (a b : list Z) : list (list Z) :=
  match a, b with
  | x :: a, y :: b => flat_map (fun k => map (cons (x + Z.of_nat k)%Z) (box a b)) (seq 0 (Z.to_nat (y - x + 1)))
  | _, _ => [[]]
  end.
Theorem box_points a b p : List.length a = List.length b -> (p ∈ box a b <-> Forall2 Z.le a p /\ Forall2 Z.le p b).
Proof.
  revert b p. induction a as [|x a IH]; intros [|y b] p Hl; cbn in Hl; try lia.
  - cbn. rewrite elem_of_list_singleton. split; [intros ->; split; constructor|]. intros [H _]. by inversion H.
  - cbn [box]. rewrite elem_of_list_In, in_flat_map. split.
    + intros (k & Hk & Hp). apply in_seq in Hk. apply in_map_iff in Hp as (q & <- & Hq). apply elem_of_list_In, IH in Hq as [H1 H2]; [|lia].
      split; constructor; try done; lia.
    + intros [H1 H2]. inversion H1 as [|? z ? q Hz Hq]; subst. inversion H2; subst.
      exists (Z.to_nat (z - x)). split; [apply in_seq; lia|]. apply in_map_iff. exists q. split; [f_equal; lia|].
      apply elem_of_list_In, IH; [lia|done].
Qed.
Theorem box_NoDup a b : NoDup (box a b).
Proof.
  revert b. induction a as [|x a IH]; intros [|y b]; cbn [box]; try (apply NoDup_singleton).
  generalize (seq_NoDup (Z.to_nat (y - x + 1)) 0). generalize (seq 0 (Z.to_nat (y - x + 1))) as ks.
  intros ks Hks. apply NoDup_ListNoDup in Hks. induction ks as [|k ks IHk]; cbn; [constructor|].
  apply NoDup_cons in Hks as [Hk Hks]. apply NoDup_app. split_and!.
  - apply (NoDup_fmap_2 (cons (x + Z.of_nat k)%Z)), IH.
  - intros p Hp Hq. apply elem_of_list_In, in_map_iff in Hp as (q & <- & _).
    apply elem_of_list_In, in_flat_map in Hq as (k' & Hk' & Hq). apply in_map_iff in Hq as (q' & [= H _] & _).
    assert (k' = k) as -> by lia. apply elem_of_list_In in Hk'. done.
  - by apply IHk.
Qed.
Local Lemma box_length a b : List.length a = List.length b -> Forall2 Z.lt a b ->
  Z.of_nat (List.length (box a b)) = foldr Z.mul 1%Z (zip_with (fun x y => y - x + 1)%Z a b).
Proof.
  intros _ H. induction H as [|x y a b Hxy _ IH]; [done|]. cbn [box zip_with foldr]. rewrite <- IH.
  assert (forall ks, List.length (flat_map (fun k => map (cons (x + Z.of_nat k)%Z) (box a b)) ks) = (List.length ks * List.length (box a b))%nat) as ->.
  { induction ks as [|k ks IHk]; [done|]. cbn [flat_map]. rewrite app_length, IHk, map_length. cbn. lia. }
  rewrite seq_length. lia.
Qed.
Local Lemma area_prod_int w a b acc r : area_prod (uint w) acc a b = Some r ->
  r = acc * IZR (foldr Z.mul 1%Z (zip_with (fun x y => y - x + 1)%Z a b)).
Proof.
  revert b acc. induction a as [|x a IH]; intros [|y b] acc H; try (cbn in H; injection H as <-; cbn; ring).
  cbn [area_prod] in H. destruct (u_area (uint w) x y) as [s|] eqn:E; [|done].
  apply IH in H as ->. cbn [zip_with foldr]. rewrite mult_IZR.
  assert (s = y - x + 1)%Z as ->; [|cbn [uint u_R]; ring].
  cbn [uint u_area] in E. destruct (irange w (y - x)) as [dd|] eqn:E1; [|done]. apply irange_some in E1 as ->. by apply irange_some in E as ->.
Qed.
Local Lemma forallb_zip (f : Z -> Z -> bool) (P : Z -> Z -> Prop) x y : (forall u v, f u v = true <-> P u v) -> List.length x = List.length y ->
  forallb (fun p => f (fst p) (snd p)) (zip x y) = true <-> Forall2 P x y.
Proof.
  intros Hf. revert y. induction x as [|u x IH]; intros [|v y] Hl; cbn in Hl; try lia; cbn.
  - split; [constructor|done].
  - rewrite andb_true_iff, Hf, IH by lia. split; [intros [? ?]; by constructor|]. intros H. inversion H; subst. done.
Qed.
Local Lemma forall2_flip (x y : list Z) : Forall2 (fun u v => (v <= u)%Z) x y <-> Forall2 Z.le y x.
Proof. rewrite <- (Forall2_flip _ y x). done. Qed.
(** Every distribution that can be reached: the probability of a point of the box is one over the number of its points, of any other point
    zero, and the probabilities of the points of the box add up to one. *)
Theorem uniformM_mass_int w d : unifM_reach (uint w) d ->
  let ps := box (um_min d) (um_max d) in
  List.length (um_min d) = List.length (um_max d) /\ Forall2 Z.lt (um_min d) (um_max d) /\
  um_area d = Z.of_nat (List.length ps) /\
  (forall p, List.length p = List.length (um_min d) -> (p ∈ ps -> updfM (uint w) d p = / INR (List.length ps)) /\ (p ∉ ps -> updfM (uint w) d p = 0)) /\
  Rsum (map (updfM (uint w) d) ps) = 1.
Proof.
  intros Hr.
  assert (Hd : List.length (um_min d) = List.length (um_max d) /\ Forall2 Z.lt (um_min d) (um_max d) /\
    um_area d = foldr Z.mul 1%Z (zip_with (fun x y => y - x + 1)%Z (um_min d) (um_max d))).
  { assert (Hset : forall d a b d' r, setSupportM (uint w) d a b = (d', r) ->
      (r = Throw BadArgument /\ d' = d) \/ r = UB \/
      (List.length a = List.length b /\ Forall2 Z.lt a b /\ d' = UnifM a b (foldr Z.mul 1%Z (zip_with (fun x y => y - x + 1)%Z a b)) /\ r = Ret tt)).
    { intros d0 a b d' r H. unfold setSupportM in H. destruct (Nat.eqb_spec (List.length a) (List.length b)) as [Hl|]; cbn [negb] in H;
        [|right; left; by injection H].
      destruct (existsb _ _) eqn:Ex; [left; injection H as <- <-; done|].
      destruct (areaM (uint w) a b) as [s|] eqn:Ea; [|right; left; by injection H]. right; right. injection H as <- <-.
      unfold areaM in Ea. destruct (area_prod (uint w) 1 a b) as [r0|] eqn:Ep; [|done]. apply area_prod_int in Ep as ->.
      cbn [uint u_ofR] in Ea. rewrite Rmult_1_l, Ztrunc_IZR in Ea. apply irange_some in Ea as ->. split_and!; try done.
      clear -Hl Ex. revert b Hl Ex. induction a as [|x a IH]; intros [|y b] Hl Ex; cbn in Hl; try lia; [constructor|].
      cbn in Ex. apply orb_false_iff in Ex as [E1 E2]. constructor; [apply Z.leb_gt in E1; lia|]. apply IH; [lia|exact E2]. }
    induction Hr as [junk a b d H|d a b d' r _ IH H Hc].
    - unfold unifM_new in H. destruct (setSupportM (uint w) junk a b) as [d' r] eqn:E. apply Hset in E as [[-> ->]|[->|(H1 & H2 & -> & ->)]]; try done.
      injection H as <-. done.
    - apply Hset in H as [[-> ->]|[->|(H1 & H2 & -> & ->)]]; [done| |done]. by destruct Hc. }
  destruct Hd as (Hl & Hlt & Ha). pose proof (box_length _ _ Hl Hlt) as Hbl. rewrite <- Hbl in Ha. cbn zeta.
  assert (Hv : forall p, List.length p = List.length (um_min d) ->
    (p ∈ box (um_min d) (um_max d) -> updfM (uint w) d p = / INR (List.length (box (um_min d) (um_max d)))) /\
    (p ∉ box (um_min d) (um_max d) -> updfM (uint w) d p = 0)).
  { intros p Hp. unfold updfM. cbn [uint u_le u_R].
    pose proof (forallb_zip Z.leb Z.le p (um_max d) Z.leb_le ltac:(lia)) as H1.
    pose proof (forallb_zip (fun u v => Z.leb v u) (fun u v => (v <= u)%Z) p (um_min d) ltac:(intros; apply Z.leb_le) ltac:(lia)) as H2.
    rewrite forall2_flip in H2. rewrite (box_points _ _ _ Hl). split.
    - intros [Hx Hy]. rewrite (proj2 H1 Hy), (proj2 H2 Hx). cbn [andb]. rewrite Ha, <- INR_IZR_INZ. unfold Rdiv. ring.
    - intros Hn. destruct (forallb _ (zip p (um_max d))) eqn:E1; [|done]. destruct (forallb _ (zip p (um_min d))) eqn:E2; [|done].
      exfalso. apply Hn. split; [by apply H2|by apply H1]. }
  split_and!; [done|done|done|done|].
  assert (Hbox : forall p, p ∈ box (um_min d) (um_max d) -> List.length p = List.length (um_min d)).
  { intros p Hp. apply (box_points _ _ _ Hl) in Hp as [Hp _]. symmetry. by eapply Forall2_length. }
  rewrite (Rsum_ext _ (fun _ => / INR (List.length (box (um_min d) (um_max d))))).
  - rewrite Rsum_const_map. field. apply not_0_INR.
    assert (um_min d ∈ box (um_min d) (um_max d)) as Hin.
    { apply (box_points _ _ _ Hl). split; [clear; induction (um_min d); constructor; [lia|done]|].
      eapply Forall2_impl; [exact Hlt|]. intros; lia. }
    destruct (box (um_min d) (um_max d)); [by apply elem_of_nil in Hin|done].
  - intros p Hp. by apply Hv; [apply Hbox|].
Qed.

(** ** Which type is treated how *)
(** float and double: total probability one. *)
Theorem uniform_mass_floating t d : t = TFloat \/ t = TDouble -> unif_reach (ufloating t) d ->
  forall a b, a <= un_min d -> un_max d <= b -> RInt (updf (ufloating t) d) a b = 1.
Proof.
  intros Ht. assert (is_real t = true) as Ht' by by destruct Ht as [-> | ->]. unfold ufloating. rewrite Ht'. intros H a b Ha Hb. apply unif_reach_real in H as [H1 H2].
  apply (RInt_box (updf ureal d) (un_min d) (un_max d)); try done.
  - intros x Hx. rewrite <- H2. by apply updf_real_in.
  - intros x Hx. by apply updf_real_out.
Qed.
(** A user expects the same of long double, which the library classifies as an integer: the total probability of every support is less than one
    (and nothing is rejected). *)
Theorem uniform_long_double_refuted junk m M : is_integer TLongDouble = true /\
  (m < M -> exists d, unif_new (ufloating TLongDouble) junk m M = Ret d /\
     RInt (updf (ufloating TLongDouble) d) m M = (M - m) / (M - m + 1) /\ (M - m) / (M - m + 1) < 1 /\
     ugetVariance (ufloating TLongDouble) d = Ret (((M - m + 1) * (M - m + 1) - 1) / 12)).
Proof.
  split; [done|]. intros H. unfold unif_new, setSupport, ufloating. cbn [is_real u_le u_area].
  destruct (Rle_dec M m); [lra|]. eexists. split; [reflexivity|]. split.
  - erewrite (@RInt.RInt_ext Hierarchy.R_CompleteNormedModule _ (fun _ : R => / (M - m + 1))).
    + rewrite RInt.RInt_const. unfold Hierarchy.scal. cbn. unfold Hierarchy.mult. cbn. field. lra.
    + intros x Hx. rewrite Rmin_left, Rmax_right in Hx by lra. unfold updf. cbn [u_le u_R un_min un_max un_area].
      destruct (Rle_dec m x); [|lra]. destruct (Rle_dec x M); [|lra]. cbn [andb]. unfold Rdiv. lra.
  - split; [|reflexivity]. apply (Rmult_lt_reg_r (M - m + 1)); [lra|]. unfold Rdiv. rewrite Rmult_assoc, Rinv_l by lra. lra.
Qed.

(** Non-vacuity *)
Example uniform_types_example :
  (exists d, unif_new (uunsigned 32) (Unif 0 0 0)%Z 3%Z 7%Z = Ret d /\ un_area d = 5%Z) /\
  (exists d, unifM_new (uint 32) (UnifM [] [] 0%Z) [0; -1]%Z [1; 1]%Z = Ret d /\ List.length (box (um_min d) (um_max d)) = 6%nat).
Proof.
  split; [eexists; split; reflexivity|].
  unfold unifM_new, setSupportM. cbn [List.length Nat.eqb negb existsb zip_with uint u_le fst snd Z.leb Z.compare orb].
  change (existsb _ _) with false. cbn iota. unfold areaM. cbn [area_prod uint u_area].
  replace (irange 32 (1 - 0)) with (Some 1%Z) by reflexivity. cbn iota. replace (irange 32 (1 + 1)) with (Some 2%Z) by reflexivity. cbn iota.
  replace (irange 32 (1 - -1)) with (Some 2%Z) by reflexivity. cbn iota. replace (irange 32 (2 + 1)) with (Some 3%Z) by reflexivity. cbn iota.
  cbn [uint u_R u_ofR]. replace (1 * 2 * 3) with 6 by ring. rewrite (Ztrunc_IZR 6). change (irange 32 6) with (Some 6%Z). cbn iota.
  eexists. split; reflexivity.
Qed.
