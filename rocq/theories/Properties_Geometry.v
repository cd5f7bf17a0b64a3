(** C43, C44, C67: rigid transformations. *)
From stdpp Require Import prelude.
From Coq Require Import Reals Lra Psatz.
From Verif Require Import GeometryModel Spec_Geometry.
Local Open Scope R_scope.

Ltac comp := unfold transform2, transform3, getInverse2, getInverse3, inverse2, inverse3, transf_copy, setTransformation2,
  setTransformation3, mvec, mmul, mtransp, mset, add2, add3, neg2, neg3, dist2, dist3, rot, rot_ypr, unrot_ypr,
  rot_x, rot_y, rot_z; cbn [t_T t_rot t_tr sum_lt Nat.eqb andb fst snd].

Lemma sc (a : R) : sin a * sin a = 1 - cos a * cos a.
Proof. pose proof (sin2_cos2 a) as H. unfold Rsqr in H. lra. Qed.
(** Kills goals that are identities modulo sin^2 + cos^2 = 1. *)
Lemma rot_unrot (a x y : R) : cos a * (cos a * x - sin a * y) + sin a * (sin a * x + cos a * y) = x.
Proof. replace (_ + _) with ((cos a * cos a + sin a * sin a) * x) by ring. rewrite sc. ring. Qed.

(** *** Two dimensions *)
(** The transformation set from a pose rotates by yaw and then translates. *)
Theorem transformation2_meaning t x y yaw p :
  transform2 (setTransformation2 t x y yaw) p = add2 (x, y) (rot yaw p).
Proof. comp. f_equal; ring. Qed.
(** After n inversions, in place or by getInverse: *)
Fixpoint inversions2 (n : nat) (t : transf) : transf :=
  match n with O => t | S n' => inverse2 (inversions2 n' t) end.
Lemma inversions2_spec t x y yaw n i j : (i < 3)%nat -> (j < 3)%nat ->
  let s := setTransformation2 t x y yaw in
  t_rot (inversions2 n s) i j = (if Nat.even n then t_rot s i j else t_rot s j i) /\
  t_tr (inversions2 n s) i j =
    (if Nat.even n then t_tr s i j else if Nat.eqb j 2 && negb (Nat.eqb i 2) then - t_tr s i j else t_tr s i j) /\
  t_T (inversions2 (S n) s) i j = mmul 3 (t_rot (inversions2 (S n) s)) (t_tr (inversions2 (S n) s)) i j.
Proof.
  intros Hi Hj s. revert i j Hi Hj. induction n as [|n IH]; intros i j Hi Hj.
  - done.
  - assert (E : Nat.even (S n) = negb (Nat.even n)) by (rewrite Nat.even_succ, <- Nat.negb_even; done).
    rewrite E. destruct (IH i j Hi Hj) as (_ & H2 & _). destruct (IH j i Hj Hi) as (H1 & _ & _).
    split; [|split].
    + cbn [inversions2 inverse2 t_rot mtransp]. unfold inverse2; cbn [t_rot]. unfold mtransp. rewrite H1.
      by destruct (Nat.even n).
    + cbn [inversions2]. unfold inverse2; cbn [t_tr]. unfold mset.
      assert (Hi3 : i = 0%nat \/ i = 1%nat \/ i = 2%nat) by lia.
      assert (Hj3 : j = 0%nat \/ j = 1%nat \/ j = 2%nat) by lia.
      destruct Hi3 as [->|[->| ->]], Hj3 as [->|[->| ->]]; cbn [Nat.eqb andb negb] in *; rewrite H2;
        destruct (Nat.even n); simpl negb; cbv iota; try done; ring.
    + done.
Qed.
Theorem transformation2_inversions t x y yaw n p :
  transform2 (inversions2 n (setTransformation2 t x y yaw)) p =
  match n with
  | O => add2 (x, y) (rot yaw p)
  | S n' => if Nat.even n' then rot (- yaw) (add2 p (neg2 (x, y)))      (* odd number: the inverse motion *)
            else rot yaw (add2 p (x, y))                                (* even number: translate, then rotate *)
  end.
Proof.
  destruct n as [|n]; [apply transformation2_meaning|].
  unfold transform2, mvec. cbn [sum_lt].
  set (s := setTransformation2 t x y yaw).
  assert (HT : forall i j, (i < 3)%nat -> (j < 3)%nat -> t_T (inversions2 (S n) s) i j =
    sum_lt 3 (fun k => (if Nat.even (S n) then t_rot s i k else t_rot s k i) *
      (if Nat.even (S n) then t_tr s k j else if Nat.eqb j 2 && negb (Nat.eqb k 2) then - t_tr s k j else t_tr s k j))).
  { intros i j Hi Hj. destruct (inversions2_spec t x y yaw n i j Hi Hj) as (_ & _ & E1). fold s in E1. rewrite E1.
    unfold mmul. cbn [sum_lt].
    assert (HR : forall k, (k < 3)%nat -> t_rot (inversions2 (S n) s) i k = if Nat.even (S n) then t_rot s i k else t_rot s k i).
    { intros k Hk. apply (inversions2_spec t x y yaw (S n) i k Hi Hk). }
    assert (HL : forall k, (k < 3)%nat -> t_tr (inversions2 (S n) s) k j = if Nat.even (S n) then t_tr s k j
       else if Nat.eqb j 2 && negb (Nat.eqb k 2) then - t_tr s k j else t_tr s k j).
    { intros k Hk. apply (inversions2_spec t x y yaw (S n) k j Hk Hj). }
    rewrite !HR, !HL by lia. done. }
  rewrite !HT by lia.
  assert (E : Nat.even (S n) = negb (Nat.even n)) by (rewrite Nat.even_succ, <- Nat.negb_even; done).
  rewrite !E. destruct (Nat.even n); cbn [negb sum_lt Nat.eqb andb]; unfold s; comp;
    rewrite ?sin_neg, ?cos_neg; f_equal; ring.
Qed.
(** C43 in two dimensions. *)
Theorem transformation2_inverse t x y yaw p q :
  let s := setTransformation2 t x y yaw in
  transform2 (getInverse2 s) (transform2 s p) = p /\
  transform2 s (transform2 (getInverse2 s) p) = p /\
  transform2 (inverse2 s) p = transform2 (getInverse2 s) p /\
  dist2 (transform2 s p) (transform2 s q) = dist2 p q.
Proof.
  intros s. change (getInverse2 s) with (inversions2 1 s). change (inverse2 s) with (inversions2 1 s).
  unfold s. rewrite !transformation2_inversions. rewrite !transformation2_meaning. cbn [Nat.even].
  rewrite ?transformation2_inversions. cbn [Nat.even].
  destruct p as [a b], q as [c d]. comp. rewrite sin_neg, cos_neg.
  split; [|split; [|split]]; [| |done|].
  - f_equal.
    + rewrite <- (rot_unrot yaw a b) at 3. ring.
    + transitivity ((cos yaw * cos yaw + sin yaw * sin yaw) * b); [ring|]. rewrite sc. ring.
  - f_equal.
    + transitivity (x + (cos yaw * cos yaw + sin yaw * sin yaw) * (a - x)); [ring|]. rewrite sc. ring.
    + transitivity (y + (cos yaw * cos yaw + sin yaw * sin yaw) * (b - y)); [ring|]. rewrite sc. ring.
  - transitivity ((cos yaw * cos yaw + sin yaw * sin yaw) * ((a - c) ^ 2 + (b - d) ^ 2)); [ring|]. rewrite sc. ring.
Qed.
(** C44 in two dimensions: inverting twice gives the original back exactly when there is no rotation or no translation. *)
Theorem transformation2_double_inverse_iff t x y yaw :
  let s := setTransformation2 t x y yaw in
  (forall p, transform2 (getInverse2 (getInverse2 s)) p = transform2 s p) <-> cos yaw = 1 \/ (x = 0 /\ y = 0).
Proof.
  intros s. change (getInverse2 (getInverse2 s)) with (inversions2 2 s).
  assert (H : forall p, transform2 (inversions2 2 s) p = rot yaw (add2 p (x, y))).
  { intros p. unfold s. by rewrite transformation2_inversions. }
  assert (H' : forall p, transform2 s p = add2 (x, y) (rot yaw p)) by apply transformation2_meaning.
  assert (Hsc := sc yaw). split.
  - intros HE. specialize (HE (0, 0)). rewrite H, H' in HE. unfold rot, add2 in HE. simpl in HE.
    injection HE as E1 E2. rewrite !Rplus_0_l, ?Rmult_0_r, ?Rminus_0_r, ?Rplus_0_r in E1, E2.
    destruct (Req_dec (cos yaw) 1) as [|Hc]; [by left|right].
    assert (2 * (1 - cos yaw) * x = 0 /\ 2 * (1 - cos yaw) * y = 0) as [Ex Ey].
    { set (c := cos yaw) in *. set (w := sin yaw) in *. split.
      - assert ((1 - c) * (c * x - w * y - x) - w * (w * x + c * y - y) = - (2 * (1 - c) * x)) as Ez.
        { transitivity (- ((1 - c) ^ 2 + w * w) * x); [ring|]. rewrite Hsc. ring. }
        rewrite E1, E2 in Ez. lra.
      - assert (w * (c * x - w * y - x) + (1 - c) * (w * x + c * y - y) = - (2 * (1 - c) * y)) as Ez.
        { transitivity (- ((1 - c) ^ 2 + w * w) * y); [ring|]. rewrite Hsc. ring. }
        rewrite E1, E2 in Ez. lra. }
    split.
    + apply Rmult_integral in Ex as [?|?]; [lra|done].
    + apply Rmult_integral in Ey as [?|?]; [lra|done].
  - intros Hc p. rewrite H, H'. unfold rot, add2. simpl.
    destruct Hc as [Hc|[-> ->]].
    + assert (sin yaw * sin yaw = 0) as Hs by (rewrite Hsc, Hc; ring).
      apply Rmult_integral in Hs. assert (sin yaw = 0) as -> by tauto. rewrite Hc. f_equal; ring.
    + f_equal; ring.
Qed.
Theorem transformation2_double_inverse_refuted t :
  let s := setTransformation2 t 1 0 PI in
  transform2 s (0, 0) = (1, 0) /\ transform2 (getInverse2 (getInverse2 s)) (0, 0) = (- 1, 0).
Proof.
  intros s. change (getInverse2 (getInverse2 s)) with (inversions2 2 s). unfold s.
  rewrite transformation2_meaning, transformation2_inversions. unfold rot, add2. simpl. rewrite cos_PI, sin_PI.
  split; f_equal; ring.
Qed.

(** *** Three dimensions *)
Theorem transformation3_meaning t x y z roll pitch yaw p :
  transform3 (setTransformation3 t x y z roll pitch yaw) p = add3 (x, y, z) (rot_ypr roll pitch yaw p).
Proof. destruct p as [[a b] c]. comp. f_equal; [f_equal|]; ring. Qed.
Fixpoint inversions3 (n : nat) (t : transf) : transf :=
  match n with O => t | S n' => inverse3 (inversions3 n' t) end.
Lemma inversions3_spec t x y z roll pitch yaw n i j : (i < 4)%nat -> (j < 4)%nat ->
  let s := setTransformation3 t x y z roll pitch yaw in
  t_rot (inversions3 n s) i j = (if Nat.even n then t_rot s i j else t_rot s j i) /\
  t_tr (inversions3 n s) i j =
    (if Nat.even n then t_tr s i j else if Nat.eqb j 3 && negb (Nat.eqb i 3) then - t_tr s i j else t_tr s i j) /\
  t_T (inversions3 (S n) s) i j = mmul 4 (t_rot (inversions3 (S n) s)) (t_tr (inversions3 (S n) s)) i j.
Proof.
  intros Hi Hj s. revert i j Hi Hj. induction n as [|n IH]; intros i j Hi Hj.
  - done.
  - assert (E : Nat.even (S n) = negb (Nat.even n)) by (rewrite Nat.even_succ, <- Nat.negb_even; done).
    rewrite E. destruct (IH i j Hi Hj) as (_ & H2 & _). destruct (IH j i Hj Hi) as (H1 & _ & _).
    split; [|split].
    + cbn [inversions3]. unfold inverse3; cbn [t_rot]. unfold mtransp. rewrite H1. by destruct (Nat.even n).
    + cbn [inversions3]. unfold inverse3; cbn [t_tr]. unfold mset.
      assert (Hi3 : i = 0%nat \/ i = 1%nat \/ i = 2%nat \/ i = 3%nat) by lia.
      assert (Hj3 : j = 0%nat \/ j = 1%nat \/ j = 2%nat \/ j = 3%nat) by lia.
      destruct Hi3 as [->|[->|[->| ->]]], Hj3 as [->|[->|[->| ->]]]; cbn [Nat.eqb andb negb] in *; rewrite H2;
        destruct (Nat.even n); simpl negb; cbv iota; try done; ring.
    + done.
Qed.
Theorem transformation3_inversions t x y z roll pitch yaw n p :
  transform3 (inversions3 n (setTransformation3 t x y z roll pitch yaw)) p =
  match n with
  | O => add3 (x, y, z) (rot_ypr roll pitch yaw p)
  | S n' => if Nat.even n' then unrot_ypr roll pitch yaw (add3 p (neg3 (x, y, z)))
            else rot_ypr roll pitch yaw (add3 p (x, y, z))
  end.
Proof.
  destruct n as [|n]; [apply transformation3_meaning|].
  unfold transform3, mvec. cbn [sum_lt].
  set (s := setTransformation3 t x y z roll pitch yaw).
  assert (HT : forall i j, (i < 4)%nat -> (j < 4)%nat -> t_T (inversions3 (S n) s) i j =
    sum_lt 4 (fun k => (if Nat.even (S n) then t_rot s i k else t_rot s k i) *
      (if Nat.even (S n) then t_tr s k j else if Nat.eqb j 3 && negb (Nat.eqb k 3) then - t_tr s k j else t_tr s k j))).
  { intros i j Hi Hj. destruct (inversions3_spec t x y z roll pitch yaw n i j Hi Hj) as (_ & _ & E1). fold s in E1. rewrite E1.
    unfold mmul. cbn [sum_lt].
    assert (HR : forall k, (k < 4)%nat -> t_rot (inversions3 (S n) s) i k = if Nat.even (S n) then t_rot s i k else t_rot s k i).
    { intros k Hk. apply (inversions3_spec t x y z roll pitch yaw (S n) i k Hi Hk). }
    assert (HL : forall k, (k < 4)%nat -> t_tr (inversions3 (S n) s) k j = if Nat.even (S n) then t_tr s k j
       else if Nat.eqb j 3 && negb (Nat.eqb k 3) then - t_tr s k j else t_tr s k j).
    { intros k Hk. apply (inversions3_spec t x y z roll pitch yaw (S n) k j Hk Hj). }
    rewrite !HR, !HL by lia. done. }
  rewrite !HT by lia.
  assert (E : Nat.even (S n) = negb (Nat.even n)) by (rewrite Nat.even_succ, <- Nat.negb_even; done).
  destruct p as [[a b] c].
  rewrite !E. destruct (Nat.even n); cbn [negb sum_lt Nat.eqb andb]; unfold s; comp;
    rewrite ?sin_neg, ?cos_neg; f_equal; [f_equal| |f_equal|]; ring.
Qed.
Lemma rot_x_unrot a p : rot_x (- a) (rot_x a p) = p /\ rot_x a (rot_x (- a) p) = p.
Proof.
  destruct p as [[x y] z]. unfold rot_x. rewrite sin_neg, cos_neg. pose proof (sc a) as H.
  split; (f_equal; [f_equal|]).
  - transitivity ((cos a * cos a + sin a * sin a) * y); [ring|]. rewrite H. ring.
  - transitivity ((cos a * cos a + sin a * sin a) * z); [ring|]. rewrite H. ring.
  - transitivity ((cos a * cos a + sin a * sin a) * y); [ring|]. rewrite H. ring.
  - transitivity ((cos a * cos a + sin a * sin a) * z); [ring|]. rewrite H. ring.
Qed.
Lemma rot_y_unrot a p : rot_y (- a) (rot_y a p) = p /\ rot_y a (rot_y (- a) p) = p.
Proof.
  destruct p as [[x y] z]. unfold rot_y. rewrite sin_neg, cos_neg. pose proof (sc a) as H.
  split; (f_equal; [f_equal|]).
  - transitivity ((cos a * cos a + sin a * sin a) * x); [ring|]. rewrite H. ring.
  - transitivity ((cos a * cos a + sin a * sin a) * z); [ring|]. rewrite H. ring.
  - transitivity ((cos a * cos a + sin a * sin a) * x); [ring|]. rewrite H. ring.
  - transitivity ((cos a * cos a + sin a * sin a) * z); [ring|]. rewrite H. ring.
Qed.
Lemma rot_z_unrot a p : rot_z (- a) (rot_z a p) = p /\ rot_z a (rot_z (- a) p) = p.
Proof.
  destruct p as [[x y] z]. unfold rot_z. rewrite sin_neg, cos_neg. pose proof (sc a) as H.
  split; (f_equal; f_equal).
  - transitivity ((cos a * cos a + sin a * sin a) * x); [ring|]. rewrite H. ring.
  - transitivity ((cos a * cos a + sin a * sin a) * y); [ring|]. rewrite H. ring.
  - transitivity ((cos a * cos a + sin a * sin a) * x); [ring|]. rewrite H. ring.
  - transitivity ((cos a * cos a + sin a * sin a) * y); [ring|]. rewrite H. ring.
Qed.
Lemma unrot_rot r p y v : unrot_ypr r p y (rot_ypr r p y v) = v /\ rot_ypr r p y (unrot_ypr r p y v) = v.
Proof.
  unfold unrot_ypr, rot_ypr. split.
  - rewrite (proj1 (rot_z_unrot y _)), (proj1 (rot_y_unrot p _)). apply rot_x_unrot.
  - rewrite (proj2 (rot_x_unrot r _)), (proj2 (rot_y_unrot p _)). apply rot_z_unrot.
Qed.
Lemma rot_dist r p y u v : dist3 (rot_ypr r p y u) (rot_ypr r p y v) = dist3 u v.
Proof.
  assert (Hz : forall u v, dist3 (rot_z y u) (rot_z y v) = dist3 u v).
  { intros [[a b] c] [[a' b'] c']. unfold dist3, rot_z. cbn [fst snd].
    transitivity ((cos y * cos y + sin y * sin y) * ((a - a') ^ 2 + (b - b') ^ 2) + (c - c') ^ 2); [ring|].
    rewrite sc. ring. }
  assert (Hy : forall u v, dist3 (rot_y p u) (rot_y p v) = dist3 u v).
  { intros [[a b] c] [[a' b'] c']. unfold dist3, rot_y. cbn [fst snd].
    transitivity ((cos p * cos p + sin p * sin p) * ((a - a') ^ 2 + (c - c') ^ 2) + (b - b') ^ 2); [ring|].
    rewrite sc. ring. }
  assert (Hx : forall u v, dist3 (rot_x r u) (rot_x r v) = dist3 u v).
  { intros [[a b] c] [[a' b'] c']. unfold dist3, rot_x. cbn [fst snd].
    transitivity ((cos r * cos r + sin r * sin r) * ((b - b') ^ 2 + (c - c') ^ 2) + (a - a') ^ 2); [ring|].
    rewrite sc. ring. }
  unfold rot_ypr. by rewrite Hz, Hy, Hx.
Qed.
Lemma add3_neg u v : add3 (add3 u v) (neg3 u) = v /\ add3 u (add3 v (neg3 u)) = v.
Proof.
  destruct u as [[a b] c], v as [[a' b'] c']. unfold add3, neg3. cbn [fst snd].
  split; (f_equal; [f_equal|]); ring.
Qed.
Theorem transformation3_inverse t x y z roll pitch yaw p q :
  let s := setTransformation3 t x y z roll pitch yaw in
  transform3 (getInverse3 s) (transform3 s p) = p /\
  transform3 s (transform3 (getInverse3 s) p) = p /\
  transform3 (inverse3 s) p = transform3 (getInverse3 s) p /\
  dist3 (transform3 s p) (transform3 s q) = dist3 p q.
Proof.
  intros s. change (getInverse3 s) with (inversions3 1 s). change (inverse3 s) with (inversions3 1 s).
  unfold s. rewrite !transformation3_inversions. rewrite !transformation3_meaning. cbn [Nat.even].
  rewrite ?transformation3_inversions. cbn [Nat.even].
  rewrite (proj1 (add3_neg _ _)). rewrite (proj1 (unrot_rot _ _ _ _)), (proj2 (unrot_rot _ _ _ _)).
  split; [done|]. split; [apply add3_neg|]. split; [done|].
  rewrite <- (rot_dist roll pitch yaw p q). unfold dist3, add3. cbn [fst snd]. ring.
Qed.
Theorem transformation3_double_inverse_iff t x y z roll pitch yaw :
  let s := setTransformation3 t x y z roll pitch yaw in
  (forall p, transform3 (getInverse3 (getInverse3 s)) p = transform3 s p) <->
  rot_ypr roll pitch yaw (x, y, z) = (x, y, z).
Proof.
  intros s. change (getInverse3 (getInverse3 s)) with (inversions3 2 s).
  assert (H : forall p, transform3 (inversions3 2 s) p = rot_ypr roll pitch yaw (add3 p (x, y, z))).
  { intros p. unfold s. by rewrite transformation3_inversions. }
  assert (H' : forall p, transform3 s p = add3 (x, y, z) (rot_ypr roll pitch yaw p)) by apply transformation3_meaning.
  assert (Hlin : forall u v, rot_ypr roll pitch yaw (add3 u v) =
    add3 (rot_ypr roll pitch yaw u) (rot_ypr roll pitch yaw v)).
  { intros [[a b] c] [[a' b'] c']. comp. f_equal; [f_equal|]; ring. }
  split.
  - intros HE. specialize (HE (0, 0, 0)). rewrite H, H', Hlin in HE.
    assert (H0 : rot_ypr roll pitch yaw (0, 0, 0) = (0, 0, 0)) by (comp; f_equal; [f_equal|]; ring).
    rewrite H0 in HE. destruct (rot_ypr roll pitch yaw (x, y, z)) as [[a b] c].
    unfold add3 in HE. simpl in HE. injection HE as E1 E2 E3. f_equal; [f_equal|]; lra.
  - intros HE p. rewrite H, H', Hlin, HE. destruct (rot_ypr roll pitch yaw p) as [[a b] c].
    unfold add3. cbn [fst snd]. f_equal; [f_equal|]; ring.
Qed.
Theorem transformation3_double_inverse_refuted t :
  let s := setTransformation3 t 1 0 0 0 0 PI in
  transform3 s (0, 0, 0) = (1, 0, 0) /\ transform3 (getInverse3 (getInverse3 s)) (0, 0, 0) = (- 1, 0, 0).
Proof.
  intros s. change (getInverse3 (getInverse3 s)) with (inversions3 2 s). unfold s.
  rewrite transformation3_meaning, transformation3_inversions. comp.
  rewrite cos_PI, sin_PI, cos_0, sin_0. split; (f_equal; [f_equal|]); ring.
Qed.

(** *** C67: a transformation given by its matrix cannot be inverted (expected; violated) *)
(** The inverse depends only on the pose set before (or on uninitialised memory), never on the matrix given. *)
Theorem set_matrix_inverse_refuted t x y yaw T p :
  let s := setTransformation2 t x y yaw in
  transform2 (getInverse2 (setTransformationMatrix s T)) p = transform2 (getInverse2 s) p.
Proof. done. Qed.
Theorem set_matrix_inverse3_refuted t x y z roll pitch yaw T p :
  let s := setTransformation3 t x y z roll pitch yaw in
  transform3 (getInverse3 (setTransformationMatrix s T)) p = transform3 (getInverse3 s) p.
Proof. done. Qed.
Theorem set_matrix_inverse_wrong_refuted t :
  let s := setTransformationMatrix (setTransformation2 t 0 0 0) (getTransformationMatrix (setTransformation2 t 1 0 0)) in
  transform2 s (0, 0) = (1, 0) /\ transform2 (getInverse2 s) (1, 0) = (1, 0).
Proof.
  intros s. split.
  - change (transform2 s (0, 0)) with (transform2 (setTransformation2 t 1 0 0) (0, 0)).
    rewrite transformation2_meaning. unfold rot, add2. simpl. f_equal; ring.
  - unfold s. rewrite set_matrix_inverse_refuted.
    change (getInverse2 ?x) with (inversions2 1 x). rewrite transformation2_inversions. cbn [Nat.even].
    unfold rot, add2, neg2. cbn [fst snd]. rewrite Ropp_0, cos_0, sin_0. f_equal; ring.
Qed.
(** The matrix itself is used by transform and read back. *)
Theorem set_matrix_transform t T p :
  let s := setTransformationMatrix t T in
  getTransformationMatrix s = T /\
  transform2 s p = (T 0%nat 0%nat * p.1 + T 0%nat 1%nat * p.2 + T 0%nat 2%nat,
                    T 1%nat 0%nat * p.1 + T 1%nat 1%nat * p.2 + T 1%nat 2%nat).
Proof. split; [done|]. comp. cbn. f_equal; ring. Qed.
