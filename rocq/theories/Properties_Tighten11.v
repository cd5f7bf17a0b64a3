(** Tightened after mutation: the numbers of the WGS84 ellipsoid, transformations made from a matrix, a copy or an assignment, and what Randomizer
    objects do to the program's generator. *)
From stdpp Require Import prelude list strings.
From Coq Require Import Reals Lra ZArith String.
From Verif Require Import Base GeodeticModel Spec_Geodetic.
From Verif Require GeometryModel.
From Verif Require Import Spec_Randomizer RandomizerModel TextModel TextObjectsModel Spec_Document.
Local Open Scope R_scope.

(** C52.  The earth is as large as it should be: the equator is 6378137 m away from its centre and the poles 6356752.3142 m (to a tenth of a millimetre of
    the value of the standard, 6356752.314245 m); a height is added to that. *)
Theorem wgs84_axes h :
  wgs84ToEcef 0 0 h = V3 (6378137 + h) 0 0 /\
  (vx (wgs84ToEcef (PI / 2) 0 h) = 0 /\ vy (wgs84ToEcef (PI / 2) 0 h) = 0 /\ Rabs (vz (wgs84ToEcef (PI / 2) 0 h) - (6356752314245 / 10 ^ 6 + h)) < 1 / 10 ^ 4).
Proof.
  split.
  - unfold wgs84ToEcef. rewrite sin_0, cos_0. replace (1 - wgs84_e2 * 0 * 0) with 1 by ring. rewrite sqrt_1. unfold wgs84_a. f_equal; field.
  - unfold wgs84ToEcef. cbn [vx vy vz]. rewrite sin_PI2, cos_PI2, sin_0, cos_0. split; [ring|]. split; [ring|].
    replace (1 - wgs84_e2 * 1 * 1) with (1 - wgs84_e2) by ring.
    assert (Hp : 0 < 1 - wgs84_e2) by (unfold wgs84_e2; lra).
    pose proof (sqrt_lt_R0 _ Hp) as Hs. pose proof (sqrt_sqrt _ (Rlt_le _ _ Hp)) as Hq. set (q := sqrt (1 - wgs84_e2)) in *.
    replace ((wgs84_a / q * (1 - wgs84_e2) + h) * 1 - (6356752314245 / 10 ^ 6 + h)) with (wgs84_a * q - 6356752314245 / 10 ^ 6) by (rewrite <- Hq; field; lra).
    assert (B : forall lo hi, 0 < lo -> 0 < hi -> lo * lo < 6378137 * 6378137 * (1 - wgs84_e2) < hi * hi -> lo < wgs84_a * q < hi).
    { intros lo hi Hlo Hhi [B1 B2]. rewrite <- Hq in B1, B2. unfold wgs84_a. set (z := 6378137 * q) in *. assert (0 < z) by (unfold z; nra).
      replace (6378137 * 6378137 * (q * q)) with (z * z) in * by (unfold z; ring). split; nra. }
    destruct (B (6356752314245 / 10 ^ 6 - 1 / 10 ^ 4) (6356752314245 / 10 ^ 6 + 1 / 10 ^ 4)) as [B1 B2]; [lra|lra|unfold wgs84_e2; lra|].
    apply Rabs_def1; lra.
Qed.

(** C67.  A transformation made from a matrix moves points by this matrix, in two and three dimensions, whatever was in memory before. *)
Section geometry.
  Import GeometryModel.
  Theorem matrix_constructor junk T (x y z : R) :
    let s := transf_of_matrix junk T in
    getTransformationMatrix s = T /\
    transform2 s (x, y) = (T 0%nat 0%nat * x + T 0%nat 1%nat * y + T 0%nat 2%nat, T 1%nat 0%nat * x + T 1%nat 1%nat * y + T 1%nat 2%nat) /\
    transform3 s (x, y, z) = (T 0%nat 0%nat * x + T 0%nat 1%nat * y + T 0%nat 2%nat * z + T 0%nat 3%nat,
                              T 1%nat 0%nat * x + T 1%nat 1%nat * y + T 1%nat 2%nat * z + T 1%nat 3%nat,
                              T 2%nat 0%nat * x + T 2%nat 1%nat * y + T 2%nat 2%nat * z + T 2%nat 3%nat).
  Proof.
    split; [done|]. unfold transform2, transform3, mvec, transf_of_matrix. cbn [t_T sum_lt fst snd]. split; repeat f_equal; ring.
  Qed.
  (** C67, refuted: its inverse.  It is made of uninitialised memory: whatever the matrix is, there is a content of the memory and a point that
      is not brought back. *)
  Theorem matrix_constructor_inverse_refuted T : exists junk,
    (exists p, transform2 (getInverse2 (transf_of_matrix junk T)) (transform2 (transf_of_matrix junk T) p) <> p) /\
    (exists p, transform3 (getInverse3 (transf_of_matrix junk T)) (transform3 (transf_of_matrix junk T) p) <> p).
  Proof.
    exists (Transf (fun _ _ => 0) (fun _ _ => 0) (fun _ _ => 0)). split; [exists (1, 1)|exists (1, 1, 1)]; intros H; apply (f_equal fst) in H.
    - unfold transform2 at 1, getInverse2, inverse2, transf_copy, transf_of_matrix, mvec, mmul, mtransp in H. cbn [t_T t_rot t_tr sum_lt fst snd] in H. lra.
    - apply (f_equal fst) in H. unfold transform3 at 1, getInverse3, inverse3, transf_copy, transf_of_matrix, mvec, mmul, mtransp in H.
      cbn [t_T t_rot t_tr sum_lt fst snd] in H. lra.
  Qed.
  (** C43.  A copy and an assigned object cannot be told from the original: same matrix, same effect on every point, also of the inverse, the inverse of
      the inverse, and so on, whatever the object was before. *)
  Theorem copies_are_equal (this other : transf) n (p2 : R * R) (p3 : R * R * R) :
    let same t := getTransformationMatrix t = getTransformationMatrix other /\
      transform2 (Nat.iter n getInverse2 t) p2 = transform2 (Nat.iter n getInverse2 other) p2 /\
      transform3 (Nat.iter n getInverse3 t) p3 = transform3 (Nat.iter n getInverse3 other) p3 in
    same (transf_copy other) /\ same (transf_assign this other).
  Proof. destruct other as [T r l]. split; split_and!; reflexivity. Qed.
End geometry.

(** C125, C66.  The seed of a default-constructed Randomizer is the next number of the generator (restarted from the clock if it is the first such object of
    its class), and the numbers drawn after it are the following ones; draws give the generator's numbers in order, each once.  Copies and
    assignments do not touch the generator. *)
Section generator.
  Local Open Scope Z_scope.
  Context {G : Type} (next : G -> Z * G) (srandom : Z -> G).
  Lemma draws n w : (rzrun next srandom w (repeat RzDraw n)).2 = map (number next (p_gen (rw_state w))) (seq 0 n).
  Proof.
    revert w. induction n as [|n IH]; intros w; [done|]. cbn [repeat rzrun rzstep]. unfold number at 1. 
    destruct (next (p_gen (rw_state w))) as [r g'] eqn:En. specialize (IH (RWorld (PState g' (p_seeded (rw_state w))) (rw_seeds w))).
    destruct (rzrun _ _ _ (repeat RzDraw n)) as [w2 o2]. cbn [snd] in *. rewrite IH. cbn [seq map]. rewrite <- seq_shift, map_map. cbn [app rw_state p_gen].
    f_equal; [unfold number; cbn [advance]; by rewrite En|]. apply map_ext. intros k. unfold number. cbn [advance]. by rewrite En.
  Qed.
  Theorem randomizer_generator (fmt : Z -> string) (w : rworld) (n : nat) :
    let drawn w' := (rzrun next srandom w' (repeat RzDraw n)).2 in
    let g := p_gen (rw_state w) in
    drawn w = map (number next g) (seq 0 n) /\
    (forall k now, let g0 := if p_seeded (rw_state w) k then g else srandom now in let w' := (rzstep next srandom w (RzDefault k now)).1 in
       print_randomizer fmt w' (List.length (rw_seeds w)) = Some (document [Line "seed" (fmt (number next g0 0))]) /\
       drawn w' = map (number next g0) (seq 1 n)) /\
    (forall i z, drawn (rzstep next srandom w (RzSetSeed i z)).1 = map (number next (srandom z)) (seq 0 n)) /\
    drawn (rzstep next srandom w RzDraw).1 = map (number next g) (seq 1 n) /\
    (forall i j z, drawn (rzstep next srandom w (RzCopy i)).1 = drawn w /\ drawn (rzstep next srandom w (RzAssign i j)).1 = drawn w /\
       drawn (rzstep next srandom w (RzNew z)).1 = drawn w).
  Proof.
    intros drawn g. unfold drawn. rewrite !draws. split; [done|]. split; [|split; [|split]].
    - intros k now. set (g0 := if p_seeded (rw_state w) k then g else srandom now). set (w' := (rzstep next srandom w (RzDefault k now)).1). assert (E : w' = RWorld (PState (next g0).2 (fun j => if Nat.eqb j k then true else p_seeded (rw_state w) j)) (rw_seeds w ++ [(next g0).1])).
      { unfold w'. cbn [rzstep]. unfold getSeed. fold g. fold g0. by destruct (next g0). }
      clearbody w'. subst w'. split.
      + unfold print_randomizer. cbn [rw_seeds]. rewrite list_lookup_middle by done. done.
      + rewrite draws. cbn [rw_state p_gen]. rewrite <- seq_shift, map_map. done.
    - intros i z. rewrite draws. done.
    - cbn [rzstep]. rewrite <- seq_shift, map_map. unfold number. cbn [advance]. fold g. destruct (next g) as [r g'] eqn:En. cbn. done.
    - intros i j z. rewrite !draws. cbn [rzstep fst rw_state]. done.
  Qed.
End generator.
Example randomizer_generator_example :
  let next g := (g * 7, g + 1)%Z in
  (rzrun next (fun z => z) (RWorld (PState 3%Z (fun _ => true)) []) [RzDefault 0 9; RzDraw; RzCopy 0; RzDraw]).2 = [28; 35]%Z.
Proof. reflexivity. Qed.
Print Assumptions wgs84_axes.
Print Assumptions copies_are_equal.
Print Assumptions randomizer_generator.
