From stdpp Require Import prelude list.
From Coq Require Import Reals Lra Psatz ZArith.
From Flocq Require Import Core BinarySingleNaN.
From Verif Require Import Base GridModel UniformModel RandomizerModel Spec_Randomizer.
Local Open Scope R_scope.

Section gen.
  Context {G : Type} (next : G -> Z * G) (RM : Z) (HG : generator next RM).
  Local Notation num := (unit_number next RM).

  Lemma RM_pos : 0 < IZR RM. Proof. destruct HG as [H _]. by apply IZR_lt. Qed.
  Lemma num_range g n : 0 <= num g n <= 1.
  Proof.
    pose proof RM_pos as H. unfold unit_number, number. destruct HG as [_ HR].
    specialize (HR (advance next n g)) as [H1 H2]. apply IZR_le in H1, H2.
    split; [apply Rmult_le_pos; [done|left; by apply Rinv_0_lt_compat]|].
    apply Rmult_le_reg_r with (IZR RM); [done|]. unfold Rdiv. rewrite Rmult_assoc, Rinv_l; lra.
  Qed.
  Lemma advance_S n g : advance next (S n) g = snd (next (advance next n g)).
  Proof. revert g. induction n as [|n IH]; intros g; [done|]. simpl in *. by rewrite IH. Qed.
  Lemma advance_add n m g : advance next (n + m) g = advance next m (advance next n g).
  Proof. revert g. induction n as [|n IH]; intros g; [done|]. simpl. by rewrite IH. Qed.
  Lemma num_shift g n m : num (advance next n g) m = num g (n + m).
  Proof. unfold unit_number, number. by rewrite advance_add. Qed.

  (** ** sampleUniform, real *)
  Lemma uniform_real a b g :
    sampleUniform next RM rreal a b g =
    if Rle_dec b a then (Throw BadArgument, g) else (Ret (a + num g 0 * (b - a)), advance next 1 g).
  Proof.
    unfold sampleUniform; simpl. destruct (Rle_dec b a); [done|]. unfold unit_number, number; simpl.
    destruct (next g) as [r g']; simpl. done.
  Qed.
  Lemma unit_real g : unit next RM rreal g = (num g 0, advance next 1 g).
  Proof.
    unfold unit. rewrite uniform_real. simpl r_0; simpl r_1. destruct (Rle_dec 1 0); [lra|]. simpl. f_equal. lra.
  Qed.

  (** ** sampleUniform, integers *)
  Lemma nearestA_nonneg x : 0 <= x -> forall k, ZnearestA x = k <-> IZR k - / 2 <= x < IZR k + / 2.
  Proof.
    intros Hx k.
    assert (HA : ZnearestA x = Zfloor (x + / 2)).
    { unfold Znearest. destruct (Rcompare_spec (x - IZR (Zfloor x)) (/ 2)) as [H|H|H].
      - symmetry. apply Zfloor_imp. rewrite plus_IZR. pose proof (Zfloor_lb x). split; lra.
      - rewrite Zle_bool_true by (apply Zfloor_lub; lra).
        pose proof (Zfloor_lb x). symmetry. apply Zfloor_imp.
        assert (Zceil x = (Zfloor x + 1)%Z) as -> by (apply Zceil_floor_neq; lra).
        rewrite !plus_IZR. lra.
      - pose proof (Zfloor_lb x). pose proof (Zfloor_ub x).
        assert (Zceil x = (Zfloor x + 1)%Z) as -> by (apply Zceil_floor_neq; lra).
        symmetry. apply Zfloor_imp. rewrite !plus_IZR. lra. }
    rewrite HA. split.
    - intros <-. pose proof (Zfloor_lb (x + / 2)). pose proof (Zfloor_ub (x + / 2)). lra.
    - intros [H1 H2]. apply Zfloor_imp. rewrite plus_IZR. lra.
  Qed.
  Lemma irange_in w z : (- 2 ^ (w - 1) <= z < 2 ^ (w - 1))%Z -> irange w z = Some z.
  Proof. intros [H1 H2]. unfold irange. apply Z.leb_le in H1. apply Z.ltb_lt in H2. by rewrite H1, H2. Qed.
  Lemma irange_out w z : ~ (- 2 ^ (w - 1) <= z < 2 ^ (w - 1))%Z -> irange w z = None.
  Proof.
    intros H. unfold irange. destruct (Z.leb_spec (- 2 ^ (w - 1)) z); simpl; [|done].
    destruct (Z.ltb_spec z (2 ^ (w - 1))); [lia|done].
  Qed.
  Lemma uniform_int w a b g : (a < b)%Z ->
    (- 2 ^ (w - 1) <= a)%Z -> (b < 2 ^ (w - 1))%Z ->
    sampleUniform next RM (rint w) a b g =
    (if Z.ltb (b - a) (2 ^ (w - 1)) then Ret (a + ZnearestA (num g 0 * IZR (b - a)))%Z else UB, advance next 1 g) /\
    (0 <= ZnearestA (num g 0 * IZR (b - a)) <= b - a)%Z.
  Proof.
    intros Hab Ha Hb. pose proof (num_range g 0) as Hn.
    assert (HD : 0 < IZR (b - a)) by (apply IZR_lt; lia).
    set (x := num g 0 * IZR (b - a)).
    assert (Hx : 0 <= x <= IZR (b - a)).
    { unfold x. split; [apply Rmult_le_pos; lra|]. rewrite <- (Rmult_1_l (IZR (b - a))) at 2.
      apply Rmult_le_compat_r; lra. }
    assert (Hk : (0 <= ZnearestA x <= b - a)%Z).
    { destruct (proj1 (nearestA_nonneg x (proj1 Hx) (ZnearestA x)) eq_refl) as [H1 H2].
      assert (0 - / 2 < IZR (ZnearestA x)) by lra.
      assert (- 1 < ZnearestA x)%Z by (apply lt_IZR; lra).
      assert (ZnearestA x < b - a + 1)%Z by (apply lt_IZR; rewrite plus_IZR; lra). lia. }
    split; [|done].
    unfold sampleUniform; simpl. destruct (Z.leb_spec b a); [lia|].
    unfold x, unit_number, number in *; simpl advance in *. destruct (next g) as [r g']; simpl in *.
    f_equal. destruct (Z.ltb_spec (b - a) (2 ^ (w - 1))).
    - rewrite irange_in by lia. rewrite irange_in by lia. rewrite irange_in by lia. done.
    - by rewrite irange_out by lia.
  Qed.
  Lemma nearest_count g a b k : (0 < b - a)%Z ->
    ZnearestA (num g 0 * IZR (b - a)) = k <->
    ((2 * k - 1) * RM <= 2 * number next g 0 * (b - a) < (2 * k + 1) * RM)%Z.
  Proof.
    intros HD. pose proof (num_range g 0) as Hn. pose proof RM_pos as HR.
    rewrite nearestA_nonneg by (apply Rmult_le_pos; [lra|apply IZR_le; lia]).
    unfold unit_number. set (r := number next g 0).
    assert (E : IZR r / IZR RM * IZR (b - a) = IZR (2 * r * (b - a)) / (2 * IZR RM))
      by (rewrite !mult_IZR; field; lra).
    rewrite E. split.
    - intros [H1 H2]. split.
      + apply le_IZR. rewrite mult_IZR, minus_IZR, (mult_IZR 2 k).
        apply Rmult_le_compat_r with (r := 2 * IZR RM) in H1; [|lra].
        unfold Rdiv in H1. rewrite Rmult_assoc, Rinv_l in H1 by lra. lra.
      + apply lt_IZR. rewrite (mult_IZR (2 * k + 1)), plus_IZR, (mult_IZR 2 k).
        apply Rmult_lt_compat_r with (r := 2 * IZR RM) in H2; [|lra].
        unfold Rdiv in H2. rewrite Rmult_assoc, Rinv_l in H2 by lra. lra.
    - intros [H1 H2]. apply IZR_le in H1. apply IZR_lt in H2.
      rewrite mult_IZR, minus_IZR, (mult_IZR 2 k) in H1. rewrite (mult_IZR (2 * k + 1)), plus_IZR, (mult_IZR 2 k) in H2.
      split.
      + apply Rmult_le_reg_r with (2 * IZR RM); [lra|]. unfold Rdiv. rewrite (Rmult_assoc (IZR _)), Rinv_l by lra. lra.
      + apply Rmult_lt_reg_r with (2 * IZR RM); [lra|]. unfold Rdiv. rewrite (Rmult_assoc (IZR _)), Rinv_l by lra. lra.
  Qed.
  Lemma unit_int w g : (2 <= w)%Z ->
    exists z, (z = 0 \/ z = 1)%Z /\ unit next RM (rint w) g = (IZR z, advance next 1 g) /\
      (z = 0%Z <-> (2 * number next g 0 < RM)%Z).
  Proof.
    intros Hw. assert (2 ^ 1 <= 2 ^ (w - 1))%Z by (apply Z.pow_le_mono_r; lia).
    destruct (uniform_int w 0 1 g) as [E Hk]; [lia|lia|lia|].
    exists (0 + ZnearestA (num g 0 * IZR (1 - 0)))%Z. split; [lia|]. split.
    - unfold unit. change (r_0 (rint w)) with 0%Z. change (r_1 (rint w)) with 1%Z. rewrite E.
      destruct (Z.ltb_spec (1 - 0) (2 ^ (w - 1))); [done|lia].
    - rewrite Z.add_0_l, (nearest_count g 0 1 0) by lia. destruct HG as [HR HR']. specialize (HR' g).
      unfold number. simpl. lia.
  Qed.

  (** ** sampleNormal *)
  (** What one round of the loop looks at. *)
  Definition pair_s (g : G) (i : nat) : R :=
    (2 * num g (2 * i) - 1) * (2 * num g (2 * i) - 1) + (2 * num g (2 * i + 1) - 1) * (2 * num g (2 * i + 1) - 1).
  Lemma pair_shift g i : pair_s (advance next 2 g) i = pair_s g (S i).
  Proof. 
    unfold pair_s. rewrite !num_shift. replace (2 + 2 * i)%nat with (2 * S i)%nat by lia.
    by replace (2 + (2 * i + 1))%nat with (2 * S i + 1)%nat by lia.
  Qed.
  Lemma normal_loop_real fuel g :
    match normal_loop next RM rreal fuel g with
    | None => forall i, (i < fuel)%nat -> ~ 0 < pair_s g i < 1
    | Some (u, s, g') => exists i, (i < fuel)%nat /\ u = 2 * num g (2 * i) - 1 /\ s = pair_s g i /\ 0 < s < 1 /\
        g' = advance next (2 * i + 2) g /\ forall j, (j < i)%nat -> ~ 0 < pair_s g j < 1
    end.
  Proof.
    revert g. induction fuel as [|fuel IH]; intros g; [simpl; lia|].
    cbn [normal_loop]. rewrite unit_real. cbn zeta. rewrite unit_real.
    rewrite num_shift. change (1 + 0)%nat with 1%nat. rewrite <- advance_add. change (1 + 1)%nat with 2%nat.
    set (u := 2 * num g 0 - 1). set (v := 2 * num g 1 - 1).
    assert (Hs : u * u + v * v = pair_s g 0) by done. rewrite Hs.
    assert (Hs0 : 0 <= pair_s g 0) by (unfold pair_s; pose proof (Rle_0_sqr (2 * num g (2 * 0) - 1));
      pose proof (Rle_0_sqr (2 * num g (2 * 0 + 1) - 1)); unfold Rsqr in *; lra).
    specialize (IH (advance next 2 g)).
    assert (Hrec : ~ 0 < pair_s g 0 < 1 -> 
       match normal_loop next RM rreal fuel (advance next 2 g) with
       | None => forall i, (i < S fuel)%nat -> ~ 0 < pair_s g i < 1
       | Some (u, s, g') => exists i, (i < S fuel)%nat /\ u = 2 * num g (2 * i) - 1 /\ s = pair_s g i /\ 0 < s < 1 /\
           g' = advance next (2 * i + 2) g /\ forall j, (j < i)%nat -> ~ 0 < pair_s g j < 1
       end).
    { intros H0. destruct (normal_loop next RM rreal fuel (advance next 2 g)) as [[[u' s'] g']|].
      - destruct IH as (i & Hi & -> & -> & Hp & -> & Hj). exists (S i). split; [lia|].
        rewrite num_shift, pair_shift in *. split; [do 3 f_equal; lia|]. split; [done|]. split; [done|].
        split; [rewrite <- advance_add; f_equal; lia|].
        intros [|j] Hj'; [done|]. rewrite <- pair_shift. apply Hj. lia.
      - intros [|i] Hi; [done|]. rewrite <- pair_shift. apply IH. lia. }
    destruct (Rle_dec 1 (pair_s g 0)) as [H1|H1]; [cbn [orb]; apply Hrec; lra|].
    destruct (Req_EM_T (pair_s g 0) 0) as [H2|H2]; [cbn [orb]; apply Hrec; lra|].
    cbn [orb]. exists 0%nat. split; [lia|]. split; [done|]. split; [done|]. split; [lra|]. split; [done|lia].
  Qed.
  Lemma normal_loop_int w fuel g : (2 <= w)%Z -> normal_loop next RM (rint w) fuel g = None.
  Proof.
    intros Hw. revert g. induction fuel as [|fuel IH]; intros g; [done|]. cbn [normal_loop].
    destruct (unit_int w g Hw) as (z & Hz & -> & _).
    destruct (unit_int w (advance next 1 g) Hw) as (z' & Hz' & -> & _).
    set (s := _ + _). assert (s = 2) as ->.
    { unfold s. destruct Hz as [-> | ->], Hz' as [-> | ->]; lra. }
    destruct (Rle_dec 1 2); [|lra]. cbn [orb]. apply IH.
  Qed.

  (** ** nonzero_loop *)
  Lemma nonzero_real fuel g :
    match nonzero_loop next RM rreal fuel g with
    | None => forall i, (i < fuel)%nat -> num g i = 0
    | Some (u, g') => exists i, (i < fuel)%nat /\ u = num g i /\ u <> 0 /\ g' = advance next (S i) g /\
        forall j, (j < i)%nat -> num g j = 0
    end.
  Proof.
    revert g. induction fuel as [|fuel IH]; intros g; [simpl; lia|]. cbn [nonzero_loop].
    rewrite unit_real. cbn zeta.
    destruct (Req_EM_T (num g 0) 0) as [H|H].
    - specialize (IH (advance next 1 g)). destruct (nonzero_loop _ _ _ _ _) as [[u g']|].
      + destruct IH as (i & Hi & -> & Hu & -> & Hj). exists (S i). rewrite num_shift in *.
        split; [lia|]. split; [done|]. split; [done|]. split; [by rewrite <- advance_add|].
        intros [|j] Hj'; [done|]. specialize (Hj j ltac:(lia)). by rewrite num_shift in Hj.
      + intros [|i] Hi; [done|]. specialize (IH i ltac:(lia)). by rewrite num_shift in IH.
    - exists 0%nat. split; [lia|]. split; [done|]. split; [done|]. split; [done|lia].
  Qed.

  (** ** samplePoisson *)
  Lemma poisson_real fuel l p k g : 
    match poisson_loop next RM rreal fuel l p k g with
    | None => forall i, (i < fuel)%nat -> l < p * prod_first (num g) (S i)
    | Some (n, g') => exists i, (i < fuel)%nat /\ n = (k + S i)%nat /\ g' = advance next (S i) g /\
        p * prod_first (num g) (S i) <= l /\ forall j, (j < i)%nat -> l < p * prod_first (num g) (S j)
    end.
  Proof.
    revert p k g. induction fuel as [|fuel IH]; intros p k g; [simpl; lia|]. cbn [poisson_loop].
    rewrite unit_real. cbn zeta.
    assert (Hp : forall m, p * prod_first (num g) (S m) = p * num g 0 * prod_first (num (advance next 1 g)) m).
    { induction m as [|m IHm]; [simpl; lra|]. 
      change (prod_first (num g) (S (S m))) with (prod_first (num g) (S m) * num g (S m)).
      change (prod_first (num (advance next 1 g)) (S m)) with
        (prod_first (num (advance next 1 g)) m * num (advance next 1 g) m).
      rewrite num_shift. rewrite <- Rmult_assoc, IHm. change (1 + m)%nat with (S m). lra. }
    destruct (Rlt_dec l (p * num g 0)) as [H|H].
    - specialize (IH (p * num g 0) (S k) (advance next 1 g)).
      destruct (poisson_loop _ _ _ _ _ _ _ _) as [[n g']|].
      + destruct IH as (i & Hi & -> & -> & Hl & Hj). exists (S i). split; [lia|]. split; [lia|].
        split; [by rewrite <- advance_add|]. split; [by rewrite Hp|].
        intros [|j] Hj'; rewrite Hp; [simpl; lra|]. apply Hj. lia.
      + intros [|i] Hi; rewrite Hp; [simpl; lra|]. apply IH. lia.
    - exists 0%nat. split; [lia|]. split; [lia|]. split; [done|]. split; [rewrite Hp; simpl; lra|lia].
  Qed.

  (** ** sampleCategorical *)
  Lemma cat_loop_spec u sum i ps : (1 <= i)%nat ->
    let k := cat_loop u sum i ps in
    (i - 1 <= k <= i - 1 + length ps)%nat /\
    (forall j, (i - 1 <= j < k)%nat -> sum + sum_first ps (j - (i - 1)) < u) /\
    ((k < i - 1 + length ps)%nat -> u <= sum + sum_first ps (k - (i - 1))).
  Proof.
    revert sum i. induction ps as [|p ps IH]; intros sum i Hi; simpl.
    - split; [lia|]. split; [lia|]. lia.
    - destruct (Rlt_dec sum u) as [H|H].
      + destruct (IH (sum + p) (S i) ltac:(lia)) as (H1 & H2 & H3). set (k := cat_loop u (sum + p) (S i) ps) in *.
        split; [lia|]. split.
        * intros j Hj. destruct (decide (j = i - 1)%nat) as [->|].
          { rewrite Nat.sub_diag. unfold sum_first; simpl. lra. }
          specialize (H2 j ltac:(lia)). replace (j - (i - 1))%nat with (S (j - (S i - 1))) by lia.
          unfold sum_first in *. cbn [take fold_right]. lra.
        * intros Hk. specialize (H3 ltac:(lia)). replace (k - (i - 1))%nat with (S (k - (S i - 1))) by lia.
          unfold sum_first in *. cbn [take fold_right]. lra.
      + split; [lia|]. split; [lia|]. intros _. rewrite Nat.sub_diag. unfold sum_first; simpl. lra.
  Qed.
End gen.
