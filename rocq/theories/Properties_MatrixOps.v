(** C45: computeSumLogDiagR. *)
From stdpp Require Import prelude list.
From Coq Require Import Reals Lra.
From Verif Require Import Base MatrixOpsModel.
Local Open Scope R_scope.

(** Specification: product of the diagonal entries of columns [a, a + n) whose magnitude is above 2^-52. *)
Fixpoint diag_product (M : matrix) (a n : nat) : R :=
  match n with
  | O => 1
  | S n' => diag_product M a n' *
            (if Rlt_dec (/ 2 ^ 52) (Rabs (m_at M (a + n') (a + n'))) then Rabs (m_at M (a + n') (a + n')) else 1)
  end.

Lemma eps_pos : 0 < epsilon.
Proof. apply Rinv_0_lt_compat, pow_lt. lra. Qed.
Lemma diag_product_pos M a n : 0 < diag_product M a n.
Proof.
  induction n as [|n IH]; simpl; [lra|]. apply Rmult_lt_0_compat; [done|].
  destruct (Rlt_dec _ _) as [H|]; [|lra]. eapply Rlt_trans; [apply eps_pos|exact H].
Qed.
Lemma ln2_pos : 0 < ln 2.
Proof. rewrite <- ln_1. apply ln_increasing; lra. Qed.
Lemma log2_mult x y : 0 < x -> 0 < y -> log2R (x * y) = log2R x + log2R y.
Proof. intros. unfold log2R. rewrite ln_mult by done. pose proof ln2_pos. field. lra. Qed.
Lemma log2_1 : log2R 1 = 0.
Proof. unfold log2R. rewrite ln_1. unfold Rdiv. ring. Qed.
Lemma diag_product_S M a n : diag_product M a (S n) =
  (if Rlt_dec (/ 2 ^ 52) (Rabs (m_at M a a)) then Rabs (m_at M a a) else 1) * diag_product M (S a) n.
Proof.
  induction n as [|n IH].
  - simpl. rewrite Nat.add_0_r. ring.
  - change (diag_product M a (S (S n))) with (diag_product M a (S n) *
      (if Rlt_dec (/ 2 ^ 52) (Rabs (m_at M (a + S n) (a + S n))) then Rabs (m_at M (a + S n) (a + S n)) else 1)).
    rewrite IH. simpl diag_product. rewrite <- !plus_n_Sm. simpl. ring.
Qed.
Lemma loop_spec M i n sum :
  sumLog_loop M i n sum =
  if Nat.leb (i + n) (m_rows M) && Nat.leb (i + n) (m_cols M) || Nat.eqb n 0
  then Ret (sum + log2R (diag_product M i n)) else UB.
Proof.
  revert i sum. induction n as [|n IH]; intros i sum.
  - rewrite orb_true_r. simpl. rewrite log2_1, Rplus_0_r. done.
  - cbn [sumLog_loop]. rewrite diag_product_S.
    destruct (Nat.ltb_spec i (m_rows M)), (Nat.ltb_spec i (m_cols M)); cbn [andb].
    + rewrite IH. replace (S i + n)%nat with (i + S n)%nat by lia. change (Nat.eqb (S n) 0) with false. rewrite orb_false_r.
      destruct (decide (n = 0%nat)) as [->|Hn].
      * rewrite orb_true_r. destruct (Nat.leb_spec (i + 1) (m_rows M)), (Nat.leb_spec (i + 1) (m_cols M)); try lia.
        cbn [andb diag_product]. rewrite Rmult_1_r, log2_1, Rplus_0_r. change epsilon with (/ 2 ^ 52).
        destruct (Rlt_dec _ _); [done|]. by rewrite log2_1, Rplus_0_r.
      * destruct (Nat.eqb_spec n 0); [lia|]. rewrite orb_false_r.
        destruct (_ && _); [|done]. f_equal. change epsilon with (/ 2 ^ 52).
        pose proof (diag_product_pos M (S i) n).
        destruct (Rlt_dec _ _) as [Hl|]; [|by rewrite Rmult_1_l].
        rewrite log2_mult; [ring| |done]. eapply Rlt_trans; [apply eps_pos|exact Hl].
    + change (Nat.eqb (S n) 0) with false. rewrite orb_false_r. destruct (Nat.leb_spec (i + S n) (m_cols M)); [lia|].
      by rewrite andb_false_r.
    + change (Nat.eqb (S n) 0) with false. rewrite orb_false_r. destruct (Nat.leb_spec (i + S n) (m_rows M)); [lia|done].
    + change (Nat.eqb (S n) 0) with false. rewrite orb_false_r. destruct (Nat.leb_spec (i + S n) (m_rows M)); [lia|done].
Qed.

(** What every call does. *)
Theorem sum_log_diag M b e :
  ((e <= b)%nat \/ (m_cols M <= e)%nat -> computeSumLogDiagR M b e = Throw OutOfBound) /\
  ((b < e < m_cols M)%nat -> (m_rows M <= e)%nat -> computeSumLogDiagR M b e = UB) /\
  ((b < e < m_cols M)%nat -> (e < m_rows M)%nat ->
     exists x, computeSumLogDiagR M b e = Ret x /\ Rpower 2 x = diag_product M b (S e - b)).
Proof.
  unfold computeSumLogDiagR, checkColumnIndices. split; [|split].
  - intros H. destruct (Nat.leb_spec e b); [done|]. destruct (Nat.leb_spec (m_cols M) e); [done|lia].
  - intros H H'. destruct (Nat.leb_spec e b); [lia|]. destruct (Nat.leb_spec (m_cols M) e); [lia|]. cbn [rbind].
    rewrite loop_spec. replace (b + (S e - b))%nat with (S e) by lia.
    destruct (Nat.leb_spec (S e) (m_rows M)); [lia|]. destruct (Nat.eqb_spec (S e - b) 0); [lia|]. done.
  - intros H H'. destruct (Nat.leb_spec e b); [lia|]. destruct (Nat.leb_spec (m_cols M) e); [lia|]. cbn [rbind].
    rewrite loop_spec. replace (b + (S e - b))%nat with (S e) by lia.
    destruct (Nat.leb_spec (S e) (m_rows M)); [|lia]. destruct (Nat.leb_spec (S e) (m_cols M)); [|lia]. cbn [andb orb].
    eexists. split; [done|]. rewrite Rplus_0_l. unfold Rpower, log2R. pose proof ln2_pos.
    replace (_ / ln 2 * ln 2) with (ln (diag_product M b (S e - b))) by (field; lra).
    apply exp_ln, diag_product_pos.
Qed.
(** Splitting the columns [b, e] in [b, m] and [m + 1, e] splits the sum. *)
Lemma diag_product_add M a n m : diag_product M a (n + m) = diag_product M a n * diag_product M (a + n) m.
Proof.
  induction m as [|m IH]; [rewrite Nat.add_0_r; simpl; ring|]. rewrite <- plus_n_Sm. cbn [diag_product].
  rewrite IH, Nat.add_assoc. ring.
Qed.
Theorem sum_log_diag_split M b m e x y z :
  computeSumLogDiagR M b m = Ret x -> computeSumLogDiagR M (S m) e = Ret y -> computeSumLogDiagR M b e = Ret z ->
  z = x + y.
Proof.
  assert (G : forall b e v, computeSumLogDiagR M b e = Ret v -> (b < e)%nat /\ v = log2R (diag_product M b (S e - b))).
  { intros b' e' v E. unfold computeSumLogDiagR, checkColumnIndices in E. destruct (Nat.leb_spec e' b'); [done|].
    destruct (Nat.leb_spec (m_cols M) e'); [done|]. cbn [rbind] in E. rewrite loop_spec in E.
    destruct (_ || _); [|done]. injection E as <-. by rewrite Rplus_0_l. }
  intros Ex Ey Ez. apply G in Ex as [Hb ->], Ey as [Hm ->], Ez as [He ->].
  rewrite <- log2_mult by apply diag_product_pos.
  replace (S e - b)%nat with ((S m - b) + (S e - S m))%nat by lia. rewrite diag_product_add.
  by replace (b + (S m - b))%nat with (S m) by lia.
Qed.
(** Above the threshold every diagonal entry counts, so for a triangular R the result is log2 |det R|. *)
Theorem sum_log_diag_full M b e x :
  computeSumLogDiagR M b e = Ret x ->
  (forall i, (b <= i <= e)%nat -> / 2 ^ 52 < Rabs (m_at M i i)) ->
  Rpower 2 x = fold_right Rmult 1 (map (fun i => Rabs (m_at M i i)) (seq b (S e - b))).
Proof.
  intros E H.
  assert (Hbe : (b < e < m_cols M)%nat /\ (e < m_rows M)%nat).
  { destruct (sum_log_diag M b e) as (H1 & H2 & _).
    destruct (decide (e <= b \/ m_cols M <= e)%nat) as [Hd|Hd]; [rewrite H1 in E by done; done|].
    destruct (decide (m_rows M <= e)%nat) as [Hd'|Hd']; [rewrite H2 in E by lia; done|]. lia. }
  destruct (sum_log_diag M b e) as (_ & _ & H3). destruct (H3 ltac:(lia) ltac:(lia)) as (x' & E' & Hx).
  rewrite E in E'. injection E' as <-. rewrite Hx.
  assert (Gen : forall n a, (forall i, (a <= i < a + n)%nat -> / 2 ^ 52 < Rabs (m_at M i i)) ->
     diag_product M a n = fold_right Rmult 1 (map (fun i => Rabs (m_at M i i)) (seq a n))).
  { clear. induction n as [|n IH]; intros a H; [done|]. rewrite diag_product_S. cbn [seq map fold_right].
    destruct (Rlt_dec _ _) as [_|Hn]; [|destruct Hn; apply H; lia]. f_equal. apply IH. intros i Hi. apply H. lia. }
  apply Gen. intros i Hi. apply H. lia.
Qed.
(** Non-vacuous: a 3 x 3 matrix with diagonal 2, 4, 8 over columns 0..2 gives log2 64. *)
Example sum_log_diag_example :
  let M := Matrix 3 3 (fun i j => if Nat.eqb i j then 2 ^ S i else 5) in
  exists x, computeSumLogDiagR M 0 2 = Ret x /\ Rpower 2 x = 64.
Proof.
  intros M. destruct (sum_log_diag M 0 2) as (_ & _ & H). destruct (H ltac:(simpl; lia) ltac:(simpl; lia)) as (x & E & Hx).
  exists x. split; [done|]. rewrite (sum_log_diag_full M 0 2 x E).
  - cbn. rewrite !Rabs_pos_eq by lra. lra.
  - intros i Hi. unfold M. cbn [m_at]. rewrite Nat.eqb_refl. rewrite Rabs_pos_eq by (apply pow_le; lra).
    apply Rlt_le_trans with 1; [|apply pow_R1_Rle; lra]. rewrite <- Rinv_1. apply Rinv_lt_contravar; [rewrite Rmult_1_l; apply pow_lt; lra|].
    apply Rlt_pow_R1; [lra|lia].
Qed.
