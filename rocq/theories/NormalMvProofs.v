(** Linear algebra for Properties_NormalMv2.v: finite sums, forward substitution, the quadratic form of the inverse of L L^T. *)
From Coq Require Import Reals Lra Psatz Lia.
From Verif Require Import Spec_NormalMv.
Local Open Scope R_scope.

Lemma sumn_ext n f g : (forall i, (i < n)%nat -> f i = g i) -> sumn n f = sumn n g.
Proof. induction n as [|n IH]; intros H; cbn; [reflexivity|]. rewrite IH, H; auto. Qed.
Lemma sumn_plus n f g : sumn n (fun i => f i + g i) = sumn n f + sumn n g.
Proof. induction n as [|n IH]; cbn; [ring|]. rewrite IH. ring. Qed.
Lemma sumn_minus n f g : sumn n (fun i => f i - g i) = sumn n f - sumn n g.
Proof. induction n as [|n IH]; cbn; [ring|]. rewrite IH. ring. Qed.
Lemma sumn_scal_l n a f : sumn n (fun i => a * f i) = a * sumn n f.
Proof. induction n as [|n IH]; cbn; [ring|]. rewrite IH. ring. Qed.
Lemma sumn_scal_r n a f : sumn n (fun i => f i * a) = sumn n f * a.
Proof. induction n as [|n IH]; cbn; [ring|]. rewrite IH. ring. Qed.
Lemma sumn_zero n f : (forall i, (i < n)%nat -> f i = 0) -> sumn n f = 0.
Proof. induction n as [|n IH]; intros H; cbn; [reflexivity|]. rewrite IH, H; auto. ring. Qed.
Lemma sumn_swap n m (f : nat -> nat -> R) : sumn n (fun i => sumn m (fun j => f i j)) = sumn m (fun j => sumn n (fun i => f i j)).
Proof.
  induction n as [|n IH]; cbn; [symmetry; apply sumn_zero; auto|]. rewrite IH, sumn_plus. reflexivity.
Qed.
Lemma sumn_delta n i f : (i < n)%nat -> sumn n (fun j => delta i j * f j) = f i.
Proof.
  induction n as [|n IH]; intros H; [lia|]. cbn. destruct (Nat.eq_dec i n) as [->|Hn].
  - rewrite sumn_zero.
    + unfold delta. rewrite Nat.eqb_refl. ring.
    + intros j Hj. unfold delta. destruct (Nat.eqb_spec n j); [lia|ring].
  - rewrite IH by lia. unfold delta. destruct (Nat.eqb_spec i n); [lia|ring].
Qed.
Lemma sumn_nonneg n f : (forall i, (i < n)%nat -> 0 <= f i) -> 0 <= sumn n f.
Proof. induction n as [|n IH]; intros H; cbn; [lra|]. pose proof (H n ltac:(lia)). assert (0 <= sumn n f) by auto. lra. Qed.
Lemma sumn_zero_inv n f : (forall i, (i < n)%nat -> 0 <= f i) -> sumn n f = 0 -> forall i, (i < n)%nat -> f i = 0.
Proof.
  induction n as [|n IH]; intros H E i Hi; [lia|]. cbn in E. pose proof (H n ltac:(lia)) as Hn.
  assert (Hs : 0 <= sumn n f) by (apply sumn_nonneg; auto). destruct (Nat.eq_dec i n) as [->|]; [lra|]. apply IH; auto; [lra|lia].
Qed.
(** Only the terms up to the diagonal count. *)
Lemma sumn_cut n m f : (m <= n)%nat -> (forall i, (m <= i < n)%nat -> f i = 0) -> sumn n f = sumn m f.
Proof.
  induction n as [|n IH]; intros Hm H; [replace m with O by lia; reflexivity|]. destruct (Nat.eq_dec m (S n)) as [->|]; [reflexivity|].
  cbn. rewrite IH, H; [ring|lia|lia|intros; apply H; lia].
Qed.
Lemma ln_prodn n f : (forall i, (i < n)%nat -> 0 < f i) -> 0 < prodn n f /\ ln (prodn n f) = sumn n (fun i => ln (f i)).
Proof.
  induction n as [|n IH]; intros H; cbn; [split; [lra|apply ln_1]|]. destruct IH as [Hp He]; [auto|]. pose proof (H n ltac:(lia)) as Hn.
  split; [apply Rmult_lt_0_compat; assumption|]. rewrite ln_mult, He by assumption. reflexivity.
Qed.

Section triangular.
  Context (n : nat) (L : nat -> nat -> R) (Htri : forall i j, (i < j)%nat -> L i j = 0) (Hpos : forall i, (i < n)%nat -> 0 < L i i).
  Definition lmul (y : nat -> R) (i : nat) : R := sumn n (fun k => L i k * y k).
  Lemma lmul_cut y i : (i < n)%nat -> lmul y i = sumn (S i) (fun k => L i k * y k).
  Proof using Htri. intros Hi. unfold lmul. apply sumn_cut; [lia|]. intros k Hk. rewrite Htri by lia. ring. Qed.
  (** Forward substitution. *)
  Lemma forward (b : nat -> R) : exists y, forall i, (i < n)%nat -> lmul y i = b i.
  Proof using Htri Hpos.
    assert (G : forall m, (m <= n)%nat -> exists y, forall i, (i < m)%nat -> lmul y i = b i).
    { induction m as [|m IH]; intros Hm; [exists (fun _ => 0); intros; lia|]. destruct IH as [y Hy]; [lia|].
      set (v := (b m - sumn m (fun k => L m k * y k)) / L m m). exists (fun k => if Nat.eqb k m then v else y k). intros i Hi.
      pose proof (Hpos m ltac:(lia)) as Hm'. rewrite lmul_cut by lia. destruct (Nat.eq_dec i m) as [->|Hn].
      - cbn. rewrite Nat.eqb_refl. rewrite (sumn_ext m _ (fun k => L m k * y k)).
        + unfold v. field. lra.
        + intros k Hk. destruct (Nat.eqb_spec k m); [lia|reflexivity].
      - rewrite <- (Hy i) by lia. rewrite lmul_cut by lia. apply sumn_ext. intros k Hk. destruct (Nat.eqb_spec k m); [lia|reflexivity]. }
    apply G. lia.
  Qed.
  (** The first entries of a solution are zero where those of the right-hand side are. *)
  Lemma forward_zero (y : nat -> R) m : (m <= n)%nat -> (forall i, (i < m)%nat -> lmul y i = 0) -> forall i, (i < m)%nat -> y i = 0.
  Proof using Htri Hpos.
    intros Hm H i. induction i as [i IH] using (well_founded_induction lt_wf). intros Hi. pose proof (H i Hi) as E. rewrite lmul_cut in E by lia. cbn in E.
    rewrite sumn_zero in E; [|intros k Hk; rewrite IH by lia; ring]. pose proof (Hpos i ltac:(lia)). nra.
  Qed.
  Lemma forward_first (y : nat -> R) m : (m < n)%nat -> (forall i, (i < m)%nat -> lmul y i = 0) -> lmul y m = L m m * y m.
  Proof using Htri Hpos.
    intros Hm H. rewrite lmul_cut by lia. cbn. rewrite sumn_zero; [ring|]. intros k Hk. rewrite (forward_zero y m); [ring|lia|exact H|exact Hk].
  Qed.
  Lemma lmul_unique (y z : nat -> R) : (forall i, (i < n)%nat -> lmul y i = lmul z i) -> forall i, (i < n)%nat -> y i = z i.
  Proof using Htri Hpos.
    intros H i Hi. enough (y i - z i = 0) by lra. apply (forward_zero (fun k => y k - z k) n); [lia| |exact Hi]. intros k Hk.
    specialize (H k Hk). unfold lmul in *. rewrite (sumn_ext n _ (fun j => L k j * y j - L k j * z j)) by (intros; ring). rewrite sumn_minus. lra.
  Qed.

  (** The quadratic form of the inverse of L L^T, on L y, is |y|^2; more generally the bilinear form on L y and L z is y . z. *)
  Context (c P : nat -> nat -> R) (Hc : forall i j, (i < n)%nat -> (j < n)%nat -> c i j = sumn n (fun k => L i k * L j k)) (HP : inverse_of n c P).
  Lemma inverse_form (y z : nat -> R) :
    sumn n (fun j => sumn n (fun i => lmul y i * P i j) * lmul z j) = sumn n (fun k => y k * z k).
  Proof using All.
    (* w = P (L z); L (L^T w) = L z, hence L^T w = z *)
    set (w := fun i => sumn n (fun j => P i j * lmul z j)).
    assert (E1 : sumn n (fun j => sumn n (fun i => lmul y i * P i j) * lmul z j) = sumn n (fun i => lmul y i * w i)).
    { rewrite (sumn_ext n _ (fun j => sumn n (fun i => lmul y i * P i j * lmul z j))) by (intros j _; symmetry; apply sumn_scal_r).
      rewrite sumn_swap. apply sumn_ext. intros i _. unfold w. rewrite <- sumn_scal_l. apply sumn_ext. intros j _. ring. }
    assert (E2 : forall i, (i < n)%nat -> sumn n (fun k => c i k * w k) = lmul z i).
    { intros i Hi. unfold w. rewrite (sumn_ext n _ (fun k => sumn n (fun j => c i k * P k j * lmul z j))).
      2:{ intros k _. rewrite <- sumn_scal_l. apply sumn_ext. intros j _. ring. }
      rewrite sumn_swap. rewrite (sumn_ext n _ (fun j => delta i j * lmul z j)).
      - apply sumn_delta. exact Hi.
      - intros j Hj. rewrite sumn_scal_r. rewrite (proj1 HP) by assumption. reflexivity. }
    set (u := fun k => sumn n (fun i => L i k * w i)).
    assert (E3 : forall i, (i < n)%nat -> lmul u i = lmul z i).
    { intros i Hi. rewrite <- E2 by exact Hi. unfold lmul, u. rewrite (sumn_ext n _ (fun k => sumn n (fun j => L i k * L j k * w j))).
      2:{ intros k _. rewrite <- sumn_scal_l. apply sumn_ext. intros j _. ring. }
      rewrite sumn_swap. apply sumn_ext. intros j Hj. rewrite sumn_scal_r. rewrite <- Hc by assumption. reflexivity. }
    pose proof (lmul_unique u z E3) as Hu.
    rewrite E1. unfold lmul at 1. rewrite (sumn_ext n _ (fun i => sumn n (fun k => L i k * y k * w i))) by (intros i _; symmetry; apply sumn_scal_r).
    rewrite sumn_swap. apply sumn_ext. intros k Hk. rewrite <- Hu by exact Hk. unfold u. rewrite <- sumn_scal_l. apply sumn_ext. intros i _. ring.
  Qed.
End triangular.
