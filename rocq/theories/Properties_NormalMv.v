(** C36 and C61: [NormalDistribution<M>] and its ML estimator. *)
From stdpp Require Import prelude list.
From Coq Require Import Reals Lra Psatz ZArith FunctionalExtensionality.
From Verif Require Import Base GridModel NormalModel Spec_Normal NormalProofs NormalMvModel.
Local Open Scope R_scope.

(** Specification vocabulary: the points' mean and population covariance, entry by entry. *)
Definition vmean (l : list (nat -> R)) (i : nat) : R := amean (map (fun x => x i) l).
Definition vcov (l : list (nat -> R)) (i j : nat) : R :=
  Rsum (map (fun x => (x i - vmean l i) * (x j - vmean l j)) l) / INR (length l).
(** Weighted versions. *)
Definition wvmean (pw : list ((nat -> R) * R)) (i : nat) : R :=
  Rsum (map (fun p => snd p * fst p i) pw) / Rsum (map snd pw).
Definition wvcov (pw : list ((nat -> R) * R)) (i j : nat) : R :=
  Rsum (map (fun p => snd p * ((fst p i - wvmean pw i) * (fst p j - wvmean pw j))) pw) / Rsum (map snd pw).

Lemma s_eq_real a b : s_eq RO a b = true <-> a = b.
Proof.
  unfold s_eq; simpl. destruct (Rle_dec a b), (Rle_dec b a); simpl; split; intros; try discriminate; try lra; done.
Qed.
Lemma is_symmetric_real M (c : nat -> nat -> R) :
  is_symmetric RO M c = true <-> forall i j, (i < M)%nat -> (j < M)%nat -> c i j = c j i.
Proof.
  unfold is_symmetric, idx. rewrite forallb_forall. split.
  - intros H i j Hi Hj. specialize (H i). rewrite in_seq in H. specialize (H ltac:(lia)).
    rewrite forallb_forall in H. specialize (H j). rewrite in_seq in H. specialize (H ltac:(lia)).
    apply s_eq_real in H. done.
  - intros H i Hi. apply in_seq in Hi. rewrite forallb_forall. intros j Hj. apply in_seq in Hj.
    apply s_eq_real. apply H; lia.
Qed.
Lemma neg_diagonal_real M (c : nat -> nat -> R) :
  neg_diagonal RO M c = true <-> exists i, (i < M)%nat /\ c i i < 0.
Proof.
  unfold neg_diagonal, idx. rewrite existsb_exists. split.
  - intros (i & Hi & H). apply in_seq in Hi. exists i. split; [lia|].
    apply andb_true_iff in H as [H1 H2]. simpl in H1. destruct (Rle_dec (c i i) 0); [|discriminate].
    destruct (Req_dec (c i i) 0) as [E|]; [|lra]. exfalso.
    apply negb_true_iff in H2. assert (s_eq RO (c i i) (s_Z RO 0) = true) by (by apply s_eq_real). congruence.
  - intros (i & Hi & H). exists i. split; [apply in_seq; lia|]. simpl.
    destruct (Rle_dec (c i i) 0); [|lra]. simpl. apply negb_true_iff.
    destruct (s_eq RO (c i i) 0) eqn:E; [|done]. apply s_eq_real in E. lra.
Qed.

(** ** C36 *)

(** What each outcome of [setCovariance] leaves behind (exact arithmetic, any decomposition routines):
    a non-symmetric matrix changes nothing; any other rejected matrix changes nothing but the Cholesky factor. *)
Theorem normalM_rejected_covariance g M d c d' e :
  setCovariance RO g M d c = (d', Throw e) ->
  nm_mean d' = nm_mean d /\ nm_cov d' = nm_cov d /\ nm_prec d' = nm_prec d /\ nm_det d' = nm_det d /\
  nm_norm d' = nm_norm d /\
  (forall x, pdfM RO M d' x = pdfM RO M d x) /\
  ((exists i j, (i < M)%nat /\ (j < M)%nat /\ c i j <> c j i) -> d' = d).
Proof.
  unfold setCovariance. destruct (is_symmetric RO M c) eqn:Es; simpl.
  - assert (Hs : (exists i j, (i < M)%nat /\ (j < M)%nat /\ c i j <> c j i) -> False).
    { intros (i & j & Hi & Hj & H). apply H. by apply (proj1 (is_symmetric_real M c) Es). }
    destruct (eg_isPositive g c); simpl; [destruct (neg_diagonal RO M c)|]; intros [= <- <-]; try done;
      (repeat split; [..|by intros ?%Hs]).
  - intros [= <- <-]. done.
Qed.

(** When a matrix is accepted, and what is then stored. *)
Theorem normalM_accepted_covariance g M d c :
  let ok := (forall i j, (i < M)%nat -> (j < M)%nat -> c i j = c j i) /\ eg_isPositive g c = true /\
            (forall i, (i < M)%nat -> 0 <= c i i) in
  (ok -> exists d', setCovariance RO g M d c = (d', Ret tt) /\ nm_mean d' = nm_mean d /\ nm_cov d' = c /\
           nm_prec d' = eg_inv g c /\ nm_det d' = eg_det g c /\ nm_L d' = eg_llt g c /\
           nm_norm d' = / 2 * INR M * ln (2 * PI) + / 2 * ln (eg_det g c)) /\
  (~ ok -> snd (setCovariance RO g M d c) = Throw BadArgument).
Proof.
  cbn zeta. unfold setCovariance. split.
  - intros (Hs & Hp & Hd). rewrite (proj2 (is_symmetric_real M c) Hs). simpl. rewrite Hp. simpl.
    destruct (neg_diagonal RO M c) eqn:En.
    { apply neg_diagonal_real in En as (i & Hi & H). specialize (Hd i Hi). lra. }
    eexists. split; [done|]. cbn [nm_mean nm_cov nm_prec nm_det nm_L nm_norm]. do 5 (split; [done|]). rewrite INR_IZR_INZ. lra.
  - intros Hn. destruct (is_symmetric RO M c) eqn:Es; simpl; [|done].
    destruct (eg_isPositive g c) eqn:Ep; simpl; [|done].
    destruct (neg_diagonal RO M c) eqn:En; simpl; [done|]. exfalso. apply Hn.
    split; [by apply is_symmetric_real|]. split; [done|]. intros i Hi.
    destruct (Rle_or_lt 0 (c i i)) as [|H]; [done|].
    assert (neg_diagonal RO M c = true) by (apply neg_diagonal_real; eauto). congruence.
Qed.

(** The expected exception safety fails: every symmetric matrix that is not positive replaces the factor used for
    sampling, so afterwards samples are drawn with the rejected matrix' factor while the density still is the old
    one.  Instance: two dimensions, N(0, I), a Cholesky routine that agrees with Eigen's on diagonal matrices (it
    takes square roots until the first non-positive pivot), and the rejected matrix diag(4, -1). *)
Theorem normalM_rejected_covariance_refuted :
  (forall g M d c,
     (forall i j, (i < M)%nat -> (j < M)%nat -> c i j = c j i) -> eg_isPositive g c = false ->
     exists d', setCovariance RO g M d c = (d', Throw BadArgument) /\ nm_L d' = eg_llt g c) /\
  exists g d c d' (z : nat -> R),
    normalM_new RO g 2 (NormalM (fun _ => 0) (fun _ _ => 0) (fun _ _ => 0) 0 0 (fun _ _ => 0))
      (fun _ => 0) (fun i j => if Nat.eqb i j then 1 else 0) = Ret d /\
    setCovariance RO g 2 d c = (d', Throw BadArgument) /\
    nm_cov d' = nm_cov d /\
    getSampleM RO 2 d z 0%nat = 1 /\ getSampleM RO 2 d' z 0%nat = 2.
Proof.
  split.
  - intros g M d c Hs Hp. unfold setCovariance. rewrite (proj2 (is_symmetric_real M c) Hs), Hp. simpl. by eexists.
  - set (llt := fun (c : nat -> nat -> R) i j =>
      if Nat.eqb i j then (if Rlt_dec 0 (c 0%nat 0%nat) then
        (if Nat.eqb i 0 then sqrt (c i i) else if Rlt_dec 0 (c i i) then sqrt (c i i) else c i i) else c i i) else 0).
    set (g := Eigen llt (fun c => if Rlt_dec (c 1%nat 1%nat) 0 then false else true) (fun c => c) (fun c => c 0%nat 0%nat)).
    set (I2 := fun i j : nat => if Nat.eqb i j then 1 else 0).
    set (c := fun i j : nat => if Nat.eqb i j then (if Nat.eqb i 0 then 4 else -1) else 0).
    set (junk := NormalM (fun _ : nat => 0) (fun _ _ : nat => 0) (fun _ _ => 0) 0 0 (fun _ _ : nat => 0)).
    assert (HI : forall d, exists d', setCovariance RO g 2 d I2 = (d', Ret tt) /\ nm_L d' = llt I2 /\ nm_mean d' = nm_mean d).
    { intros d. destruct (normalM_accepted_covariance g 2 d I2) as [H _].
      destruct H as (d' & E & H1 & H2 & H3 & H4 & H5 & H6); [|by exists d'].
      split; [intros i j _ _; unfold I2; by rewrite Nat.eqb_sym|].
      split; [simpl; unfold I2; simpl; destruct (Rlt_dec 1 0); [lra|done]|].
      intros i _. unfold I2. rewrite Nat.eqb_refl. lra. }
    destruct (HI (setMeanM junk (fun _ => 0))) as (d & Ed & HLd & Hmd).
    assert (Hc : exists d', setCovariance RO g 2 d c = (d', Throw BadArgument) /\ nm_L d' = llt c /\
       nm_cov d' = nm_cov d /\ nm_mean d' = nm_mean d).
    { unfold setCovariance. rewrite (proj2 (is_symmetric_real 2 c)).
      - simpl. unfold c at 1; simpl. destruct (Rlt_dec (-1) 0); [|lra]. simpl. by eexists.
      - intros i j _ _. unfold c. rewrite Nat.eqb_sym. destruct (Nat.eqb_spec j i) as [->|]; done. }
    destruct Hc as (d' & Ed' & HL' & HC' & Hm').
    exists g, d, c, d', (fun i => if Nat.eqb i 0 then 1 else 0).
    split; [unfold normalM_new; by rewrite Ed|]. split; [done|]. split; [done|].
    unfold getSampleM, vsum, idx. simpl. rewrite HL', HLd, Hm', Hmd. simpl. unfold llt, I2, c. simpl.
    destruct (Rlt_dec 0 1); [|lra]. destruct (Rlt_dec 0 4); [|lra].
    assert (sqrt 4 = 2) as -> by (replace 4 with (2 * 2) by lra; apply sqrt_square; lra).
    assert (sqrt 1 = 1) as -> by apply sqrt_1. split; lra.
Qed.

(** Along any history in which every call succeeds, the factor is the one of the current covariance. *)
Theorem normalM_factor_consistent g M d h :
  nm_L d = eg_llt g (nm_cov d) ->
  (forall h1 c h2, h = h1 ++ c :: h2 ->
     snd (mstep RO g M (mrun RO g M d h1) c) = Ret tt /\
     (forall o, c = MAssign o -> nm_L o = eg_llt g (nm_cov o))) ->
  let d' := mrun RO g M d h in nm_L d' = eg_llt g (nm_cov d').
Proof.
  revert d. induction h as [|c h IH]; intros d Hd Hh; [done|]. simpl. apply IH.
  - destruct (Hh [] c h eq_refl) as [Hs Ha]. simpl in Hs. destruct c as [m|c|o]; simpl in *.
    + done.
    + revert Hs. unfold setCovariance. destruct (is_symmetric RO M c); simpl; [|done].
      destruct (eg_isPositive g c); simpl; [|done]. destruct (neg_diagonal RO M c); simpl; [done|]. done.
    + by apply Ha.
  - intros h1 c' h2 E. apply (Hh (c :: h1) c' h2). by rewrite E.
Qed.

(** ** C61: the estimator *)

Lemma sum_prod_expand (a b : R) (l : list (nat -> R)) i j :
  Rsum (map (fun x => (x i - a) * (x j - b)) l) =
  Rsum (map (fun x => x i * x j) l) - b * Rsum (map (fun x => x i) l) - a * Rsum (map (fun x => x j) l)
    + a * b * INR (length l).
Proof.
  induction l as [|x l IH]; [simpl; unfold Rsum; simpl; lra|].
  change (length (x :: l)) with (S (length l)). rewrite S_INR. cbn [map]. rewrite !Rsum_cons, IH. lra.
Qed.

(** What the sums are after the points [l] (they are only meaningful when n > 0). *)
Definition afterM (l : list (nat -> R)) (e : @estM R) : Prop :=
  em_n e = Z.of_nat (length l) /\
  (l <> [] -> em_sum e = (fun i => Rsum (map (fun x => x i) l)) /\
              em_sq e = (fun i j => Rsum (map (fun x => x i * x j) l))).

Lemma outer_real (v : nat -> R) i j : outer RO v i j = v i * v j.
Proof. unfold outer. destruct (Nat.leb i j); simpl; lra. Qed.

Lemma afterM_step g M l e x :
  (Z.of_nat (length l) + 1 < 2 ^ 32)%Z -> afterM l e ->
  exists d', addPointM RO g M e x =
    EstM (fst (try_setM RO g M (em_dist e) (vmean (l ++ [x])) (vcov (l ++ [x]))))
      (Z.of_nat (length (l ++ [x]))) (snd (try_setM RO g M (em_dist e) (vmean (l ++ [x])) (vcov (l ++ [x]))))
      (em_sum d') (em_sq d') /\ afterM (l ++ [x]) (addPointM RO g M e x).
Proof.
  intros Hlen [Hn Hs].
  assert (Hlast : forall k : list (nat -> R), length (k ++ [x]) = S (length k)) by (intros; rewrite app_length; simpl; lia).
  assert (Hone : forall y, Rsum [y] = y) by (intros; unfold Rsum; simpl; lra).
  set (lx := l ++ [x]) in *.
  set (s := fun i => Rsum (map (fun x : nat -> R => x i) lx)).
  set (q := fun i j => Rsum (map (fun x : nat -> R => x i * x j) lx)).
  assert (Es : (fun i => s_add RO ((if Z.eqb (em_n e) 0 then (fun _ => s_Z RO 0) else em_sum e) i) (x i)) = s).
  { apply functional_extensionality; intros i. unfold s, lx. rewrite map_app, Rsum_app. cbn [map]. rewrite Hone. cbn [real_sops s_add s_Z].
    f_equal.
    destruct (Z.eqb_spec (em_n e) 0) as [E|E].
    - assert (l = []) as -> by (destruct l; [done|simpl in Hn; lia]). done.
    - assert (l <> []) as Hl by (intros ->; simpl in Hn; lia). destruct (Hs Hl) as [-> _]. done. }
  assert (Eq : (fun i j => s_add RO ((if Z.eqb (em_n e) 0 then (fun _ _ => s_Z RO 0) else em_sq e) i j) (outer RO x i j)) = q).
  { apply functional_extensionality; intros i. apply functional_extensionality; intros j.
    rewrite outer_real. unfold q, lx. rewrite map_app, Rsum_app. cbn [map]. rewrite Hone. cbn [real_sops s_add s_Z].
    f_equal.
    destruct (Z.eqb_spec (em_n e) 0) as [E|E].
    - assert (l = []) as -> by (destruct l; [done|simpl in Hn; lia]). done.
    - assert (l <> []) as Hl by (intros ->; simpl in Hn; lia). destruct (Hs Hl) as [_ ->]. done. }
  set (N := length lx) in *.
  assert (HN : (Z.of_nat N < 2 ^ 32)%Z) by (unfold N, lx; rewrite Hlast; lia).
  assert (HN0 : 0 < INR N) by (apply lt_0_INR; unfold N, lx; rewrite Hlast; lia).
  assert (En : ((em_n e + 1) mod size_t_mod)%Z = Z.of_nat N).
  { rewrite Hn. unfold N, lx. rewrite Hlast, Z.mod_small; [lia|]. unfold size_t_mod; lia. }
  assert (Enn : ((Z.of_nat N * Z.of_nat N) mod size_t_mod)%Z = (Z.of_nat N * Z.of_nat N)%Z).
  { rewrite Z.mod_small; [done|]. unfold size_t_mod; nia. }
  assert (Em : (fun i => s_div RO (s i) (s_Z RO (Z.of_nat N))) = vmean lx).
  { apply functional_extensionality; intros i. unfold vmean, amean. rewrite map_length. simpl.
    rewrite <- INR_IZR_INZ. done. }
  assert (Ec : (fun i j => s_add RO (s_sub RO (s_div RO (q i j) (s_Z RO (Z.of_nat N)))
             (s_div RO (s_mul RO (outer RO s i j) (s_Z RO 2)) (s_Z RO (Z.of_nat N * Z.of_nat N)%Z)))
             (outer RO (vmean lx) i j)) = vcov lx).
  { apply functional_extensionality; intros i. apply functional_extensionality; intros j.
    rewrite !outer_real. unfold vcov. rewrite sum_prod_expand. simpl. rewrite mult_IZR, <- INR_IZR_INZ.
    unfold vmean, amean. rewrite !map_length. fold N. unfold q, s. field. lra. }
  assert (Es' : forall i, s_add RO ((if Z.eqb (em_n e) 0 then (fun _ => s_Z RO 0) else em_sum e) i) (x i) = s i)
    by (intros i; exact (equal_f Es i)).
  assert (Eq' : forall i j, s_add RO ((if Z.eqb (em_n e) 0 then (fun _ _ => s_Z RO 0) else em_sq e) i j) (outer RO x i j) = q i j)
    by (intros i j; exact (equal_f (equal_f Eq i) j)).
  assert (EA : addPointM RO g M e x = EstM (fst (try_setM RO g M (em_dist e) (vmean lx) (vcov lx))) (Z.of_nat N)
     (snd (try_setM RO g M (em_dist e) (vmean lx) (vcov lx))) s q).
  { unfold addPointM. cbn zeta.  rewrite Es, Eq, En, Enn.
    match goal with |- EstM (fst (try_setM _ _ _ _ ?a ?b)) _ _ _ _ = _ =>
      let Ha := fresh in let Hb := fresh in
      assert (Ha : a = vmean lx); [|assert (Hb : b = vcov lx); [|by rewrite Hb, Ha]] end.
    - rewrite <- Em. apply functional_extensionality; intros i. by rewrite Es'.
    - rewrite <- Ec. apply functional_extensionality; intros i. apply functional_extensionality; intros j.
      rewrite Eq'. f_equal. f_equal. rewrite <- Em. apply functional_extensionality; intros k. by rewrite Es'. }
  rewrite EA.
  exists (EstM (em_dist e) 0 false s q). split; [done|].
  split; [done|]. intros _. done.
Qed.

Lemma addPointsM_snoc g M e l x :
  addPointsM RO g M e (l ++ [x]) = addPointM RO g M (addPointsM RO g M e l) x.
Proof. unfold addPointsM. by rewrite fold_left_app. Qed.

Lemma afterM_points g M e l : (Z.of_nat (length l) < 2 ^ 32)%Z ->
  afterM l (addPointsM RO g M (estM_reset e) l).
Proof.
  induction l as [|x l IH] using rev_ind; intros Hl; [by split|].
  rewrite addPointsM_snoc. rewrite app_length in Hl; simpl in Hl.
  destruct (afterM_step g M l (addPointsM RO g M (estM_reset e) l) x ltac:(lia) (IH ltac:(lia))) as (_ & _ & H).
  done.
Qed.

Lemma vcov_symmetric l i j : vcov l i j = vcov l j i.
Proof. unfold vcov. f_equal. apply Rsum_ext. intros; apply Rmult_comm. Qed.
Lemma vcov_diag l i : l <> [] -> 0 <= vcov l i i.
Proof.
  intros H. assert (0 < INR (length l)) by (destruct l; [done|apply lt_0_INR; simpl; lia]).
  unfold vcov. apply Rmult_le_pos; [|left; by apply Rinv_0_lt_compat].
  apply Rsum_nonneg, Forall_forall. intros y Hy. apply elem_of_list_In, in_map_iff in Hy as (z & <- & _). apply Rle_0_sqr.
Qed.

(** After a reset and any non-empty list of points: the count, the mean, and the flag, which says exactly whether
    the positivity test accepts the population covariance (symmetry and diagonal never reject it); when it is set,
    the published covariance, precision, determinant and factor all belong to that covariance. *)
Theorem mlM_running_estimate g M e l :
  l <> [] -> (Z.of_nat (length l) < 2 ^ 32)%Z ->
  let e' := addPointsM RO g M (estM_reset e) l in
  em_n e' = Z.of_nat (length l) /\
  nm_mean (em_dist e') = vmean l /\
  em_valid e' = eg_isPositive g (vcov l) /\
  (em_valid e' = true -> nm_cov (em_dist e') = vcov l /\ nm_prec (em_dist e') = eg_inv g (vcov l) /\
     nm_det (em_dist e') = eg_det g (vcov l) /\ nm_L (em_dist e') = eg_llt g (vcov l)).
Proof.
  intros Hne Hl. cbn zeta.
  destruct l as [|x l] using rev_ind; [done|]. clear IHl.
  rewrite addPointsM_snoc. rewrite app_length in Hl; simpl in Hl.
  destruct (afterM_step g M l (addPointsM RO g M (estM_reset e) l) x ltac:(lia)) as (z & -> & _).
  { apply afterM_points. lia. }
  set (lx := l ++ [x]) in *. set (d := em_dist (addPointsM RO g M (estM_reset e) l)).
  cbn [em_n em_dist em_valid]. split; [done|].
  unfold try_setM.
  destruct (normalM_accepted_covariance g M (setMeanM d (vmean lx)) (vcov lx)) as [Ha Hr].
  assert (Hsym : forall i j, (i < M)%nat -> (j < M)%nat -> vcov lx i j = vcov lx j i) by (intros; apply vcov_symmetric).
  assert (Hdia : forall i, (i < M)%nat -> 0 <= vcov lx i i) by (intros; by apply vcov_diag).
  destruct (eg_isPositive g (vcov lx)) eqn:Ep.
  - destruct Ha as (d' & -> & H1 & H2 & H3 & H4 & H5 & _); [done|]. simpl. done.
  - destruct (setCovariance RO g M (setMeanM d (vmean lx)) (vcov lx)) as [d' r] eqn:E.
    simpl in Hr. assert (r = Throw BadArgument) as -> by (apply Hr; intros (_ & Hf & _); congruence). simpl.
    apply normalM_rejected_covariance in E as (Hm & _). done.
Qed.

(** The order of the points does not matter for anything published by a valid estimate. *)
Theorem mlM_order_independent g M e l k :
  l <> [] -> Permutation l k -> (Z.of_nat (length l) < 2 ^ 32)%Z ->
  let a := addPointsM RO g M (estM_reset e) l in
  let b := addPointsM RO g M (estM_reset e) k in
  em_n a = em_n b /\ nm_mean (em_dist a) = nm_mean (em_dist b) /\ em_valid a = em_valid b /\
  (em_valid a = true -> nm_cov (em_dist a) = nm_cov (em_dist b) /\ nm_prec (em_dist a) = nm_prec (em_dist b) /\
     nm_L (em_dist a) = nm_L (em_dist b)).
Proof.
  intros Hne Hp Hl. cbn zeta.
  assert (Hne' : k <> []) by (intros ->; symmetry in Hp; apply Permutation_nil in Hp; done).
  assert (Hlen := Permutation_length Hp).
  assert (Em : vmean l = vmean k).
  { apply functional_extensionality; intros i. apply amean_perm, Permutation_map, Hp. }
  assert (Ec : vcov l = vcov k).
  { apply functional_extensionality; intros i. apply functional_extensionality; intros j.
    unfold vcov. rewrite Em, Hlen. f_equal. apply Rsum_perm, Permutation_map, Hp. }
  destruct (mlM_running_estimate g M e l Hne Hl) as (A1 & A2 & A3 & A4).
  destruct (mlM_running_estimate g M e k Hne' ltac:(lia)) as (B1 & B2 & B3 & B4).
  rewrite Em, Ec in *. split; [congruence|]. split; [congruence|]. split; [congruence|].
  intros Hv. destruct (A4 Hv) as (? & ? & ? & ?). destruct (B4 ltac:(congruence)) as (? & ? & ? & ?).
  split; [congruence|]. split; congruence.
Qed.

(** In any arithmetic (IEEE doubles included) the matrix the estimator computes is exactly symmetric:
    [setCovariance]'s symmetry test can only reject it for an entry that is not equal to itself (NaN). *)
Theorem mlM_covariance_symmetric {A} (o : sops A) (e : @estM A) (x : nat -> A) (n n2 : A) (s : nat -> A)
    (q : nat -> nat -> A) :
  (forall i j, q i j = q j i) ->
  let q' := fun i j => s_add o (q i j) (outer o x i j) in
  let c := fun i j => s_add o (s_sub o (s_div o (q' i j) n) (s_div o (s_mul o (outer o s i j) (s_Z o 2)) n2))
                (outer o (fun i => s_div o (s i) n) i j) in
  (forall i j, q' i j = q' j i) /\ (forall i j, c i j = c j i).
Proof.
  intros Hq. cbn zeta.
  assert (Ho : forall v i j, outer o v i j = outer o v j i).
  { intros v i j. unfold outer. destruct (Nat.leb_spec i j), (Nat.leb_spec j i); try done; try lia.
    assert (i = j) as -> by lia. done. }
  split; intros i j.
  - by rewrite Hq, Ho.
  - rewrite (Hq i j), (Ho x i j), (Ho s i j). f_equal. apply Ho.
Qed.

(** Weighted points with a positive total weight. *)
Theorem mlM_weighted g M e l w :
  l <> [] -> length w = length l -> Forall (fun r => 0 <= r) w -> 0 < Rsum w ->
  exists e', addPointsWeightedM RO g M e l w = (e', Ret tt) /\
  nm_mean (em_dist e') = wvmean (zip l w) /\
  em_valid e' = eg_isPositive g (wvcov (zip l w)) /\
  (em_valid e' = true -> nm_cov (em_dist e') = wvcov (zip l w)) /\
  em_n e' = em_n e.
Proof.
  intros Hne Hl Hw Hs. unfold addPointsWeightedM. rewrite Hl, Nat.eqb_refl. simpl negb. cbv iota.
  destruct l as [|x l]; [done|]. set (pw := zip (x :: l) w).
  assert (Esnd : map snd pw = w).
  { unfold pw. change (map snd (zip (x :: l) w)) with (snd <$> zip (x :: l) w). apply snd_zip. lia. }
  assert (En : fold_left (s_add RO) w (s_Z RO 0) = Rsum (map snd pw)).
  { simpl. rewrite Esnd. pose proof (fold_add_R (fun x : R => x) w 0) as H. rewrite map_id in H.
    etransitivity; [exact H|]. lra. }
  assert (Em : (fun i => s_div RO (fold_left (fun acc p => s_add RO acc (s_mul RO (snd p) (fst p i))) pw (s_Z RO 0))
                 (fold_left (s_add RO) w (s_Z RO 0))) = wvmean pw).
  { apply functional_extensionality; intros i. rewrite En. simpl.
    rewrite (fold_add_R (fun p : (nat -> R) * R => snd p * fst p i)). unfold wvmean. f_equal. lra. }
  assert (Em' : forall i, s_div RO (fold_left (fun acc p => s_add RO acc (s_mul RO (snd p) (fst p i))) pw (s_Z RO 0))
                 (fold_left (s_add RO) w (s_Z RO 0)) = wvmean pw i) by (intros i; exact (equal_f Em i)).
  assert (Ec : (fun i j => s_div RO (fold_left (fun acc p => s_add RO acc (s_mul RO (snd p)
       (outer RO (fun k => s_sub RO (fst p k) (wvmean pw k)) i j))) pw (s_Z RO 0)) (fold_left (s_add RO) w (s_Z RO 0)))
       = wvcov pw).
  { apply functional_extensionality; intros i. apply functional_extensionality; intros j. rewrite En. simpl.
    rewrite (fold_add_R (fun p : (nat -> R) * R => snd p * outer RO (fun k => s_sub RO (fst p k) (wvmean pw k)) i j)).
    unfold wvcov. f_equal. rewrite Rplus_0_l. apply Rsum_ext. intros p _. rewrite outer_real. simpl. lra. }
  cbv zeta.
  match goal with |- context [try_setM RO g M (em_dist e) ?a ?b] =>
    let Ha := fresh in let Hb := fresh in
    assert (Ha : a = wvmean pw) by exact Em; assert (Hb : b = wvcov pw); [|rewrite Hb, Ha; clear Ha Hb] end.
  { rewrite <- Ec. apply functional_extensionality; intros i. apply functional_extensionality; intros j.
    f_equal. f_equal. apply functional_extensionality; intros acc. apply functional_extensionality; intros p.
    f_equal. f_equal. f_equal. apply functional_extensionality; intros k. by rewrite Em'. }
  eexists. split; [done|]. cbn [em_dist em_valid em_n].
  assert (Hsym : forall i j, (i < M)%nat -> (j < M)%nat -> wvcov pw i j = wvcov pw j i).
  { intros. unfold wvcov. f_equal. apply Rsum_ext. intros; f_equal; apply Rmult_comm. }
  assert (Hdia : forall i, (i < M)%nat -> 0 <= wvcov pw i i).
  { intros i _. unfold wvcov. rewrite Esnd. apply Rmult_le_pos; [|left; by apply Rinv_0_lt_compat].
    apply Rsum_nonneg, Forall_forall. intros y Hy. apply elem_of_list_In, in_map_iff in Hy as (p & <- & Hp).
    assert (0 <= snd p).
    { rewrite Forall_forall in Hw. apply Hw. rewrite <- Esnd. apply elem_of_list_In, in_map, Hp. }
    apply Rmult_le_pos; [done|apply Rle_0_sqr]. }
  unfold try_setM. destruct (normalM_accepted_covariance g M (setMeanM (em_dist e) (wvmean pw)) (wvcov pw)) as [Ha Hr].
  destruct (eg_isPositive g (wvcov pw)) eqn:Ep.
  - destruct Ha as (d' & -> & H1 & H2 & _); [done|]. simpl. done.
  - destruct (setCovariance RO g M (setMeanM (em_dist e) (wvmean pw)) (wvcov pw)) as [d' r] eqn:E.
    simpl in Hr. assert (r = Throw BadArgument) as -> by (apply Hr; intros (_ & Hf & _); congruence). simpl.
    apply normalM_rejected_covariance in E as (Hm & _). done.
Qed.

(** An empty range with no weights is undefined behaviour; a size mismatch is silently ignored. *)
Theorem mlM_weighted_edge {A} (o : sops A) g M e l w :
  snd (addPointsWeightedM o g M e [] []) = UB /\
  (length w <> length l -> addPointsWeightedM o g M e l w = (e, Ret tt)).
Proof.
  split; [done|]. intros H. unfold addPointsWeightedM. destruct (Nat.eqb_spec (length w) (length l)); done.
Qed.

(** Non-vacuous: three points of the plane, with a positivity test by the 2x2 determinant. *)
Example mlM_example :
  let g := Eigen (fun c : nat -> nat -> R => c)
     (fun c => if Rlt_dec 0 (c 0%nat 0%nat * c 1%nat 1%nat - c 0%nat 1%nat * c 1%nat 0%nat) then true else false)
     (fun c => c) (fun c => c 0%nat 0%nat) in
  let pt (a b : R) := fun i : nat => if Nat.eqb i 0 then a else b in
  let l := [pt 0 0; pt 2 0; pt 1 3] in
  eg_isPositive g (vcov l) = true /\ vmean l 0%nat = 1 /\ vcov l 1%nat 1%nat = 2.
Proof.
  cbn zeta. unfold eg_isPositive, vcov, vmean, amean, Rsum. simpl.
  split; [|split]; [destruct (Rlt_dec _ _) as [|n]; [done|exfalso; apply n]| |]; lra.
Qed.
