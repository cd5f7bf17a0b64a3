From stdpp Require Import prelude list.
From Coq Require Import Reals Lra Psatz.
From Verif Require Import Base GridModel NormalModel Spec_Normal.
Local Open Scope R_scope.

Notation RO := real_sops.
Definition n1_ok (d : @normal1 R) : Prop :=
  0 < n1_var d /\ n1_prec d = / n1_var d /\ n1_std d = sqrt (n1_var d) /\
  n1_norm d = / 2 * ln (2 * PI * n1_var d).

Lemma half_real : half RO = / 2.
Proof. unfold half; simpl. unfold Rdiv. lra. Qed.

Lemma setVariance_bad d v : v <= 0 -> setVariance RO d v = (d, Throw BadArgument).
Proof. intros H. unfold setVariance; simpl. destruct (Rle_dec v 0); [done|lra]. Qed.
Lemma setVariance_good d v : 0 < v ->
  setVariance RO d v = (Normal1 (n1_mean d) v (/ v) (sqrt v) (/ 2 * ln (2 * PI * v)), Ret tt).
Proof.
  intros H. unfold setVariance. rewrite half_real; simpl. destruct (Rle_dec v 0); [lra|].
  unfold Rdiv. rewrite Rmult_1_l. done.
Qed.

Lemma n1_reach_ok d : normal1_reach RO d -> n1_ok d.
Proof.
  induction 1 as [junk m v d H|d m H IH|d v H IH|d d' H IH H' IH'].
  - revert H. unfold normal1_new. destruct (Rle_or_lt v 0) as [Hv|Hv].
    + rewrite setVariance_bad; [discriminate|lra].
    + rewrite setVariance_good; [|done]. intros [= <-]. repeat split; done.
  - done.
  - destruct (Rle_or_lt v 0) as [Hv|Hv].
    + rewrite setVariance_bad; done.
    + rewrite setVariance_good; [|done]. repeat split; done.
  - done.
Qed.

Lemma n1_ok_reach m v : 0 < v -> exists d, normal1_reach RO d /\ getMean d = m /\ getVariance d = v.
Proof.
  intros H. eexists. split; [eapply (nr_new _ 0 m v); unfold normal1_new; rewrite setVariance_good; done|]. done.
Qed.

Lemma two_pi_pos v : 0 < v -> 0 < 2 * PI * v.
Proof. intros. pose proof PI_RGT_0. nra. Qed.

Lemma half_ln_sqrt x : 0 < x -> / 2 * ln x = ln (sqrt x).
Proof.
  intros H. pose proof (sqrt_lt_R0 x H) as Hs.
  rewrite <- (sqrt_sqrt x) at 1; [|lra]. rewrite ln_mult; [lra|done|done].
Qed.

Lemma pdf_gauss d x : n1_ok d -> pdf RO d x = gauss (getMean d) (getVariance d) x.
Proof.
  intros (Hv & Hp & Hs & Hn). unfold pdf, logpdf, mahalanobisDistance, gauss, getMean, getVariance.
  rewrite half_real. simpl. rewrite Hp, Hn.
  pose proof (two_pi_pos _ Hv) as H2. rewrite half_ln_sqrt; [|done].
  pose proof (sqrt_lt_R0 _ H2) as Hq.
  unfold Rminus at 1. rewrite exp_plus, exp_Ropp, exp_ln; [|done].
  rewrite Rmult_comm. f_equal. f_equal. field. lra.
Qed.

Lemma gauss_pos m v x : 0 < v -> 0 < gauss m v x.
Proof.
  intros H. unfold gauss. apply Rmult_lt_0_compat; [|apply exp_pos].
  apply Rinv_0_lt_compat, sqrt_lt_R0, two_pi_pos, H.
Qed.

(** ** Lists *)
Lemma Rsum_cons x l : Rsum (x :: l) = x + Rsum l.
Proof. done. Qed.
Lemma Rsum_app l k : Rsum (l ++ k) = Rsum l + Rsum k.
Proof. induction l as [|x l IH]; simpl; [lra|]. unfold Rsum in *; simpl in *. rewrite IH. lra. Qed.
Lemma Rsum_perm l k : Permutation l k -> Rsum l = Rsum k.
Proof. induction 1; simpl; unfold Rsum in *; simpl in *; try lra; congruence. Qed.
Lemma Rsum_nonneg l : Forall (fun x => 0 <= x) l -> 0 <= Rsum l.
Proof. induction 1; simpl; unfold Rsum in *; simpl; lra. Qed.
Lemma Rsum_zero l : Forall (fun x => 0 <= x) l -> Rsum l = 0 -> Forall (fun x => x = 0) l.
Proof.
  induction 1 as [|x l Hx Hl IH]; intros H; [done|]. pose proof (Rsum_nonneg l Hl).
  simpl in H. change (fold_right Rplus 0 l) with (Rsum l) in H. constructor; [|apply IH]; lra.
Qed.
Lemma Rsum_const_map {B} (c : R) (l : list B) : Rsum (map (fun _ => c) l) = c * INR (length l).
Proof.
  induction l as [|x l IH]; [simpl; unfold Rsum; simpl; lra|].
  change (length (x :: l)) with (S (length l)). rewrite S_INR. simpl.
  change (fold_right Rplus 0 ?l) with (Rsum l). rewrite IH. lra.
Qed.

Lemma len_pos (l : list R) : l <> [] -> 0 < INR (length l).
Proof. intros H. destruct l; [done|]. apply lt_0_INR. simpl; lia. Qed.

Lemma sq_expand (m : R) l :
  Rsum (map (fun x => (x - m) * (x - m)) l) = Rsum (map (fun x => x * x) l) - 2 * m * Rsum l + m * m * INR (length l).
Proof.
  induction l as [|x l IH]; [simpl; unfold Rsum; simpl; lra|].
  change (length (x :: l)) with (S (length l)). rewrite S_INR. simpl.
  change (fold_right Rplus 0 ?l) with (Rsum l). rewrite IH. lra.
Qed.
Lemma pvar_alt l : l <> [] ->
  pvar l = Rsum (map (fun x => x * x) l) / INR (length l) - amean l * amean l.
Proof.
  intros H. pose proof (len_pos _ H). unfold pvar. rewrite sq_expand. unfold amean. field. lra.
Qed.
Lemma pvar_nonneg l : l <> [] -> 0 <= pvar l.
Proof.
  intros H. pose proof (len_pos _ H). unfold pvar. apply Rmult_le_pos; [|left; apply Rinv_0_lt_compat; done].
  apply Rsum_nonneg. apply Forall_forall. intros y Hy. apply elem_of_list_In, in_map_iff in Hy.
  destruct Hy as (x & <- & _). apply Rle_0_sqr.
Qed.
Lemma pvar_pos_iff l : l <> [] -> (0 < pvar l <-> two_values l).
Proof.
  intros H. pose proof (len_pos _ H) as Hn. pose proof (pvar_nonneg _ H) as Hp. split.
  - intros Hpos. destruct l as [|a l]; [done|].
    destruct (Forall_Exists_dec (fun x => x = a) (fun x => x <> a) (fun x => Req_EM_T x a) (a :: l)) as [Ha|He].
    + exfalso. enough (pvar (a :: l) = 0) by lra.
      assert (Hs : forall k, Forall (fun x => x = a) k -> Rsum k = a * INR (length k)).
      { induction 1 as [|x k -> _ IH]; [simpl; unfold Rsum; simpl; lra|].
        change (length (a :: k)) with (S (length k)). rewrite S_INR. simpl.
        change (fold_right Rplus 0 ?l) with (Rsum l). rewrite IH. lra. }
      assert (amean (a :: l) = a) as E by (unfold amean; rewrite Hs by done; field; lra).
      unfold pvar. rewrite E.
      assert (map (fun x => (x - a) * (x - a)) (a :: l) = map (fun _ => 0) (a :: l)) as ->.
      { apply map_ext_Forall. eapply Forall_impl; [exact Ha|]. intros x ->. lra. }
      rewrite Rsum_const_map. unfold Rdiv. ring.
    + apply Exists_exists in He as (x & Hx & Hxa). exists x, a. split; [done|]. split; [left|done].
  - intros (x & y & Hx & Hy & Hxy). destruct Hp as [Hp|Hp]; [done|]. exfalso. apply Hxy.
    assert (Hz : Rsum (map (fun z => (z - amean l) * (z - amean l)) l) = 0).
    { unfold pvar in Hp. unfold Rdiv in Hp. symmetry in Hp. apply Rmult_integral in Hp as [Hp|Hp]; [done|].
      exfalso. pose proof (Rinv_0_lt_compat _ Hn). lra. }
    apply Rsum_zero in Hz.
    2:{ apply Forall_forall. intros z Hz'. apply elem_of_list_In, in_map_iff in Hz'.
        destruct Hz' as (t & <- & _). apply Rle_0_sqr. }
    rewrite Forall_forall in Hz.
    assert (forall z, z ∈ l -> z = amean l) as E.
    { intros z Hz'. specialize (Hz ((z - amean l) * (z - amean l))).
      assert ((z - amean l) * (z - amean l) = 0) as E; [|apply Rmult_integral in E as [?|?]; lra].
      apply Hz, elem_of_list_In, in_map_iff. exists z. split; [done|]. apply elem_of_list_In, Hz'. }
    rewrite (E x), (E y); done.
Qed.

(** ** The estimator *)
(** State after the points [l], starting from a state whose distribution is [d0] and whose sums are zero. *)
Definition after (d0 : @normal1 R) (l : list R) (e : @est1 R) : Prop :=
  e_n e = Z.of_nat (length l) /\ e_sum e = Rsum l /\ e_sq e = Rsum (map (fun x => x * x) l) /\
  (l <> [] -> n1_mean (e_dist e) = amean l) /\
  (two_values l -> e_valid e = true /\ e_dist e = fst (setVariance RO (setMean d0 (amean l)) (pvar l))) /\
  (~ two_values l -> e_valid e = false /\ e_dist e = match l with [] => d0 | _ => setMean d0 (amean l) end).

Lemma two_values_dec l : two_values l \/ ~ two_values l.
Proof.
  destruct l as [|a l]; [right; intros (x & y & Hx & _); by apply elem_of_nil in Hx|].
  destruct (Rlt_or_le 0 (pvar (a :: l))) as [H|H].
  - left. by apply pvar_pos_iff.
  - right. intros H2. apply pvar_pos_iff in H2; [lra|done].
Qed.

Lemma setMean_setMean (d : @normal1 R) a b : setMean (setMean d a) b = setMean d b.
Proof. done. Qed.
Lemma setVariance_setMean d a v m : 0 < v ->
  setMean (fst (setVariance RO (setMean d a) v)) m = fst (setVariance RO (setMean d m) v).
Proof. intros H. rewrite !setVariance_good by done. done. Qed.
Lemma setVariance_twice d v w : 0 < v -> 0 < w ->
  fst (setVariance RO (fst (setVariance RO d v)) w) = fst (setVariance RO d w).
Proof. intros. rewrite !setVariance_good by done. done. Qed.

Lemma after_step d0 l e x :
  (Z.of_nat (length l) + 1 < 2 ^ 32)%Z -> after d0 l e -> after d0 (l ++ [x]) (addPoint RO e x).
Proof.
  intros Hlen (Hn & Hs & Hq & Hm & Hv & Hi).
  assert (Hlast : forall k : list R, length (k ++ [x]) = S (length k)) by (intros; rewrite app_length; simpl; lia).
  assert (Hne : l ++ [x] <> []) by (destruct l; done).
  unfold addPoint. cbn zeta.
  replace ((e_n e + 1) mod size_t_mod)%Z with (Z.of_nat (length (l ++ [x]))).
  2:{ rewrite Hn, Hlast. rewrite Z.mod_small; [lia|]. unfold size_t_mod. lia. }
  set (N := length (l ++ [x])) in *.
  assert (HN : (Z.of_nat N < 2 ^ 32)%Z) by (unfold N; rewrite Hlast; lia).
  replace ((Z.of_nat N * Z.of_nat N) mod size_t_mod)%Z with (Z.of_nat N * Z.of_nat N)%Z.
  2:{ rewrite Z.mod_small; [done|]. unfold size_t_mod. nia. }
  assert (ES : s_add RO (e_sum e) x = Rsum (l ++ [x])).
  { simpl. rewrite Hs, Rsum_app. cbn [map]. rewrite (Rsum_cons _ []). unfold Rsum at 3. simpl. lra. }
  assert (EQ : s_add RO (e_sq e) (s_mul RO x x) = Rsum (map (fun x => x * x) (l ++ [x]))).
  { simpl. rewrite Hq, map_app, Rsum_app. cbn [map]. rewrite (Rsum_cons _ []). unfold Rsum at 3. simpl. lra. }
  rewrite ES, EQ.
  pose proof (len_pos _ Hne) as HN0. fold N in HN0.
  assert (EM : s_div RO (Rsum (l ++ [x])) (s_Z RO (Z.of_nat N)) = amean (l ++ [x])).
  { simpl. unfold amean. rewrite INR_IZR_INZ. done. }
  rewrite EM.
  match goal with |- context [try_set RO _ _ ?v] => assert (EV : v = pvar (l ++ [x])) end.
  { rewrite (pvar_alt _ Hne). simpl. fold N. rewrite mult_IZR, <- INR_IZR_INZ. unfold amean. fold N. field. lra. }
  rewrite EV. clear EV EM.
  set (lx := l ++ [x]) in *.
  assert (HB : e_dist e = d0 \/ (exists a, e_dist e = setMean d0 a) \/
               (exists a v, 0 < v /\ e_dist e = fst (setVariance RO (setMean d0 a) v))).
  { destruct (two_values_dec l) as [H2|H2].
    - right; right. exists (amean l), (pvar l). split; [|by apply Hv].
      apply pvar_pos_iff; [|done]. intros ->. destruct H2 as (z & ? & Hz & _). by apply elem_of_nil in Hz.
    - specialize (Hi H2) as [_ Hi]. destruct l; [left; done|right; left; eauto]. }
  unfold after. cbn [e_n e_sum e_sq e_dist e_valid].
  split; [done|]. split; [done|]. split; [done|].
  unfold try_set.
  destruct (two_values_dec lx) as [H2|H2].
  - assert (Hp : 0 < pvar lx) by (apply pvar_pos_iff; done).
    rewrite setVariance_good by done. cbn [fst snd].
    split; [done|]. split; [|intros; contradiction]. intros _. split; [done|].
    destruct HB as [->|[(a & ->)|(a & v & Hv0 & ->)]].
    + rewrite setVariance_good; done.
    + rewrite setVariance_good; done.
    + rewrite !setVariance_good by done. done.
  - assert (Hp : ~ 0 < pvar lx) by (intros Hp; apply H2, pvar_pos_iff; done).
    rewrite setVariance_bad by lra. cbn [fst snd].
    split; [done|]. split; [intros; contradiction|]. intros _. split; [done|].
    assert (match lx with [] => d0 | _ => setMean d0 (amean lx) end = setMean d0 (amean lx)) as ->
      by (destruct lx; done).
    assert (H2' : ~ two_values l).
    { intros (p & q & Hp1 & Hq1 & Hpq). apply H2. exists p, q.
      split; [apply elem_of_app; by left|]. split; [apply elem_of_app; by left|done]. }
    destruct (Hi H2') as [_ ->]. destruct l; done.
Qed.

Lemma after_points d0 l k e :
  (Z.of_nat (length l + length k) < 2 ^ 32)%Z -> after d0 l e -> after d0 (l ++ k) (addPoints RO e k).
Proof.
  revert l e. induction k as [|x k IH]; intros l e Hlen He; simpl.
  - rewrite app_nil_r. done.
  - replace (l ++ x :: k) with ((l ++ [x]) ++ k) by (rewrite <- app_assoc; done).
    apply IH; [rewrite app_length; simpl in *; lia|]. apply after_step; [simpl in *; lia|done].
Qed.

Lemma after_fresh e : e_n e = 0%Z -> e_valid e = false -> e_sum e = 0 -> e_sq e = 0 -> after (e_dist e) [] e.
Proof.
  intros Hn Hv Hs Hq. unfold after. simpl. split; [done|]. split; [done|]. split; [done|]. split; [done|].
  split; [intros (x & y & Hx & _); by apply elem_of_nil in Hx|]. done.
Qed.

Lemma after_reset e l : (Z.of_nat (length l) < 2 ^ 32)%Z ->
  after (e_dist e) l (addPoints RO (est_reset RO e) l).
Proof. intros H. apply (after_points (e_dist e) [] l); [simpl; lia|]. exact (after_fresh (est_reset RO e) eq_refl eq_refl eq_refl eq_refl). Qed.

Lemma est1_new_real junk : exists e, est1_new RO junk = Ret e /\ n1_ok (e_dist e) /\ n1_mean (e_dist e) = 0 /\ n1_var (e_dist e) = 1 /\ est_reset RO e = e.
Proof.
  unfold est1_new, normal1_new. rewrite setVariance_good by (simpl; lra). simpl.
  eexists; split; [done|]. simpl. repeat split; simpl; lra.
Qed.

Lemma two_values_perm l k : Permutation l k -> two_values l -> two_values k.
Proof. intros H (x & y & Hx & Hy & Hxy). exists x, y. rewrite <- H. done. Qed.
Lemma map_perm {B C} (f : B -> C) l k : Permutation l k -> Permutation (map f l) (map f k).
Proof. apply Permutation_map. Qed.
Lemma amean_perm l k : Permutation l k -> amean l = amean k.
Proof. intros H. unfold amean. rewrite (Rsum_perm _ _ H), (Permutation_length H). done. Qed.
Lemma pvar_perm l k : Permutation l k -> pvar l = pvar k.
Proof.
  intros H. unfold pvar. rewrite (amean_perm _ _ H), (Permutation_length H).
  rewrite (Rsum_perm _ _ (map_perm (fun x => (x - amean k) * (x - amean k)) _ _ H)). done.
Qed.

Lemma after_det d0 l e e' : after d0 l e -> after d0 l e' -> e = e'.
Proof.
  destruct e as [d n v s q], e' as [d' n' v' s' q'].
  intros (Hn & Hs & Hq & Hm & Hv & Hi) (Hn' & Hs' & Hq' & Hm' & Hv' & Hi'); simpl in *.
  destruct (two_values_dec l) as [H|H].
  - destruct (Hv H), (Hv' H). congruence.
  - destruct (Hi H), (Hi' H). congruence.
Qed.
Lemma after_perm d0 l k e : Permutation l k -> after d0 l e -> after d0 k e.
Proof.
  intros H (Hn & Hs & Hq & Hm & Hv & Hi). unfold after.
  rewrite <- (amean_perm _ _ H), <- (pvar_perm _ _ H), <- (Rsum_perm _ _ H), <- (Permutation_length H),
    <- (Rsum_perm _ _ (map_perm (fun x => x * x) _ _ H)).
  split; [done|]. split; [done|]. split; [done|].
  split; [intros Hk; apply Hm; intros ->; apply Permutation_nil in H; done|].
  split; [intros H2; apply Hv; eapply two_values_perm; [symmetry; exact H|done]|].
  intros H2. destruct Hi as [Hi1 Hi2]; [intros H3; apply H2; eapply two_values_perm; eauto|].
  split; [done|]. destruct l, k; try done; exfalso.
  - apply Permutation_nil in H; done.
  - symmetry in H. apply Permutation_nil in H; done.
Qed.

(** ** Weighted points *)
Lemma fold_add_R {B} (f : B -> R) l a : fold_left (fun acc p => acc + f p) l a = a + Rsum (map f l).
Proof.
  revert a. induction l as [|x l IH]; intros a; simpl; [unfold Rsum; simpl; lra|].
  rewrite IH. change (fold_right Rplus 0 ?l) with (Rsum l). lra.
Qed.
Lemma Rsum_ext {B} (f g : B -> R) l : (forall x, x ∈ l -> f x = g x) -> Rsum (map f l) = Rsum (map g l).
Proof.
  intros H. f_equal. apply map_ext_in. intros x Hx. apply H, elem_of_list_In, Hx.
Qed.
Lemma zip_snd_sum (l w : list R) : length w = length l -> Rsum w = wsum (fun _ => 1) (zip l w).
Proof.
  revert w. induction l as [|x l IH]; intros [|y w] H; simpl in *; try done.
  unfold wsum, Rsum in *; simpl. rewrite (IH w) by lia. lra.
Qed.

Lemma wvar_nonneg pw : Forall (fun p => 0 <= snd p) pw -> 0 < wsum (fun _ => 1) pw -> 0 <= wvar pw.
Proof.
  intros Hw Hs. unfold wvar. apply Rmult_le_pos; [|left; by apply Rinv_0_lt_compat].
  apply Rsum_nonneg. apply Forall_forall. intros y Hy. apply elem_of_list_In, in_map_iff in Hy.
  destruct Hy as (p & <- & Hp). rewrite Forall_forall in Hw. specialize (Hw p).
  assert (0 <= snd p) by (apply Hw, elem_of_list_In, Hp). apply Rmult_le_pos; [done|apply Rle_0_sqr].
Qed.

Lemma wsum_lin pw : forall c, wsum (fun x => x - c) pw = wsum (fun x => x) pw - c * wsum (fun _ => 1) pw.
Proof.
  intros c. induction pw as [|p pw IH]; unfold wsum, Rsum in *; simpl; [lra|]. rewrite IH. lra.
Qed.

Lemma wvar_pos_iff pw : Forall (fun p => 0 <= snd p) pw -> 0 < wsum (fun _ => 1) pw ->
  (0 < wvar pw <-> two_weighted_values pw).
Proof.
  intros Hw Hs. pose proof (wvar_nonneg _ Hw Hs) as Hp. set (m := wmean pw) in *.
  assert (Hterm : Forall (fun y => 0 <= y) (map (fun p => snd p * ((fst p - m) * (fst p - m))) pw)).
  { apply Forall_forall. intros y Hy. apply elem_of_list_In, in_map_iff in Hy.
    destruct Hy as (p & <- & Hp'). rewrite Forall_forall in Hw.
    assert (0 <= snd p) by (apply Hw, elem_of_list_In, Hp'). apply Rmult_le_pos; [done|apply Rle_0_sqr]. }
  split.
  - intros Hpos.
    (* a positive weight exists *)
    destruct (Forall_Exists_dec (fun p => ~ 0 < snd p) (fun p => 0 < snd p)
       (fun p => match Rlt_dec 0 (snd p) with left h => right h | right h => left h end) pw) as [Ha|He].
    { exfalso. assert (wsum (fun _ => 1) pw <= 0); [|lra]. clear -Ha.
      induction Ha as [|p pw H1 _ IH]; unfold wsum, Rsum in *; simpl; lra. }
    apply Exists_exists in He as ([x a] & Hx & Ha). simpl in Ha.
    assert (0 < a) as Ha' by lra.
    destruct (Forall_Exists_dec (fun p => snd p <= 0 \/ fst p = x)
      (fun p => ~ (snd p <= 0 \/ fst p = x)) (fun p => match Rle_dec (snd p) 0, Req_EM_T (fst p) x with
        | left h, _ => left (or_introl h) | _, left h => left (or_intror h)
        | right h, right k => right (fun c => match c with or_introl c => h c | or_intror c => k c end) end) pw)
      as [Hall|He].
    + exfalso.
      assert (Hmx : wsum (fun y => y) pw = x * wsum (fun _ => 1) pw).
      { rewrite Forall_forall in Hw. clear -Hall Hw. induction pw as [|p pw IH]; unfold wsum, Rsum in *; simpl; [lra|].
        rewrite IH; [|intros; apply Hw; by right|by inversion Hall].
        inversion Hall as [|? ? [H1|H1] H2]; subst.
        - assert (0 <= snd p) by (apply Hw; left). assert (snd p = 0) as -> by lra. lra.
        - lra. }
      assert (m = x) as Em by (unfold m, wmean; rewrite Hmx; field; lra).
      assert (wsum (fun y => (y - m) * (y - m)) pw = 0) as Hz.
      { rewrite Em. rewrite Forall_forall in Hw. clear -Hall Hw.
        induction pw as [|p pw IH]; unfold wsum, Rsum in *; simpl; [lra|].
        rewrite IH; [|intros; apply Hw; by right|by inversion Hall].
        inversion Hall as [|? ? [H1|H1] H2]; subst.
        - assert (0 <= snd p) by (apply Hw; left). assert (snd p = 0) as -> by lra. lra.
        - lra. }
      unfold wvar in Hpos. fold m in Hpos. rewrite Hz in Hpos. unfold Rdiv in Hpos. lra.
    + apply Exists_exists in He as ([y b] & Hy & Hb). simpl in Hb.
      exists x, y, a, b. split; [done|]. split; [done|]. split; [done|].
      split; [apply Rnot_le_lt; intros ?; apply Hb; by left|]. intros ->. apply Hb. by right.
  - intros (x & y & a & b & Hx & Hy & Ha & Hb & Hxy). destruct Hp as [Hp|Hp]; [done|]. exfalso. apply Hxy.
    assert (Hz : wsum (fun z => (z - m) * (z - m)) pw = 0).
    { unfold wvar in Hp. fold m in Hp. unfold Rdiv in Hp. symmetry in Hp.
      apply Rmult_integral in Hp as [Hp|Hp]; [done|].
      exfalso. pose proof (Rinv_0_lt_compat _ Hs). lra. }
    unfold wsum in Hz. apply Rsum_zero in Hz; [|done]. rewrite Forall_forall in Hz.
    assert (forall z c, (z, c) ∈ pw -> 0 < c -> z = m) as E.
    { intros z c Hzc Hc. specialize (Hz (c * ((z - m) * (z - m)))).
      assert (c * ((z - m) * (z - m)) = 0) as E.
      { apply Hz, elem_of_list_In, in_map_iff. exists (z, c). split; [done|]. apply elem_of_list_In, Hzc. }
      apply Rmult_integral in E as [E|E]; [lra|apply Rmult_integral in E as [?|?]; lra]. }
    rewrite (E x a), (E y b); done.
Qed.

Lemma weighted_step e l w :
  length w = length l -> let pw := zip l w in
  0 < wsum (fun _ => 1) pw ->
  addPointsWeighted RO e l w =
    let r := try_set RO (e_dist e) (wmean pw) (wvar pw) in
    Est1 (fst r) (e_n e) (snd r) (e_sum e) (e_sq e).
Proof.
  intros Hl pw Hs. unfold addPointsWeighted. rewrite Hl, Nat.eqb_refl. cbn [negb]. cbn zeta. fold pw.
  assert (En : fold_left (s_add RO) w (s_Z RO 0) = wsum (fun _ => 1) pw).
  { simpl. unfold pw. rewrite <- zip_snd_sum by done.
    pose proof (fold_add_R (fun x : R => x) w 0) as H. rewrite map_id in H.
    etransitivity; [exact H|]. lra. }
  assert (Em : s_div RO (fold_left (fun acc p => s_add RO acc (s_mul RO (snd p) (fst p))) pw (s_Z RO 0))
                 (fold_left (s_add RO) w (s_Z RO 0)) = wmean pw).
  { rewrite En. simpl. rewrite (fold_add_R (fun p => snd p * fst p)). unfold wmean, wsum. f_equal. lra. }
  rewrite Em.
  assert (Ev : s_div RO (fold_left (fun acc p => s_add RO acc
         (s_mul RO (s_mul RO (snd p) (s_sub RO (fst p) (wmean pw))) (s_sub RO (fst p) (wmean pw)))) pw (s_Z RO 0))
       (fold_left (s_add RO) w (s_Z RO 0)) = wvar pw).
  { rewrite En. simpl. rewrite (fold_add_R (fun p => snd p * (fst p - wmean pw) * (fst p - wmean pw))).
    unfold wvar, wsum. f_equal. rewrite Rplus_0_l. apply Rsum_ext. intros; lra. }
  rewrite Ev. done.
Qed.
