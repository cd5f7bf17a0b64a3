(** C124, the normal distribution: the random numbers for which sampleNormal returns, within [n] attempts, a sample of an interval
    fill a part of the unit cube whose volume is the probability the normal density gives to the interval, times that of returning
    within [n] attempts. *)
From stdpp Require Import prelude list.
From Coq Require Import Reals Lra Psatz ZArith.
From Flocq Require Import Core.
From Coquelicot Require Import Coquelicot.
From Verif Require Import Base UniformModel RandomizerModel Spec_Randomizer Spec_Normal Spec_Volume VolumeProofs
  RandomizerProofs Properties_Randomizer GaussIntegral NormalVolumeProofs.
Local Open Scope R_scope.

Lemma draws_cons2 {G} (next : G -> Z * G) RM g n :
  draws (unit_number next RM g) (2 * S n) =
    unit_number next RM g 0 :: unit_number next RM g 1 :: draws (unit_number next RM (advance next 2 g)) (2 * n).
Proof.
  replace (2 * S n)%nat with (S (S (2 * n)))%nat by lia. unfold draws. cbn [seq map]. do 2 f_equal.
  apply list_eq. intros i. rewrite !list_lookup_fmap. destruct (Nat.lt_ge_cases i (2 * n)) as [Hi|Hi].
  - rewrite !lookup_seq_lt by done. exact (f_equal Some (eq_sym (num_shift next RM g 2 i))).
  - rewrite !lookup_seq_ge by done. done.
Qed.
Lemma normal_attempts {G} (next : G -> Z * G) RM mean var (good : R -> Prop) : generator next RM -> 0 < var -> forall n g,
  (exists x, fst (sampleNormal next RM rreal n mean var g) = Ret x /\ good x) <->
  attempts (fun z => good (mean + sqrt var * z)) n (draws (unit_number next RM g) (2 * n)).
Proof.
  intros HG Hv n. induction n as [|n IH]; intros g.
  - unfold sampleNormal. simpl. destruct (Rle_dec var 0); [lra|]. split; [by intros (x & ? & _)|done].
  - specialize (IH (advance next 2 g)). rewrite draws_cons2.
    cbn [attempts]. change (take 2 (?a :: ?b :: ?l)) with (a :: b :: nil). change (drop 2 (?a :: ?b :: ?l)) with l.
    set (a := unit_number next RM g 0). set (b := unit_number next RM g 1).
    assert (E : sampleNormal next RM rreal (S n) mean var g =
      if (if Rle_dec 1 (rad2 a b) then true else false) || (if Req_EM_T (rad2 a b) 0 then true else false)
      then match normal_loop next RM rreal n (advance next 2 g) with
           | None => (Diverge, g)
           | Some (u, s, g') => (Ret (mean + sqrt var * u * sqrt (- 2 * ln s / s)), g')
           end
      else (Ret (mean + sqrt var * (2 * a - 1) * sqrt (- 2 * ln (rad2 a b) / rad2 a b)), advance next 2 g)).
    { unfold sampleNormal. simpl r_R. destruct (Rle_dec var 0); [lra|]. cbn [normal_loop]. rewrite unit_real by done. cbn zeta.
      rewrite unit_real by done. rewrite num_shift. change (1 + 0)%nat with 1%nat. rewrite <- advance_add. change (1 + 1)%nat with 2%nat.
      fold a b. fold (rad2 a b).
      destruct ((if Rle_dec 1 (rad2 a b) then true else false) || (if Req_EM_T (rad2 a b) 0 then true else false)); done. }
    assert (E' : fst (sampleNormal next RM rreal n mean var (advance next 2 g)) =
      match normal_loop next RM rreal n (advance next 2 g) with
      | None => Diverge
      | Some (u, s, g') => Ret (mean + sqrt var * u * sqrt (- 2 * ln s / s))
      end).
    { unfold sampleNormal. simpl r_R. destruct (Rle_dec var 0); [lra|].
      destruct (normal_loop next RM rreal n (advance next 2 g)) as [[[u s] g']|]; done. }
    rewrite E. rewrite E' in IH. pose proof (rad2_nonneg a b) as Hr. unfold acc, val.
    assert (Hrej : ~ 0 < rad2 a b < 1 ->
      (exists x, fst (match normal_loop next RM rreal n (advance next 2 g) with
           | None => (Diverge, g)
           | Some (u, s, g') => (Ret (mean + sqrt var * u * sqrt (- 2 * ln s / s)), g')
           end) = Ret x /\ good x) <->
      (0 < rad2 a b < 1 /\ good (mean + sqrt var * polar (2 * a - 1) (rad2 a b)) \/
      ~ 0 < rad2 a b < 1 /\ attempts (fun z => good (mean + sqrt var * z)) n (draws (unit_number next RM (advance next 2 g)) (2 * n)))).
    { intros Hn. rewrite <- IH. destruct (normal_loop next RM rreal n (advance next 2 g)) as [[[u s] g']|]; cbn [fst]; tauto. }
    destruct (Rle_dec 1 (rad2 a b)) as [H1|H1]; [cbn [orb]; apply Hrej; lra|].
    destruct (Req_EM_T (rad2 a b) 0) as [H2|H2]; [cbn [orb]; apply Hrej; lra|]. cbn [orb fst].
    assert (Ex : mean + sqrt var * (2 * a - 1) * sqrt (- 2 * ln (rad2 a b) / rad2 a b) = mean + sqrt var * polar (2 * a - 1) (rad2 a b))
      by (unfold polar; ring). rewrite Ex.
    split.
    + intros (x & [= <-] & Hx). left. split; [lra|done].
    + intros [[_ Hx]|[Hn _]]; [by eexists|lra].
Qed.

(** sampleNormal returns, within [n] attempts, a sample of [(s, t]] with the probability the normal density with the given mean and
    variance gives to [(s, t]], times the probability that it returns within [n] attempts, which is the one of the second part
    and goes to 1.  An attempt takes two random numbers. *)
Theorem normal_law mean var s t : 0 < var -> s <= t ->
  exists v, is_RInt (gauss mean var) s t v /\
    forall n, exists region : list R -> Prop,
      (forall G (next : G -> Z * G) RM g, generator next RM ->
         ((exists x, fst (sampleNormal next RM rreal n mean var g) = Ret x /\ s < x <= t) <->
          region (draws (unit_number next RM g) (2 * n)))) /\
      has_volume (2 * n) region (v * (1 - (1 - PI / 4) ^ n)).
Proof.
  intros Hv Hst. assert (Hq : 0 < sqrt var) by (by apply sqrt_lt_R0). assert (H2 : 0 < sqrt 2) by (apply sqrt_lt_R0; lra).
  pose proof NormalErfProofs.sqrt_PI_pos as Hpi. pose proof PI_RGT_0.
  set (C := fun x => GaussIntegral.F ((x - mean) / sqrt var / sqrt 2) / sqrt PI).
  exists (C t - C s). split.
  - apply (is_RInt_derive C).
    + intros x _. unfold C. evar_last.
      * apply (is_derive_ext (fun x => / sqrt PI * GaussIntegral.F ((x - mean) / sqrt var / sqrt 2))); [intros; unfold Rdiv; apply Rmult_comm|].
        apply (is_derive_scal (fun x => GaussIntegral.F ((x - mean) / sqrt var / sqrt 2))).
        apply (is_derive_comp GaussIntegral.F (fun x => (x - mean) / sqrt var / sqrt 2) x); [apply F_derive|].
        evar_last; [auto_derive; [done|]; reflexivity|reflexivity].
      * unfold scal; simpl; unfold mult; simpl. unfold gauss.
        assert (Es : sqrt (2 * PI * var) = sqrt 2 * sqrt PI * sqrt var).
        { rewrite sqrt_mult by lra. by rewrite sqrt_mult by lra. }
        rewrite Es. pose proof (sqrt_sqrt var ltac:(lra)) as E1. pose proof (sqrt_sqrt 2 ltac:(lra)) as E2.
        assert (Ee : - ((x - mean) / sqrt var / sqrt 2 * ((x - mean) / sqrt var / sqrt 2)) = - ((x - mean) * (x - mean)) / (2 * var)).
        {
          set (q2 := sqrt 2) in *. set (qv := sqrt var) in *.
          replace (2 * var) with ((q2 * q2) * (qv * qv)) by (rewrite E1, E2; ring). field. lra. }
        rewrite Ee. match goal with |- ?a = ?b => change (@eq R a b) end. field. repeat split; lra.
    + intros x _. apply (ex_derive_continuous (gauss mean var)). unfold gauss. auto_derive. lra.
  - intros n. exists (attempts (fun z => s < mean + sqrt var * z <= t) n). split.
    + intros G next RM g HG. by apply normal_attempts.
    + apply attempts_volume.
      pose proof (between_volume ((s - mean) / sqrt var) ((t - mean) / sqrt var)
        ltac:(apply Rmult_le_compat_r; [left; by apply Rinv_0_lt_compat|lra])) as HB.
      replace (PI / 4 * (C t - C s)) with (tail ((s - mean) / sqrt var) - tail ((t - mean) / sqrt var)).
      2:{ unfold tail, C. field. lra. }
      eapply has_volume_ext; [|exact HB]. intros l _ _. cbv beta.
      assert (Hdiv : forall c z, (c - mean) / sqrt var < z <-> c < mean + sqrt var * z).
      { intros c z. split; intros Hc.
        - apply (Rmult_lt_compat_l (sqrt var)) in Hc; [|done]. replace (sqrt var * ((c - mean) / sqrt var)) with (c - mean) in Hc by (field; lra). lra.
        - apply Rmult_lt_reg_l with (sqrt var); [done|]. replace (sqrt var * ((c - mean) / sqrt var)) with (c - mean) by (field; lra). lra. }
      assert (Hdiv' : forall c z, z <= (c - mean) / sqrt var <-> mean + sqrt var * z <= c).
      { intros c z. split; intros Hc.
        - destruct (Rle_or_lt (mean + sqrt var * z) c) as [|Hlt]; [done|]. apply Hdiv in Hlt. lra.
        - destruct (Rle_or_lt z ((c - mean) / sqrt var)) as [|Hlt]; [done|]. apply Hdiv in Hlt. lra. }
      by rewrite Hdiv, Hdiv'.
Qed.
(** It returns at all, within [n] attempts, with probability 1 - (1 - pi/4)^n. *)
Theorem normal_termination_law mean var n : 0 < var ->
  exists region : list R -> Prop,
    (forall G (next : G -> Z * G) RM g, generator next RM ->
       ((exists x, fst (sampleNormal next RM rreal n mean var g) = Ret x) <-> region (draws (unit_number next RM g) (2 * n)))) /\
    has_volume (2 * n) region (1 - (1 - PI / 4) ^ n).
Proof.
  intros Hv. exists (attempts (fun _ => True) n). split.
  - intros G next RM g HG. rewrite <- (normal_attempts next RM mean var (fun _ => True) HG Hv n g). split; intros [x Hx]; exists x; tauto.
  - replace (1 - (1 - PI / 4) ^ n) with (1 * (1 - (1 - PI / 4) ^ n)) by ring. apply attempts_volume.
    rewrite Rmult_1_r. eapply has_volume_ext; [|exact acc_volume]. intros; tauto.
Qed.
(** The probability that it returns tends to 1. *)
Theorem normal_termination_limit : is_lim_seq (fun n => 1 - (1 - PI / 4) ^ n) 1.
Proof.
  pose proof PI_RGT_0. pose proof PI_4 as H4. 
  replace (Finite 1) with (Finite (1 - 0)) by (f_equal; ring).
  apply (is_lim_seq_minus' (fun _ => 1) (fun n => (1 - PI / 4) ^ n)); [apply is_lim_seq_const|].
  apply is_lim_seq_geom. apply Rabs_def1; lra.
Qed.
(** Non-vacuity: a generator of which sampleNormal gives a sample in (0, 1] at once; the volume is that of an attempt. *)
Example normal_law_ex :
  let next := fun g : nat => (3%Z, S g) in
  generator next 4 /\
  (exists x, fst (sampleNormal next 4 rreal 1 0 1 0%nat) = Ret x /\ 0 < x <= 1) /\
  exists region v, is_RInt (gauss 0 1) 0 1 v /\ region (draws (unit_number next 4 0%nat) 2) /\ has_volume 2 region (v * (PI / 4)).
Proof.
  intros next. assert (HG : generator next 4).
  { split; [lia|]. intros g. simpl. lia. }
  split; [done|].
  assert (Hx : exists x, fst (sampleNormal next 4 rreal 1 0 1 0%nat) = Ret x /\ 0 < x <= 1).
  { apply (normal_attempts next 4 0 1 (fun x => 0 < x <= 1) HG ltac:(lra) 1 0%nat).
    rewrite draws_cons2. cbn [attempts]. change (take 2 (?a :: ?b :: ?l)) with (a :: b :: nil).
    assert (U0 : unit_number next 4 0%nat 0 = 3 / 4) by (unfold unit_number, number; simpl; lra).
    assert (U1 : unit_number next 4 0%nat 1 = 3 / 4) by (unfold unit_number, number; simpl; lra).
    rewrite U0, U1. assert (Er : rad2 (3 / 4) (3 / 4) = / 2) by (unfold rad2; field). left. unfold acc, val. rewrite Er.
    split; [lra|]. rewrite sqrt_1. assert (HS : 0 < / 2 < 1) by lra.
    set (x := polar (2 * (3 / 4) - 1) (/ 2)). pose proof (polar_sq (2 * (3 / 4) - 1) (/ 2) HS) as Eq. fold x in Eq.
    assert (Hp : 0 < x). { apply Rmult_lt_0_compat; [lra|]. by apply polar_root_pos. }
    assert (Hl : ln (/ 2) = - ln 2) by (apply ln_Rinv; lra). rewrite Hl in Eq.
    assert (ln 2 < 1). { rewrite <- (ln_exp 1). apply ln_increasing; [lra|]. pose proof (exp_ineq1 1 ltac:(lra)). lra. }
    assert (x * x < 1) by (rewrite Eq; lra). nra. }
  split; [exact Hx|].
  destruct (normal_law 0 1 0 1 ltac:(lra) ltac:(lra)) as (v & Hv & H). destruct (H 1%nat) as (region & H1 & H2).
  exists region, v. split; [done|]. split; [by apply (H1 nat next 4%Z 0%nat HG)|].
  replace (v * (PI / 4)) with (v * (1 - (1 - PI / 4) ^ 1)) by ring. exact H2.
Qed.
