(** C107, C108: the simulators as a whole: the simulated data of SimEngineModel.v run through the main loops of SimDriverModel.v. *)
From stdpp Require Import prelude list.
From Coq Require Import Reals Lra.
From Flocq Require Import Core.
From Verif Require Import Base CalibratorModel Spec_Calibrator CalibratorProofs Properties_Calibrator SimDriverModel Properties_SimDriver.
From Verif Require Import GeodeticModel SimEngineModel Spec_SimEngine Properties_SimEngine Properties_EgoData.

(** ** C71: the number of spline segments is defined whenever the poses are at least one nanosecond apart, and there are fewer than 2^31. *)
Theorem spline_segments_defined knots t0 ts : (1 <= knots)%Z -> 1 <= length ts -> (Z.of_nat (length (t0 :: ts)) < 2 ^ 31)%Z ->
  (Z.of_nat (length ts) <= List.last (t0 :: ts) t0 - t0)%Z -> exists m, numSegments knots (t0 :: ts) = Some m.
Proof.
  intros Hk Hl Hi Ha. unfold numSegments. set (T := (IZR (List.last (t0 :: ts) t0 - t0) / 10 ^ 9)%R).
  set (N := Z.of_nat (length (t0 :: ts))) in *. cbv zeta.
  assert (HN : (Z.of_nat (length ts) = N - 1 /\ 2 <= N)%Z) by (unfold N; cbn; lia). destruct HN as [HN1 HN2].
  assert (HI : forall z, (- 2 ^ 31 <= z < 2 ^ 31)%Z -> to_int z = Some z).
  { intros z Hz. unfold to_int. rewrite (proj2 (Z.leb_le _ _)), (proj2 (Z.ltb_lt _ _)) by lia. done. }
  assert (HT : (IZR N / (2 * 10 ^ 9) <= T)%R).
  { unfold T. apply Rle_trans with (IZR (N - 1) / 10 ^ 9)%R.
    - rewrite minus_IZR. apply (IZR_le 2) in HN2. unfold Rdiv. rewrite Rinv_mult. lra.
    - apply Rmult_le_compat_r; [|apply IZR_le; lia]. apply Rlt_le, Rinv_0_lt_compat, pow_lt. lra. }
  assert (HN0 : (2 <= IZR N)%R) by (apply (IZR_le 2); done).
  assert (HT0 : (0 < T)%R). { apply Rlt_le_trans with (IZR N / (2 * 10 ^ 9))%R; [|done]. apply Rdiv_lt_0_compat; [lra|]. lra. }
  destruct (Req_EM_T T 0) as [E|_]; [lra|].
  assert (HQ : (0 <= IZR N / T <= 2 * 10 ^ 9)%R).
  { split; [apply Rlt_le, Rdiv_lt_0_compat; lra|]. apply (Rmult_le_reg_r T); [done|]. replace (IZR N / T * T)%R with (IZR N) by (field; lra). lra. }
  pose proof (Znearest_half (Z.leb 0) (IZR N / T)) as Hh. apply Rabs_le_inv in Hh.
  assert (HM : (-1 < ZnearestA (IZR N / T) < 2000000001)%Z) by (split; apply lt_IZR; lra).
  rewrite HI by lia.
  destruct (Z.ltb_spec knots (ZnearestA (IZR N / T))) as [Hm|Hm].
  - assert (Hkl : (IZR knots * T < IZR N)%R).
    { assert (IZR knots + 1 <= IZR (ZnearestA (IZR N / T)))%R by (rewrite <- plus_IZR; apply IZR_le; lia).
      replace (IZR N) with (IZR N / T * T)%R by (field; lra). apply Rmult_lt_compat_r; lra. }
    assert (Hc0 : (0 < IZR knots * T)%R) by (apply Rmult_lt_0_compat; [apply IZR_lt; lia|done]).
    rewrite HI; [eauto|]. split.
    + apply Z.le_trans with 0%Z; [lia|]. apply le_IZR. apply Rle_trans with (IZR knots * T)%R; [lra|]. apply Zceil_ub.
    + apply Z.le_lt_trans with N; [|done]. apply Zceil_glb. lra.
  - rewrite HI by lia. eauto.
Qed.

(** ** Time delay.  A measurement is a wheel speed or a pose. *)
Definition wheel_data (l : list (Z * R)) : list (Z * (R + v3 * v3)) := map (fun m => (fst m, inl (snd m))) l.
Definition pose_data (l : list (Z * (v3 * v3))) : list (Z * (R + v3 * v3)) := map (fun m => (fst m, inr (snd m))) l.
Section td.
Context {E P : Type} (sec : R -> Z) (ypr : m3 -> v3) (params : td_params) (nl nr : nat -> R) (np nq : nat -> v3).
Context (tmin tmax : list (Z * (R + v3 * v3)) -> Z) (delay : E -> td_kind -> Z) (bound knots : Z) (fit : list Z -> Z -> result unit)
  (addBatch : E -> list (td_kind * (Z * (R + v3 * v3))) -> result R * E) (par : E -> P).
Local Notation h := (td_hooks tmin tmax delay bound knots fit addBatch par).
(** C107.  For a period of at least one nanosecond the simulation gives n measurements of every kind; if the spline fit works (for at least
    two poses at increasing times and between one segment and as many as there are poses) and the estimator does not throw, the program ends normally, and all 3 n
    measurements were handed to the estimator in order, except that a single last pose with its wheel measurements can stay behind. *)
Definition increasing (ts : list Z) : Prop := forall i j a b, i < j -> ts !! i = Some a -> ts !! j = Some b -> (a < b)%Z.
Lemma arith_run (s c : Z) (ts l1 l l2 : list Z) : (1 <= s)%Z -> (forall k t, ts !! k = Some t -> t = (Z.of_nat k * s + c)%Z) -> ts = l1 ++ l ++ l2 ->
  increasing l /\ match l with [] => True | t0 :: l' => (Z.of_nat (length l') <= List.last l t0 - t0)%Z end.
Proof.
  intros Hs Hts ->. assert (G : forall k t, l !! k = Some t -> t = (Z.of_nat (length l1 + k) * s + c)%Z).
  { intros k t Hk. apply Hts. rewrite lookup_app_r by lia. replace (length l1 + k - length l1) with k by lia. rewrite lookup_app_l; [done|]. by eapply lookup_lt_Some. }
  split.
  - intros i j a b Hij Ha Hb. apply G in Ha, Hb. nia.
  - destruct l as [|t0 l']; [done|]. pose proof (G 0 t0 eq_refl) as G0.
    assert (Hl : (t0 :: l') !! length l' = Some (List.last (t0 :: l') t0)).
    { clear. revert t0. induction l' as [|x l' IH]; intros t0; [done|]. cbn [length lookup list_lookup]. rewrite IH. cbn. destruct l' as [|y l']; [done|].
      f_equal. clear. revert y. induction l' as [|z l' IH]; intros y; [done|]. apply (IH z). }
    apply G in Hl. nia.
Qed.
Lemma nth_error_is_lookup {A : Type} (l : list A) : forall k, nth_error l k = l !! k.
Proof. induction l as [|x l IH]; intros [|k]; [done..|apply IH]. Qed.
Theorem td_simulated_run (n fuel : nat) (e : E) (W : R) : (0 < tp_dt params)%R -> (1 <= sec (tp_dt params))%Z -> num_steps (tp_dt params) (tp_T params) n -> n < fuel ->
  (Z.of_nat n < 2 ^ 31)%Z -> (1 <= knots)%Z ->
  (forall e b, exists g e', addBatch e b = (Ret g, e')) ->
  (forall ts m, 2 <= length ts -> increasing ts -> (1 <= m <= Z.of_nat (length ts))%Z -> fit ts m = Ret tt) ->
  exists d c, td_simulate sec ypr params nl nr np nq fuel = Some d /\
    length (td_rwn d) = n /\ length (td_lwn d) = n /\ length (td_posen d) = n /\
    td_program h (cal_new h e W) (wheel_data (td_rwn d)) (wheel_data (td_lwn d)) (pose_data (td_posen d)) = (c, Ret tt) /\
    (forall k, concat (map (fun w => w_meas w k) (c_sent c)) ++ c_meas c k =
       match k with TdRight => wheel_data (td_rwn d) | TdLeft => wheel_data (td_lwn d) | TdPose => pose_data (td_posen d) end) /\
    ((forall k, c_meas c k = []) \/ length (c_meas c TdPose) <= 1).
Proof.
  intros Hdt Hsec Hn Hf Hint Hkn Hb Hs.
  destruct (td_simulation sec ypr params nl nr np nq n fuel Hdt Hn Hf) as (d & Hd & _ & _ & _ & _ & _ & _ & L1 & _ & L2 & _ & L3 & _ & Hk).
  assert (M1 : length (wheel_data (td_lwn d)) = length (wheel_data (td_rwn d))) by (unfold wheel_data; rewrite !map_length; lia).
  assert (M2 : length (pose_data (td_posen d)) = length (wheel_data (td_rwn d))) by (unfold wheel_data, pose_data; rewrite !map_length; lia).
  assert (Hst : forall k t, map fst (pose_data (td_posen d)) !! k = Some t -> t = (Z.of_nat k * sec (tp_dt params) + sec (tp_dt params * 0.5))%Z).
  { intros k t Ht. unfold pose_data in Ht. rewrite map_map in Ht. cbn in Ht. change (map (fun x => fst x) (td_posen d)) with (fst <$> td_posen d) in Ht.
    rewrite list_lookup_fmap in Ht. destruct (td_posen d !! k) as [[t' q]|] eqn:Eq; [|done]. injection Ht as <-. cbn.
    destruct (Hk k) as (w & w' & _ & _ & _ & _ & _ & _ & _ & _ & _ & _ & _ & r & a & _ & _ & _ & Hp); [apply lookup_lt_Some in Eq; lia|].
    rewrite nth_error_is_lookup, Eq in Hp. injection Hp as -> _. done. }
  destruct (td_simulator_returns h e W (wheel_data (td_rwn d)) (wheel_data (td_lwn d)) (pose_data (td_posen d)) M1 M2) as [c Hc].
  { exact Hb. }
  { intros s l1 l2 Hr Hp. cbn [h_splines td_hooks]. apply (f_equal (map fst)) in Hp. rewrite !map_app in Hp.
    destruct (arith_run _ _ _ _ _ _ Hsec Hst Hp) as [Hinc Hlast].
    assert (H2 : 2 <= length (map fst (s TdPose))) by (rewrite map_length; apply Nat.leb_le; exact Hr).
    assert (H3 : length (map fst (s TdPose)) <= n).
    { apply (f_equal length) in Hp. rewrite !app_length in Hp. unfold pose_data in Hp. rewrite !map_length in Hp. rewrite map_length. lia. }
    destruct (map fst (s TdPose)) as [|t0 ts] eqn:Ets; [cbn in H2; lia|]. cbn [length] in H2, H3. unfold initSplines.
    destruct (spline_segments_defined knots t0 ts Hkn) as [m Hm]; [lia|cbn; lia|done|]. rewrite Hm. apply Hs; [cbn; lia|done|].
    destruct (spline_segments knots (t0 :: ts) m t0 ts eq_refl) as [H _]; [lia|done|done|exact H]. }
  exists d, c. split; [done|]. split; [done|]. split; [done|]. split; [done|]. split; [done|].
  destruct (td_simulator_conservation h e W _ _ _ c M1 M2 Hc) as [H1 H2]. split; [exact H1|].
  destruct H2 as [H2|H2]; [by left|right]. cbn [h_ready td_hooks] in H2. apply Nat.leb_gt in H2. lia.
Qed.
End td.

(** ** Egomotion *)
Section ego.
Context {E B P : Type} (traj : Z -> transf) (cal : nat -> option (Z * transf)) (ref : nat) (noise : nat -> nat -> transf).
Context (fit : list (Z * transf) -> result unit) (terms : E -> (nat -> list (Z * transf)) -> list B)
  (addBatch : E -> list B -> result R * E) (par : E -> P).
Local Notation h := (ego_hooks ref fit terms addBatch par).
Lemma ego_data_stamps times sensors l : NoDup sensors -> Forall (fun k => k = ref \/ cal k <> None) sensors ->
  ego_rounds traj cal ref noise 0 None times sensors = Ret l ->
  forall k, k ∈ sensors ->
    map fst (motionData l k) = map (fun t => (t + sensor_delay cal ref k)%Z) (tl times) /\
    map fst (motionDataNoisy l k) = map (fun t => (t + sensor_delay cal ref k)%Z) (tl times).
Proof.
  intros Hnd Hkn Hl k Hk. apply elem_of_list_In in Hk. apply NoDup_ListNoDup in Hnd.
  rewrite (ego_rounds_all traj cal ref noise times sensors Hkn) in Hl. injection Hl as <-.
  destruct times as [|t0 times]; [done|]. cbn [tl].
  destruct (data_triples (pushes traj cal ref noise 1 t0 times sensors) k) as [-> ->]. rewrite pushes_data by done.
  rewrite !map_map. assert (G : forall i prev, map (fun x : nat * (Z * Z) => (snd (snd x) + sensor_delay cal ref k)%Z) (combine (seq i (length times)) (successive (prev :: times))) =
    map (fun t => (t + sensor_delay cal ref k)%Z) times).
  { induction times as [|t times IH]; intros i prev; [done|]. unfold successive in *. cbn [tl combine map length seq] in *. f_equal. apply IH. }
  split; (etransitivity; [|apply (G 1 t0)]); apply map_ext; intros (j & a & b); done.
Qed.
(** C108.  What the simulator feeds, and that a normal end means that every simulated measurement of every sensor reached the estimator, in order;
    [noisy]: the configured choice of the data set. *)
Definition simulated (noisy : bool) (l : list push) : nat -> list (Z * transf) := if noisy then motionDataNoisy l else motionData l.
Theorem ego_simulated_run (noisy : bool) (e : E) (W : R) times sensors l c : NoDup sensors -> Forall (fun k => k = ref \/ cal k <> None) sensors -> ref ∈ sensors ->
  ego_rounds traj cal ref noise 0 None times sensors = Ret l ->
  ego_program h ref (simulated noisy l) sensors (cal_new h e W) = (c, Ret tt) ->
  (forall k, c_meas c k = []) /\ forall k, k ∈ sensors -> concat (map (fun w => w_meas w k) (c_sent c)) = simulated noisy l k /\
    length (simulated noisy l k) = Nat.pred (length times).
Proof.
  intros Hnd Hkn Hr Hl Hc.
  assert (Hlen : forall k, k ∈ sensors -> length (simulated noisy l k) = Nat.pred (length times)).
  { intros k Hk. destruct (ego_data_stamps times sensors l Hnd Hkn Hl k Hk) as [S1 S2].
    assert (length (tl times) = Nat.pred (length times)) as El by (by destruct times).
    apply (f_equal length) in S1, S2. rewrite !map_length in S1, S2. unfold simulated. destruct noisy; lia. }
  destruct (ego_simulator_conservation ref fit terms addBatch par e W (simulated noisy l) sensors c Hnd) as (_ & H1 & H2 & _).
  - intros k Hk. rewrite !Hlen; done.
  - exact Hc.
  - split; [exact H1|]. intros k Hk. split; [by apply H2|by apply Hlen].
Qed.
(** C108, restricted to sensors without delay: the simulator ends normally. *)
Theorem ego_simulated_run_returns (noisy : bool) (e : E) (W : R) times sensors : NoDup sensors -> Forall (fun k => k = ref \/ cal k <> None) sensors ->
  ref ∈ sensors -> (0 < W)%R -> (forall k, k ∈ sensors -> sensor_delay cal ref k = 0%Z) ->
  (forall l, fit l = Ret tt) -> (forall e b, exists g e', addBatch e b = (Ret g, e')) ->
  exists l c, ego_rounds traj cal ref noise 0 None times sensors = Ret l /\ ego_program h ref (simulated noisy l) sensors (cal_new h e W) = (c, Ret tt).
Proof.
  intros Hnd Hkn Hr HW Hd Hf Hb. pose proof (ego_rounds_all traj cal ref noise times sensors Hkn) as El.
  set (l := match times with [] => [] | t :: times => _ end) in El. exists l.
  destruct (ego_simulator_returns ref fit terms addBatch par e W (simulated noisy l) sensors HW Hr) as [c Hc]; [|done|done|by exists c].
  intros k Hk. destruct (ego_data_stamps times sensors l Hnd Hkn El k Hk) as [S1 S2]. destruct (ego_data_stamps times sensors l Hnd Hkn El ref Hr) as [S3 S4].
  rewrite (Hd k Hk) in S1, S2. rewrite (Hd ref Hr) in S3, S4. unfold simulated. destruct noisy; congruence.
Qed.
End ego.

(** * Examples: the two-round simulation of [ex_P], and the vehicle of [ex_traj] with a second sensor without delay *)
Example td_run_example : exists d c,
  let h := td_hooks (E := nat) (fun _ => 0%Z) (fun _ => 100%Z) (fun _ _ => 0%Z) 1 5 (fun _ _ => Ret tt) (fun e _ => (Ret 1%R, S e)) (fun e => e) in
  td_simulate (fun x => (if Rlt_dec x 2 then 10 else 7)%Z) (fun _ => V3 0 0 0) ex_P (fun _ => 0%R) (fun _ => 0%R) (fun _ => V3 0 0 0) (fun _ => V3 0 0 0) 5 = Some d /\
  td_program h (cal_new h 0 1) (wheel_data (td_rwn d)) (wheel_data (td_lwn d)) (pose_data (td_posen d)) = (c, Ret tt) /\
  length (td_posen d) = 2.
Proof.
  destruct ex_steps as (H1 & H2 & _).
  destruct (td_simulated_run (fun x => (if Rlt_dec x 2 then 10 else 7)%Z) (fun _ => V3 0 0 0) ex_P (fun _ => 0%R) (fun _ => 0%R) (fun _ => V3 0 0 0) (fun _ => V3 0 0 0)
    (fun _ => 0%Z) (fun _ => 100%Z) (fun _ _ => 0%Z) 1 5 (fun _ _ => Ret tt) (fun e _ => (Ret 1%R, S e)) (fun e => e) 2 5 0 1) as (d & c & Hd & _ & _ & Hl & Hc & _).
  - done.
  - cbn. destruct (Rlt_dec 1 2); [lia|exfalso; lra].
  - done.
  - lia.
  - lia.
  - lia.
  - intros e b. eauto.
  - done.
  - by exists d, c.
Qed.
Definition ex_cal0 (k : nat) : option (Z * transf) := if Nat.eqb k 1 then Some (0%Z, Transf ident3 (V3 0 1 0)) else None.
Example ego_run_example : exists l c, let h := ego_hooks 0 (fun _ => Ret tt) (fun _ _ => []) (fun e _ => (Ret 1%R, S e)) (fun e : nat => e) in
  ego_rounds ex_traj ex_cal0 0 (fun _ _ => ident_T) 0 None [0; 2; 4]%Z [0; 1] = Ret l /\
  ego_program h 0 (simulated true l) [0; 1] (cal_new (B := unit) h 0 1) = (c, Ret tt) /\ concat (map (fun w => w_meas w 1) (c_sent c)) = motionDataNoisy l 1 /\
  length (motionDataNoisy l 1) = 2.
Proof.
  assert (Hnd : NoDup [0; 1]) by (apply NoDup_cons; split; [set_solver|apply NoDup_singleton]).
  assert (Hkn : Forall (fun k => k = 0 \/ ex_cal0 k <> None) [0; 1]) by (apply List.Forall_cons; [by left|apply List.Forall_cons; [by right|apply List.Forall_nil]]).
  destruct (ego_simulated_run_returns ex_traj ex_cal0 0 (fun _ _ => ident_T) (fun _ => Ret tt) (fun _ _ => @nil unit) (fun e _ => (Ret 1%R, S e)) (fun e : nat => e) true 0 1
    [0; 2; 4]%Z [0; 1] Hnd Hkn) as (l & c & Hl & Hc).
  - by left.
  - lra.
  - intros k [->|[->|?%elem_of_nil]%elem_of_cons]%elem_of_cons; done.
  - done.
  - intros e b. eauto.
  - exists l, c. split; [done|]. split; [done|].
    destruct (ego_simulated_run ex_traj ex_cal0 0 (fun _ _ => ident_T) (fun _ => Ret tt) (fun _ _ => @nil unit) (fun e _ => (Ret 1%R, S e)) (fun e : nat => e) true 0 1
      [0; 2; 4]%Z [0; 1] l c Hnd Hkn ltac:(by left) Hl Hc) as [_ H]. exact (H 1 ltac:(by right; left)).
Qed.
Print Assumptions td_simulated_run.
Print Assumptions ego_simulated_run.
Print Assumptions ego_simulated_run_returns.
Print Assumptions spline_segments_defined.
