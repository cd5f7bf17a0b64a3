(** C46, C69-C74: the measurement windows of the example calibrators. *)
From stdpp Require Import prelude list.
From Coq Require Import Reals Lra Psatz.
From Flocq Require Import Core.
From Verif Require Import Base CalibratorModel Spec_Calibrator CalibratorProofs.
Local Open Scope R_scope.

Section windows.
  Context {K D E B P : Type} `{EqDecision K}.
  Context (h : hooks K D E B P) (e0 : E) (W : R).

  (** C46.  Whatever is called (adding measurements of all kinds, processing on demand, changing the window length) and
      whatever throws: the measurements of each kind whose add call returned are exactly those in the windows handed to
      the estimator, in order, followed by those still pending. *)
  Theorem calibrator_conservation l k : Forall (fun e => ~ is_clear e) l ->
    let c := (crun h (cal_new h e0 W) l).1 in
    concat (map (fun w => w_meas w k) (c_sent c)) ++ c_meas c k = accepted l (crun h (cal_new h e0 W) l).2 k.
  Proof using. intros Hl c. exact (kept_run h (cal_new h e0 W) l k Hl). Qed.
  (** With clearMeasurements as well, nothing is duplicated, invented or reordered. *)
  Theorem calibrator_no_duplicates l k :
    let c := (crun h (cal_new h e0 W) l).1 in
    concat (map (fun w => w_meas w k) (c_sent c)) ++ c_meas c k `sublist_of` accepted l (crun h (cal_new h e0 W) l).2 k.
  Proof using.
    intros c. destruct (kept_run_sub h (cal_new h e0 W) l k) as (u & Hu & Hk). unfold kept in Hk at 1. simpl in Hu. subst u.
    exact Hu.
  Qed.
  (** The estimator, the information gains and the parameter history are those of processing these windows one after
      the other; the initial parameters come first; one gain per window for which addBatch returned. *)
  Theorem calibrator_history l :
    let c := (crun h (cal_new h e0 W) l).1 in
    exists ps, replay (h_terms h) (h_addBatch h) (h_params h) e0 (map w_meas (c_sent c)) = (c_est c, c_gains c, ps) /\
      c_hist c = h_params h e0 :: ps /\
      length (c_gains c) = length (List.filter w_returned (c_sent c)) /\
      length (c_hist c) = S (length (c_gains c)).
  Proof using.
    intros c.
    assert (Hr : replayed h e0 c).
    { apply (crun_ind_inv h (replayed h e0) (fun _ => True)); [|by exists []|by apply Forall_true].
      intros c' e Hc _. by apply replayed_step. }
    destruct Hr as (ps & R1 & R2 & R3). exists ps. split; [done|]. split; [done|]. split; [done|]. rewrite R2. simpl. f_equal.
    clear - R1. revert R1. generalize (c_est c), (c_gains c) as gs, ps. clear.
    generalize (map w_meas (c_sent c)) as ws. generalize e0. clear.
    intros e ws. revert e. induction ws as [|w ws IH]; intros e ee gs ps; simpl; [by intros [= <- <- <-]|].
    destruct (h_addBatch h e _) as [q e']. destruct (replay _ _ _ e' ws) as [[e2 gs'] ps'] eqn:Er. apply IH in Er.
    destruct q; intros [= <- <- <-]; simpl; auto.
  Qed.
  (** A window handed over by an add call lasted at least windowDuration and passed the readiness check. *)
  Theorem calibrator_window_length l : Forall is_add l ->
    Forall (fun w => W <= IZR (w_end w - w_start w) / 10 ^ 9 /\ h_ready h (w_meas w) = true)
      (c_sent (crun h (cal_new h e0 W) l).1).
  Proof using.
    intros Hl.
    apply (crun_ind_inv h (fun c => c_window c = W /\ Forall (fun w => W <= IZR (w_end w - w_start w) / 10 ^ 9 /\
      h_ready h (w_meas w) = true) (c_sent c)) is_add); [|split; [done|constructor]|done].
    intros c e Hc He. by apply long_step.
  Qed.
  (** And it is handed over as soon as that is the case: an add call processes the pending measurements iff the window is
      old enough and ready, without the measurement being added, which starts the next window. *)
  Theorem calibrator_add_due c k ts d :
    let start := if Z.eqb (c_start c) (-1) then ts else c_start c in
    let due := c_window c <= IZR (ts - start) / 10 ^ 9 in
    let c1 := (addOne h c k ts d).1 in
    (~ due \/ h_ready h (c_meas c) = false ->
       (addOne h c k ts d).2 = Ret tt /\ c_sent c1 = c_sent c /\ c_start c1 = start /\
       c_meas c1 k = c_meas c k ++ [(ts, d)] /\ (forall k', k' <> k -> c_meas c1 k' = c_meas c k')) /\
    (due -> h_ready h (c_meas c) = true -> h_splines h (c_meas c) = Ret tt ->
       (exists w, c_sent c1 = c_sent c ++ [w] /\ w_meas w = c_meas c /\ w_start w = start /\ w_end w = ts) /\
       c_start c1 = ts /\
       forall g e', h_addBatch h (c_est c) (h_terms h (c_est c) (c_meas c)) = (Ret g, e') ->
         (addOne h c k ts d).2 = Ret tt /\ c_gains c1 = c_gains c ++ [g] /\ c_hist c1 = c_hist c ++ [h_params h e'] /\
         c_meas c1 k = [(ts, d)] /\ (forall k', k' <> k -> c_meas c1 k' = [])).
  Proof using.
    intros start due c1. unfold c1. destruct (addOne h c k ts d) as [c2 r] eqn:Ea. simpl.
    assert (Hp : forall c' : cal K D E B P, c_meas (push c' k (ts, d)) k = c_meas c' k ++ [(ts, d)] /\
      (forall k', k' <> k -> c_meas (push c' k (ts, d)) k' = c_meas c' k')).
    { intros c'. unfold push. simpl. split; [by rewrite decide_True|]. intros k' Hk. by rewrite decide_False. }
    apply add_cases in Ea. change (c_start (tick c ts)) with start in Ea. fold due in Ea. split.
    - intros Hn. destruct Ea as [(_ & -> & ->)|(Hd & c3 & F & Hr)].
      + split; [done|]. split; [done|]. split; [done|]. apply (Hp (tick c ts)).
      + destruct Hn as [Hn|Hn]; [done|]. apply flush_cases in F as [[-> [[_ ->]|[F _]]]|(F & _)]; simpl in *; try congruence.
        destruct Hr as [[_ ->]|[Hr _]]; [|done]. split; [done|]. split; [done|]. split; [done|]. apply (Hp (tick c ts)).
    - intros Hd Hy Hs. destruct Ea as [(Hn & _)|(_ & c3 & F & Hr)]; [done|].
      apply flush_cases in F. simpl in F. destruct F as [[-> [[F _]|(_ & _ & F)]]|(_ & _ & F)]; [congruence|congruence|].
      assert (Hs2 : c_sent c2 = c_sent c3 /\ c_start c2 = c_start c3) by (destruct Hr as [[_ ->]|[_ ->]]; done).
      destruct Hs2 as [-> ->]. destruct F as [(g & e' & Eb & Er & ->)|(q & e' & Eb & Hq & Hq' & ->)]; simpl.
      + split; [by eexists|]. split; [done|]. intros g' e'' Eb'. rewrite Eb' in Eb. injection Eb as -> ->.
        destruct Hr as [[_ ->]|[Hr _]]; [|done]. split; [done|]. split; [done|]. split; [done|].
        edestruct Hp as [P1 P2]. split; [exact P1|exact P2].
      + split; [by eexists|]. split; [done|]. intros g' e'' Eb'. rewrite Eb' in Eb. injection Eb as <- ->. by destruct (Hq g').
  Qed.

  (** Windows follow each other without gap or overlap: the first one starts at the first time stamp, each next one
      where the previous one ended, and the current one where the last one ended.  (A time stamp of -1 is taken for
      "none yet" and excluded; [nonempty_windows] holds for the three calibrators, below.) *)
  Theorem calibrator_windows_tile l : nonempty_windows h -> Forall (fun ts => ts <> (-1)%Z) (stamps l) ->
    let c := (crun h (cal_new h e0 W) l).1 in
    (forall w ws, c_sent c = w :: ws -> head (stamps l) = Some (w_start w)) /\
    (forall ws1 v w ws2, c_sent c = ws1 ++ v :: w :: ws2 -> w_start w = w_end v) /\
    (forall ws w, c_sent c = ws ++ [w] -> c_start c = w_end w).
  Proof using.
    intros Hne Hl c. destruct (tile_run_fresh h (cal_new h e0 W) l Hne) as [(_ & F & _)|(t0 & ts & Et & T)]; [done|done| |].
    - fold c in F. rewrite F. split; [done|]. split; [by intros []|]. by intros [].
    - fold c in T. destruct T as (T1 & T2 & _ & _). rewrite Et, T2. revert T1. generalize (c_sent c) as ws. clear.
      intros ws T. split; [|split].
      + intros w ws' ->. simpl in T. destruct T as [-> _]. done.
      + intros ws1 v w ws2 ->. revert t0 T. induction ws1 as [|x ws1 IH]; intros t0; simpl; [by intros (_ & -> & _)|].
        intros [_ T]. by apply IH in T.
      + intros ws' w ->. apply tile_end_snoc.
  Qed.
  (** With non-decreasing, non-negative time stamps every measurement of a window lies in its time interval, and the
      pending ones in the current interval. *)
  Theorem calibrator_window_times l : Forall (Z.le 0) (stamps l) -> sortedZ (stamps l) ->
    let c := (crun h (cal_new h e0 W) l).1 in
    Forall (fun w => forall k, Forall (fun m => (w_start w <= fst m <= w_end w)%Z) (w_meas w k)) (c_sent c) /\
    (forall k, Forall (fun m => (c_start c <= fst m <= c_last c)%Z) (c_meas c k)).
  Proof using.
    intros H0 Hs c. destruct (time_run h (-1) (cal_new h e0 W) l) as (b & T1 & T2 & _).
    - done.
    - eapply Forall_impl; [exact H0|]. simpl. lia.
    - done.
    - unfold time_inv. simpl. split; [constructor|]. split; [intros k; constructor|]. split; [lia|]. split; [lia|]. by right.
    - simpl. lia.
    - split; [exact T1|exact T2].
  Qed.
End windows.

(** Flushing without measurements sends nothing, in all three. *)
Lemma numSegments_nil knots : numSegments knots [] = None.
Proof. done. Qed.
Theorem td_windows_nonempty {D E P} tmin tmax delay bound knots fit addBatch params :
  nonempty_windows (@td_hooks D E P tmin tmax delay bound knots fit addBatch params).
Proof. intros s Hy _. exists TdPose. simpl in Hy. by destruct (s TdPose). Qed.
Theorem car_windows_nonempty {D E P} tmin tmax delay bound knots cut o backward slow fit addBatch params :
  nonempty_windows (@car_hooks D E P tmin tmax delay bound knots cut o backward slow fit addBatch params).
Proof. intros s Hy _. exists CPose. simpl in Hy. by destruct (s CPose). Qed.
Theorem ego_windows_nonempty {D E B P} ref fit terms addBatch params :
  nonempty_windows (@ego_hooks D E B P ref fit terms addBatch params).
Proof. intros s _ Hs. exists ref. simpl in Hs. unfold ego_splines in Hs. by destruct (s ref). Qed.

(** ** C69: only measurements that stay inside the spline for every admissible delay give error terms *)
Lemma in_spline_spec Tmin Tmax bound t : in_spline Tmin Tmax bound t = true <-> (Tmin <= t - bound /\ t + bound <= Tmax)%Z.
Proof. unfold in_spline. rewrite negb_true_iff, orb_false_iff, !Z.ltb_ge. lia. Qed.
Theorem td_terms_spec {D E} tmin tmax (delay : E -> td_kind -> Z) bound (e : E) (s : td_kind -> list (Z * D)) k m :
  In (k, m) (td_terms tmin tmax delay bound e s) <->
  In m (s k) /\ (k = TdPose \/
    (tmin (s TdPose) <= fst m + delay e k - bound /\ fst m + delay e k + bound <= tmax (s TdPose))%Z).
Proof.
  unfold td_terms, td_wheel. rewrite !in_app_iff, !in_map_iff.
  assert (HF : forall k', In m (List.filter (fun m => in_spline (tmin (s TdPose)) (tmax (s TdPose)) bound (delay e k' + fst m)) (s k')) <->
    In m (s k') /\ (tmin (s TdPose) <= fst m + delay e k' - bound /\ fst m + delay e k' + bound <= tmax (s TdPose))%Z).
  { intros k'. rewrite filter_In, in_spline_spec. split; intros [? ?]; (split; [done|lia]). }
  split.
  - intros [(x & [= <- <-] & Hx)|[(x & [= <- <-] & Hx)|(x & [= <- <-] & Hx)]]; [by auto|apply HF in Hx; tauto..].
  - intros [Hm Hk]. destruct k; [left; by exists m|right; left|right; right]; exists m; (split; [done|]); apply HF;
      (split; [done|]); destruct Hk; [done|done|done|done].
Qed.

(** Car: the same for its six kinds of measurements; a pair of wheel speeds gives the term of its left and of its right
    wheel, both or none. *)
Section car_terms_spec.
  Context {D E : Type} (tmin tmax : list (Z * D) -> Z) (delay : E -> car_kind -> Z) (bound : Z) (below_cutoff : D -> bool).
  Context (o : car_options) (backward slow : E -> list (Z * D) -> Z * D -> bool) (e : E) (s : car_kind -> list (Z * D)).
  Local Notation terms := (car_terms tmin tmax delay bound below_cutoff o backward slow e s).
  Definition usable (k : car_kind) (m : Z * D) : Prop :=
    (tmin (s CPose) <= fst m + delay e k - bound /\ fst m + delay e k + bound <= tmax (s CPose))%Z.
  Definition wheels_usable (k : car_kind) (m : Z * D) : Prop :=
    In m (s k) /\ usable k m /\ below_cutoff (snd m) = false /\ backward e (s CPose) m = false.
  Lemma car_in_spec k m : car_in tmin tmax delay bound e (s CPose) k m = true <-> usable k m.
  Proof. unfold car_in, usable. rewrite in_spline_spec. lia. Qed.
  Lemma car_wheels_spec k m :
    In m (List.filter (car_wheels_ok tmin tmax delay bound below_cutoff backward e (s CPose) k) (s k)) <-> wheels_usable k m.
  Proof.
    rewrite filter_In. unfold car_wheels_ok, wheels_usable. rewrite !andb_true_iff, !negb_true_iff, car_in_spec. tauto.
  Qed.
  Theorem car_terms_spec t : In t terms <->
    match t with
    | CtVel m => useVelocities o = true /\ In m (s CVel) /\ (tmin (s CPose) <= fst m <= tmax (s CPose))%Z
    | CtPose m => usePose o = true /\ In m (s CPose)
    | CtDmi m v => In m (s CDmi) /\ usable CDmi m /\ v = dmiVariance o
    | CtFl m v => wheels_usable CFront m /\ v = flwVariance o
    | CtFr m v => wheels_usable CFront m /\ v = frwVariance o
    | CtRl m v => wheels_usable CRear m /\ v = flwVariance o
    | CtRr m v => wheels_usable CRear m /\ v = frwVariance o
    | CtSteer m v => In m (s CSteer) /\ usable CSteer m /\ slow e (s CPose) m = false /\ v = steeringVariance o
    end.
  Proof.
    unfold car_terms. cbv zeta.
    assert (Hv : forall t, In t (if useVelocities o then map CtVel (List.filter (fun m =>
        negb ((fst m <? tmin (s CPose)) || (tmax (s CPose) <? fst m))%Z) (s CVel)) else []) <->
      exists m, t = CtVel m /\ useVelocities o = true /\ In m (s CVel) /\ (tmin (s CPose) <= fst m <= tmax (s CPose))%Z).
    { intros t'. destruct (useVelocities o); [|simpl; naive_solver]. rewrite in_map_iff. split.
      - intros (m & <- & Hm). apply filter_In in Hm as [Hm Hb]. rewrite negb_true_iff, orb_false_iff, !Z.ltb_ge in Hb.
        exists m. split; [done|]. split; [done|]. split; [done|]. lia.
      - intros (m & -> & _ & Hm & Hb). exists m. split; [done|]. apply filter_In. split; [done|].
        rewrite negb_true_iff, orb_false_iff, !Z.ltb_ge. lia. }
    assert (Hp : forall t, In t (if usePose o then map CtPose (s CPose) else []) <->
      exists m, t = CtPose m /\ usePose o = true /\ In m (s CPose)).
    { intros t'. destruct (usePose o); [|simpl; naive_solver]. rewrite in_map_iff. naive_solver. }
    rewrite !in_app_iff, Hv, Hp, !in_map_iff, !in_flat_map. clear Hv Hp.
    split.
    - intros [(m & -> & H)|[(m & -> & H)|[(m & <- & H)|[(m & H & Ht)|[(m & H & Ht)|(m & <- & H)]]]]].
      + done.
      + done.
      + apply filter_In in H as [H1 H2]. apply car_in_spec in H2. done.
      + apply car_wheels_spec in H. destruct Ht as [<-|[<-|[]]]; done.
      + apply car_wheels_spec in H. destruct Ht as [<-|[<-|[]]]; done.
      + apply filter_In in H as [H1 H2]. apply andb_true_iff in H2 as [H2 H3]. apply car_in_spec in H2.
        apply negb_true_iff in H3. done.
    - destruct t as [m|m|m v|m v|m v|m v|m v|m v].
      + intros H. right. left. by exists m.
      + intros H. left. by exists m.
      + intros (H1 & H2 & ->). do 2 right. left. exists m. split; [done|]. apply filter_In. by rewrite car_in_spec.
      + intros (H & ->). do 3 right. left. exists m. rewrite car_wheels_spec. simpl. auto.
      + intros (H & ->). do 3 right. left. exists m. rewrite car_wheels_spec. simpl. auto.
      + intros (H & ->). do 4 right. left. exists m. rewrite car_wheels_spec. simpl. auto.
      + intros (H & ->). do 4 right. left. exists m. rewrite car_wheels_spec. simpl. auto.
      + intros (H1 & H2 & H3 & ->). do 5 right. exists m. split; [done|]. apply filter_In. split; [done|].
        rewrite andb_true_iff, car_in_spec, H3. done.
  Qed.
  (** The splines are never evaluated outside their time range, however far the delay moves within its bound. *)
  Theorem usable_in_range k m t : usable k m -> (Z.abs (t - delay e k) <= bound)%Z ->
    (tmin (s CPose) <= fst m + t <= tmax (s CPose))%Z.
  Proof. unfold usable. lia. Qed.
End car_terms_spec.

(** ** C70: variances of the rear wheels *)
(** The options rlwVariance and rrwVariance have no effect on the error terms; the rear wheels are weighted with the
    variances of the front wheels ([car_terms_spec]). *)
Theorem car_rear_variance_refuted {D E} tmin tmax delay bound cut up uv v1 v2 v3 v6 backward slow (e : E)
    (s : car_kind -> list (Z * D)) rl rr rl' rr' :
  car_terms tmin tmax delay bound cut (CarOptions up uv v1 v2 v3 rl rr v6) backward slow e s =
  car_terms tmin tmax delay bound cut (CarOptions up uv v1 v2 v3 rl' rr' v6) backward slow e s.
Proof. done. Qed.
Theorem car_rear_variance_agreeing {D E} tmin tmax delay bound cut o backward slow (e : E) (s : car_kind -> list (Z * D)) m v :
  rlwVariance o = flwVariance o -> rrwVariance o = frwVariance o ->
  (In (CtRl m v) (car_terms tmin tmax delay bound cut o backward slow e s) -> v = rlwVariance o) /\
  (In (CtRr m v) (car_terms tmin tmax delay bound cut o backward slow e s) -> v = rrwVariance o).
Proof. intros E1 E2. rewrite !car_terms_spec. split; intros [_ ->]; done. Qed.

(** ** C71: number of spline segments *)
(** At least one and at most as many segments as poses, and at least splineKnotsPerSecond per second unless there are
    fewer poses. *)
Theorem spline_segments knots ts n t0 ts' :
  ts = t0 :: ts' -> (t0 < List.last ts t0)%Z -> (1 <= knots)%Z -> numSegments knots ts = Some n ->
  let T := IZR (List.last ts t0 - t0) / 10 ^ 9 in let N := Z.of_nat (length ts) in
  (1 <= n <= N)%Z /\ (n = N \/ IZR knots * T <= IZR n < IZR knots * T + 1).
Proof.
  intros -> Hlt Hk. unfold numSegments. set (T := IZR (List.last (t0 :: ts') t0 - t0) / 10 ^ 9).
  set (N := Z.of_nat (length (t0 :: ts'))). cbv zeta.
  assert (HT : 0 < T). { unfold T. apply Rdiv_lt_0_compat; [apply IZR_lt; lia|apply pow_lt; lra]. }
  assert (HN : (1 <= N)%Z) by (unfold N; simpl; lia).
  assert (HI : forall z z', to_int z = Some z' -> z' = z) by (unfold to_int; intros z z'; case_match; naive_solver).
  destruct (Req_EM_T T 0) as [E|_]; [lra|].
  destruct (to_int (ZnearestA (IZR N / T))) as [mps|] eqn:E1; [|done]. apply HI in E1. subst mps.
  destruct (Z.ltb_spec knots (ZnearestA (IZR N / T))) as [Hm|Hm]; intros E; apply HI in E; subst n.
  - assert (Hkl : IZR knots * T < IZR N).
    { pose proof (Znearest_half (Z.leb 0) (IZR N / T)) as Hh. apply Rabs_le_inv in Hh.
      assert (IZR knots + 1 <= IZR (ZnearestA (IZR N / T))) by (rewrite <- plus_IZR; apply IZR_le; lia).
      assert (IZR knots < IZR N / T) by lra.
      replace (IZR N) with (IZR N / T * T) by (field; lra). apply Rmult_lt_compat_r; lra. }
    assert (Hc0 : 0 < IZR knots * T) by (apply Rmult_lt_0_compat; [apply IZR_lt; lia|done]).
    split.
    + split.
      * apply Z.lt_pred_le. simpl. apply lt_IZR. apply Rlt_le_trans with (IZR knots * T); [done|]. apply Zceil_ub.
      * apply Zceil_glb. lra.
    + right. split; [apply Zceil_ub|]. pose proof (Zceil_lb (IZR knots * T)) as H. lra.
  - split; [lia|]. by left.
Qed.
(** It is undefined (division by zero) if the first and the last pose have the same time stamp, e.g. for two poses at
    the same time, which pass the check for at least two poses. *)
Theorem spline_segments_refuted knots t : numSegments knots [t; t] = None.
Proof. unfold numSegments. simpl List.last. rewrite Z.sub_diag. destruct (Req_EM_T _ 0) as [|H]; [done|]. exfalso. apply H. lra. Qed.
Example spline_segments_example : exists n, numSegments 5 [0; 400000000; 1000000000]%Z = Some n.
Proof.
  unfold numSegments. simpl List.last. change (1000000000 - 0)%Z with 1000000000%Z.
  replace (IZR 1000000000 / 10 ^ 9) with 1 by (simpl; lra). destruct (Req_EM_T _ 0) as [H|_]; [exfalso; lra|].
  change (Z.of_nat (length [0; 400000000; 1000000000]%Z)) with 3%Z. replace (3 / 1) with (IZR 3) by lra.
  rewrite (Zrnd_IZR ZnearestA 3). simpl. by eexists.
Qed.

(** ** C72: egomotion without reference measurements *)
Section ego_stuck.
  Context {D E B P : Type} (ref : nat) (fit : list (Z * D) -> result unit) (terms : E -> (nat -> list (Z * D)) -> list B)
    (addBatch : E -> list B -> result R * E) (params : E -> P).
  Local Notation h := (ego_hooks ref fit terms addBatch params).
  (** A user expects the calibrator to go on when the reference sensor comes back.  But once a window has elapsed without
      a measurement of the reference sensor, every later add call throws std::out_of_range and drops its measurement, the
      reference sensor's included; no window is ever processed again. *)
  Theorem ego_reference_gap_refuted (c : cal nat D E B P) l :
    c_meas c ref = [] -> (c_start c <> -1)%Z ->
    Forall (fun e => is_add e) l ->
    Forall (fun ts => c_window c <= IZR (ts - c_start c) / 10 ^ 9) (stamps l) ->
    (crun h c l).2 = map (fun _ => Throw StdOutOfRange) l /\
    c_meas (crun h c l).1 = c_meas c /\ c_sent (crun h c l).1 = c_sent c.
  Proof.
    revert c. induction l as [|e l IH]; intros c Hr Hs Hl Ht; [done|].
    apply Forall_cons in Hl as [He Hl]. destruct e as [k ts d| | |w]; try done.
    simpl in Ht. apply Forall_cons in Ht as [Ht1 Ht]. rewrite crun_cons.
    assert (Es : cstep h c (Add k ts d) =
      (Cal (c_start c) ts (c_meas c) (c_est c) (c_gains c) (c_hist c) (c_window c) (c_sent c), Throw StdOutOfRange)).
    { simpl. unfold addOne, addMeasurement. rewrite (proj2 (Z.eqb_neq _ _) Hs). destruct (Rle_dec _ _); [|done].
      unfold addMeasurements. simpl. unfold ego_splines. by rewrite Hr. }
    rewrite Es. specialize (IH (Cal (c_start c) ts (c_meas c) (c_est c) (c_gains c) (c_hist c) (c_window c) (c_sent c)) Hr Hs Hl Ht).
    destruct (crun h _ l) as [c2 rs]. simpl in *. destruct IH as (-> & -> & ->). done.
  Qed.
  (** Such a state is reached by a single measurement of another sensor. *)
  Theorem ego_reference_gap_reached e0 W k ts d : (0 < W) -> k <> ref -> (0 <= ts)%Z ->
    let c := (crun h (cal_new h e0 W) [Add k ts d]).1 in
    c_meas c ref = [] /\ (c_start c <> -1)%Z /\ c_start c = ts /\ c_window c = W /\ c_meas c k = [(ts, d)].
  Proof.
    intros HW Hk Hts c. unfold c. simpl. unfold addOne, addMeasurement. simpl. destruct (Rle_dec _ _) as [H|_].
    { exfalso. rewrite Z.sub_diag in H. lra. }
    simpl. rewrite decide_False by done. rewrite decide_True by done. split; [done|]. split; [lia|]. done.
  Qed.
  (** It does not happen while the reference sensor has a pending measurement. *)
  Theorem ego_reference_pending_ok (c : cal nat D E B P) k ts d :
    c_meas c ref <> [] -> fit (c_meas c ref) = Ret tt -> (forall e b, exists g e', addBatch e b = (Ret g, e')) ->
    (addOne h c k ts d).2 = Ret tt.
  Proof.
    intros Hr Hf Hb. unfold addOne, addMeasurement. destruct (Rle_dec _ _); [|done]. unfold addMeasurements. simpl.
    unfold ego_splines. destruct (c_meas c ref) eqn:E1; [done|]. rewrite Hf.
    destruct (Hb (c_est c) (terms (c_est c) (c_meas c))) as (g & e' & ->). done.
  Qed.
End ego_stuck.

(** ** C73: a failing estimator *)
(** A user expects that a measurement whose add call throws was refused without other effect.  If the estimator throws,
    the whole window has been discarded, and the measurement as well. *)
Theorem calibrator_failure_refuted {K D E B P} `{EqDecision K} (h : hooks K D E B P) (c : cal K D E B P) k ts d x e' :
  h_ready h (c_meas c) = true -> h_splines h (c_meas c) = Ret tt ->
  h_addBatch h (c_est c) (h_terms h (c_est c) (c_meas c)) = (Throw x, e') ->
  c_window c <= IZR (ts - (if Z.eqb (c_start c) (-1) then ts else c_start c)) / 10 ^ 9 ->
  (addOne h c k ts d).2 = Throw x /\ (forall k', c_meas (addOne h c k ts d).1 k' = []) /\
  c_gains (addOne h c k ts d).1 = c_gains c.
Proof.
  intros H1 H2 H3 H4. unfold addOne, addMeasurement. destruct (Rle_dec _ _); [|done]. unfold addMeasurements. simpl.
  rewrite H1, H2. simpl. rewrite H3. done.
Qed.
(** If instead building the splines throws, only the new measurement is lost. *)
Theorem calibrator_failure_in_splines {K D E B P} `{EqDecision K} (h : hooks K D E B P) (c : cal K D E B P) k ts d x :
  h_ready h (c_meas c) = true -> h_splines h (c_meas c) = Throw x ->
  c_window c <= IZR (ts - (if Z.eqb (c_start c) (-1) then ts else c_start c)) / 10 ^ 9 ->
  (addOne h c k ts d).2 = Throw x /\ c_meas (addOne h c k ts d).1 = c_meas c /\
  c_sent (addOne h c k ts d).1 = c_sent c /\ c_gains (addOne h c k ts d).1 = c_gains c.
Proof.
  intros H1 H2 H4. unfold addOne, addMeasurement. destruct (Rle_dec _ _); [|done]. unfold addMeasurements. simpl.
  rewrite H1, H2. done.
Qed.

(** ** C74: motion error terms *)
Section motion.
  Context {D : Type} (ok : Z * D -> bool).
  Implicit Types l : list (Z * D).
  Lemma motion_pairs_zip_aux prev l : motion_pairs ok prev l =
    match prev with
    | Some p => zip (p :: List.filter ok l) (List.filter ok l)
    | None => zip (List.filter ok l) (tail (List.filter ok l))
    end.
  Proof.
    revert prev. induction l as [|m l IH]; intros prev; simpl; [by destruct prev|].
    destruct (ok m); destruct prev as [p|]; rewrite IH; done.
  Qed.
  (** One error term per pair of successive measurements inside the spline's time range: one fewer than measurements;
      the first one gives none. *)
  Theorem motion_terms l : motion_pairs ok None l = zip (List.filter ok l) (tail (List.filter ok l)) /\
    length (motion_pairs ok None l) = Nat.pred (length (List.filter ok l)).
  Proof.
    rewrite motion_pairs_zip_aux. split; [done|]. rewrite zip_with_length. generalize (List.filter ok l) as u. intros [|x u]; [done|]. simpl. destruct (length u); lia.
  Qed.
  (** With sorted time stamps these are successive measurements of the sensor, so that a term compares a measured motion
      with the motion of the spline over the same interval. *)
  Theorem motion_terms_adjacent l a b p m : (forall x, ok x = true <-> (a <= fst x <= b)%Z) -> sortedZ (map fst l) ->
    In (p, m) (motion_pairs ok None l) -> exists l1 l2, l = l1 ++ p :: m :: l2.
  Proof.
    intros Hok. cut (forall prev, sortedZ (map fst l) -> In (p, m) (motion_pairs ok prev l) ->
      (match prev with Some q => ok q = true /\ Forall (fun x => (fst q <= fst x)%Z) l | None => True end) ->
      exists l1 l2, match prev with Some q => q :: l | None => l end = l1 ++ p :: m :: l2).
    { intros H Hs Hi. destruct (H None Hs Hi I) as (l1 & l2 & E). by exists l1, l2. }
    induction l as [|x l IH]; intros prev Hs Hi Hq; [by destruct prev|].
    simpl in Hs. destruct Hs as [Hs1 Hs2]. rewrite Forall_map in Hs1. simpl in Hi.
    destruct (ok x) eqn:Ex.
    - destruct prev as [q|].
      + destruct Hi as [[= -> ->]|Hi]; [by exists [], l|].
        destruct (IH (Some x) Hs2 Hi) as (l1 & l2 & E); [done|]. exists (q :: l1), l2. by rewrite E.
      + destruct (IH (Some x) Hs2 Hi) as (l1 & l2 & E); [done|]. by exists l1, l2.
    - destruct prev as [q|].
      + (* x is behind the range, and so is everything after it *)
        exfalso. destruct Hq as [Hq1 Hq2]. apply Forall_cons in Hq2 as [Hq2 Hq3]. apply Hok in Hq1.
        assert (Hbx : (b < fst x)%Z).
        { destruct (Z.lt_ge_cases b (fst x)) as [|Hge]; [done|]. assert (ok x = true) by (apply Hok; lia). congruence. }
        assert (Hnil : forall pr l', Forall (fun y => (b < fst y)%Z) l' -> motion_pairs ok pr l' = []).
        { intros pr l'. revert pr. induction l' as [|y l' IHl]; intros pr Hl; [done|]. simpl.
          apply Forall_cons in Hl as [Hy Hl]. destruct (ok y) eqn:Ey; [apply Hok in Ey; lia|]. by apply IHl. }
        rewrite Hnil in Hi; [done|]. eapply Forall_impl; [exact Hs1|]. simpl. lia.
      + destruct (IH None Hs2 Hi I) as (l1 & l2 & E). exists (x :: l1), l2. by rewrite E.
  Qed.
End motion.
(** A user expects every motion measurement to be used; the first one of every window is not. *)
Theorem motion_terms_refuted {D} (ok : Z * D -> bool) m l p : ok m = true -> ~ In m l -> ~ In (p, m) (motion_pairs ok None (m :: l)).
Proof.
  intros Hm Hn. rewrite (proj1 (motion_terms ok (m :: l))). simpl. rewrite Hm. simpl. intros H.
  apply Hn. revert H. cut (forall u, In (p, m) (zip u (List.filter ok l)) -> In m l).
  { intros Hc H. apply (Hc (m :: List.filter ok l)). by destruct (List.filter ok l). }
  intros u. generalize (fun x => proj1 (filter_In ok x l)). generalize (List.filter ok l) as v. clear. intros v Hv.
  intros H. assert (Hm : In m v).
  { revert u H. clear Hv. induction v as [|y v IH]; intros [|x u]; simpl; [done..|]. intros [[= -> ->]|H]; [by left|right; eauto]. }
  by destruct (Hv _ Hm).
Qed.
(** With unsorted time stamps a measurement out of range is skipped, and the next one's motion is compared with the
    motion over both intervals. *)
Theorem motion_terms_unsorted_refuted : let l := [(1, tt); (9, tt); (2, tt)]%Z in
  motion_pairs (fun x => (0 <=? fst x)%Z && (fst x <=? 5)%Z) None l = [((1, tt), (2, tt))]%Z.
Proof. done. Qed.

(** A concrete run: three poses, the third one a second after the first, complete one window with two poses. *)
Example calibrator_example :
  let h := td_hooks (D := unit) (E := nat) (fun _ => 0%Z) (fun _ => 0%Z) (fun _ _ => 0%Z) 0 5 (fun _ _ => Ret tt)
             (fun e b => (Ret (INR (length b)), S e)) (fun e => e) in
  let r := crun h (cal_new h O 1) [Add TdPose 0 tt; Add TdPose 500000000 tt; Add TdPose 1000000000 tt] in
  r.2 = [Ret tt; Ret tt; Ret tt] /\ map (fun w => w_meas w TdPose) (c_sent r.1) = [[(0%Z, tt); (500000000%Z, tt)]] /\
  c_meas r.1 TdPose = [(1000000000%Z, tt)] /\ c_gains r.1 = [2] /\ c_hist r.1 = [0%nat; 1%nat].
Proof.
  intros h.
  set (c0 := cal_new h O 1). set (c1 := push (tick c0 0) TdPose (0%Z, tt)).
  set (c2 := push (tick c1 500000000) TdPose (500000000%Z, tt)).
  assert (A1 : cstep h c0 (Add TdPose 0 tt) = (c1, Ret tt)).
  { simpl. unfold addOne, addMeasurement. simpl. destruct (Rle_dec _ _) as [H|_]; [|done].
    change (0 - 0)%Z with 0%Z in H. exfalso. lra. }
  assert (A2 : cstep h c1 (Add TdPose 500000000 tt) = (c2, Ret tt)).
  { simpl. unfold addOne, addMeasurement. simpl. destruct (Rle_dec _ _) as [H|_]; [|done].
    change (500000000 - 0)%Z with 500000000%Z in H. exfalso. lra. }
  assert (Hn : numSegments 5 [0%Z; 500000000%Z] = Some 2%Z).
  { unfold numSegments. simpl List.last. change (500000000 - 0)%Z with 500000000%Z.
    replace (IZR 500000000 / 10 ^ 9) with (1 / 2) by (simpl; lra). destruct (Req_EM_T _ 0) as [H|_]; [exfalso; lra|].
    change (Z.of_nat (length [0; 500000000]%Z)) with 2%Z. replace (2 / (1 / 2)) with (IZR 4) by lra.
    rewrite (Zrnd_IZR ZnearestA 4). reflexivity. }
  assert (Hw : c_window c2 <= IZR (1000000000 - 0) / 10 ^ 9).
  { change (1000000000 - 0)%Z with 1000000000%Z. simpl. lra. }
  destruct (calibrator_add_due h c2 TdPose 1000000000 tt) as [_ Hd].
  destruct Hd as ((w & W1 & W2 & _) & _ & Hg); [exact Hw|done|simpl; unfold initSplines; by rewrite Hn|].
  destruct (Hg _ _ eq_refl) as (G1 & G2 & G3 & G4 & _).
  rewrite !crun_cons, A1, crun_cons, A2, crun_cons. simpl cstep.
  destruct (addOne h c2 TdPose 1000000000 tt) as [c3 r3]. simpl in *. subst r3. simpl.
  rewrite W1, G2, G3, G4. simpl. rewrite W2. repeat split; try done.
Qed.
