(** C107-C109: the simulators' main loops and the spline writers. *)
From stdpp Require Import prelude list.
From Coq Require Import Reals Lra.
From Verif Require Import Base CalibratorModel Spec_Calibrator CalibratorProofs SimDriverModel.

(** ** Time delay *)
Section calls.
Context {K D E B P : Type} `{EqDecision K} (h : hooks K D E B P).
Implicit Types c : cal K D E B P.
Lemma kept_add c k t d c1 u : addOne h c k t d = (c1, Ret u) ->
  forall k', kept c1 k' = kept c k' ++ (if decide (k' = k) then [(t, d)] else []).
Proof.
  intros H k'. pose proof (kept_step h c (Add k t d) k' ltac:(simpl; tauto)) as Hs. simpl in Hs. rewrite H in Hs. simpl in Hs.
  rewrite app_nil_r in Hs. exact Hs.
Qed.
(** An add call fails only if a window is closed and its splines or its batch fail. *)
Lemma add_returns c k t d :
  (h_ready h (c_meas c) = true -> c_window c <= IZR (t - c_start (tick c t)) / 10 ^ 9 -> h_splines h (c_meas c) = Ret tt)%R ->
  (forall e b, exists g e', h_addBatch h e b = (Ret g, e')) ->
  exists c1, addOne h c k t d = (c1, Ret tt).
Proof.
  intros Hs Hb. destruct (addOne h c k t d) as [c1 r] eqn:E1. exists c1. f_equal.
  apply add_cases in E1 as [(_ & _ & ->)|(Hd & c2 & F & Hr)]; [done|].
  apply flush_cases in F as [[-> [[_ ->]|(F1 & F2 & F3)]]|(F1 & F2 & [(g & e' & F3 & -> & ->)|(q & e' & F3 & F4 & F5 & ->)])]; [done| |done|].
  - simpl in F1, F3. by rewrite Hs in F3.
  - destruct (Hb (c_est c) (h_terms h (c_est c) (c_meas c))) as (g & e2 & Hq). simpl in F3. rewrite Hq in F3. injection F3 as <- <-. by destruct (F4 g).
Qed.
End calls.

Section td.
Context {D E P : Type} (h : hooks td_kind D E (td_kind * (Z * D)) P).
Local Notation cal := (cal td_kind D E (td_kind * (Z * D)) P).
Lemma td_feed_kept rw : forall lw pose (c c' : cal), td_feed h c rw lw pose = (c', Ret tt) ->
  length rw <= length lw /\ length rw <= length pose /\
  forall k, kept c' k = kept c k ++ match k with TdRight => rw | TdLeft => take (length rw) lw | TdPose => take (length rw) pose end.
Proof.
  induction rw as [|[tr r] rw IH]; intros lw pose c c' H; cbn [td_feed] in H.
  - injection H as <-. cbn. split; [lia|]. split; [lia|]. intros k. destruct k; by rewrite app_nil_r.
  - destruct (addOne h c TdRight tr r) as [c1 [u1|?| |]] eqn:E1; try discriminate.
    destruct lw as [|[tl l] lw]; [discriminate|]. destruct (addOne h c1 TdLeft tl l) as [c2 [u2|?| |]] eqn:E2; try discriminate.
    destruct pose as [|[tp p] pose]; [discriminate|]. destruct (addOne h c2 TdPose tp p) as [c3 [u3|?| |]] eqn:E3; try discriminate.
    apply IH in H as (L1 & L2 & Hk). cbn. split; [lia|]. split; [lia|]. intros k.
    rewrite Hk, (kept_add _ _ _ _ _ _ _ E3), (kept_add _ _ _ _ _ _ _ E2), (kept_add _ _ _ _ _ _ _ E1).
    destruct k; cbn; rewrite ?app_nil_r, <- ?app_assoc; done.
Qed.
Lemma td_pending (c : cal) : td_unprocessed c = false -> forall k, c_meas c k = [].
Proof.
  unfold td_unprocessed. cbn. rewrite !orb_false_iff. intros (H1 & H2 & H3 & _).
  assert (G : forall k, negb (Nat.eqb (length (c_meas c k)) 0) = false -> c_meas c k = []).
  { intros k Hk. apply negb_false_iff, Nat.eqb_eq in Hk. by apply nil_length_inv. }
  intros []; by apply G.
Qed.
(** C107.  When the program ends normally every simulated measurement was handed to the estimator, in order, except a last window with fewer
    than two poses. *)
Theorem td_simulator_conservation (e : E) (W : R) (rw lw pose : list (Z * D)) (c' : cal) :
  length lw = length rw -> length pose = length rw ->
  td_program h (cal_new h e W) rw lw pose = (c', Ret tt) ->
  (forall k, concat (map (fun w => w_meas w k) (c_sent c')) ++ c_meas c' k =
             match k with TdRight => rw | TdLeft => lw | TdPose => pose end) /\
  ((forall k, c_meas c' k = []) \/ h_ready h (c_meas c') = false).
Proof.
  intros L1 L2 H. unfold td_program in H. destruct (td_feed h (cal_new h e W) rw lw pose) as [c1 [[]|?| |]] eqn:E1; try discriminate.
  apply td_feed_kept in E1 as (_ & _ & Hk).
  assert (Hk' : forall k, kept c1 k = match k with TdRight => rw | TdLeft => lw | TdPose => pose end).
  { intros k. rewrite Hk. change (kept (cal_new h e W) k) with (@nil (Z * D)). destruct k; cbn; rewrite <- ?L1, ?firstn_all; [|done|done]. rewrite L1, <- L2. apply firstn_all. }
  destruct (td_unprocessed c1) eqn:U.
  - split.
    + intros k. change (kept c' k = match k with TdRight => rw | TdLeft => lw | TdPose => pose end). rewrite (kept_flush h c1 c' (Ret tt) k H). apply Hk'.
    + apply flush_cases in H as [[-> [[H _]|(_ & H & _)]]|(_ & _ & [(g & e' & _ & _ & ->)|(q & e' & _ & _ & H & _)])]; [by right|done|by left|done].
  - injection H as <-. split; [exact Hk'|]. left. by apply td_pending.
Qed.
(** C107.  It ends normally if no window of simulated poses makes the spline fit fail and the estimator does not throw: the three lists are long enough. *)
Lemma td_feed_returns (Q : list (Z * D) -> Prop) :
  (forall e b, exists g e', h_addBatch h e b = (Ret g, e')) ->
  (forall s, h_ready h s = true -> Q (s TdPose) -> h_splines h s = Ret tt) ->
  forall rw lw pose (c : cal) done_, length lw = length rw -> length pose = length rw ->
    kept c TdPose = done_ ->
    (forall l1 l l2, done_ ++ pose = l1 ++ l ++ l2 -> Q l) ->
    exists c', td_feed h c rw lw pose = (c', Ret tt).
Proof.
  intros Hb Hs. induction rw as [|[tr r] rw IH]; intros lw pose c dn L1 L2 Hk HQ; cbn [td_feed]; [eauto|].
  destruct lw as [|[tl l] lw]; [discriminate|]. destruct pose as [|[tp p] pose]; [discriminate|].
  assert (HP : forall c0 : cal, kept c0 TdPose = dn -> Q (c_meas c0 TdPose)).
  { intros c0 Hc0. apply (HQ (concat (map (fun w => w_meas w TdPose) (c_sent c0))) _ ((tp, p) :: pose)). rewrite <- Hc0. unfold kept. by rewrite <- app_assoc. }
  destruct (add_returns h c TdRight tr r) as [c1 E1]; [intros Hr _; apply Hs; auto|done|]. rewrite E1.
  pose proof (kept_add h _ _ _ _ _ _ E1 TdPose) as K1. cbn in K1. rewrite app_nil_r, Hk in K1.
  destruct (add_returns h c1 TdLeft tl l) as [c2 E2]; [intros Hr _; apply Hs; auto|done|]. rewrite E2.
  pose proof (kept_add h _ _ _ _ _ _ E2 TdPose) as K2. cbn in K2. rewrite app_nil_r, K1 in K2.
  destruct (add_returns h c2 TdPose tp p) as [c3 E3]; [intros Hr _; apply Hs; auto|done|]. rewrite E3.
  pose proof (kept_add h _ _ _ _ _ _ E3 TdPose) as K3. cbn in K3. rewrite K2 in K3.
  eapply IH; [cbn in L1; lia|cbn in L2; lia|exact K3|]. intros l1 l0 l2 Hl. apply (HQ l1 l0 l2). rewrite <- Hl, <- app_assoc. done.
Qed.
Theorem td_simulator_returns (e : E) (W : R) (rw lw pose : list (Z * D)) :
  length lw = length rw -> length pose = length rw ->
  (forall e b, exists g e', h_addBatch h e b = (Ret g, e')) ->
  (forall s l1 l2, h_ready h s = true -> pose = l1 ++ s TdPose ++ l2 -> h_splines h s = Ret tt) ->
  exists c', td_program h (cal_new h e W) rw lw pose = (c', Ret tt).
Proof.
  intros L1 L2 Hb Hs. set (Q := fun l : list (Z * D) => exists l1 l2, pose = l1 ++ l ++ l2).
  destruct (td_feed_returns Q Hb ltac:(intros s Hr (l1 & l2 & Hl); eapply Hs; eauto) rw lw pose (cal_new h e W) [] L1 L2 eq_refl) as [c1 E1].
  { intros l1 l l2 Hl. by exists l1, l2. }
  unfold td_program. rewrite E1. destruct (td_unprocessed c1); [|eauto].
  destruct (addMeasurements h c1) as [c2 r] eqn:F. exists c2. f_equal.
  pose proof (td_feed_kept _ _ _ _ _ E1) as (_ & _ & Hk). specialize (Hk TdPose). cbn in Hk. rewrite <- L2, firstn_all in Hk.
  apply flush_cases in F as [[-> [[_ ->]|(F1 & _ & F3)]]|(F1 & F2 & [(g & e' & F3 & -> & ->)|(q & e' & F3 & F4 & F5 & ->)])]; [done| |done|].
  - exfalso. apply F3. apply (Hs _ (concat (map (fun w => w_meas w TdPose) (c_sent c1))) []); [done|]. rewrite app_nil_r. symmetry. exact Hk.
  - destruct (Hb (c_est c1) (h_terms h (c_est c1) (c_meas c1))) as (g & e2 & Hq). rewrite Hq in F3. injection F3 as <- <-. by destruct (F4 g).
Qed.
End td.

(** ** Egomotion *)
Section ego.
Context {D E B P : Type} (ref : nat) (fit : list (Z * D) -> result unit) (terms : E -> (nat -> list (Z * D)) -> list B)
  (addBatch : E -> list B -> result R * E) (params : E -> P).
Local Notation h := (ego_hooks ref fit terms addBatch params).
Local Notation cal := (cal nat D E B P).
Lemma ego_round_kept data i sensors : forall (c c' : cal), NoDup sensors -> ego_feed_round h data i c sensors = (c', Ret tt) ->
  forall k, kept c' k = kept c k ++ (if decide (k ∈ sensors) then option_list (data k !! i) else []) /\ (k ∈ sensors -> is_Some (data k !! i)).
Proof.
  induction sensors as [|s sensors IH]; intros c c' Hn H; cbn [ego_feed_round] in H.
  - injection H as <-. intros k. rewrite decide_False by apply not_elem_of_nil. rewrite app_nil_r. split; [done|]. by intros ?%elem_of_nil.
  - apply NoDup_cons in Hn as [Hs Hn]. destruct (data s !! i) as [[t m]|] eqn:Ed; [|discriminate].
    destruct (addOne h c s t m) as [c1 [u|?| |]] eqn:E1; try discriminate.
    intros k. destruct (IH _ _ Hn H k) as [Hk Hd]. rewrite Hk, (kept_add h _ _ _ _ _ _ E1 k). destruct (decide (k = s)) as [->|Hne].
    + rewrite (decide_False (P := s ∈ sensors)) by done. rewrite (decide_True (P := s ∈ s :: sensors)) by (by left). rewrite app_nil_r, Ed. cbn. split; [done|]. eauto.
    + rewrite app_nil_r. split; [|intros [?|?]%elem_of_cons; naive_solver].
      repeat case_decide; set_solver.
Qed.
Lemma ego_feed_kept data sensors n : forall i (c c' : cal), NoDup sensors -> ego_feed h data sensors n i c = (c', Ret tt) ->
  forall k, k ∈ sensors -> i + n <= length (data k) \/ n = 0.
Proof.
  induction n as [|n IH]; intros i c c' Hn H k Hk; [by right|]. cbn [ego_feed] in H. left.
  destruct (ego_feed_round h data i c sensors) as [c1 [[]|?| |]] eqn:E1; try discriminate.
  destruct (ego_round_kept _ _ _ _ _ Hn E1 k) as [_ Hd]. destruct (Hd Hk) as [x Hx]. apply lookup_lt_Some in Hx.
  destruct (IH _ _ _ Hn H k Hk); lia.
Qed.
Lemma ego_feed_all data sensors n : forall i (c c' : cal), NoDup sensors -> ego_feed h data sensors n i c = (c', Ret tt) ->
  forall k, kept c' k = kept c k ++ (if decide (k ∈ sensors) then take n (drop i (data k)) else []).
Proof.
  induction n as [|n IH]; intros i c c' Hn H k.
  - cbn in H. injection H as <-. cbn [take firstn]. case_decide; by rewrite ?take_0, app_nil_r.
  - cbn [ego_feed] in H. destruct (ego_feed_round h data i c sensors) as [c1 [[]|?| |]] eqn:E1; try discriminate.
    rewrite (IH _ _ _ Hn H k). destruct (ego_round_kept _ _ _ _ _ Hn E1 k) as [Hk Hd]. rewrite Hk. case_decide as Hs; [|by rewrite !app_nil_r].
    destruct (Hd Hs) as [x Hx]. rewrite Hx. rewrite (drop_S _ _ _ Hx). cbn [take firstn option_list]. by rewrite <- app_assoc.
Qed.
(** C108.  When the program ends normally every simulated measurement of every sensor was handed to the estimator. *)
Theorem ego_simulator_conservation (e : E) (W : R) (data : nat -> list (Z * D)) (sensors : list nat) (c' : cal) :
  NoDup sensors -> (forall k, k ∈ sensors -> length (data k) = length (data ref)) ->
  ego_program h ref data sensors (cal_new h e W) = (c', Ret tt) ->
  ref ∈ sensors /\ (forall k, c_meas c' k = []) /\
  (forall k, k ∈ sensors -> concat (map (fun w => w_meas w k) (c_sent c')) = data k) /\
  (forall k, k ∉ sensors -> concat (map (fun w => w_meas w k) (c_sent c')) = []).
Proof.
  intros Hn Hl H. unfold ego_program in H. case_bool_decide as Hr; [|discriminate]. split; [done|].
  destruct (ego_feed h data sensors (length (data ref)) 0 (cal_new h e W)) as [c1 [[]|?| |]] eqn:E1; try discriminate.
  assert (Hk : forall k, kept c1 k = if decide (k ∈ sensors) then take (length (data ref)) (data k) else []).
  { intros k. rewrite (ego_feed_all _ _ _ _ _ _ Hn E1 k). done. }
  assert (Hc : (forall k, c_meas c' k = []) /\ forall k, kept c' k = kept c1 k).
  { destruct (ego_unprocessed sensors c1) eqn:U.
    - split; [|intros k; exact (kept_flush h c1 c' (Ret tt) k H)].
      apply flush_cases in H as [[-> [[H _]|(_ & H & _)]]|(_ & _ & [(g & e' & _ & _ & ->)|(q & e' & _ & _ & H & _)])]; [discriminate H|done|done|done].
    - injection H as <-. split; [|done]. intros k. destruct (decide (k ∈ sensors)) as [Hks|Hks].
      + apply nil_length_inv. unfold ego_unprocessed in U. destruct (length (c_meas c1 k)) as [|n] eqn:El; [done|]. exfalso.
        assert (existsb (fun k => negb (Nat.eqb (length (c_meas c1 k)) 0)) sensors = true) as X; [|congruence].
        apply existsb_exists. exists k. split; [by apply elem_of_list_In|]. by rewrite El.
      + specialize (Hk k). rewrite decide_False in Hk by done. unfold kept in Hk. by apply app_eq_nil in Hk as [_ ?]. }
  destruct Hc as [Hc Hkk]. split; [done|].
  assert (G : forall k, concat (map (fun w => w_meas w k) (c_sent c')) = if decide (k ∈ sensors) then take (length (data ref)) (data k) else []).
  { intros k. rewrite <- (Hk k), <- Hkk. unfold kept. by rewrite Hc, app_nil_r. }
  split; intros k Hks; rewrite G.
  - rewrite decide_True by done. rewrite <- (Hl k Hks). apply firstn_all.
  - by rewrite decide_False.
Qed.

(** C108, restricted: if all sensors report with the same time stamps (no delays), the window is positive, the reference sensor is among the
    sensors and neither fit nor estimator fails, the program ends normally. *)
Definition fine (c : cal) (W : R) : Prop := c_window c = W /\ ((forall k, c_meas c k = []) /\ c_start c = (-1)%Z \/ c_meas c ref <> []).
Lemma ego_round_returns data i t sensors : (forall l, fit l = Ret tt) -> (forall e b, exists g e', addBatch e b = (Ret g, e')) ->
  forall (W : R), (0 < W)%R -> (forall k, k ∈ sensors -> exists m, data k !! i = Some (t, m)) ->
  forall (c : cal), c_window c = W -> (h_splines h (c_meas c) = Ret tt \/ IZR (t - c_start (tick c t)) / 10 ^ 9 < W)%R ->
  exists c', ego_feed_round h data i c sensors = (c', Ret tt) /\ c_window c' = W /\
    (sensors <> [] -> (IZR (t - c_start (tick c' t)) / 10 ^ 9 < W)%R) /\
    (ref ∈ sensors -> c_meas c' ref <> []) /\ (c_meas c ref <> [] -> (IZR (t - c_start (tick c t)) / 10 ^ 9 < W)%R -> c_meas c' ref <> []).
Proof.
  intros Hf Hb W HW. induction sensors as [|s sensors IH]; intros Hd c Hc Hg.
  - exists c. cbn. split; [done|]. split; [done|]. split; [done|]. split; [by intros ?%elem_of_nil|done].
  - cbn [ego_feed_round]. destruct (Hd s) as [m Hm]; [by left|]. rewrite Hm.
    destruct (add_returns h c s t m) as [c1 E1].
    { intros _ Hdue. destruct Hg as [Hg|Hg]; [done|]. rewrite Hc in Hdue. lra. }
    { exact Hb. }
    rewrite E1.
    assert (Hc1 : c_window c1 = W /\ (IZR (t - c_start (tick c1 t)) / 10 ^ 9 < W)%R /\ (s = ref -> c_meas c1 ref <> []) /\
                  (c_meas c ref <> [] -> (IZR (t - c_start (tick c t)) / 10 ^ 9 < W)%R -> c_meas c1 ref <> [])).
    { apply add_cases in E1 as [(Hnd & -> & _)|(Hdue & c2 & F & [[_ ->]|[? _]])]; [| |done].
      - cbn. split; [done|]. split.
        + rewrite Hc in Hnd. apply Rnot_le_lt in Hnd. unfold tick in Hnd. cbn in Hnd.
          destruct (Z.eqb_spec (c_start c) (-1)); [|destruct (Z.eqb_spec (c_start c) (-1)); [done|exact Hnd]].
          destruct (Z.eqb_spec t (-1)); exact Hnd.
        + split; [intros ->; rewrite decide_True by done; by destruct (c_meas c ref)|].
          intros Hne _. case_decide; [by destruct (c_meas c ref)|done].
      - apply flush_cases in F as [[-> [[F _]|(_ & F & _)]]|(_ & _ & [(g & e' & _ & _ & ->)|(q & e' & _ & _ & F & _)])]; [discriminate F|done| |done].
        cbn. split; [done|]. split.
        + replace (if (t =? -1)%Z then t else t) with t by (by destruct (t =? -1)%Z). rewrite Z.sub_diag. lra.
        + split; [intros ->; rewrite decide_True by done; done|]. intros _ Hlt. rewrite Hc in Hdue. exfalso. cbn in Hdue. lra. }
    destruct Hc1 as (W1 & T1 & R1 & K1).
    destruct (IH ltac:(intros k Hk; apply Hd; by right) c1 W1 (or_intror T1)) as (c' & Hf' & W' & T' & R' & K').
    exists c'. split; [done|]. split; [done|]. split.
    { intros _. destruct sensors as [|s2 sensors]; [|by apply T']. cbn in Hf'. injection Hf' as <-. done. }
    split.
    { intros [Es|Hin]%elem_of_cons; [|by apply R']. apply K'; [|done]. by apply R1. }
    intros Hne Hlt. apply K'; [|done]. by apply K1.
Qed.
Theorem ego_simulator_returns (e : E) (W : R) (data : nat -> list (Z * D)) (sensors : list nat) :
  (0 < W)%R -> ref ∈ sensors ->
  (forall k, k ∈ sensors -> map fst (data k) = map fst (data ref)) ->
  (forall l, fit l = Ret tt) -> (forall e b, exists g e', addBatch e b = (Ret g, e')) ->
  exists c', ego_program h ref data sensors (cal_new h e W) = (c', Ret tt).
Proof.
  intros HW Hr Hst Hf Hb.
  assert (G : forall n i (c : cal), i + n = length (data ref) -> fine c W ->
    exists c', ego_feed h data sensors n i c = (c', Ret tt) /\ fine c' W).
  { induction n as [|n IH]; intros i c Hi Hfine; [by exists c|]. cbn [ego_feed].
    assert (exists t m, data ref !! i = Some (t, m)) as (t & m & Et).
    { destruct (lookup_lt_is_Some_2 (data ref) i) as [[t m] ?]; [lia|]. eauto. }
    assert (Hd : forall k, k ∈ sensors -> exists m, data k !! i = Some (t, m)).
    { intros k Hk. specialize (Hst k Hk). assert (map fst (data k) !! i = Some t) as X.
      { rewrite Hst. change (map fst (data ref)) with (fst <$> data ref). rewrite list_lookup_fmap, Et. done. }
      change (map fst (data k)) with (fst <$> data k) in X. rewrite list_lookup_fmap in X. destruct (data k !! i) as [[t' m']|]; [|done]. injection X as ->. eauto. }
    destruct Hfine as [Hw Hfine].
    destruct (ego_round_returns data i t sensors Hf Hb W HW Hd c Hw) as (c1 & E1 & W1 & _ & R1 & _).
    { destruct Hfine as [[_ Hs]|Hne].
      - right. cbn. rewrite Hs. cbn. rewrite Z.sub_diag. lra.
      - left. cbn. unfold ego_splines. destruct (c_meas c ref); [done|apply Hf]. }
    rewrite E1. apply IH; [lia|]. split; [done|]. right. by apply R1. }
  destruct (G (length (data ref)) 0 (cal_new h e W)) as (c1 & E1 & [W1 F1]); [lia|split; [done|by left]|].
  unfold ego_program. rewrite bool_decide_true by done. rewrite E1. destruct (ego_unprocessed sensors c1) eqn:U; [|eauto].
  destruct F1 as [[F1 _]|F1].
  - exfalso. unfold ego_unprocessed in U. apply existsb_exists in U as (k & _ & Hk). by rewrite F1 in Hk.
  - unfold addMeasurements. cbn. unfold ego_splines. destruct (c_meas c1 ref) eqn:Em; [done|]. rewrite Hf.
    destruct (Hb (c_est c1) (terms (c_est c1) (c_meas c1))) as (g & e' & ->). eauto.
Qed.
End ego.

(** C108, refuted in general: with a delayed sensor that comes after the reference sensor in the map, the very last measurement can close a
    window; the program then asks for a batch without any measurement of the reference sensor and ends with an exception before it writes a result,
    although every fit and every batch succeeds. *)
Definition two_sensors (k : nat) : list (Z * unit) :=
  match k with
  | 0 => [(500000000, tt); (1000000000, tt)]%Z
  | 1 => [(550000000, tt); (1050000000, tt)]%Z       (* delay: 50 ms *)
  | _ => []
  end.
Definition ok_hooks : hooks nat unit unit unit unit := ego_hooks 0 (fun _ => Ret tt) (fun _ _ => []) (fun e _ => (Ret 1%R, e)) (fun e => e).
Theorem ego_simulator_end_refuted :
  exists c', ego_program ok_hooks 0 two_sensors [0; 1] (cal_new ok_hooks tt (55 / 100)) = (c', Throw StdOutOfRange) /\
    length (c_gains c') = 1 /\ c_meas c' 1 = [(1050000000%Z, tt)] /\ c_meas c' 0 = [].
Proof.
  unfold ego_program. rewrite bool_decide_true by (by left). cbn [two_sensors length ego_feed ego_feed_round lookup list_lookup].
  set (c0 := cal_new ok_hooks tt (55 / 100)).
  assert (A1 : addOne ok_hooks c0 0 500000000 tt = (push (tick c0 500000000) 0 (500000000%Z, tt), Ret tt)).
  { unfold addOne, addMeasurement. cbn -[IZR pow]. destruct (Rle_dec _ _) as [H|_]; [|done]. exfalso. rewrite Z.sub_diag in H. lra. }
  rewrite A1. set (c1 := push _ _ _).
  assert (A2 : addOne ok_hooks c1 1 550000000 tt = (push (tick c1 550000000) 1 (550000000%Z, tt), Ret tt)).
  { unfold addOne, addMeasurement. cbn -[IZR pow]. destruct (Rle_dec _ _) as [H|_]; [|done]. exfalso.
    change (550000000 - 500000000)%Z with 50000000%Z in H. lra. }
  rewrite A2. set (c2 := push _ _ (550000000%Z, tt)).
  assert (A3 : addOne ok_hooks c2 0 1000000000 tt = (push (tick c2 1000000000) 0 (1000000000%Z, tt), Ret tt)).
  { unfold addOne, addMeasurement. cbn -[IZR pow]. destruct (Rle_dec _ _) as [H|_]; [|done]. exfalso.
    change (1000000000 - 500000000)%Z with 500000000%Z in H. lra. }
  cbn [lookup list_lookup]. rewrite A3. set (c3 := push _ _ (1000000000%Z, tt)).
  assert (A4 : exists c4, addOne ok_hooks c3 1 1050000000 tt = (c4, Ret tt) /\ length (c_gains c4) = 1 /\
     c_meas c4 1 = [(1050000000%Z, tt)] /\ c_meas c4 0 = []).
  { unfold addOne, addMeasurement. cbn -[IZR pow]. destruct (Rle_dec _ _) as [_|H].
    - eexists. split; [reflexivity|]. done.
    - exfalso. apply H. change (1050000000 - 500000000)%Z with 550000000%Z. lra. }
  destruct A4 as (c4 & -> & G1 & G2 & G3). cbn [ego_unprocessed existsb]. rewrite G2, G3. cbn.
  unfold addMeasurements. cbn. unfold ego_splines. rewrite G3. eexists. split; [reflexivity|]. done.
Qed.


(** ** Spline writers (C109) *)
(** The sampled points of [f] over [lo, hi): every [step] from [lo], strictly before [hi]. *)
Definition num_samples (lo hi step : Z) : nat := Z.to_nat ((hi - lo + step - 1) / step).
Definition samples {T : Type} (f : Z -> T) (lo hi step : Z) : list (Z * T) :=
  map (fun k => let t := (lo + Z.of_nat k * step)%Z in (t, f t)) (seq 0 (num_samples lo hi step)).
Lemma num_samples_spec lo hi step k : (0 < step)%Z -> k < num_samples lo hi step <-> (lo + Z.of_nat k * step < hi)%Z.
Proof.
  intros Hs. unfold num_samples.
  pose proof (Z.div_mod (hi - lo + step - 1) step ltac:(lia)) as D. pose proof (Z.mod_pos_bound (hi - lo + step - 1) step Hs) as M.
  set (q := ((hi - lo + step - 1) / step)%Z) in *. split; intros H.
  - assert (Z.of_nat k + 1 <= q)%Z by lia. nia.
  - assert (Z.of_nat k < q)%Z by nia. lia.
Qed.
Lemma num_samples_S lo hi step : (0 < step)%Z -> (lo < hi)%Z -> num_samples lo hi step = S (num_samples (lo + step) hi step).
Proof.
  intros Hs Hl. assert (G : forall k, k < num_samples lo hi step <-> k < S (num_samples (lo + step) hi step)).
  { intros [|k].
    - rewrite num_samples_spec by done. lia.
    - rewrite num_samples_spec by done. rewrite <- Nat.succ_lt_mono, num_samples_spec by done. lia. }
  destruct (Nat.lt_trichotomy (num_samples lo hi step) (S (num_samples (lo + step) hi step))) as [H|[H|H]]; [|done|].
  - apply G in H. lia.
  - apply G in H. lia.
Qed.
Lemma samples_unfold {T : Type} (f : Z -> T) lo hi step : (0 < step)%Z ->
  samples f lo hi step = if (lo <? hi)%Z then (lo, f lo) :: samples f (lo + step) hi step else [].
Proof.
  intros Hs. destruct (Z.ltb_spec lo hi) as [Hl|Hl].
  - unfold samples. rewrite num_samples_S by done. rewrite <- cons_seq. cbn [map]. f_equal.
    + rewrite Z.mul_0_l, Z.add_0_r. done.
    + rewrite <- seq_shift, map_map. apply map_ext. intros k. cbn. replace (lo + Z.of_nat (S k) * step)%Z with (lo + step + Z.of_nat k * step)%Z by lia. done.
  - unfold samples. destruct (num_samples lo hi step) eqn:En; [done|]. exfalso.
    assert (0 < num_samples lo hi step) as X by lia. apply num_samples_spec in X; [|done]. lia.
Qed.
(** One pair of splines: exactly the sampled points, for a positive step; in particular never the value at the end time. *)
Theorem write_spline_samples {Pt : Type} (s : spline Pt) step fuel : (0 < step)%Z -> num_samples (sp_min s) (sp_max s) step < fuel ->
  write_spline fuel s step (sp_min s) = Some (samples (sp_at s) (sp_min s) (sp_max s) step).
Proof.
  intros Hs. generalize (sp_min s) as t. induction fuel as [|fuel IH]; intros t Hf; [lia|]. cbn [write_spline].
  rewrite samples_unfold by done. destruct (Z.ltb_spec t (sp_max s)) as [Hl|Hl]; [|done].
  rewrite num_samples_S in Hf by done. rewrite IH by lia. done.
Qed.
Theorem samples_times {T : Type} (f : Z -> T) lo hi step t v : (0 < step)%Z ->
  (t, v) ∈ samples f lo hi step <-> v = f t /\ (lo <= t < hi)%Z /\ ((t - lo) mod step = 0)%Z.
Proof.
  intros Hs. unfold samples. rewrite elem_of_list_In, in_map_iff. split.
  - intros (k & Hk & Hin). injection Hk as <- <-. apply in_seq in Hin as [_ Hin]. apply num_samples_spec in Hin; [|done].
    split; [done|]. split; [nia|]. replace (lo + Z.of_nat k * step - lo)%Z with (Z.of_nat k * step)%Z by lia. apply Z_mod_mult.
  - intros (-> & Hb & Hm). exists (Z.to_nat ((t - lo) / step)).
    assert (E : (Z.of_nat (Z.to_nat ((t - lo) / step)) * step = t - lo)%Z).
    { rewrite Z2Nat.id by (apply Z.div_pos; lia). pose proof (Z.div_mod (t - lo) step ltac:(lia)). lia. }
    rewrite E. replace (lo + (t - lo))%Z with t by lia. split; [done|]. apply in_seq. split; [lia|]. apply num_samples_spec; [done|]. rewrite E. lia.
Qed.
(** A step that is not positive (a configured period below a nanosecond, or negative): the writer never ends. *)
Theorem write_spline_never_ends {Pt : Type} (s : spline Pt) step fuel : (step <= 0)%Z -> (sp_min s < sp_max s)%Z ->
  write_spline fuel s step (sp_min s) = None.
Proof.
  intros Hs. generalize (sp_min s) as t. induction fuel as [|fuel IH]; intros t Ht; [done|]. cbn [write_spline].
  rewrite (proj2 (Z.ltb_lt _ _) Ht). rewrite IH by lia. done.
Qed.
(** All batches. *)
Section writer.
Context {A B : Type}.
Implicit Types (b : spline_batch A B).
Definition batch_samples (step : Z) b : list (Z * (A * B)) :=
  concat (zip_with (fun tr g => let '(lo, hi, f) := tr in samples (fun t => (f t, g t)) lo hi step) (sb_trans b) (sb_rot b)).
Definition batch_fuel (step fuel : nat) b : Prop :=
  forall lo hi f, (lo, hi, f) ∈ sb_trans b -> num_samples lo hi (Z.of_nat step) < fuel.
Lemma write_batch_spec (step : nat) fuel (rots0 : list (Z -> B)) : 0 < step -> forall trs rots i, drop i rots0 = rots ->
  (forall lo hi f, (lo, hi, f) ∈ trs -> num_samples lo hi (Z.of_nat step) < fuel) ->
  write_batch (A := A) fuel (Z.of_nat step) rots0 trs i =
    Some (concat (zip_with (fun tr g => let '(lo, hi, f) := tr in samples (fun t => (f t, g t)) lo hi (Z.of_nat step)) trs rots),
          if decide (length trs <= length rots) then Ret tt else Throw StdOutOfRange).
Proof.
  intros Hs. induction trs as [|[[lo hi] f] trs IH]; intros rots i Hd Hf; cbn [write_batch].
  - rewrite decide_True by (cbn; lia). done.
  - destruct rots as [|g rots].
    + assert (rots0 !! i = None) as ->. { apply lookup_ge_None. apply (f_equal length) in Hd. rewrite drop_length in Hd. cbn in Hd. lia. }
      rewrite decide_False by (cbn; lia). done.
    + assert (rots0 !! i = Some g) as ->. { rewrite <- (Nat.add_0_r i), <- lookup_drop, Hd. done. }
      pose proof (write_spline_samples (Spline lo hi (fun t => (f t, g t))) (Z.of_nat step) fuel ltac:(lia)) as Hw. cbn in Hw. rewrite Hw by (apply (Hf lo hi f); by left).
      rewrite (IH rots (S i)).
      * cbn [zip_with concat length]. f_equal. f_equal. repeat case_decide; (done || lia).
      * apply (f_equal (drop 1)) in Hd. rewrite drop_drop in Hd. rewrite Nat.add_1_r in Hd. done.
      * intros lo' hi' f' Hin. apply (Hf lo' hi' f'). by right.
Qed.
Theorem write_all_samples (step fuel : nat) (bs : list (spline_batch A B)) : 0 < step ->
  (forall b, b ∈ bs -> batch_fuel step fuel b) -> (forall b, b ∈ bs -> length (sb_trans b) <= length (sb_rot b)) ->
  forall rest, write_all fuel (Z.of_nat step) (map Some bs ++ rest) =
    match write_all fuel (Z.of_nat step) rest with
    | Some (l, r) => Some (concat (map (batch_samples (Z.of_nat step)) bs) ++ l, r) | None => None end.
Proof.
  intros Hs. induction bs as [|b bs IH]; intros Hf Hl rest; cbn [map app concat].
  - by destruct (write_all _ _ rest) as [[l r]|].
  - cbn [write_all]. rewrite (write_batch_spec step fuel (sb_rot b) Hs (sb_trans b) (sb_rot b) 0 eq_refl) by (apply Hf; by left).
    rewrite decide_True by (apply Hl; by left). rewrite IH; [|intros b' Hb; apply Hf; by right|intros b' Hb; apply Hl; by right].
    destruct (write_all _ _ rest) as [[l r]|]; [|done]. cbn. unfold batch_samples at 2. by rewrite <- app_assoc.
Qed.
(** What the whole writer does: all good batches; up to a batch with too few rotation splines; up to a batch without splines. *)
Theorem write_all_good (step fuel : nat) (bs : list (spline_batch A B)) : 0 < step ->
  (forall b, b ∈ bs -> batch_fuel step fuel b) -> (forall b, b ∈ bs -> length (sb_trans b) <= length (sb_rot b)) ->
  write_all fuel (Z.of_nat step) (map Some bs) = Some (concat (map (batch_samples (Z.of_nat step)) bs), Ret tt).
Proof.
  intros Hs Hf Hl. pose proof (write_all_samples step fuel bs Hs Hf Hl []) as H. rewrite app_nil_r in H. rewrite H. cbn. by rewrite app_nil_r.
Qed.
Theorem write_all_missing_rotation (step fuel : nat) (bs : list (spline_batch A B)) b rest : 0 < step ->
  (forall b', b' ∈ b :: bs -> batch_fuel step fuel b') -> (forall b', b' ∈ bs -> length (sb_trans b') <= length (sb_rot b')) ->
  length (sb_rot b) < length (sb_trans b) ->
  write_all fuel (Z.of_nat step) (map Some bs ++ Some b :: rest) =
    Some (concat (map (batch_samples (Z.of_nat step)) bs) ++ batch_samples (Z.of_nat step) b, Throw StdOutOfRange).
Proof.
  intros Hs Hf Hl Hb. rewrite (write_all_samples step fuel bs Hs); [|intros b' Hb'; apply Hf; by right|done].
  cbn [write_all]. rewrite (write_batch_spec step fuel (sb_rot b) Hs (sb_trans b) (sb_rot b) 0 eq_refl) by (apply Hf; by left).
  rewrite decide_False by lia. done.
Qed.
(** C109, refuted for batches without splines: the null pointer of the failed cast is dereferenced. *)
Theorem write_all_other_batch_refuted (step fuel : nat) (bs : list (spline_batch A B)) rest : 0 < step ->
  (forall b, b ∈ bs -> batch_fuel step fuel b) -> (forall b, b ∈ bs -> length (sb_trans b) <= length (sb_rot b)) ->
  write_all fuel (Z.of_nat step) (map Some bs ++ None :: rest) = Some (concat (map (batch_samples (Z.of_nat step)) bs), UB).
Proof. intros Hs Hf Hl. rewrite (write_all_samples step fuel bs Hs Hf Hl). cbn. by rewrite app_nil_r. Qed.
End writer.
(** One spline over 0..25 ns sampled every 10 ns: 0, 10 and 20, not 25. *)
Example writer_example : write_all 100 10 [Some (SplineBatch [(0, 25, fun t => t)%Z] [fun t => (2 * t)%Z])] =
  Some ([(0, (0, 0)); (10, (10, 20)); (20, (20, 40))]%Z, Ret tt).
Proof. reflexivity. Qed.
Example writer_example_hyps : batch_fuel 10 100 (SplineBatch [(0, 25, fun t => t)%Z] [fun t : Z => (2 * t)%Z]).
Proof. intros lo hi f [= -> -> ->]%elem_of_list_singleton. vm_compute. lia. Qed.
Print Assumptions td_simulator_conservation.
Print Assumptions td_simulator_returns.
Print Assumptions ego_simulator_conservation.
Print Assumptions ego_simulator_returns.
Print Assumptions ego_simulator_end_refuted.
Print Assumptions write_spline_samples.
Print Assumptions samples_times.
Print Assumptions write_spline_never_ends.
Print Assumptions write_all_good.
Print Assumptions write_all_missing_rotation.
Print Assumptions write_all_other_batch_refuted.
