(** Tightened after mutation: what a flush of the example calibrators ends with. *)
From stdpp Require Import prelude list.
From Coq Require Import Reals Lra ZArith.
From Flocq Require Import Core.
From Verif Require Import Base CalibratorModel.
Local Open Scope R_scope.

(** The outcome of an operation without its value. *)
Definition outcome_of {A} (r : result A) : result unit :=
  match r with Ret _ => Ret tt | Throw e => Throw e | UB => UB | Diverge => Diverge end.
(** A flush with too few measurements does nothing; otherwise it ends like the spline fit if that fails, keeping all measurements,
    and else like the estimator, exactly, with the measurements dropped. *)
Theorem flush_outcome {K D E B P : Type} `{EqDecision K} (h : hooks K D E B P) (c : cal K D E B P) :
  (h_ready h (c_meas c) = false -> addMeasurements h c = (c, Ret tt)) /\
  (h_ready h (c_meas c) = true -> h_splines h (c_meas c) <> Ret tt ->
     addMeasurements h c = (c, h_splines h (c_meas c))) /\
  (h_ready h (c_meas c) = true -> h_splines h (c_meas c) = Ret tt ->
     snd (addMeasurements h c) = outcome_of (fst (h_addBatch h (c_est c) (h_terms h (c_est c) (c_meas c)))) /\
     c_est (fst (addMeasurements h c)) = snd (h_addBatch h (c_est c) (h_terms h (c_est c) (c_meas c))) /\
     forall k, c_meas (fst (addMeasurements h c)) k = []).
Proof.
  unfold addMeasurements. split; [|split].
  - intros ->. done.
  - intros -> Hs. cbn [negb]. destruct (h_splines h (c_meas c)) as [[]|e| |]; done.
  - intros -> ->. cbn [negb]. cbn [c_est clearMeasurements c_start c_last].
    destruct (h_addBatch h (c_est c) (h_terms h (c_est c) (c_meas c))) as [[x|e| |] e']; done.
Qed.

Lemma same_time_none knots ts t0 ts' : ts = t0 :: ts' -> List.last ts t0 = t0 -> numSegments knots ts = None.
Proof.
  intros -> Hl. unfold numSegments. rewrite Hl, Z.sub_diag. destruct (Req_EM_T _ 0) as [|H]; [done|]. exfalso. apply H. lra.
Qed.
(** Flushing the time-delay or the car calibrator when the last pose has the time of the first one is undefined, whatever the
    library does: the number of measurements per second is infinite and is converted to int. *)
Theorem td_flush_same_time_refuted {D E P : Type} tmin tmax delay bound knots fit addBatch params (c : cal td_kind D E (td_kind * (Z * D)) P) m l :
  c_meas c TdPose = m :: l -> l <> [] -> fst (List.last l m) = fst m ->
  addMeasurements (td_hooks tmin tmax delay bound knots fit addBatch params) c = (c, UB).
Proof.
  intros Em Hl Ht. unfold addMeasurements. cbn [td_hooks h_ready h_splines]. rewrite Em.
  destruct l as [|m2 l]; [done|]. cbn [length Nat.leb negb]. unfold initSplines.
  rewrite (same_time_none _ _ (fst m) (map fst (m2 :: l))); [done|done|].
  rewrite <- Ht at 2. clear Em Ht Hl. cbn [map]. revert m m2. induction l as [|x l IH]; intros m m2; [done|]. exact (IH m x).
Qed.
Theorem car_flush_same_time_refuted {D E P : Type} tmin tmax delay bound knots below_cutoff o backward slow fit addBatch params
  (c : cal car_kind D E (car_term D) P) m l :
  c_meas c CPose = m :: l -> l <> [] -> fst (List.last l m) = fst m ->
  addMeasurements (car_hooks tmin tmax delay bound knots below_cutoff o backward slow fit addBatch params) c = (c, UB).
Proof.
  intros Em Hl Ht. unfold addMeasurements. cbn [car_hooks h_ready h_splines]. rewrite Em.
  destruct l as [|m2 l]; [done|]. cbn [length Nat.leb negb]. unfold initSplines.
  rewrite (same_time_none _ _ (fst m) (map fst (m2 :: l))); [done|done|].
  rewrite <- Ht at 2. clear Em Ht Hl. cbn [map]. revert m m2. induction l as [|x l IH]; intros m m2; [done|]. exact (IH m x).
Qed.
(** Non-vacuity: two poses at the same time; and a flush that reaches an estimator that does not return. *)
Example flush_outcome_ex :
  let c : cal td_kind unit unit (td_kind * (Z * unit)) unit :=
    Cal 5 5 (fun k => match k with TdPose => [(5%Z, tt); (5%Z, tt)] | _ => [] end) tt [] [] 1 [] in
  addMeasurements (td_hooks (fun _ => 0%Z) (fun _ => 0%Z) (fun _ _ => 0%Z) 0 1 (fun _ _ => Ret tt) (fun e _ => (Diverge, e)) (fun e => e)) c = (c, UB) /\
  snd (addMeasurements (Hooks (fun _ => true) (fun _ => Ret tt) (fun _ _ => []) (fun e _ => (Diverge, e)) (fun e => e)) c) = Diverge.
Proof. split; [|done]. by eapply td_flush_same_time_refuted. Qed.
