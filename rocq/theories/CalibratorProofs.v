(** Lemmas for Properties_Calibrator.v. *)
From stdpp Require Import prelude list.
From Coq Require Import Reals Lra.
From Flocq Require Import Core.
From Verif Require Import Base CalibratorModel Spec_Calibrator.
Local Open Scope R_scope.

Section proofs.
  Context {K D E B P : Type} `{EqDecision K}.
  Context (h : hooks K D E B P).
  Implicit Types (c : cal K D E B P) (l : list (event K D)).

  Lemma flush_cases c c1 r : addMeasurements h c = (c1, r) ->
    (c1 = c /\ (h_ready h (c_meas c) = false /\ r = Ret tt \/ h_ready h (c_meas c) = true /\ r <> Ret tt /\ h_splines h (c_meas c) <> Ret tt)) \/
    (h_ready h (c_meas c) = true /\ h_splines h (c_meas c) = Ret tt /\
     let b := h_terms h (c_est c) (c_meas c) in
     ((exists g e', h_addBatch h (c_est c) b = (Ret g, e') /\ r = Ret tt /\
         c1 = Cal (c_last c) (c_last c) (fun _ => []) e' (c_gains c ++ [g]) (c_hist c ++ [h_params h e']) (c_window c)
                (c_sent c ++ [Window (c_meas c) b (c_start c) (c_last c) true])) \/
      (exists q e', h_addBatch h (c_est c) b = (q, e') /\ (forall g, q <> Ret g) /\ r <> Ret tt /\
         c1 = Cal (c_last c) (c_last c) (fun _ => []) e' (c_gains c) (c_hist c) (c_window c)
                (c_sent c ++ [Window (c_meas c) b (c_start c) (c_last c) false])))).
  Proof using.
    unfold addMeasurements. destruct (h_ready h (c_meas c)) eqn:Er; simpl; [|intros [= <- <-]; eauto].
    destruct (h_splines h (c_meas c)) as [[]|ex| |] eqn:Es.
    - destruct (h_addBatch h (c_est c) _) as [q e'] eqn:Ea. destruct q as [g|ex| |]; intros [= <- <-]; right; (split; [done|]);
        (split; [done|]); [left|right|right|right].
      + exists g, e'. done.
      + by exists (Throw ex), e'.
      + by exists UB, e'.
      + by exists Diverge, e'.
    - intros [= <- <-]. left. split; [done|]. right. done.
    - intros [= <- <-]. left. split; [done|]. right. done.
    - intros [= <- <-]. left. split; [done|]. right. done.
  Qed.

  (** Add: first the clock, then perhaps a flush, then, if nothing was thrown, the measurement. *)
  Definition tick c (ts : Z) : cal K D E B P :=
    Cal (if Z.eqb (c_start c) (-1) then ts else c_start c) ts (c_meas c) (c_est c) (c_gains c) (c_hist c) (c_window c) (c_sent c).
  Definition push c (k : K) (m : Z * D) : cal K D E B P :=
    Cal (c_start c) (c_last c) (fun k' => if decide (k' = k) then c_meas c k' ++ [m] else c_meas c k')
      (c_est c) (c_gains c) (c_hist c) (c_window c) (c_sent c).
  Lemma add_cases c k ts d c1 r : addOne h c k ts d = (c1, r) ->
    (~ c_window c <= IZR (ts - c_start (tick c ts)) / 10 ^ 9 /\ c1 = push (tick c ts) k (ts, d) /\ r = Ret tt) \/
    (c_window c <= IZR (ts - c_start (tick c ts)) / 10 ^ 9 /\ exists c2, addMeasurements h (tick c ts) = (c2, r) /\
       ((r = Ret tt /\ c1 = push c2 k (ts, d)) \/ (r <> Ret tt /\ c1 = c2))).
  Proof using.
    unfold addOne, addMeasurement. fold (tick c ts).
    replace (if Z.eqb (c_start c) (-1) then ts else c_start c) with (c_start (tick c ts)) by done.
    destruct (Rle_dec _ _) as [Hd|Hd].
    - destruct (addMeasurements h (tick c ts)) as [c2 r2] eqn:Ef. destruct r2 as [[]|ex| |]; intros [= <- <-]; right;
        (split; [done|]); exists c2; (split; [done|]); [by left|by right..].
    - intros [= <- <-]. left. done.
  Qed.

  (** A property of runs by induction: it holds if every step preserves it, the step's result included. *)
  Lemma crun_cons c e l : crun h c (e :: l) =
    let (c1, r) := cstep h c e in
    match r with UB => (c1, [UB]) | Diverge => (c1, [Diverge]) | _ => let (c2, rs) := crun h c1 l in (c2, r :: rs) end.
  Proof using. simpl. destruct (cstep h c e) as [c1 [[]|ex| |]]; done. Qed.
  Lemma crun_ind_inv (I : cal K D E B P -> Prop) (Q : event K D -> Prop) c l :
    (forall c e, I c -> Q e -> I (cstep h c e).1) -> I c -> Forall Q l -> I (crun h c l).1.
  Proof using.
    intros Hs. revert c. induction l as [|e l IH]; intros c Hc HQ; [done|].
    apply Forall_cons in HQ as [HQ1 HQ2]. rewrite crun_cons. specialize (Hs c e Hc HQ1).
    destruct (cstep h c e) as [c1 r]. simpl in Hs.
    assert (I (crun h c1 l).1) by eauto. destruct (crun h c1 l) as [c2 rs].
    destruct r as [[]|ex| |]; done.
  Qed.

  (** Conservation. *)
  Definition kept c (k : K) : list (Z * D) := concat (map (fun w => w_meas w k) (c_sent c)) ++ c_meas c k.
  Lemma kept_snoc c k w cst cl ce cg ch cw :
    kept (Cal cst cl (fun _ => []) ce cg ch cw (c_sent c ++ [w])) k = concat (map (fun w => w_meas w k) (c_sent c)) ++ w_meas w k.
  Proof using. unfold kept. simpl. rewrite map_app, concat_app. simpl. by rewrite !app_nil_r. Qed.
  Lemma kept_flush c c1 r k : addMeasurements h c = (c1, r) -> kept c1 k = kept c k.
  Proof using.
    intros F. apply flush_cases in F as [[-> _]|(_ & _ & [(g & e' & _ & _ & ->)|(q & e' & _ & _ & _ & ->)])]; [done| |];
      rewrite kept_snoc; done.
  Qed.
  Lemma kept_push c k m k' : kept (push c k m) k' = kept c k' ++ (if decide (k' = k) then [m] else []).
  Proof using. unfold kept, push. simpl. destruct (decide _); [by rewrite app_assoc|by rewrite app_nil_r]. Qed.
  Lemma kept_step c e k : ~ is_clear e ->
    kept (cstep h c e).1 k = kept c k ++ accepted [e] [(cstep h c e).2] k.
  Proof using.
    intros Hn. destruct e as [k' ts d| | |w]; simpl.
    - destruct (addOne h c k' ts d) as [c1 r] eqn:Ea. simpl.
      apply add_cases in Ea as [(_ & -> & ->)|(_ & c2 & F & [[-> ->]|[Hr ->]])].
      + rewrite kept_push. rewrite app_nil_r. done.
      + rewrite kept_push, app_nil_r. apply (kept_flush _ _ _ k) in F. rewrite F. done.
      + apply (kept_flush _ _ _ k) in F. rewrite F. destruct r as [[]|ex| |]; [done|by rewrite app_nil_r..].
    - destruct (addMeasurements h c) as [c1 r] eqn:F. simpl. rewrite app_nil_r. by eapply kept_flush.
    - by destruct Hn.
    - rewrite app_nil_r. done.
  Qed.
  Lemma accepted_cons e l r rs k : accepted (e :: l) (r :: rs) k = accepted [e] [r] k ++ accepted l rs k.
  Proof using. destruct e as [k' ts d| | |w], r as [[]|ex| |]; simpl; by rewrite ?app_nil_r. Qed.
  Lemma accepted_bad e l r k : r = UB \/ r = Diverge -> accepted (e :: l) [r] k = [].
  Proof using. intros [-> | ->]; destruct e; destruct l as [|[] l]; done. Qed.
  Lemma kept_run c l k : Forall (fun e => ~ is_clear e) l ->
    kept (crun h c l).1 k = kept c k ++ accepted l (crun h c l).2 k.
  Proof using.
    revert c. induction l as [|e l IH]; intros c HQ; [simpl; by rewrite app_nil_r|].
    apply Forall_cons in HQ as [HQ1 HQ2]. rewrite crun_cons. pose proof (kept_step c e k HQ1) as Hs.
    destruct (cstep h c e) as [c1 r]. cbn [fst snd] in Hs. specialize (IH c1 HQ2).
    destruct (crun h c1 l) as [c2 rs]. simpl in IH.
    destruct r as [[]|ex| |]; simpl fst; simpl snd.
    - rewrite accepted_cons, IH, Hs. by rewrite app_assoc.
    - rewrite accepted_cons, IH, Hs. by rewrite app_assoc.
    - rewrite Hs, (accepted_bad e l), (accepted_bad e []) by auto. done.
    - rewrite Hs, (accepted_bad e l), (accepted_bad e []) by auto. done.
  Qed.
  Lemma kept_step_sub c e k :
    exists u, (cstep h c e).1 = (cstep h c e).1 /\ u `sublist_of` kept c k /\
      kept (cstep h c e).1 k = u ++ accepted [e] [(cstep h c e).2] k.
  Proof using.
    destruct e as [k' ts d| | |w]; try (exists (kept c k); (split; [done|]); (split; [done|]); by apply kept_step; intros []).
    exists (concat (map (fun w => w_meas w k) (c_sent c))). split; [done|]. split.
    - unfold kept. apply sublist_inserts_r. done.
    - simpl. unfold kept, clearMeasurements. simpl. done.
  Qed.
  Lemma kept_run_sub c l k : exists u, u `sublist_of` kept c k ++ accepted l (crun h c l).2 k /\ kept (crun h c l).1 k = u.
  Proof using.
    revert c. induction l as [|e l IH]; intros c.
    { exists (kept c k). simpl. rewrite app_nil_r. done. }
    rewrite crun_cons. destruct (kept_step_sub c e k) as (u & _ & Hu & Hs).
    destruct (cstep h c e) as [c1 r]. cbn [fst snd] in Hs. destruct (IH c1) as (v & Hv & IHv).
    destruct (crun h c1 l) as [c2 rs]. simpl in Hv, IHv.
    assert (G : forall r', r' = UB \/ r' = Diverge -> accepted [e] [r'] k = []) by (intros; by apply accepted_bad).
    destruct r as [[]|ex| |]; simpl fst; simpl snd.
    - exists v. split; [|done]. etrans; [exact Hv|]. rewrite accepted_cons, Hs, app_assoc. by repeat apply sublist_app.
    - exists v. split; [|done]. etrans; [exact Hv|]. rewrite accepted_cons, Hs, app_assoc. by repeat apply sublist_app.
    - exists u. split; [|by rewrite Hs, G, app_nil_r by auto]. rewrite accepted_bad by auto. by rewrite app_nil_r.
    - exists u. split; [|by rewrite Hs, G, app_nil_r by auto]. rewrite accepted_bad by auto. by rewrite app_nil_r.
  Qed.

  (** Replay. *)
  Lemma replay_snoc e ws s : let '(e1, gs, ps) := replay (h_terms h) (h_addBatch h) (h_params h) e ws in
    replay (h_terms h) (h_addBatch h) (h_params h) e (ws ++ [s]) =
    match h_addBatch h e1 (h_terms h e1 s) with
    | (Ret g, e2) => (e2, gs ++ [g], ps ++ [h_params h e2]) | (_, e2) => (e2, gs, ps) end.
  Proof using.
    revert e. induction ws as [|w ws IH]; intros e; simpl.
    { destruct (h_addBatch h e _) as [[g|ex| |] e2]; done. }
    destruct (h_addBatch h e (h_terms h e w)) as [q e2] eqn:Ea. specialize (IH e2).
    destruct (replay _ _ _ e2 ws) as [[e1 gs] ps]. rewrite IH.
    destruct q as [g|ex| |]; try done. destruct (h_addBatch h e1 _) as [[g2|ex| |] e3]; done.
  Qed.
  Definition replayed (e0 : E) c : Prop :=
    exists ps, replay (h_terms h) (h_addBatch h) (h_params h) e0 (map w_meas (c_sent c)) = (c_est c, c_gains c, ps) /\
      c_hist c = h_params h e0 :: ps /\ length (c_gains c) = length (List.filter w_returned (c_sent c)).
  Lemma replayed_flush e0 c c1 r : addMeasurements h c = (c1, r) -> replayed e0 c -> replayed e0 c1.
  Proof using.
    intros F (ps & R1 & R2 & R3).
    assert (LF : forall (w : window K D B) ws, length (List.filter w_returned (ws ++ [w])) =
      (length (List.filter w_returned ws) + if w_returned w then 1 else 0)%nat).
    { intros w ws. induction ws as [|x ws IHw]; simpl; [by destruct (w_returned w)|].
      destruct (w_returned x); simpl; rewrite IHw; done. }
    apply flush_cases in F as [[-> _]|(_ & _ & [(g & e' & Ea & _ & ->)|(q & e' & Ea & Hq & _ & ->)])]; [by exists ps| |];
      unfold replayed; simpl; rewrite map_app; simpl;
      pose proof (replay_snoc e0 (map w_meas (c_sent c)) (c_meas c)) as Hr; rewrite R1, Ea in Hr; rewrite Hr.
    - exists (ps ++ [h_params h e']). split; [done|]. split; [by rewrite R2|].
      rewrite app_length, LF, R3. done.
    - exists ps. split; [destruct q; [by destruct (Hq a)|done..]|]. split; [done|]. rewrite LF, R3. simpl. lia.
  Qed.
  Lemma replayed_step e0 c e : replayed e0 c -> replayed e0 (cstep h c e).1.
  Proof using.
    intros Hc. destruct e as [k ts d| | |w]; simpl; try done.
    - destruct (addOne h c k ts d) as [c1 r] eqn:Ea. simpl.
      apply add_cases in Ea as [(_ & -> & ->)|(_ & c2 & F & [[-> ->]|[Hr ->]])]; [done| |];
        eapply replayed_flush in F; done.
    - destruct (addMeasurements h c) as [c1 r] eqn:F. by eapply replayed_flush.
  Qed.

  (** Windows sent by add calls are long enough. *)
  Lemma long_step (W : R) c e : is_add e ->
    c_window c = W /\ Forall (fun w => W <= IZR (w_end w - w_start w) / 10 ^ 9 /\ h_ready h (w_meas w) = true) (c_sent c) ->
    c_window (cstep h c e).1 = W /\
    Forall (fun w => W <= IZR (w_end w - w_start w) / 10 ^ 9 /\ h_ready h (w_meas w) = true) (c_sent (cstep h c e).1).
  Proof using.
    destruct e as [k ts d| | |w]; try done. intros _ [HW Hc]. simpl.
    destruct (addOne h c k ts d) as [c1 r] eqn:Ea. simpl.
    apply add_cases in Ea as [(_ & -> & ->)|(Hd & c2 & F & Hr)]; [done|].
    assert (c_window c1 = c_window c2 /\ c_sent c1 = c_sent c2) as [-> ->] by (destruct Hr as [[-> ->]|[_ ->]]; done).
    apply flush_cases in F as [[-> _]|(Hy & _ & [(g & e' & _ & _ & ->)|(q & e' & _ & _ & _ & ->)])]; [done| |];
      simpl; (split; [done|]); apply Forall_app; (split; [done|]); apply Forall_singleton; rewrite <- HW; done.
  Qed.

  (** Tiling and time containment. *)
  Definition nonempty_windows : Prop :=
    forall s, h_ready h s = true -> h_splines h s = Ret tt -> exists k, s k <> [].
  Fixpoint tiled (t : Z) (ws : list (window K D B)) : Prop :=
    match ws with [] => True | w :: ws' => w_start w = t /\ tiled (w_end w) ws' end.
  Definition tile_end (t : Z) (ws : list (window K D B)) : Z := List.last (map w_end ws) t.
  Lemma tile_end_cons t w ws : tile_end t (w :: ws) = tile_end (w_end w) ws.
  Proof using.
    unfold tile_end. simpl. destruct ws as [|v ws]; [done|]. simpl map.
    generalize (map w_end ws) as l, (w_end v) as x. clear. intros l. induction l as [|y l IH]; intros x; [done|]. apply (IH y).
  Qed.
  Lemma tiled_snoc t ws w : tiled t ws -> w_start w = tile_end t ws -> tiled t (ws ++ [w]).
  Proof using.
    revert t. induction ws as [|v ws IH]; intros t; simpl; [done|]. intros [Hv Ht] Hw. split; [done|].
    apply IH; [done|]. by rewrite tile_end_cons in Hw.
  Qed.
  Lemma tile_end_snoc t ws w : tile_end t (ws ++ [w]) = w_end w.
  Proof using. unfold tile_end. rewrite map_app. simpl. by rewrite List.last_last. Qed.

  Definition tile_inv (t0 : Z) c : Prop :=
    tiled t0 (c_sent c) /\ c_start c = tile_end t0 (c_sent c) /\ (c_start c <> -1)%Z /\ (c_last c <> -1)%Z.
  Lemma tile_flush t0 c c1 r : addMeasurements h c = (c1, r) -> tile_inv t0 c -> tile_inv t0 c1.
  Proof using.
    intros F (H1 & H2 & H3 & H4).
    apply flush_cases in F as [[-> _]|(_ & _ & [(g & e' & Ea & _ & ->)|(q & e' & Ea & Hq & _ & ->)])]; [done| |];
      unfold tile_inv; simpl; rewrite tile_end_snoc; simpl;
      (split; [by apply tiled_snoc|done]).
  Qed.
  Lemma tile_step t0 c e : Forall (fun ts => ts <> (-1)%Z) (stamps [e]) -> tile_inv t0 c -> tile_inv t0 (cstep h c e).1.
  Proof using.
    intros He Hc. destruct e as [k ts d| | |w]; simpl; try done.
    - simpl in He. apply Forall_cons in He as [He _].
      assert (Ht : tile_inv t0 (tick c ts)).
      { destruct Hc as (H1 & H2 & H3 & H4). unfold tile_inv, tick. simpl. destruct (Z.eqb_spec (c_start c) (-1)); [by exfalso|]. 
        exact (conj H1 (conj H2 (conj H3 He))). }
      destruct (addOne h c k ts d) as [c1 r] eqn:Ea. simpl.
      apply add_cases in Ea as [(_ & -> & ->)|(_ & c2 & F & [[-> ->]|[Hr ->]])]; [done| |];
        eapply tile_flush in F; done.
    - destruct (addMeasurements h c) as [c1 r] eqn:F. by eapply tile_flush.
  Qed.
  (** Before the first add call nothing is stored and nothing is sent. *)
  Definition fresh c : Prop := c_start c = (-1)%Z /\ c_sent c = [] /\ (forall k, c_meas c k = []).
  Lemma fresh_step c e : nonempty_windows -> fresh c -> ~ is_add e -> fresh (cstep h c e).1.
  Proof using.
    intros Hne Hf He. destruct e as [k ts d| | |w]; simpl; try done.
    - destruct (addMeasurements h c) as [c1 r] eqn:F. simpl.
      apply flush_cases in F as [[-> _]|(Hy & Hs & _)]; [done|].
      destruct (Hne _ Hy Hs) as [k Hk]. destruct Hf as (_ & _ & Hf). by destruct Hk.
    - destruct Hf as (H1 & H2 & H3). done.
  Qed.
  Lemma tile_first c k ts d : nonempty_windows -> fresh c -> ts <> (-1)%Z -> tile_inv ts (cstep h c (Add k ts d)).1.
  Proof using.
    intros Hne (H1 & H2 & H3) Hts. simpl.
    assert (Ht : tile_inv ts (tick c ts)).
    { unfold tile_inv, tick. simpl. rewrite H2. rewrite H1. simpl. unfold tile_end. simpl. done. }
    destruct (addOne h c k ts d) as [c1 r] eqn:Ea. simpl.
    apply add_cases in Ea as [(_ & -> & ->)|(_ & c2 & F & [[-> ->]|[Hr ->]])]; [done| |];
      eapply tile_flush in F; done.
  Qed.
  Lemma stamps_cons e l : stamps (e :: l) = stamps [e] ++ stamps l.
  Proof using. destruct e; done. Qed.
  Lemma tile_run c l t0 : Forall (fun ts => ts <> (-1)%Z) (stamps l) -> tile_inv t0 c -> tile_inv t0 (crun h c l).1.
  Proof using.
    intros Hl Hc. apply (crun_ind_inv _ (fun e => Forall (fun ts => ts <> (-1)%Z) (stamps [e]))); [|done|].
    - intros. by apply tile_step.
    - clear Hc. induction l as [|e l IH]; [done|]. rewrite stamps_cons, Forall_app in Hl. destruct Hl. constructor; auto.
  Qed.
  Lemma tile_run_fresh c l : nonempty_windows -> fresh c -> Forall (fun ts => ts <> (-1)%Z) (stamps l) ->
    fresh (crun h c l).1 \/ exists t0 ts, stamps l = t0 :: ts /\ tile_inv t0 (crun h c l).1.
  Proof using.
    intros Hne. revert c. induction l as [|e l IH]; intros c Hf Hl; [by left|].
    rewrite stamps_cons in Hl |- *. rewrite crun_cons. apply Forall_app in Hl as [Hl1 Hl2].
    assert (Hd : is_add e \/ ~ is_add e) by (destruct e; simpl; auto). destruct Hd as [He|He].
    - destruct e as [k ts d| | |w]; try done. right. exists ts, (stamps l). split; [done|].
      apply Forall_cons in Hl1 as [Hl1 _].
      pose proof (tile_first c k ts d Hne Hf Hl1) as Ht. destruct (cstep h c (Add k ts d)) as [c1 r]. simpl in Ht.
      pose proof (tile_run c1 l ts Hl2 Ht) as Hr. destruct (crun h c1 l). destruct r as [[]|ex| |]; done.
    - replace (stamps [e]) with (@nil Z) by (destruct e; done). simpl app.
      pose proof (fresh_step c e Hne Hf He) as Hf1. destruct (cstep h c e) as [c1 r]. simpl in Hf1.
      specialize (IH c1 Hf1 Hl2). destruct (crun h c1 l) as [c2 rs]. destruct r as [[]|ex| |]; auto.
  Qed.

  Definition inside (a b : Z) (s : K -> list (Z * D)) : Prop := forall k, Forall (fun m => (a <= fst m <= b)%Z) (s k).
  Definition time_inv (b : Z) c : Prop :=
    Forall (fun w => inside (w_start w) (w_end w) (w_meas w)) (c_sent c) /\ inside (c_start c) (c_last c) (c_meas c) /\
    (c_start c <= c_last c)%Z /\ (c_last c <= b)%Z /\ (0 <= c_start c \/ (c_start c = -1 /\ forall k, c_meas c k = []))%Z.
  Lemma inside_mono a b b' s : (b <= b')%Z -> inside a b s -> inside a b' s.
  Proof using. intros ? Hs k. eapply Forall_impl; [apply Hs|]. simpl. lia. Qed.
  Lemma inside_push a b k m s : inside a b s -> (a <= fst m <= b)%Z ->
    inside a b (fun k' => if decide (k' = k) then s k' ++ [m] else s k').
  Proof using. intros Hs Hm k'. destruct (decide _); [|apply Hs]. apply Forall_app. split; [apply Hs|by apply Forall_singleton]. Qed.
  Lemma time_flush b c c1 r : addMeasurements h c = (c1, r) -> time_inv b c -> (0 <= c_last c \/ c_last c = -1)%Z ->
    time_inv b c1 /\ c_last c1 = c_last c /\ (c_start c1 = c_start c \/ c_start c1 = c_last c).
  Proof using.
    intros F (H1 & H2 & H3 & H4 & H5) Hl.
    apply flush_cases in F as [[-> _]|(_ & _ & [(g & e' & Ea & _ & ->)|(q & e' & Ea & Hq & _ & ->)])]; [split; [done|by auto]| |];
      unfold time_inv; simpl; (split; [|by auto]); rewrite Forall_app, Forall_singleton; simpl; (split; [done|]);
      (split; [intros k; constructor|]); (split; [lia|]); (split; [lia|]); (destruct Hl; [by left|by right]).
  Qed.
  Lemma time_run b c l : Forall (fun ts => (0 <= ts)%Z) (stamps l) -> Forall (fun ts => (b <= ts)%Z) (stamps l) -> sortedZ (stamps l) ->
    time_inv b c -> (0 <= c_last c \/ c_last c = -1)%Z -> exists b', time_inv b' (crun h c l).1.
  Proof using.
    revert b c. induction l as [|e l IH]; intros b c H0 Hb Hs Hc Hl; [by exists b|].
    rewrite stamps_cons in H0, Hb, Hs. apply Forall_app in H0 as [H0 H0'], Hb as [Hb Hb']. rewrite crun_cons.
    assert (Hst : exists b', time_inv b' (cstep h c e).1 /\ Forall (fun ts => (b' <= ts)%Z) (stamps l) /\ sortedZ (stamps l) /\
      (0 <= c_last (cstep h c e).1 \/ c_last (cstep h c e).1 = -1)%Z).
    { destruct e as [k ts d| | |w]; simpl.
      - exists ts. simpl in H0, Hb, Hs. apply Forall_cons in H0 as [H0 _], Hb as [Hb _]. destruct Hs as [Hs1 Hs2].
        destruct Hc as (C1 & C2 & C3 & C4 & C5).
        assert (Ht : time_inv ts (tick c ts)).
        { unfold time_inv, tick. simpl. split; [done|]. destruct C5 as [C5|[C5 C6]].
          - destruct (Z.eqb_spec (c_start c) (-1)); [lia|]. split; [eapply inside_mono; [|done]; lia|]. split; [lia|].
            split; [lia|]. by left.
          - rewrite C5. simpl. split; [intros k'; rewrite C6; constructor|]. split; [lia|]. split; [lia|]. by left. }
        assert (Hstart : (0 <= c_start (tick c ts))%Z).
        { unfold tick. simpl. destruct C5 as [C5|[-> _]]; [|simpl; lia]. destruct (Z.eqb_spec (c_start c) (-1)); lia. }
        assert (Hps : forall c', time_inv ts c' -> c_last c' = ts -> (0 <= c_start c')%Z -> time_inv ts (push c' k (ts, d))).
        { intros c' (D1 & D2 & D3 & D4 & D5) Hcl Hcs. unfold time_inv, push. simpl. split; [done|].
          split; [apply inside_push; [done|simpl; lia]|]. split; [done|]. split; [done|]. left. lia. }
        assert (Hg : time_inv ts (addOne h c k ts d).1 /\ c_last (addOne h c k ts d).1 = ts).
        { destruct (addOne h c k ts d) as [c1 r] eqn:Ea. simpl.
          apply add_cases in Ea as [(_ & -> & ->)|(_ & c2 & F & Hr)].
          - split; [by apply Hps|done].
          - apply (time_flush ts) in F as (T1 & T2 & T3); [|done|simpl; lia]. simpl in T2.
            destruct Hr as [[_ ->]|[_ ->]]; [|done]. split; [|done]. apply Hps; [done|done|].
            destruct T3 as [-> | ->]; [done|simpl; lia]. }
        destruct Hg as [G1 G2]. split; [done|]. split; [done|]. split; [done|]. left. lia.
      - exists b. destruct (addMeasurements h c) as [c1 r] eqn:F. simpl.
        apply (time_flush b) in F as (T1 & T2 & _); [|done|done]. rewrite T2. done.
      - exists b. split; [|done]. destruct Hc as (C1 & C2 & C3 & C4 & C5). unfold time_inv, clearMeasurements. simpl.
        split; [done|]. split; [intros k; constructor|]. split; [done|]. split; [done|].
        destruct C5 as [C5|[C5 C6]]; [by left|by right].
      - exists b. split; [|done]. destruct Hc as (C1 & C2 & C3 & C4 & C5). done. }
    destruct Hst as (b' & T1 & T2 & T3 & T4). destruct (cstep h c e) as [c1 r]. simpl in *.
    destruct (IH b' c1 H0' T2 T3 T1 T4) as (b2 & IH2). destruct (crun h c1 l) as [c2 rs].
    destruct r as [[]|ex| |]; simpl in *; eauto.
  Qed.
End proofs.
