(** C78: statistics of the camera calibrator and the camera validator. *)
From stdpp Require Import prelude list.
From Coq Require Import Reals Lra Lia.
From Verif Require Import Base CameraModel Spec_Camera.
Local Open Scope R_scope.

Definition maxstep (m x : R) : R := if Rlt_dec m (Rabs x) then Rabs x else m.
Lemma max_fold (l : list R) : forall m, 0 <= m ->
  (forall x, x ∈ l -> Rabs x <= fold_left maxstep l m) /\ m <= fold_left maxstep l m
  /\ (fold_left maxstep l m = m \/ exists x, x ∈ l /\ fold_left maxstep l m = Rabs x).
Proof.
  induction l as [|x l IH]; intros m Hm; simpl.
  { split; [intros x Hx; inversion Hx|]. split; [lra|by left]. }
  assert (Hx : m <= maxstep m x /\ Rabs x <= maxstep m x /\ (maxstep m x = m \/ maxstep m x = Rabs x)).
  { unfold maxstep. destruct (Rlt_dec m (Rabs x)); split_and!; try lra; auto. }
  destruct Hx as (Hx1 & Hx2 & Hx3). destruct (IH (maxstep m x)) as (H1 & H2 & H3); [lra|].
  split; [|split; [lra|]].
  - intros y Hy. apply elem_of_cons in Hy as [->|Hy]; [lra|auto].
  - destruct H3 as [H3|(y & Hy & H3)]; [|right; exists y; split; [by right|done]].
    destruct Hx3 as [Hx3|Hx3]; [left; lra|right; exists x; split; [left|lra]].
Qed.
Lemma max_fold0 (l : list R) : is_max_abs l (fold_left maxstep l 0).
Proof.
  destruct (max_fold l 0) as (H1 & H2 & H3); [lra|]. split; [exact H1|].
  destruct H3 as [H3|H3]; [|by right]. destruct l as [|x l]; [by left|right].
  exists x. split; [left|]. pose proof (H1 x (elem_of_list_here _ _)). pose proof (Rabs_pos x). lra.
Qed.
(** getStatistics: the reported maxima are the largest absolute errors. *)
Theorem statistics_maximum (l : list R) : is_max_abs l (max_abs l).
Proof. apply max_fold0. Qed.
Lemma is_max_abs_unique l m m' : is_max_abs l m -> is_max_abs l m' -> m = m'.
Proof.
  intros [H1 [[-> ->]|(x & Hx & ->)]] [H1' [[-> Hn]|(x' & Hx' & ->)]]; try done.
  - inversion Hx'.
  - subst. inversion Hx.
  - apply Rle_antisym; auto.
Qed.
(** The number of outliers counts the errors strictly above the threshold; it never grows with the threshold. *)
Theorem outliers_count (q : R) (l : list R) :
  (count_above q l <= length l)%nat
  /\ (count_above q l = 0%nat <-> forall x, x ∈ l -> x <= q)
  /\ (count_above q l = length l <-> forall x, x ∈ l -> q < x)
  /\ (forall q', q <= q' -> (count_above q' l <= count_above q l)%nat)
  /\ (forall l', count_above q (l ++ l') = (count_above q l + count_above q l')%nat).
Proof.
  unfold count_above.
  assert (Hle : forall (l : list R) q, (length (List.filter (fun x => if Rlt_dec q x then true else false) l) <= length l)%nat).
  { clear. intros l q. induction l as [|x l IH]; simpl; [lia|]. destruct (Rlt_dec q x); simpl; lia. }
  split_and!.
  - apply Hle.
  - induction l as [|x l IH]; simpl; [split; [intros _ x Hx; inversion Hx|done]|].
    destruct (Rlt_dec q x) as [Hx|Hx]; simpl.
    + split; [lia|]. intros H. specialize (H x (elem_of_list_here _ _)). lra.
    + rewrite IH. split.
      * intros H y Hy. apply elem_of_cons in Hy as [->|Hy]; [lra|auto].
      * intros H y Hy. apply H. by right.
  - induction l as [|x l IH]; simpl; [split; [intros _ x Hx; inversion Hx|done]|].
    destruct (Rlt_dec q x) as [Hx|Hx]; simpl.
    + rewrite Nat.succ_inj_wd, IH. split.
      * intros H y Hy. apply elem_of_cons in Hy as [->|Hy]; [lra|auto].
      * intros H y Hy. apply H. by right.
    + split; [specialize (Hle l q); lia|]. intros H. specialize (H x (elem_of_list_here _ _)). lra.
  - intros q' Hq. induction l as [|x l IH]; simpl; [lia|].
    destruct (Rlt_dec q x), (Rlt_dec q' x); simpl; try lia; lra.
  - intros l'. by rewrite List.filter_app, app_length.
Qed.

(** The validator *)
Lemma corners_fold (ks : list corner) : forall v,
  let v' := fold_left cvl_corner ks v in
  cvl_errors v' = cvl_errors v ++ compared ks
  /\ cvl_md2 v' = cvl_md2 v ++ map (fun e => 1 / cvl_sigma2 v * (e.1 * e.1 + e.2 * e.2)) (compared ks)
  /\ (cvl_max v').1 = fold_left maxstep (map fst (compared ks)) (cvl_max v).1
  /\ (cvl_max v').2 = fold_left maxstep (map snd (compared ks)) (cvl_max v).2
  /\ cvl_obs v' = cvl_obs v /\ cvl_sigma2 v' = cvl_sigma2 v.
Proof.
  induction ks as [|k ks IH]; intros v; cbv zeta; cbn [fold_left].
  { cbn [compared flat_map map fold_left]. rewrite !app_nil_r. done. }
  destruct (IH (cvl_corner v k)) as (H1 & H2 & H3 & H4 & H5 & H6).
  rewrite H1, H2, H3, H4, H5, H6. destruct k as [[o|] [p|]]; cbn [cvl_corner cvl_errors cvl_md2 cvl_max cvl_obs cvl_sigma2 compared flat_map]; try done.
  rewrite map_app, <-!app_assoc. done.
Qed.
Lemma map_flat_map {A B C} (f : B -> C) (g : A -> list B) l : map f (flat_map g l) = flat_map (fun x => map f (g x)) l.
Proof. induction l as [|x l IH]; simpl; [done|]. by rewrite map_app, IH. Qed.
Lemma validator_run_eq (sigma2 : R) (l : list image) :
  let v := cvl_run sigma2 l in
  cvl_errors v = images_errors l
  /\ cvl_md2 v = map (fun e => 1 / sigma2 * (e.1 * e.1 + e.2 * e.2)) (images_errors l)
  /\ (cvl_max v).1 = fold_left maxstep (map fst (images_errors l)) 0
  /\ (cvl_max v).2 = fold_left maxstep (map snd (images_errors l)) 0
  /\ cvl_obs v = images_obs l /\ cvl_sigma2 v = sigma2.
Proof.
  induction l as [|i l IH] using rev_ind; [done|]. cbv zeta in *.
  assert (Hr : cvl_run sigma2 (l ++ [i]) = (cvl_addImage (cvl_run sigma2 l) i).1) by (unfold cvl_run; rewrite fold_left_app; reflexivity).
  rewrite Hr. clear Hr. destruct IH as (H1 & H2 & H3 & H4 & H5 & H6). revert H1 H2 H3 H4 H5 H6. generalize (cvl_run sigma2 l). intros v H1 H2 H3 H4 H5 H6.
  assert (Hx : images_errors (l ++ [i]) = images_errors l ++ match i with Some (_, ks) => compared ks | None => [] end).
  { unfold images_errors. rewrite flat_map_app. cbn [flat_map]. by rewrite app_nil_r. }
  assert (Hy : images_obs (l ++ [i]) = images_obs l ++ match i with Some (o, _) => [o] | None => [] end).
  { unfold images_obs. rewrite flat_map_app. cbn [flat_map]. by rewrite app_nil_r. }
  rewrite Hx, Hy. destruct i as [[o ks]|]; cbn [cvl_addImage fst].
  - destruct (corners_fold ks v) as (K1 & K2 & K3 & K4 & K5 & K6).
    cbn [cvl_errors cvl_md2 cvl_max cvl_obs cvl_sigma2]. rewrite K1, K2, K3, K4, K5, K6, H1, H2, H3, H4, H5, H6.
    rewrite !map_app, !fold_left_app. done.
  - rewrite !app_nil_r. done.
Qed.
(** After any sequence of images: the errors listed are those of all comparable corners of all images with a target, in
    order; the Mahalanobis distances belong to them one by one; the maxima are the largest absolute errors; the observations
    listed are the images with a target. *)
Theorem validator_history (sigma2 : R) (l : list image) :
  let v := cvl_run sigma2 l in
  cvl_errors v = images_errors l
  /\ cvl_md2 v = map (fun e => (e.1 * e.1 + e.2 * e.2) / sigma2) (cvl_errors v)
  /\ is_max_abs (map fst (cvl_errors v)) (cvl_max v).1
  /\ is_max_abs (map snd (cvl_errors v)) (cvl_max v).2
  /\ cvl_obs v = images_obs l.
Proof.
  intros v. destruct (validator_run_eq sigma2 l) as (H1 & H2 & H3 & H4 & H5 & H6). fold v in H1, H2, H3, H4, H5, H6.
  rewrite H3, H4, H1, H2, H5. split_and!; try done.
  - apply map_ext. intros e. unfold Rdiv. ring.
  - apply max_fold0.
  - apply max_fold0.
Qed.
(** addImage reports whether the target was found; without a target nothing changes. *)
Theorem validator_addImage_result (v : cval) (i : image) :
  (cvl_addImage v i).2 = bool_decide (is_Some i) /\ (i = None -> (cvl_addImage v i).1 = v).
Proof. destruct i as [[o ks]|]; simpl; split; try done. Qed.
(** The outliers are the errors outside of the ellipse (here: circle) of the quantile. *)
Theorem validator_outliers (sigma2 q : R) (l : list image) : 0 < sigma2 ->
  cvl_numOutliers (cvl_run sigma2 l) q
  = length (List.filter (fun e => if Rlt_dec (q * sigma2) (e.1 * e.1 + e.2 * e.2) then true else false) (images_errors l)).
Proof.
  intros Hs. unfold cvl_numOutliers, count_above. destruct (validator_history sigma2 l) as (H1 & H2 & _). cbv zeta in *.
  rewrite H2, H1. clear H1 H2. induction (images_errors l) as [|e es IH]; simpl; [done|].
  assert (He : q < (e.1 * e.1 + e.2 * e.2) / sigma2 <-> q * sigma2 < e.1 * e.1 + e.2 * e.2).
  { split; intros H.
    - apply (Rmult_lt_compat_r sigma2) in H; [|done]. unfold Rdiv in H. rewrite Rmult_assoc, Rinv_l, Rmult_1_r in H by lra. done.
    - apply (Rmult_lt_reg_r sigma2); [done|]. unfold Rdiv. rewrite Rmult_assoc, Rinv_l, Rmult_1_r by lra. done. }
  destruct (Rlt_dec q _) as [Ha|Ha], (Rlt_dec (q * sigma2) _) as [Hb|Hb]; simpl; rewrite ?IH; try done; exfalso; [apply Hb, He, Ha|apply Ha, He, Hb].
Qed.
Lemma validator_example :
  let k1 : corner := (Some (1, 1), Some (4, 5)) in let k2 : corner := (Some (0, 0), None) in let k3 : corner := (Some (1, 1), Some (1, -1)) in
  let l : list image := [Some (7%nat, [k1; k2; k3]); None] in
  cvl_errors (cvl_run 2 l) = [(4 - 1, 5 - 1); (1 - 1, -1 - 1)] /\ cvl_obs (cvl_run 2 l) = [7%nat].
Proof. cbv zeta. split; [destruct (validator_history 2 [Some (7%nat, [(Some (1, 1), Some (4, 5)); (Some (0, 0), None); (Some (1, 1), Some (1, -1))]); None]) as (H & _); exact H|]. destruct (validator_history 2 [Some (7%nat, [(Some (1, 1), Some (4, 5)); (Some (0, 0), None); (Some (1, 1), Some (1, -1))]); None]) as (_ & _ & _ & _ & H); exact H. Qed.

(** The average error norm written into the last image is the mean over the compared corners scaled by the share of
    compared corners: it is the mean only if every corner of the target is compared ... *)
Lemma average_sum (ks : list corner) : forall s,
  fold_left (fun s (k : corner) => match k with
                        | (Some o, Some p) => s + sqrt ((p.1 - o.1) * (p.1 - o.1) + (p.2 - o.2) * (p.2 - o.2))
                        | _ => s
                        end) ks s = s + sumR (map norm2 (compared ks)).
Proof.
  induction ks as [|k ks IH]; intros s; cbn [fold_left].
  - unfold sumR. simpl. lra.
  - rewrite IH. destruct k as [[o|] [p|]]; cbn [compared flat_map app map sumR fold_right]; try done.
    unfold sumR. cbn [fold_right]. unfold norm2 at 2. cbn [fst snd]. fold (compared ks). ring.
Qed.
Theorem last_image_average_value (ks : list corner) : compared ks <> [] ->
  cvl_average ks = INR (length (compared ks)) / INR (length ks) * mean (map norm2 (compared ks))
  /\ (length (compared ks) = length ks -> cvl_average ks = mean (map norm2 (compared ks))).
Proof.
  intros Hn. unfold cvl_average. rewrite average_sum, Rplus_0_l. unfold mean. rewrite map_length.
  assert (Hk : INR (length (compared ks)) <> 0).
  { apply not_0_INR. destruct (compared ks); [done|discriminate]. }
  assert (Hl : INR (length ks) <> 0).
  { apply not_0_INR. destruct ks; [done|discriminate]. }
  split; [by field|]. intros ->. reflexivity.
Qed.
(** ... and too small whenever a corner is skipped and some error is not zero. *)
Theorem last_image_average_refuted (ks : list corner) : (length (compared ks) < length ks)%nat ->
  (exists e, e ∈ compared ks /\ e <> (0, 0)) -> cvl_average ks < mean (map norm2 (compared ks)).
Proof.
  intros Hlt (e & He & Hne). assert (Hn : compared ks <> []) by (intros H; rewrite H in He; inversion He).
  destruct (last_image_average_value ks Hn) as [-> _].
  assert (Hpos : forall l : list (R * R), 0 <= sumR (map norm2 l) /\ (e ∈ l -> 0 < sumR (map norm2 l))).
  { clear -Hne. induction l as [|x l [IH1 IH2]]; simpl; [split; [lra|intros H; inversion H]|].
    assert (0 <= norm2 x) by apply sqrt_pos. unfold sumR in *. split; [lra|]. intros H'. apply elem_of_cons in H' as [<-|H'].
    - assert (0 < norm2 e); [|lra]. apply sqrt_lt_R0. destruct e as [a b]. simpl. destruct (Req_dec a 0) as [->|Ha].
      + assert (b <> 0) by (intros ->; done). assert (0 < b * b) by nra. lra.
      + assert (0 < a * a) by nra. assert (0 <= b * b) by nra. lra.
    - specialize (IH2 H'). lra. }
  assert (Hlen : 0 < INR (length (compared ks))).
  { apply lt_0_INR. destruct (compared ks); [done|simpl; lia]. }
  apply lt_INR in Hlt. assert (Hm : 0 < mean (map norm2 (compared ks))).
  { unfold mean. rewrite map_length. apply Rdiv_lt_0_compat; [by apply Hpos|done]. }
  assert (Hq : INR (length (compared ks)) / INR (length ks) < 1).
  { apply (Rmult_lt_reg_r (INR (length ks))); [lra|]. unfold Rdiv. rewrite Rmult_assoc, Rinv_l by lra. lra. }
  rewrite <-(Rmult_1_l (mean _)) at 2. by apply Rmult_lt_compat_r.
Qed.
Lemma last_image_average_example :
  let ks : list corner := [(Some (0, 0), Some (3, 4)); (None, Some (0, 0))] in
  (length (compared ks) < length ks)%nat /\ (3 - 0, 4 - 0) ∈ compared ks.
Proof. simpl. split; [lia|left]. Qed.
