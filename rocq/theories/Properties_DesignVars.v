(** Properties of the design-variable containers (C47) and of the spline problem (C75, C76). *)
From stdpp Require Import prelude list gmap.
From Verif Require Import Base OptProblemModel Spec_OptProblem DesignVarsModel OptProblemProofs OptSpecProofs.

Section P.
Context {V A : Type}.
Implicit Types (s : oprob V) (out : nat -> nat -> A).

(** ** Adding a list of variables to a group *)
Lemma addDV_fresh s d g : o_lookup s !! d = None ->
  exists s', o_addDV s (Some d) g = (s', Ret tt) /\ o_lookup s' = <[d := g]> (o_lookup s)
             /\ o_groups s' = <[g := group_or_nil s g ++ [d]]> (o_groups s) /\ o_ets s' = o_ets s.
Proof.
  intros H. unfold o_addDV, o_isDVInProblem. rewrite bool_decide_eq_false_2 by (rewrite H; intros [? ?]; done).
  eexists. split; [reflexivity|]. simpl. repeat split. rewrite group_or_nil_eq. reflexivity.
Qed.
Lemma addDV_present s d g h : o_lookup s !! d = Some h -> o_addDV s (Some d) g = (s, Throw InvalidOperation).
Proof. intros H. unfold o_addDV, o_isDVInProblem. rewrite bool_decide_eq_true_2 by (rewrite H; eauto). reflexivity. Qed.

(** What a loop of insertions does: the longest prefix of pairwise different variables that are not yet in the problem is
    inserted at the end of the group, in order; the loop ends normally when that is all, otherwise with an exception. *)
Lemma add_all_spec s ds g : exists pre rest s' r, ds = pre ++ rest /\ add_all s ds g = (s', r)
  /\ NoDup pre /\ (forall d, d ∈ pre -> o_lookup s !! d = None)
  /\ (forall d, o_lookup s' !! d = if decide (d ∈ pre) then Some g else o_lookup s !! d)
  /\ (forall h, group_or_nil s' h = if decide (h = g) then group_or_nil s g ++ pre else group_or_nil s h)
  /\ (forall h, is_Some (o_groups s' !! h) <-> is_Some (o_groups s !! h) \/ (h = g /\ pre <> [])) /\ o_ets s' = o_ets s
  /\ (r = Ret tt /\ rest = [] \/ r = Throw InvalidOperation /\ exists d rest', rest = d :: rest' /\ (is_Some (o_lookup s !! d) \/ d ∈ pre)).
Proof.
  revert s. induction ds as [|d ds IH]; intros s.
  { exists [], [], s, (Ret tt). split; [reflexivity|]. split; [reflexivity|]. split; [constructor|]. split; [intros d Hd; inversion Hd|].
    split; [intros d; rewrite decide_False by apply not_elem_of_nil; reflexivity|].
    split; [intros h; rewrite app_nil_r; destruct (decide (h = g)) as [->|]; reflexivity|].
    split; [intros h; split; [auto|intros [?|[_ ?]]; [assumption|contradiction]]|]. split; [reflexivity|]. left. split; reflexivity. }
  destruct (o_lookup s !! d) as [h|] eqn:E.
  { exists [], (d :: ds), s, (Throw InvalidOperation). split; [reflexivity|]. split; [cbn [add_all]; rewrite (addDV_present _ _ _ _ E); reflexivity|].
    split; [constructor|]. split; [intros x Hx; inversion Hx|].
    split; [intros x; rewrite decide_False by apply not_elem_of_nil; reflexivity|].
    split; [intros x; rewrite app_nil_r; destruct (decide (x = g)) as [->|]; reflexivity|].
    split; [intros x; split; [auto|intros [?|[_ ?]]; [assumption|contradiction]]|]. split; [reflexivity|]. right. split; [reflexivity|]. exists d, ds. split; [reflexivity|]. left. eauto. }
  destruct (addDV_fresh s d g E) as (s1 & E1 & L1 & G1 & T1).
  destruct (IH s1) as (pre & rest & s' & r & -> & E2 & ND & F2 & L2 & G2 & S2 & T2 & R2).
  assert (GN : forall h, group_or_nil s1 h = if decide (h = g) then group_or_nil s g ++ [d] else group_or_nil s h).
  { intros h. rewrite group_or_nil_eq, G1. destruct (decide (h = g)) as [->|Hh]; [rewrite lookup_insert; reflexivity|].
    rewrite lookup_insert_ne by congruence. rewrite group_or_nil_eq. reflexivity. }
  exists (d :: pre), rest, s', r. split; [reflexivity|]. split; [cbn [add_all app]; rewrite E1; exact E2|].
  assert (Hd : d ∉ pre). { intros Hd. apply F2 in Hd. rewrite L1, lookup_insert in Hd. discriminate. }
  split; [constructor; assumption|].
  split. { intros x [->|Hx]%elem_of_cons; [exact E|]. apply F2 in Hx as Hx'. rewrite L1 in Hx'.
           destruct (decide (x = d)) as [->|Hn]; [exact E|]. rewrite lookup_insert_ne in Hx' by congruence. exact Hx'. }
  split. { intros x. rewrite L2, L1. destruct (decide (x ∈ pre)) as [Hx|Hx].
           - rewrite decide_True by (apply elem_of_cons; right; exact Hx). reflexivity.
           - destruct (decide (x = d)) as [->|Hn].
             + rewrite lookup_insert, decide_True by (apply elem_of_cons; left; reflexivity). reflexivity.
             + rewrite lookup_insert_ne by congruence. rewrite decide_False; [reflexivity|]. rewrite elem_of_cons. intros [|]; contradiction. }
  split. { intros h. rewrite G2. destruct (decide (h = g)) as [->|Hh].
           - rewrite (GN g), decide_True by reflexivity. rewrite <- app_assoc. reflexivity.
           - rewrite GN, decide_False by exact Hh. reflexivity. }
  split. { intros h. rewrite S2, G1. destruct (decide (h = g)) as [->|Hh].
           - rewrite lookup_insert. split; [intros _; right; split; [reflexivity|discriminate]|intros _; left; eauto].
           - rewrite lookup_insert_ne by congruence. split; [intros [?|[? _]]; [auto|contradiction]|intros [?|[? _]]; [auto|contradiction]]. }
  split; [rewrite T2; exact T1|].
  destruct R2 as [[-> ->]|[-> (x & rest' & -> & Hx)]]; [left; split; reflexivity|right]. split; [reflexivity|].
  exists x, rest'. split; [reflexivity|]. rewrite elem_of_cons. destruct Hx as [Hx|Hx]; [|right; right; exact Hx].
  rewrite L1 in Hx. destruct (decide (x = d)) as [->|Hn]; [right; left; reflexivity|]. rewrite lookup_insert_ne in Hx by congruence. left. exact Hx.
Qed.
(** Hence: pairwise different new variables are all inserted ... *)
Lemma add_all_ok s ds g : NoDup ds -> (forall d, d ∈ ds -> o_lookup s !! d = None) ->
  exists s', add_all s ds g = (s', Ret tt)
  /\ (forall d, o_lookup s' !! d = if decide (d ∈ ds) then Some g else o_lookup s !! d)
  /\ (forall h, group_or_nil s' h = if decide (h = g) then group_or_nil s g ++ ds else group_or_nil s h)
  /\ (forall h, is_Some (o_groups s' !! h) <-> is_Some (o_groups s !! h) \/ (h = g /\ ds <> [])) /\ o_ets s' = o_ets s.
Proof.
  intros ND F. destruct (add_all_spec s ds g) as (pre & rest & s' & r & -> & E & _ & _ & L & G & S & T & [[-> ->]|[_ (d & rest' & -> & Hd)]]).
  - rewrite app_nil_r in *. exists s'. auto.
  - exfalso. apply NoDup_app in ND as (_ & D & _). destruct Hd as [[h Hd]|Hd].
    + rewrite (F d) in Hd; [discriminate|]. apply elem_of_app. right. left.
    + apply (D d Hd). left.
Qed.
(** ... and if one of them is already there, there is an exception. *)
Lemma add_all_throws s ds g : (exists d, d ∈ ds /\ is_Some (o_lookup s !! d)) -> snd (add_all s ds g) = Throw InvalidOperation.
Proof.
  intros (d & Hd & Hp). destruct (add_all_spec s ds g) as (pre & rest & s' & r & -> & E & _ & F & _ & _ & _ & _ & [[-> ->]|[-> _]]).
  - rewrite app_nil_r in Hd. apply F in Hd. rewrite Hd in Hp. destruct Hp; discriminate.
  - rewrite E. reflexivity.
Qed.

(** ** Time-delay example *)
(** The variables enter the group in the documented order; a second call is rejected. *)
Theorem td_addToBatch_spec (v : td_vars) s g : NoDup (td_batch_order v) -> (forall d, d ∈ td_batch_order v -> o_lookup s !! d = None) ->
  exists s', td_addToBatch v s g = (s', Ret tt)
  /\ group_or_nil s' g = group_or_nil s g ++ [td_b v; td_k_l v; td_t_l v; td_k_r v; td_t_r v; td_v_r_vp v; td_v_R_p v]
  /\ (forall h, h <> g -> group_or_nil s' h = group_or_nil s h)
  /\ (forall h, snd (td_addToBatch v s' h) = Throw InvalidOperation).
Proof.
  intros ND F. destruct (add_all_ok s (td_batch_order v) g ND F) as (s' & E & L & G & _ & _).
  exists s'. split; [exact E|]. split; [rewrite G, decide_True by reflexivity; reflexivity|].
  split; [intros h Hh; rewrite G, decide_False by exact Hh; reflexivity|].
  intros h. apply add_all_throws. exists (td_b v). split; [left|]. rewrite L, decide_True by left. eauto.
Qed.
(** The exported vector lists, in the order of addToBatch, one number for each scalar and three for translation and
    rotation; no entry is left uninitialised. *)
Theorem td_parameters_complete out (v : td_vars) :
  td_getParameters out v
  = map Some (concat (zip_with (fun d n => map (out d) (seq 0 n)) (td_batch_order v) [1; 1; 1; 1; 1; 3; 3])).
Proof. reflexivity. Qed.
(** The number of calibration parameters the estimator sees. *)
Theorem td_group_dimension (c : td_config) (v : td_vars) (dim : nat -> nat) s g :
  NoDup (td_batch_order v) -> (forall d, d ∈ td_batch_order v -> o_lookup s !! d = None) -> group_or_nil s g = [] ->
  map dim (td_batch_order v) = [1; 1; 1; 1; 1; 3; 3] ->
  o_getGroupDim (td_active c v) dim (td_addToBatch v s g).1 g
  = Ret (3 + (if td_delays_active c then 2 else 0) + (if td_trans_active c then 3 else 0) + (if td_rot_active c then 3 else 0)).
Proof.
  intros ND F G0 D. destruct (add_all_ok s (td_batch_order v) g ND F) as (s' & E & L & G & S & _).
  unfold td_addToBatch. rewrite E. simpl fst. unfold o_getGroupDim, o_getGroup.
  destruct (o_groups s' !! g) as [l|] eqn:El.
  2: { exfalso. assert (is_Some (o_groups s' !! g)) as [? ?] by (apply S; right; split; [reflexivity|discriminate]). congruence. }
  specialize (G g). rewrite decide_True, G0 in G by reflexivity. rewrite group_or_nil_eq, El in G. simpl in G. subst l.
  f_equal. unfold td_batch_order in *. simpl in D. destruct v as [b kl kr tr R tl trr]. simpl in *.
  repeat (apply NoDup_cons in ND as [? ND]). repeat rewrite ?elem_of_cons, ?not_elem_of_cons in *.
  unfold sum_dims, td_active. simpl.
  repeat match goal with H : _ ∉ _ :: _ |- _ => apply not_elem_of_cons in H as [? ?] end.
  injection D as -> -> -> -> -> -> ->.
  repeat (rewrite decide_True by auto).
  destruct c as [ta ra da]. simpl.
  repeat match goal with |- context [decide ?P] => first [rewrite (decide_True (P := P)) by auto | rewrite (decide_False (P := P)) by (intuition congruence)] end.
  destruct ta, ra, da; reflexivity.
Qed.

(** ** Car example *)
Theorem car_addToBatch_spec (v : car_vars) s g : NoDup (car_batch_order v) -> (forall d, d ∈ car_batch_order v -> o_lookup s !! d = None) ->
  exists s', car_addToBatch v s g = (s', Ret tt) /\ group_or_nil s' g = group_or_nil s g ++ car_batch_order v
  /\ (forall h, h <> g -> group_or_nil s' h = group_or_nil s h)
  /\ (forall h, snd (car_addToBatch v s' h) = Throw InvalidOperation).
Proof.
  intros ND F. destruct (add_all_ok s (car_batch_order v) g ND F) as (s' & E & L & G & _ & _).
  exists s'. split; [exact E|]. split; [rewrite G, decide_True by reflexivity; reflexivity|].
  split; [intros h Hh; rewrite G, decide_False by exact Hh; reflexivity|].
  intros h. apply add_all_throws. exists (cv_e_r v). split; [left|]. rewrite L, decide_True by left. eauto.
Qed.
(** The exact content: the steering coefficients and the DMI delay collide in entry 11. *)
Theorem car_parameters_content out (v : car_vars) :
  car_getParameters out v =
  [Some (out (cv_e_r v) 0); Some (out (cv_e_f v) 0); Some (out (cv_L v) 0); Some (out (cv_k_rl v) 0); Some (out (cv_k_rr v) 0);
   Some (out (cv_k_fl v) 0); Some (out (cv_k_fr v) 0); Some (out (cv_k_dmi v) 0);
   Some (out (cv_a v) 0); Some (out (cv_a v) 1); Some (out (cv_a v) 2); Some (out (cv_t_dmi v) 0);
   Some (out (cv_v_r_vr v) 0); Some (out (cv_v_r_vr v) 1); Some (out (cv_v_r_vr v) 2);
   Some (out (cv_v_R_r v) 0); Some (out (cv_v_R_r v) 1); Some (out (cv_v_R_r v) 2);
   Some (out (cv_t_r v) 0); Some (out (cv_t_f v) 0); Some (out (cv_t_s v) 0); None].
Proof. reflexivity. Qed.
(** A user expects every calibrated number in the result.  It fails: two parameter sets that differ in the cubic steering
    coefficient (only) are exported identically, and the last entry is never written. *)
Theorem car_parameters_refuted (v : car_vars) (x y : A) : x <> y ->
  exists out out', out (cv_a v) 3 <> out' (cv_a v) 3 /\ (forall d i, ~ (d = cv_a v /\ i = 3) -> out d i = out' d i)
  /\ car_getParameters out v = car_getParameters out' v
  /\ (forall out, car_getParameters out v !! 21 = Some None).
Proof.
  intros Hxy. exists (fun _ _ => x), (fun d i => if decide (d = cv_a v /\ i = 3) then y else x).
  split; [rewrite decide_True by auto; exact Hxy|]. split; [intros d i H; rewrite decide_False by exact H; reflexivity|].
  split; [|intros out; reflexivity].
  assert (K : forall d i, d <> cv_a v \/ i <> 3 -> (if decide (d = cv_a v /\ i = 3) then y else x) = x)
    by (intros d i H; rewrite decide_False; [reflexivity|intuition]).
  rewrite !car_parameters_content. rewrite !K by (right; discriminate). reflexivity.
Qed.
(** The number of calibration parameters: the twelve intrinsic ones and, if enabled, the four delays; never the extrinsics. *)
Theorem car_group_dimension (delays : bool) (v : car_vars) (dim : nat -> nat) s g :
  NoDup (car_batch_order v) -> (forall d, d ∈ car_batch_order v -> o_lookup s !! d = None) -> group_or_nil s g = [] ->
  map dim (car_batch_order v) = [1; 1; 1; 4; 1; 1; 1; 1; 1; 3; 3; 1; 1; 1; 1] ->
  o_getGroupDim (car_active delays v) dim (car_addToBatch v s g).1 g = Ret (12 + (if delays then 4 else 0)).
Proof.
  intros ND F G0 D. destruct (add_all_ok s (car_batch_order v) g ND F) as (s' & E & L & G & S & _).
  unfold car_addToBatch. rewrite E. simpl fst. unfold o_getGroupDim, o_getGroup.
  destruct (o_groups s' !! g) as [l|] eqn:El.
  2: { exfalso. assert (is_Some (o_groups s' !! g)) as [? ?] by (apply S; right; split; [reflexivity|discriminate]). congruence. }
  specialize (G g). rewrite decide_True, G0 in G by reflexivity. rewrite group_or_nil_eq, El in G. simpl in G. subst l.
  f_equal.
  set (l1 := [cv_e_r v; cv_e_f v; cv_L v; cv_a v; cv_k_rl v; cv_k_rr v; cv_k_fl v; cv_k_fr v; cv_k_dmi v]).
  set (l2 := [cv_v_r_vr v; cv_v_R_r v]). set (l3 := [cv_t_r v; cv_t_f v; cv_t_s v; cv_t_dmi v]).
  assert (EO : car_batch_order v = l1 ++ l2 ++ l3) by reflexivity.
  change (sum_dims (car_active delays v) dim (l1 ++ l2 ++ l3) = 12 + (if delays then 4 else 0)).
  rewrite EO in ND. apply NoDup_app in ND as (_ & N12 & ND). apply NoDup_app in ND as (_ & N23 & _).
  rewrite !sum_dims_app.
  assert (K : forall l b, (forall d, d ∈ l -> car_active delays v d = b) -> sum_dims (car_active delays v) dim l = if b then sum_list_with dim l else 0).
  { induction l as [|d l IH]; intros b Hb; [destruct b; reflexivity|].
    change (d :: l) with ([d] ++ l). rewrite sum_dims_app, (IH b) by (intros x Hx; apply Hb; right; exact Hx).
    unfold sum_dims. simpl. rewrite (Hb d) by left. destruct b; simpl; lia. }
  rewrite (K l1 true), (K l2 false), (K l3 delays).
  - assert (D1 : map dim l1 = [1; 1; 1; 4; 1; 1; 1; 1; 1]) by (injection D as; unfold l1; simpl; congruence).
    assert (D3 : map dim l3 = [1; 1; 1; 1]) by (injection D as; unfold l3; simpl; congruence).
    assert (W : forall l, sum_list_with dim l = sum_list (map dim l)) by (induction l as [|? ? IHl]; [reflexivity|simpl; rewrite IHl; reflexivity]).
    rewrite !W, D1, D3. destruct delays; reflexivity.
  - intros d Hd. unfold car_active. fold l1 l2 l3. rewrite decide_False by (intros H; apply (N12 d H); apply elem_of_app; auto).
    rewrite decide_False by (intros H; apply (N23 d H Hd)). rewrite decide_True by exact Hd. reflexivity.
  - intros d Hd. unfold car_active. fold l1 l2 l3. rewrite decide_False by (intros H; apply (N12 d H); apply elem_of_app; auto).
    rewrite decide_True by exact Hd. reflexivity.
  - intros d Hd. unfold car_active. fold l1. rewrite decide_True by exact Hd. reflexivity.
Qed.

(** ** Egomotion example *)
(** The variables of sensor [idx] are those of the last configuration entry with that index. *)
Theorem ego_new_last (cfg : list (nat * ego_vars)) idx v :
  ego_new cfg !! idx = Some v <-> exists l1 l2, cfg = l1 ++ (idx, v) :: l2 /\ idx ∉ l2.*1.
Proof.
  unfold ego_new. assert (H : forall m : gmap nat ego_vars, foldl (fun m e => <[e.1 := e.2]> m) m cfg !! idx = Some v
    <-> (exists l1 l2, cfg = l1 ++ (idx, v) :: l2 /\ idx ∉ l2.*1) \/ (idx ∉ cfg.*1 /\ m !! idx = Some v)).
  { induction cfg as [|[i w] cfg IH]; intros m; simpl.
    - split; [intros H; right; split; [apply not_elem_of_nil|exact H]|]. intros [(l1 & l2 & H & _)|[_ H]]; [destruct l1; discriminate|exact H].
    - rewrite IH. split.
      + intros [(l1 & l2 & -> & Hn)|[Hn Hm]]; [left; exists ((i, w) :: l1), l2; auto|].
        destruct (decide (idx = i)) as [->|Hd].
        * rewrite lookup_insert in Hm. injection Hm as ->. left. exists [], cfg. auto.
        * rewrite lookup_insert_ne in Hm by congruence. right. split; [rewrite not_elem_of_cons; auto|exact Hm].
      + intros [(l1 & l2 & H & Hn)|[Hn Hm]].
        * destruct l1 as [|e l1]; simpl in H; [injection H as -> -> ->; right; split; [exact Hn|apply lookup_insert]|].
          injection H as <- ->. left. exists l1, l2. auto.
        * apply not_elem_of_cons in Hn as [Hd Hn]. right. split; [exact Hn|]. rewrite lookup_insert_ne by congruence. exact Hm. }
  rewrite H. split; [intros [?|[_ Hm]]; [assumption|rewrite lookup_empty in Hm; discriminate]|auto].
Qed.
(** getParameters: an exception exactly for indices that were not configured; otherwise delay, translation and rotation of
    the sensor, all entries set. *)
Theorem ego_parameters out (cfg : list (nat * ego_vars)) idx :
  (idx ∉ cfg.*1 <-> ego_getParameters out (ego_new cfg) idx = Throw OutOfBound)
  /\ (forall l1 v l2, cfg = l1 ++ (idx, v) :: l2 -> idx ∉ l2.*1 ->
       ego_getParameters out (ego_new cfg) idx
       = Ret (map Some (concat (zip_with (fun d n => map (out d) (seq 0 n)) [ev_t v; ev_r v; ev_R v] [1; 3; 3])))).
Proof.
  split.
  - unfold ego_getParameters. destruct (ego_new cfg !! idx) as [v|] eqn:E.
    + apply ego_new_last in E as (l1 & l2 & -> & _). split; [|discriminate]. intros H. exfalso. apply H. rewrite fmap_app. apply elem_of_app. right. left.
    + split; [reflexivity|]. intros _ H. apply elem_of_list_fmap in H as ([i v] & Hi & H). simpl in Hi. subst i.
      assert (P : forall l : list (nat * ego_vars), (exists w, (idx, w) ∈ l) -> exists l1 w l2, l = l1 ++ (idx, w) :: l2 /\ idx ∉ l2.*1).
      { induction l as [|[i w] l IH]; intros [w' Hw]; [inversion Hw|]. destruct (decide (idx ∈ l.*1)) as [Hin|Hin].
        - apply elem_of_list_fmap in Hin as ([j u] & Hj & Hin). simpl in Hj. subst j. destruct IH as (l1 & x & l2 & -> & Hn); [eauto|].
          exists ((i, w) :: l1), x, l2. auto.
        - apply elem_of_cons in Hw as [Hw|Hw]; [injection Hw as <- <-; exists [], w', l; auto|].
          exfalso. apply Hin. apply elem_of_list_fmap. exists (idx, w'). auto. }
      destruct (P cfg) as (l1 & w & l2 & -> & Hn); [eauto|].
      assert (Q : ego_new (l1 ++ (idx, w) :: l2) !! idx = Some w) by (apply ego_new_last; eauto). congruence.
  - intros l1 v l2 -> Hn. unfold ego_getParameters. rewrite (proj2 (ego_new_last _ idx v)) by eauto. reflexivity.
Qed.
(** addToBatch: whatever the iteration order of the map, the three variables of each configured sensor enter the group next
    to each other, in the order delay, translation, rotation, and nothing else does. *)
Theorem ego_addToBatch_spec (m : gmap nat ego_vars) (order : list (nat * ego_vars)) s g :
  order ≡ₚ map_to_list m -> NoDup (ego_batch_order order) -> (forall d, d ∈ ego_batch_order order -> o_lookup s !! d = None) ->
  exists s', ego_addToBatch order s g = (s', Ret tt) /\ group_or_nil s' g = group_or_nil s g ++ ego_batch_order order
  /\ (forall idx v, m !! idx = Some v -> exists l1 l2, group_or_nil s' g = group_or_nil s g ++ l1 ++ ev_t v :: ev_r v :: ev_R v :: l2)
  /\ (forall h, h <> g -> group_or_nil s' h = group_or_nil s h)
  /\ length (group_or_nil s' g) = length (group_or_nil s g) + 3 * size m.
Proof.
  intros P ND F. destruct (add_all_ok s (ego_batch_order order) g ND F) as (s' & E & L & G & _ & _).
  assert (Gg : group_or_nil s' g = group_or_nil s g ++ ego_batch_order order) by (rewrite G, decide_True by reflexivity; reflexivity).
  exists s'. split; [exact E|]. split; [exact Gg|]. split; [|split].
  - intros idx v Hm. assert (Hin : (idx, v) ∈ order) by (rewrite P; apply elem_of_map_to_list; exact Hm).
    apply elem_of_list_split in Hin as (a & b & ->). exists (ego_batch_order a), (ego_batch_order b). rewrite Gg. f_equal.
    unfold ego_batch_order. rewrite flat_map_app. reflexivity.
  - intros h Hh. rewrite G, decide_False by exact Hh. reflexivity.
  - rewrite Gg, app_length. f_equal.
    assert (K : length (ego_batch_order order) = 3 * length order) by (clear; induction order as [|e o IH]; [reflexivity|change (ego_batch_order (e :: o)) with ([ev_t e.2; ev_r e.2; ev_R e.2] ++ ego_batch_order o); rewrite app_length, IH; simpl; lia]).
    rewrite K, P. reflexivity.
Qed.

(** ** Splines *)
Lemma spline_loop_eq s act ds g :
  exists act', spline_loop s act ds g = ((add_all s ds g).1, act', (add_all s ds g).2)
  /\ (forall d, act d = true -> act' d = true) /\ ((add_all s ds g).2 = Ret tt -> forall d, d ∈ ds -> act' d = true)
  /\ (forall d, d ∉ ds -> act' d = act d).
Proof.
  revert s act. induction ds as [|d ds IH]; intros s act.
  { exists act. split; [reflexivity|]. split; [auto|]. split; [intros _ d Hd; inversion Hd|reflexivity]. }
  cbn [spline_loop add_all]. set (act1 := fun x => if decide (x = d) then true else act x).
  assert (A1 : forall x, act x = true -> act1 x = true) by (intros x Hx; unfold act1; destruct (decide (x = d)); auto).
  assert (A2 : forall x, x ∉ d :: ds -> act1 x = act x) by (intros x Hx; unfold act1; rewrite decide_False; [reflexivity|]; apply not_elem_of_cons in Hx; tauto).
  destruct (o_addDV s (Some d) g) as [s' r] eqn:E. destruct r as [u| | |].
  - destruct (IH s' act1) as (act' & E' & B1 & B2 & B3). exists act'. split; [exact E'|].
    split; [auto|]. split; [|intros x Hx; rewrite B3; [apply A2; exact Hx|apply not_elem_of_cons in Hx; tauto]].
    intros R x [->|Hx]%elem_of_cons; [apply B1; unfold act1; rewrite decide_True by reflexivity; reflexivity|apply B2; assumption].
  - exists act1. split; [reflexivity|]. split; [exact A1|]. split; [discriminate|exact A2].
  - exists act1. split; [reflexivity|]. split; [exact A1|]. split; [discriminate|exact A2].
  - exists act1. split; [reflexivity|]. split; [exact A1|]. split; [discriminate|exact A2].
Qed.

(** Adding a spline whose variables are new: all of them are activated and appended to the group in order, and the spline
    becomes the last one of its kind. *)
Theorem addSpline_ok (s : sprob V) k sp g :
  NoDup (sp_dvs sp) -> (forall d, d ∈ sp_dvs sp -> o_lookup (sp_prob s) !! d = None) ->
  exists s' : sprob V, addSpline s k (Some sp) g = (s', Ret tt)
  /\ group_or_nil (sp_prob s') g = group_or_nil (sp_prob s) g ++ sp_dvs sp
  /\ (forall h, h <> g -> group_or_nil (sp_prob s') h = group_or_nil (sp_prob s) h)
  /\ (forall d, d ∈ sp_dvs sp -> sp_active s' d = true) /\ (forall d, d ∉ sp_dvs sp -> sp_active s' d = sp_active s d)
  /\ sp_list s' k = sp_list s k ++ [sp] /\ (forall k', k' <> k -> sp_list s' k' = sp_list s k')
  /\ getSpline s' k (length (sp_list s k)) = Ret sp.
Proof.
  intros ND F. destruct (add_all_ok (sp_prob s) (sp_dvs sp) g ND F) as (p & E & L & G & _ & _).
  destruct (spline_loop_eq (sp_prob s) (sp_active s) (sp_dvs sp) g) as (act & E' & A1 & A2 & A3). rewrite E in E', A2. simpl in E', A2.
  unfold addSpline. rewrite E'. eexists. split; [reflexivity|].
  destruct k; simpl; (split; [rewrite G, decide_True by reflexivity; reflexivity|];
    split; [intros h Hh; rewrite G, decide_False by exact Hh; reflexivity|]; split; [exact (A2 eq_refl)|]; split; [exact A3|];
    split; [reflexivity|]; split; [intros [|] Hk; first [reflexivity|contradiction]|]; unfold getSpline; simpl;
    rewrite lookup_app_r by lia; rewrite Nat.sub_diag; reflexivity).
Qed.
(** Adding a spline one of whose variables is already in the problem (for instance the same spline again) is an exception;
    the list of splines stays. *)
Theorem addSpline_twice (s : sprob V) k sp g : (exists d, d ∈ sp_dvs sp /\ is_Some (o_lookup (sp_prob s) !! d)) ->
  snd (addSpline s k (Some sp) g) = Throw InvalidOperation /\ (forall k', sp_list (fst (addSpline s k (Some sp) g)) k' = sp_list s k')
  /\ (forall d0 ds, sp_dvs sp = d0 :: ds -> is_Some (o_lookup (sp_prob s) !! d0) -> sp_prob (fst (addSpline s k (Some sp) g)) = sp_prob s).
Proof.
  intros H. pose proof (add_all_throws (sp_prob s) (sp_dvs sp) g H) as T.
  destruct (spline_loop_eq (sp_prob s) (sp_active s) (sp_dvs sp) g) as (act & E' & _). rewrite T in E'.
  unfold addSpline. rewrite E'. simpl. split; [reflexivity|]. split; [intros [|]; reflexivity|].
  intros d0 ds -> [h Hd]. cbn [add_all]. rewrite (addDV_present _ _ _ _ Hd). reflexivity.
Qed.

(** ** C76: the splines a problem lists and the variables it holds *)
Definition sp_run (s : sprob V) (ops : list spop) : sprob V := fold_left (fun (q : sprob V) op => fst (sp_step q op)) ops s.
Definition listed (s : sprob V) (sp : spline) : Prop := sp ∈ sp_trans s \/ sp ∈ sp_rot s.

(** A user expects the variables of every listed spline to be in the problem.  That fails after clear(). *)
Theorem spline_clear_refuted : exists (ops : list spop) sp, listed (sp_run sp_empty ops) sp
  /\ exists d, d ∈ sp_dvs sp /\ o_lookup (sp_prob (sp_run sp_empty ops)) !! d = None.
Proof.
  exists [SpAdd SpTrans (Some (Spline 0 [1; 2])) 0; SpClear], (Spline 0 [1; 2]). split; [left; left|].
  exists 1. split; [left|reflexivity].
Qed.
(** It holds as long as clear() is not called, whatever else happens (exceptions included). *)
Lemma step_lookup_mono (s : sprob V) op d : op <> SpClear -> is_Some (o_lookup (sp_prob s) !! d) -> is_Some (o_lookup (sp_prob (fst (sp_step s op))) !! d).
Proof.
  intros Hc Hd. destruct op as [k [sp|] g|[x|] g|]; simpl; [|exact Hd| |exact Hd|contradiction].
  - destruct (spline_loop_eq (sp_prob s) (sp_active s) (sp_dvs sp) g) as (act & E & _). rewrite E.
    destruct (add_all_spec (sp_prob s) (sp_dvs sp) g) as (pre & rest & p & r & _ & E2 & _ & _ & L & _). rewrite E2. simpl.
    assert (Q : is_Some (o_lookup p !! d)) by (rewrite L; destruct (decide (d ∈ pre)); eauto).
    destruct r, k; exact Q.
  - unfold o_addDV. destruct (o_isDVInProblem (sp_prob s) x); [exact Hd|]. simpl. destruct (decide (x = d)) as [->|Hn]; [rewrite lookup_insert; eauto|].
    rewrite lookup_insert_ne by congruence. exact Hd.
Qed.
Theorem spline_listed_without_clear (ops : list spop) sp d : SpClear ∉ ops -> listed (sp_run sp_empty ops) sp -> d ∈ sp_dvs sp ->
  is_Some (o_lookup (sp_prob (sp_run sp_empty ops)) !! d).
Proof.
  intros Hc. revert sp d. assert (H : forall s : sprob V, (forall sp d, listed s sp -> d ∈ sp_dvs sp -> is_Some (o_lookup (sp_prob s) !! d)) ->
    forall sp d, listed (sp_run s ops) sp -> d ∈ sp_dvs sp -> is_Some (o_lookup (sp_prob (sp_run s ops)) !! d)).
  { induction ops as [|op ops IH]; intros s Hs; [exact Hs|]. apply not_elem_of_cons in Hc as [Hop Hc].
    simpl. apply IH; [exact Hc|]. intros sp d Hl Hd.
    assert (Q : listed s sp \/ exists k g, op = SpAdd k (Some sp) g /\ snd (add_all (sp_prob s) (sp_dvs sp) g) = Ret tt).
    { destruct op as [k [sp'|] g|x g|]; simpl in Hl; [|left; exact Hl|left; exact Hl|contradiction].
      destruct (spline_loop_eq (sp_prob s) (sp_active s) (sp_dvs sp') g) as (act & E & _). rewrite E in Hl.
      destruct ((add_all (sp_prob s) (sp_dvs sp') g).2) as [[]| | |] eqn:R; destruct k; unfold listed in Hl; simpl in Hl;
        try (left; exact Hl); rewrite elem_of_app, elem_of_list_singleton in Hl.
      - destruct Hl as [[?| ->]|?]; [left; left; assumption|right; exists SpTrans, g; auto|left; right; assumption].
      - destruct Hl as [?|[?| ->]]; [left; left; assumption|left; right; assumption|right; exists SpRot, g; auto]. }
    destruct Q as [Q|(k & g & -> & R)]; [apply step_lookup_mono; [congruence|eapply Hs; eassumption]|].
    simpl. destruct (spline_loop_eq (sp_prob s) (sp_active s) (sp_dvs sp) g) as (act & E & _). rewrite E, R.
    destruct (add_all_spec (sp_prob s) (sp_dvs sp) g) as (pre & rest & p & r & Ed & E2 & _ & _ & L & _ & _ & _ & HR). rewrite E2 in R |- *. simpl in R |- *. subst r.
    destruct HR as [[_ ->]|[? _]]; [|discriminate]. rewrite app_nil_r in Ed. rewrite Ed in Hd.
    assert (W : is_Some (o_lookup p !! d)) by (rewrite L, decide_True by exact Hd; eauto). destruct k; exact W. }
  apply H. intros sp d [Hl|Hl]; inversion Hl.
Qed.
(** Conversely a user expects a problem filled by addSpline to hold only variables of splines it keeps alive.  That fails
    when an insertion is rejected half-way: the variables before the offending one stay, their spline is not kept. *)
Theorem spline_owner_refuted : exists (ops : list spop) d,
  (forall op, op ∈ ops -> exists k sp g, op = SpAdd k (Some sp) g /\ NoDup (sp_dvs sp)) /\
  is_Some (o_lookup (sp_prob (sp_run sp_empty ops)) !! d) /\ forall sp, listed (sp_run sp_empty ops) sp -> d ∉ sp_dvs sp.
Proof.
  exists [SpAdd SpTrans (Some (Spline 0 [1])) 0; SpAdd SpRot (Some (Spline 1 [2; 1])) 0], 2. split.
  - intros op [->|[->|H]%elem_of_cons]%elem_of_cons; [..|inversion H]; do 3 eexists; (split; [reflexivity|]); simpl.
    + apply NoDup_singleton.
    + apply NoDup_cons. split; [rewrite elem_of_list_singleton; discriminate|apply NoDup_singleton].
  - split; [eexists; reflexivity|]. intros sp [H|H]; simpl in H; [|inversion H]. apply elem_of_list_singleton in H as ->. simpl.
    rewrite elem_of_list_singleton. discriminate.
Qed.
(** It holds for histories of addSpline calls none of which is rejected. *)
Theorem spline_owner_without_rejection (ops : list (spkind * spline * nat)) :
  let add o := SpAdd o.1.1 (Some o.1.2) o.2 in
  (forall pre o rest, ops = pre ++ o :: rest -> snd (sp_step (sp_run sp_empty (map add pre)) (add o)) = Ret tt) ->
  forall d, is_Some (o_lookup (sp_prob (sp_run sp_empty (map add ops))) !! d) <-> exists sp, listed (sp_run sp_empty (map add ops)) sp /\ d ∈ sp_dvs sp.
Proof.
  intros add. induction ops as [|[[k sp] g] ops IH] using rev_ind; intros H d.
  { simpl. rewrite lookup_empty. split; [intros [? ?]; discriminate|intros (sp & [Hs|Hs] & _); inversion Hs]. }
  assert (IH' : forall x, is_Some (o_lookup (sp_prob (sp_run sp_empty (map add ops))) !! x) <-> exists q, listed (sp_run sp_empty (map add ops)) q /\ x ∈ sp_dvs q).
  { apply IH. intros pre o rest E. apply (H pre o (rest ++ [(k, sp, g)])). rewrite E, <- app_assoc. reflexivity. }
  specialize (H ops (k, sp, g) [] eq_refl). rewrite map_app. unfold sp_run at 1 2. rewrite fold_left_app. fold (sp_run sp_empty (map add ops)).
  set (s := sp_run sp_empty (map add ops)) in *. cbn [map fold_left]. unfold add in H |- *. cbn [fst snd sp_step] in H |- *.
  destruct (spline_loop_eq (sp_prob s) (sp_active s) (sp_dvs sp) g) as (act & E & _). unfold addSpline in H |- *. rewrite E in H |- *.
  destruct (add_all_spec (sp_prob s) (sp_dvs sp) g) as (pre & rest & p & r & Ed & E2 & _ & _ & L & _ & _ & _ & HR). rewrite E2 in H |- *. simpl in H |- *.
  destruct HR as [[-> ->]|[-> _]]; [|discriminate]. rewrite app_nil_r in Ed.
  assert (W : is_Some (o_lookup p !! d) <-> d ∈ sp_dvs sp \/ exists q, listed s q /\ d ∈ sp_dvs q).
  { rewrite L, Ed. destruct (decide (d ∈ pre)) as [Hd|Hd]; [split; [auto|eauto]|]. rewrite IH'. split; [auto|intros [?|?]; [contradiction|assumption]]. }
  destruct k; simpl; rewrite W; unfold listed; simpl; setoid_rewrite elem_of_app; setoid_rewrite elem_of_list_singleton; (split;
    [intros [Hd|(q & Hq & Hd)]; [exists sp; auto|exists q; split; [destruct Hq; auto|exact Hd]]
    |intros (q & Hq & Hd)]).
  - destruct Hq as [[?| ->]|?]; [right; exists q; auto|left; exact Hd|right; exists q; auto].
  - destruct Hq as [?|[?| ->]]; [right; exists q; auto|right; exists q; auto|left; exact Hd].
Qed.
End P.

(** The hypotheses can be met: distinct objects and an empty problem. *)
Example td_hypotheses : let v := TdVars 0 1 2 3 4 5 6 in
  NoDup (td_batch_order v) /\ (forall d, d ∈ td_batch_order v -> o_lookup (@o_empty nat) !! d = None) /\ group_or_nil (@o_empty nat) 0 = [].
Proof. split; [unfold td_batch_order; simpl; apply (bool_decide_unpack _); reflexivity|]. split; [intros; apply lookup_empty|reflexivity]. Qed.
Example car_hypotheses : NoDup (car_batch_order (CarVars 0 1 2 3 4 5 6 7 8 9 10 11 12 13 14)).
Proof. apply (bool_decide_unpack _). reflexivity. Qed.
Example ego_hypotheses : let cfg := [(7, EgoVars 0 1 2); (3, EgoVars 3 4 5)] in
  ego_new cfg !! 3 = Some (EgoVars 3 4 5) /\ NoDup (ego_batch_order (map_to_list (ego_new cfg))).
Proof. split; [reflexivity|]. apply (bool_decide_unpack _). reflexivity. Qed.
