(** Exact behaviour: negative grid indices (C30), splines after clear() and after a rejected addSpline (C76). *)
From stdpp Require Import prelude list gmap.
From Coq Require Import ZArith.
From Verif Require Import Base GridModel Spec_Grid GridProofs OptProblemModel OptProblemProofs KinematicsModel DesignVarsModel.

(** ** C30 *)
Local Open Scope Z_scope.
(** The number of the cell an index stands for, last component fastest. *)
Fixpoint position (n idx : list Z) : Z :=
  match n, idx with _ :: n', i :: idx' => i * product n' + position n' idx' | _, _ => 0 end.
Local Lemma position_upper n : forall idx, Forall (fun k => 1 <= k) n -> Forall2 Z.lt idx n -> position n idx < product n.
Proof.
  induction n as [|k n IH]; intros idx Hn Hl; inversion Hl as [|i ? idx' ? Hi Hl']; subst; [cbn; lia|].
  apply Forall_cons in Hn as [Hk Hn]. specialize (IH _ Hn Hl'). cbn [position product fold_right].
  change (fold_right Z.mul 1 n) with (product n).
  assert (1 <= product n). { clear -Hn. induction n; [done|]. apply Forall_cons in Hn as [? ?]. cbn. unfold product in IHn. specialize (IHn H0). nia. }
  nia.
Qed.
(** An index whose components are all below the counts, negative ones allowed, is accepted: if its position is negative the access is
    undefined, otherwise it silently is the access to the one valid cell with that position. *)
Theorem grid_negative_index {T C} (o : coord_ops T) (c0 : C) (g : grid T C) idx :
  counts_positive o -> grid_reachable o c0 g -> Forall2 Z.lt idx (g_n g) ->
  (position (g_n g) idx < 0 -> getCell g idx = UB) /\
  (0 <= position (g_n g) idx -> exists j, valid_index (g_n g) j /\ position (g_n g) j = position (g_n g) idx /\
     getCell g idx = getCell g j /\ (exists c, getCell g j = Ret c) /\ (forall f, setCell g idx f = setCell g j f) /\
     (forall j', valid_index (g_n g) j' -> position (g_n g) j' = position (g_n g) idx -> j' = j)).
Proof.
  intros Hp Hr Hl. pose proof (reachable_wf o c0 _ Hr) as Hg. pose proof (wf_counts o _ Hp Hg) as Hn.
  assert (Hpos : forall n i, position n i = linr n i).
  { intros n. induction n as [|k n IH]; intros [|i l]; cbn; [done..|]. by rewrite IH. }
  pose proof (position_upper _ _ Hn Hl) as Hu.
  assert (Hv : isValidIndex g idx = true).
  { unfold isValidIndex. apply all2_ltb_iff; [|done]. by eapply Forall2_length. }
  unfold getCell at 1. rewrite Hv, (linear_linr o) by done. rewrite Hpos. split.
  - intros H. unfold vec_get. by rewrite decide_False by lia.
  - intros H. destruct (linr_surj (g_n g) (linr (g_n g) idx) Hn) as (j & Hj & Ej).
    { rewrite Hpos in Hu. split; [done|]. exact Hu. }
    exists j. rewrite Hpos.
    assert (Hvj : isValidIndex g j = true).
    { unfold isValidIndex. apply all2_ltb_iff; [by eapply Forall2_length|]. eapply Forall2_impl; [exact Hj|]. intros x y [_ Hxy]; exact Hxy. }
    assert (He : getCell g idx = getCell g j).
    { unfold getCell. rewrite Hv, Hvj, !(linear_linr o) by done. by rewrite Ej. }
    split; [done|]. split; [done|]. split.
    { rewrite <- He. unfold getCell. rewrite Hv, (linear_linr o) by done. done. }
    split. { destruct (getCell_valid o _ _ Hg Hj) as (c & Hc & _). by exists c. }
    split.
    + intros f. unfold setCell. rewrite He, !(linear_linr o) by done. by rewrite Ej.
    + intros j' Hj' E'. rewrite Hpos in E'. eapply linr_inj; [done..|congruence].
Qed.
Local Close Scope Z_scope.

(** ** C76 *)
Section splines.
  Context {V : Type}.
  Implicit Types s : sprob V.
  (** clear() empties the problem and keeps the list of splines. *)
  Theorem spline_clear_exactly s :
    let s' := fst (sp_step s SpClear) in
    snd (sp_step s SpClear) = Ret tt /\ sp_trans s' = sp_trans s /\ sp_rot s' = sp_rot s /\
    (forall d, o_isDVInProblem (sp_prob s') d = false) /\ o_numDV (sp_prob s') = 0.
  Proof. done. Qed.
  (** addSpline with a variable that is already in the problem (or twice in the spline) throws InvalidOperation; the spline is not listed
      but the variables before that one are now in the problem, and nothing else is. Without such a variable it succeeds. *)
  Theorem add_spline_exactly s k sp g :
    (forall pre d post, sp_dvs sp = pre ++ d :: post -> NoDup pre -> (forall x, x ∈ pre -> o_isDVInProblem (sp_prob s) x = false) ->
       d ∈ pre \/ o_isDVInProblem (sp_prob s) d = true ->
       let s' := fst (addSpline s k (Some sp) g) in
       snd (addSpline s k (Some sp) g) = Throw InvalidOperation /\ sp_trans s' = sp_trans s /\ sp_rot s' = sp_rot s /\
       (forall x, o_isDVInProblem (sp_prob s') x = true <-> o_isDVInProblem (sp_prob s) x = true \/ x ∈ pre)) /\
    (NoDup (sp_dvs sp) -> (forall x, x ∈ sp_dvs sp -> o_isDVInProblem (sp_prob s) x = false) ->
       let s' := fst (addSpline s k (Some sp) g) in
       snd (addSpline s k (Some sp) g) = Ret tt /\ sp_list s' k = sp_list s k ++ [sp] /\
       (forall x, o_isDVInProblem (sp_prob s') x = true <-> o_isDVInProblem (sp_prob s) x = true \/ x ∈ sp_dvs sp)).
  Proof.
    assert (Hadd : forall (p : oprob V) d, o_isDVInProblem p d = false ->
      exists p', o_addDV p (Some d) g = (p', Ret tt) /\ forall x, o_isDVInProblem p' x = true <-> o_isDVInProblem p x = true \/ x = d).
    { intros p d Hd. unfold o_addDV. rewrite Hd. eexists. split; [reflexivity|]. intros x. unfold o_isDVInProblem. cbn [o_lookup].
      rewrite !bool_decide_eq_true. destruct (decide (x = d)) as [->|Hx].
      - rewrite lookup_insert. split; [by right|by eexists].
      - rewrite lookup_insert_ne by done. split; [by left|intros [?|?]; done]. }
    assert (Hok : forall pre post (p : oprob V) act, NoDup pre -> (forall x, x ∈ pre -> o_isDVInProblem p x = false) ->
      exists p' act', spline_loop p act (pre ++ post) g = spline_loop p' act' post g /\
        forall x, o_isDVInProblem p' x = true <-> o_isDVInProblem p x = true \/ x ∈ pre).
    { induction pre as [|d pre IH]; intros post p act Hnd Hf; cbn [app].
      - exists p, act. split; [done|]. intros x. split; [by left|intros [?|?%elem_of_nil]; done].
      - apply NoDup_cons in Hnd as [Hd Hnd]. destruct (Hadd p d (Hf d ltac:(by left))) as (p1 & E1 & H1).
        cbn [spline_loop]. rewrite E1.
        edestruct (IH post p1 (fun x => if decide (x = d) then true else act x) Hnd) as (p' & act' & -> & H').
        { intros x Hx. destruct (o_isDVInProblem p1 x) eqn:Ex; [|done]. apply H1 in Ex as [Ex| ->]; [|done].
          rewrite Hf in Ex; [done|by right]. }
        exists p', act'. split; [done|]. intros x. rewrite H', H1, elem_of_cons. tauto. }
    split.
    - intros pre d post Hsp Hnd Hf Hd. unfold addSpline. rewrite Hsp.
      destruct (Hok pre (d :: post) (sp_prob s) (sp_active s) Hnd Hf) as (p' & act' & -> & H').
      cbn [spline_loop]. assert (Hin : o_isDVInProblem p' d = true) by (apply H'; tauto).
      unfold o_addDV. rewrite Hin. cbn. split_and!; done.
    - intros Hnd Hf. unfold addSpline. destruct (Hok (sp_dvs sp) [] (sp_prob s) (sp_active s) Hnd Hf) as (p' & act' & E & H').
      rewrite app_nil_r in E. rewrite E. cbn [spline_loop]. destruct k; cbn; split_and!; done.
  Qed.
End splines.
(** Non-vacuity *)
Example grid_negative_index_example : Forall2 Z.lt [1; -1; 0]%Z [3; 4; 2]%Z /\ position [3; 4; 2]%Z [1; -1; 0]%Z = 6%Z /\ position [3; 4; 2]%Z [0; 3; 0]%Z = 6%Z.
Proof. split; [repeat constructor; lia|done]. Qed.
