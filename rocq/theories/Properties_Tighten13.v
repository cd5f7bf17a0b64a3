(** Tightened after mutation: what belongs to the user of an estimator. *)
From stdpp Require Import prelude list gmap.
From Verif Require Import Base OptProblemModel IncProblemModel EstimatorModel.

Section est.
Context {V D M : Type} (A : arith D) (nil : M) (h : nat -> oprob V) (dim edim : nat -> nat).
Local Notation step := (estep A nil h dim edim).
Local Notation run := (foldl (fun s op => fst (step s op))).

(** The activity flags and the options set last in a history, or those of the beginning. *)
Definition last_active (act : nat -> bool) (ops : list (eop V D M)) : nat -> bool :=
  foldl (fun a op => match op with ESetActive b => b | _ => a end) act ops.
Definition last_options (o : opts D) (ops : list (eop V D M)) : opts D :=
  foldl (fun a op => match op with ESetOptions b => b | _ => a end) o ops.

Definition same (s s' : est V D M) : Prop := e_active s' = e_active s /\ e_opts s' = e_opts s /\ e_marg s' = e_marg s.
Lemma reopt_same s oc : same s (fst (e_reoptimize A nil dim s oc)).
Proof.
  unfold e_reoptimize. destruct (order_marg (e_marg s) (e_prob s)) as [q [?| | |]]; try by (repeat split).
  destruct (marg_start dim (e_active s) q (e_marg s)); try by (repeat split). destruct oc; repeat split.
Qed.
Lemma add_same s p force oc : same s (fst (e_addBatch A nil h dim edim s p force oc)).
Proof.
  unfold e_addBatch. destruct (i_add h (e_prob s) p) as [q1 [?| | |]]; try by (repeat split).
  destruct (order_marg (e_marg s) q1) as [q2 [?| | |]]; try by (repeat split).
  destruct (marg_start dim (e_active s) (if force then q2 else i_save q2 (e_vals s)) (e_marg s)) as [k| | |]; try by (repeat split).
  destruct oc as [o| |]; [|repeat split|repeat split]. destruct (keep_batch A s o (batch_return A nil s o) force); [repeat split|].
  destruct (i_remove h _ p) as [q4 [?| | |]]; try by (repeat split).
  destruct (Nat.ltb 0 (i_numProblems q4)); [|repeat split]. destruct (restoreLinearSolver h dim edim (e_active s) q4); repeat split.
Qed.
Lemma removeIdx_same s idx oc : same s (fst (e_removeBatchIdx A nil h dim s idx oc)).
Proof.
  unfold e_removeBatchIdx. destruct (i_remove_idx h (e_prob s) idx) as [q [?| | |]]; try by (repeat split).
  pose proof (reopt_same (with_prob s q) oc) as H. destruct (e_reoptimize A nil dim (with_prob s q) oc) as [s' [?| | |]]; exact H.
Qed.

(** C58: activity flags, options and the marginalised group belong to the user.  Whatever happens in a history (accepted and rejected
    batches, removals, failures of the optimizer, refused calls), they are those set last; and values written by the user are there right afterwards. *)
Theorem user_settings (s : est V D M) (ops : list (eop V D M)) :
  e_active (run s ops) = last_active (e_active s) ops /\ e_opts (run s ops) = last_options (e_opts s) ops /\ e_marg (run s ops) = e_marg s.
Proof.
  revert s. induction ops as [|op ops IH]; intros s; [done|]. cbn [foldl]. destruct (IH (fst (step s op))) as (I1 & I2 & I3).
  unfold last_active, last_options in *. cbn [foldl]. rewrite I1, I2, I3. clear I1 I2 I3 IH.
  destruct op as [p force oc|idx oc|p oc|oc|vals|act|o]; cbn [estep fst snd].
  - destruct (add_same s p force oc) as (-> & -> & ->). done.
  - destruct (removeIdx_same s idx oc) as (-> & -> & ->). done.
  - unfold e_removeBatch. destruct p as [p|]; [|done]. destruct (find_index p (i_probs (e_prob s))) as [idx|]; [|done].
    destruct (removeIdx_same s idx oc) as (-> & -> & ->). done.
  - destruct (reopt_same s oc) as (-> & -> & ->). done.
  - done.
  - done.
  - done.
Qed.
Theorem user_values (s : est V D M) vals act o :
  e_vals (run s [ESetValues vals]) = vals /\ e_prob (run s [ESetValues vals]) = e_prob s /\
  e_vals (run s [ESetActive act]) = e_vals s /\ e_vals (run s [ESetOptions o]) = e_vals s /\
  snd (step s (ESetValues vals)) = Ret None /\ snd (step s (ESetActive act)) = Ret None /\ snd (step s (ESetOptions o)) = Ret None.
Proof. split_and!; reflexivity. Qed.
Example user_settings_example s act oc o vals :
  e_active (run s [EReoptimize oc; ESetActive act; EAdd None true oc; ESetOptions o; ESetValues vals; ERemoveIdx 3 oc]) = act.
Proof. by destruct (user_settings s [EReoptimize oc; ESetActive act; EAdd None true oc; ESetOptions o; ESetValues vals; ERemoveIdx 3 oc]) as [-> _]. Qed.
End est.
