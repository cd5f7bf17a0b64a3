From stdpp Require Import prelude list.
From Coq Require Import Reals Lra Psatz.
From Coquelicot Require Coquelicot.
From Verif Require Import Base FunctionsModel GammaModel Spec_Gamma GammaAnalysis.
Local Open Scope R_scope.

(** ** Functions *)
Lemma fold_log l acc : fold_left (fun value x => value + ln (INR (x + 1))) l acc =
  acc + fold_left (fun value x => value + ln (INR (x + 1))) l 0.
Proof.
  revert acc. induction l as [|x l IH]; intros acc; simpl; [lra|].
  rewrite IH, (IH (0 + _)). lra.
Qed.
Lemma log_loop n : fold_left (fun value x => value + ln (INR (x + 1))) (seq 1 n) 0 = ln (INR (fact (n + 1))).
Proof.
  induction n as [|n IH]; [simpl; rewrite ln_1; done|].
  rewrite seq_S, fold_left_app, IH. simpl fold_left.
  replace (Datatypes.S n + 1)%nat with (Datatypes.S (n + 1)) by lia.
  rewrite (fact_simpl (n + 1)), mult_INR, ln_mult.
  - replace (Datatypes.S (n + 1))%nat with (1 + n + 1)%nat by lia. simpl. lra.
  - apply lt_0_INR. lia.
  - apply fact_pos.
Qed.
Lemma logFactorial_fact n : logFactorial n = ln (INR (fact n)).
Proof.
  unfold logFactorial. destruct (Nat.eqb_spec n 0) as [->|H]; [simpl; by rewrite ln_1|].
  rewrite log_loop. do 3 f_equal. lia.
Qed.

(** ** Parameters *)
Section par.
  Context {T : Type} (o : gops T).
  Definition good (d : gamma) : Prop :=
    t_nonpos o (g_shape d) = false /\ 0 < g_inv d /\
    g_nrm d = t_lg o (g_shape d) - t_R o (g_shape d) * ln (g_inv d).
  Lemma gamma_reach_good d : gamma_reach o d -> good d.
  Proof.
    induction 1 as [junk a b d H|d a _ IH|d b _ IH].
    - revert H. unfold gamma_new, setShape. destruct (t_nonpos o a) eqn:E; [done|]. simpl.
      unfold setInvScale. destruct (Rle_dec b 0); [done|]. intros [= <-]. unfold good; simpl. split; [done|]. split; [lra|done].
    - unfold setShape. destruct (t_nonpos o a) eqn:E; simpl; [done|]. destruct IH as (_ & H & _). done.
    - unfold setInvScale. destruct (Rle_dec b 0); simpl; [done|]. destruct IH as (H & _ & _). split; [done|]. split; [simpl; lra|done].
  Qed.
End par.
