From stdpp Require Import prelude list strings pretty.
From Coq Require Import ZArith Ascii String.
From Verif Require Import Base GridModel TextModel Spec_Text.
Local Open Scope string_scope.

Lemma app_cons c s t : String c s +:+ t = String c (s +:+ t).
Proof. done. Qed.
Lemma app_assoc3 (a b c : string) : (a +:+ b) +:+ c = a +:+ (b +:+ c).
Proof. induction a as [|x a IH]; [done|]. rewrite !app_cons. by rewrite IH. Qed.
Lemma lacks_app c a b : lacks c (a +:+ b) <-> lacks c a /\ lacks c b.
Proof. induction a as [|x a IH]; [naive_solver|]. rewrite app_cons. cbn [lacks]. rewrite IH. naive_solver. Qed.
Lemma occurrences_app c a b : occurrences c (a +:+ b) = occurrences c a + occurrences c b.
Proof. induction a as [|x a IH]; [done|]. rewrite app_cons. cbn [occurrences]. rewrite IH. lia. Qed.
Lemma lacks_occurrences c a : lacks c a <-> occurrences c a = 0.
Proof. induction a as [|x a IH]; [done|]. cbn [lacks occurrences]. rewrite IH. case_bool_decide; naive_solver lia. Qed.
(** Cutting at the first occurrence of a character. *)
Lemma cut c a b x y : lacks c a -> lacks c b -> a +:+ String c x = b +:+ String c y -> a = b /\ x = y.
Proof.
  revert b. induction a as [|d a IH]; intros [|e b] Ha Hb; rewrite ?app_cons.
  - change ("" +:+ String c x) with (String c x). change ("" +:+ String c y) with (String c y). by intros [= ->].
  - change ("" +:+ String c x) with (String c x). intros [= <- _]. by destruct Hb.
  - change ("" +:+ String c y) with (String c y). intros [= -> _]. by destruct Ha.
  - intros [= -> H]. destruct (IH b) as [-> ->]; [apply Ha|apply Hb|done|done].
Qed.
Lemma app_inv_l (a x y : string) : a +:+ x = a +:+ y -> x = y.
Proof. induction a as [|c a IH]; [done|]. rewrite !app_cons. intros [= H]. auto. Qed.
(** The text of a number has digits only. *)
Lemma pretty_lacks c (n : N) : (forall d, (d < 10)%N -> pretty_N_char d <> c) -> lacks c (pretty n).
Proof.
  intros Hc. assert (H0 : "0"%char <> c) by (apply (Hc 0%N); lia).
  unfold pretty, pretty_N. case_decide; [cbn; done|].
  assert (G : forall m s, lacks c s -> lacks c (pretty_N_go m s)).
  { intros m. induction (N.lt_wf_0 m) as [m _ IH]. intros s Hs. destruct (decide (m = 0)%N) as [->|Hm]; [by rewrite pretty_N_go_0|].
    rewrite pretty_N_go_step by lia. apply IH; [apply N.div_lt; lia|]. split; [|done]. apply Hc. apply N.mod_lt. lia. }
  by apply G.
Qed.
Lemma digit_cases d : (d < 10)%N -> d = 0%N \/ d = 1%N \/ d = 2%N \/ d = 3%N \/ d = 4%N \/ d = 5%N \/ d = 6%N \/ d = 7%N \/ d = 8%N \/ d = 9%N.
Proof. lia. Qed.
Lemma pretty_lacks_bracket (n : N) : lacks "]" (pretty n).
Proof. apply pretty_lacks. intros d Hd. destruct (digit_cases d Hd) as [->|[->|[->|[->|[->|[->|[->|[->|[->| ->]]]]]]]]]; done. Qed.
Lemma pretty_lacks_newline (n : N) : lacks newline (pretty n).
Proof. apply pretty_lacks. intros d Hd. destruct (digit_cases d Hd) as [->|[->|[->|[->|[->|[->|[->|[->|[->| ->]]]]]]]]]; done. Qed.
Lemma pretty_lacks_nul (n : N) : lacks nul (pretty n).
Proof. apply pretty_lacks. intros d Hd. destruct (digit_cases d Hd) as [->|[->|[->|[->|[->|[->|[->|[->|[->| ->]]]]]]]]]; done. Qed.

Lemma c_string_full s : lacks nul s -> c_string s = s.
Proof. induction s as [|c s IH]; [done|]. cbn. intros [Hc Hs]. case_bool_decide; [done|]. by rewrite IH. Qed.
Lemma c_string_app a b : lacks nul a -> c_string (a +:+ b) = a +:+ c_string b.
Proof. induction a as [|c a IH]; [done|]. cbn [lacks]. intros [Hc Ha]. rewrite !app_cons. cbn [c_string]. case_bool_decide; [done|]. by rewrite IH. Qed.

Lemma base_lacks_nul msg file line func : lacks nul msg -> lacks nul file -> lacks nul func -> lacks nul (x_out (exc_new msg file line func)).
Proof.
  intros Hm Hf Hg. unfold exc_new. cbn [x_out]. rewrite !lacks_app. pose proof (pretty_lacks_nul line).
  split_and!; try done; case_bool_decide; try done; rewrite ?lacks_app; split_and!; try done; vm_compute; naive_solver.
Qed.
