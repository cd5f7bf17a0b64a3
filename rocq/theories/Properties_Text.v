(** C113: texts of exceptions; C114: texts of objects in streams. *)
From stdpp Require Import prelude list strings pretty.
From Coq Require Import ZArith Ascii String.
From Verif Require Import Base GridModel GridProofs Spec_Grid TextModel Spec_Text TextProofs.
Local Open Scope string_scope.

(** C113.  What the user reads: function, message, file and line in this order, with the argument and the bound at the end; what is not given (a blank, line 0)
    is left out; copies and assigned exceptions read the same. *)
Theorem exception_text :
  forall msg file func (line : N), lacks nul msg -> lacks nul file -> lacks nul func ->
    let place := (if bool_decide (file = " ") then "" else " [file = " +:+ file +:+ "]") +:+
                 (if bool_decide (line = 0%N) then "" else "[line = " +:+ pretty line +:+ "]") in
    let who := if bool_decide (func = " ") then "" else func +:+ ": " in
    what (invalid_operation msg file line func) = who +:+ msg +:+ place /\
    what (null_pointer msg file line func) = who +:+ msg +:+ " is a null pointer" +:+ place /\
    (forall arg, lacks nul arg ->
       what (bad_argument arg msg file line func) = who +:+ msg +:+ place +:+ "[argument = " +:+ arg +:+ "]" /\
       what (out_of_bound arg msg file line func) = who +:+ msg +:+ place +:+ "[argument = " +:+ arg +:+ "]" /\
       forall bound, lacks nul bound ->
         what (out_of_bound2 arg bound msg file line func) = who +:+ msg +:+ place +:+ "[argument = " +:+ arg +:+ "][bound = " +:+ bound +:+ "]") /\
    (forall e self, what (exc_copy e) = what e /\ what (exc_assign self e) = what e /\ exc_copy e = e /\ exc_assign self e = e).
Proof.
  intros msg file func line Hm Hf Hg place who.
  assert (E : forall m, lacks nul m -> x_out (exc_new m file line func) = who +:+ m +:+ place /\ lacks nul (who +:+ m +:+ place)).
  { intros m Hm'. pose proof (base_lacks_nul m file line func Hm' Hf Hg) as H. cbn [x_out exc_new] in *. split; [done|exact H]. }
  split_and!.
  - unfold what, invalid_operation. destruct (E msg Hm) as [-> H]. by apply c_string_full.
  - unfold what, null_pointer. destruct (E (msg +:+ " is a null pointer")) as [-> H].
    { rewrite lacks_app. split; [done|]. vm_compute. naive_solver. }
    rewrite c_string_full by done. by rewrite !app_assoc3.
  - intros arg Ha. destruct (E msg Hm) as [E' H'].
    assert (G : what (exc_append (exc_new msg file line func) ("[argument = " +:+ arg +:+ "]")) = who +:+ msg +:+ place +:+ "[argument = " +:+ arg +:+ "]").
    { unfold what, exc_append. cbn [x_out]. change (x_out _) with (x_out (exc_new msg file line func)). rewrite E', c_string_app by done. rewrite c_string_full.
      - by rewrite !app_assoc3.
      - rewrite !lacks_app. split_and!; try done; vm_compute; naive_solver. }
    split_and!; [exact G|exact G|]. intros bound Hb.
    unfold what, out_of_bound2, exc_append. cbn [x_out]. change (x_out _) with (x_out (exc_new msg file line func)). rewrite E', c_string_app by done. rewrite c_string_full.
    + rewrite !app_assoc3. done.
    + rewrite !lacks_app. split_and!; try done; vm_compute; naive_solver.
  - intros e self. by destruct e.
Qed.
Print Assumptions exception_text.

(** C113.  The place and the values can be read off the text: two exceptions of the same message, file and function read the same only if line, argument and
    bound are the same (as printed, without closing brackets). *)
Theorem exception_text_unambiguous :
  forall msg file func (l l' : N) a a' b b',
    Forall (lacks nul) [msg; file; func; a; a'; b; b'] -> Forall (lacks "]") [a; a'; b; b'] ->
    (what (out_of_bound2 a b msg file l func) = what (out_of_bound2 a' b' msg file l' func) -> l = l' /\ a = a' /\ b = b') /\
    (what (out_of_bound a msg file l func) = what (out_of_bound a' msg file l' func) -> l = l' /\ a = a') /\
    (what (bad_argument a msg file l func) = what (bad_argument a' msg file l' func) -> l = l' /\ a = a').
Proof.
  intros msg file func l l' a a' b b' Hn Hb. rewrite !Forall_cons in Hn. rewrite !Forall_cons in Hb.
  destruct Hn as (Hm & Hf & Hg & Ha & Ha' & Hbb & Hbb' & _). destruct Hb as (Ka & Ka' & Kb & Kb' & _).
  assert (G : forall x x' y y', lacks "]" x -> lacks "]" x' ->
     (if bool_decide (l = 0%N) then "" else "[line = " +:+ pretty l +:+ "]") +:+ "[argument = " +:+ x +:+ String "]" y =
     (if bool_decide (l' = 0%N) then "" else "[line = " +:+ pretty l' +:+ "]") +:+ "[argument = " +:+ x' +:+ String "]" y' ->
     l = l' /\ x = x' /\ y = y').
  { intros x x' y y' Hx Hx'.
    case_bool_decide as D; case_bool_decide as D'.
    - intros H. apply (app_inv_l "[argument = ") in H. apply cut in H as [-> ->]; [|done..]. by subst.
    - intros H. discriminate H.
    - intros H. discriminate H.
    - rewrite !app_assoc3. intros H. apply (app_inv_l "[line = ") in H.
      change ("]" +:+ ?s) with (String "]" s) in H. apply cut in H as [H1 H2]; [|apply pretty_lacks_bracket..].
      apply (app_inv_l "[argument = ") in H2. apply cut in H2 as [-> ->]; [|done..]. split; [|done]. by apply (inj pretty). }
  destruct (exception_text msg file func l Hm Hf Hg) as (_ & _ & T & _). destruct (exception_text msg file func l' Hm Hf Hg) as (_ & _ & T' & _).
  destruct (T a Ha) as (T1 & T2 & T3). destruct (T' a' Ha') as (T1' & T2' & T3'). specialize (T3 b Hbb). specialize (T3' b' Hbb').
  split_and!.
  - rewrite T3, T3', !app_assoc3. intros H. do 3 apply app_inv_l in H.
    change ("][bound = " +:+ b +:+ "]") with (String "]" ("[bound = " +:+ b +:+ "]")) in H. change ("][bound = " +:+ b' +:+ "]") with (String "]" ("[bound = " +:+ b' +:+ "]")) in H.
    apply G in H as (-> & -> & H); [|done..]. apply (app_inv_l "[bound = ") in H. apply cut in H as [-> _]; done.
  - rewrite T2, T2', !app_assoc3. intros H. do 3 apply app_inv_l in H. change "]" with (String "]" "") in H. apply G in H as (-> & -> & _); done.
  - rewrite T1, T1', !app_assoc3. intros H. do 3 apply app_inv_l in H. change "]" with (String "]" "") in H. apply G in H as (-> & -> & _); done.
Qed.
Print Assumptions exception_text_unambiguous.
(** C113, refuted without these restrictions: a NUL in the message hides everything after it, and brackets in a printed argument confuse. *)
Theorem exception_text_refuted :
  (exists msg, forall arg file line func, func = " " -> what (bad_argument arg msg file line func) = what (bad_argument "" msg " " 0 " ")) /\
  (exists a b a' b', a <> a' /\ forall msg file line func, what (out_of_bound2 a b msg file line func) = what (out_of_bound2 a' b' msg file line func)).
Proof.
  split.
  - exists (String nul ""). intros arg file line func ->. done.
  - exists "1][bound = 2", "3", "1", "2][bound = 3". split; [done|]. done.
Qed.
Print Assumptions exception_text_refuted.
Example exception_text_case :
  what (out_of_bound2 "7" "3" "wrong groups ordering size" "OptimizationProblem.cpp" 61 "setGroupsOrdering") =
    "setGroupsOrdering: wrong groups ordering size [file = OptimizationProblem.cpp][line = 61][argument = 7][bound = 3]" /\
  what (bad_argument "0" "bad" " " 0 " ") = "bad[argument = 0]".
Proof. vm_compute. done. Qed.

(** C114.  Printing to the console (or to any stream of static type [std::ostream]) appends the texts in order; printing to a file stream drops the objects
    before the first thing that is not an object of the library, except the vector design variables. *)
Definition text_of (i : item) : string := match i with Plain s | Object s | Vector s => s end.
Definition is_plain (i : item) : bool := match i with Plain _ => true | _ => false end.
Definition is_object (i : item) : Prop := match i with Object _ => True | _ => False end.
Definition is_vector (i : item) : bool := match i with Vector _ => true | _ => false end.
Definition texts (is : list item) : string := foldr (fun i s => text_of i +:+ s) "" is.
Theorem stream_text :
  forall is, inserts Ostream is = texts is /\
    (forall os, Forall (fun i => is_plain i = false) os ->
       inserts Ofstream os = texts (List.filter is_vector os) /\
       forall s is', is = (os ++ Plain s :: is')%list -> inserts Ofstream is = texts (List.filter is_vector os ++ Plain s :: is')).
Proof.
  assert (H : forall is, inserts Ostream is = texts is) by (induction is as [|[] is IH]; cbn; [done|by rewrite IH..]).
  intros is. split; [apply H|]. intros os Ho. split.
  - induction Ho as [|[] os Hx _ IH]; cbn; [done|done|done|by rewrite IH].
  - intros s is' ->. induction Ho as [|[] os Hx _ IH]; cbn; [by rewrite H|done|exact IH|by rewrite IH].
Qed.
Print Assumptions stream_text.
(** C114, refuted: a file does not get what the console gets, and reading restores nothing: neither the object nor the stream moves. *)
Theorem stream_round_trip_refuted :
  (exists i, is_object i /\ inserts Ofstream [i] <> inserts Ostream [i]) /\
  (forall (O : Type) (stream : string) (os : list O), extracts stream os = (stream, os)) /\
  (forall (O : Type) (wr : O -> string) (o o' : O), o <> o' -> snd (extract (wr o) o') <> o).
Proof.
  split_and!.
  - exists (Object "mean: 0"). split; [done|]. vm_compute. done.
  - intros O stream os. induction os as [|o os IH]; cbn; [done|]. by rewrite IH.
  - intros O wr o o' H. cbn. congruence.
Qed.
Print Assumptions stream_round_trip_refuted.

(** C114.  The text of a distribution tells its parameters apart, as far as the printed numbers do. *)
Theorem object_text_unambiguous :
  forall (D : Type) (fmt : D -> string), (forall x, lacks newline (fmt x)) ->
    (forall a b a' b', write_normal1 fmt a b = write_normal1 fmt a' b' <-> fmt a = fmt a' /\ fmt b = fmt b') /\
    (forall a b a' b', write_uniform1 fmt a b = write_uniform1 fmt a' b' <-> fmt a = fmt a' /\ fmt b = fmt b') /\
    (forall a b a' b', write_gamma fmt a b = write_gamma fmt a' b' <-> fmt a = fmt a' /\ fmt b = fmt b') /\
    (forall a a', write_timestamp fmt a = write_timestamp fmt a' <-> fmt a = fmt a') /\
    (forall a a', write_incgamma fmt a = write_incgamma fmt a' <-> fmt a = fmt a') /\
    (forall a a', write_chi2 fmt a = write_chi2 fmt a' <-> fmt a = fmt a') /\
    (forall a b n v a' b' n' v', write_estimator (write_normal1 fmt a b) n v = write_estimator (write_normal1 fmt a' b') n' v' <->
       fmt a = fmt a' /\ fmt b = fmt b' /\ n = n' /\ v = v').
Proof.
  intros D fmt Hf.
  assert (two : forall p q a b a' b', p +:+ fmt a +:+ nl +:+ q +:+ fmt b = p +:+ fmt a' +:+ nl +:+ q +:+ fmt b' -> fmt a = fmt a' /\ fmt b = fmt b').
  { intros p q a b a' b' H. apply app_inv_l in H. change (nl +:+ ?s) with (String newline s) in H. apply cut in H as [-> H]; [|apply Hf..]. by apply app_inv_l in H. }
  split_and!.
  1-3: intros a b a' b'; split; [apply two|]; intros [H1 H2]; unfold write_normal1, write_uniform1, write_gamma; by rewrite H1, H2.
  1-3: intros a a'; split; [apply app_inv_l|]; intros H1; unfold write_timestamp, write_incgamma, write_chi2; by rewrite H1.
  intros a b n v a' b' n' v'. split.
  - unfold write_estimator. intros H. apply app_inv_l in H. apply (app_inv_l nl) in H. unfold write_normal1 in H. rewrite !app_assoc3 in H.
    apply app_inv_l in H. change (nl +:+ ?s) with (String newline s) in H.
    apply cut in H as [-> H]; [|apply Hf..]. apply app_inv_l in H. apply cut in H as [-> H]; [|apply Hf..].
    apply app_inv_l in H. apply cut in H as [H1 H]; [|apply pretty_lacks_newline..]. apply app_inv_l in H. split_and!; try done; [by apply (inj pretty)|].
    by destruct v, v'.
  - intros (H1 & H2 & -> & ->). unfold write_estimator, write_normal1. by rewrite H1, H2.
Qed.
Print Assumptions object_text_unambiguous.

Lemma write_cells_inj {C} (cell : C -> string) cs cs' :
  (forall c, lacks newline (cell c)) -> write_cells cell cs = write_cells cell cs' -> map cell cs = map cell cs'.
Proof.
  intros Hc. revert cs'. induction cs as [|c cs IH]; intros [|c' cs']; cbn [write_cells foldr map]; [done| | |].
  - intros H. exfalso. destruct (cell c'); discriminate H.
  - intros H. exfalso. destruct (cell c); discriminate H.
  - change (nl +:+ ?s) with (String newline s). intros H. apply cut in H as [-> H]; [|apply Hc..]. f_equal. by apply IH.
Qed.
Lemma write_cells_lines {C} (cell : C -> string) cs : (forall c, lacks newline (cell c)) -> occurrences newline (write_cells cell cs) = List.length cs.
Proof.
  intros Hc. induction cs as [|c cs IH]; [done|]. cbn [write_cells foldr List.length]. rewrite !occurrences_app. fold (write_cells cell cs). rewrite IH.
  rewrite (proj1 (lacks_occurrences _ _) (Hc c)). done.
Qed.

(** C114.  The text of a grid (or histogram): after the six lines of the header come exactly as many cell lines as the header announces, and the text determines
    every cell. *)
Theorem grid_text :
  forall (T C : Type) (o : coord_ops T) (c0 : C) (row : list T -> string) (rowZ : list Z -> string) (cell : C -> string),
    (forall x, lacks newline (row x)) -> (forall x, lacks newline (rowZ x)) -> (forall x, lacks newline (cell x)) -> counts_positive o ->
    forall g : grid T C, grid_reachable o c0 g ->
    occurrences newline (write_grid row rowZ cell g) = 6 + Z.to_nat (product (g_n g)) /\
    (exists pre, write_grid row rowZ cell g = pre +:+ "total number of cells: " +:+ pretty (Z.to_N (product (g_n g))) +:+ nl +:+ "cells: " +:+ nl +:+
       foldr (fun c s => cell c +:+ nl +:+ s) "" (g_cells g) /\ occurrences newline pre = 4) /\
    forall g' : grid T C, write_grid row rowZ cell g = write_grid row rowZ cell g' ->
      row (g_min g) = row (g_min g') /\ row (g_max g) = row (g_max g') /\ row (g_res g) = row (g_res g') /\ rowZ (g_n g) = rowZ (g_n g') /\
      map cell (g_cells g) = map cell (g_cells g').
Proof.
  intros T C o c0 row rowZ cell Hr HZ Hc Hp g Hg.
  assert (Htot : g_tot g = product (g_n g)) by (pose proof (reachable_wf o c0 g Hg) as Hw; unfold gwf in Hw; naive_solver).
  pose proof (proj1 (cells_one_to_one o c0 g Hp Hg)) as Hlen.
  split_and!.
  - unfold write_grid. rewrite !occurrences_app, write_cells_lines by done. rewrite Hlen.
    rewrite !(proj1 (lacks_occurrences newline (row _)) (Hr _)), (proj1 (lacks_occurrences newline (rowZ _)) (HZ _)).
    rewrite (proj1 (lacks_occurrences newline (pretty _)) (pretty_lacks_newline _)). done.
  - exists ("minimum: " +:+ row (g_min g) +:+ nl +:+ "maximum: " +:+ row (g_max g) +:+ nl +:+ "resolution: " +:+ row (g_res g) +:+ nl +:+
            "number of cells per dim: " +:+ rowZ (g_n g) +:+ nl).
    split; [unfold write_grid; rewrite !app_assoc3, Htot; done|].
    rewrite !occurrences_app, !(proj1 (lacks_occurrences newline (row _)) (Hr _)), (proj1 (lacks_occurrences newline (rowZ _)) (HZ _)). done.
  - intros g' H. unfold write_grid in H. apply app_inv_l in H. change (nl +:+ ?s) with (String newline s) in H.
    apply cut in H as [-> H]; [|apply Hr..]. apply app_inv_l in H. apply cut in H as [-> H]; [|apply Hr..].
    apply app_inv_l in H. apply cut in H as [-> H]; [|apply Hr..]. apply app_inv_l in H. apply cut in H as [-> H]; [|apply HZ..].
    apply app_inv_l in H. apply cut in H as [_ H]; [|apply pretty_lacks_newline..]. apply app_inv_l in H. injection H as H.
    split_and!; try done. by apply write_cells_inj.
Qed.
Print Assumptions grid_text.
Example grid_text_case : forall (row rowZ : list Z -> string), exists g, grid_new int_ops 0%nat [0; 0]%Z [4; 1]%Z [1; 1]%Z = Ret g /\ grid_reachable int_ops 0%nat g /\ product (g_n g) = 10%Z.
Proof. intros _ _. eexists. split; [vm_compute; reflexivity|]. split; [|vm_compute; done]. eapply (gr_new _ _ [0; 0]%Z [4; 1]%Z [1; 1]%Z); done. Qed.
