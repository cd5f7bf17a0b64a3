(** C128: the history files of the example programs. *)
From stdpp Require Import prelude list strings pretty.
From Coq Require Import Reals String Ascii.
From Verif Require Import Base TextModel Spec_Text TextProofs CalibratorModel Spec_Calibrator CalibratorProofs Properties_Calibrator HistoryFilesModel Spec_HistoryFiles.
Local Open Scope string_scope. Local Open Scope list_scope.
Local Notation length := List.length.

Lemma lines_cons a t : lacks newline a -> lines (a +:+ nl +:+ t) = a :: lines t.
Proof.
  induction a as [|c a IH]; intros H; [done|]. destruct H as [Hc Ha]. change (lines (String c (a +:+ nl +:+ t)) = String c a :: lines t).
  cbn [lines]. destruct (Ascii.eqb_spec c newline); [done|]. by rewrite (IH Ha).
Qed.
Lemma lines_write {X} (show : X -> string) l : (forall x, lacks newline (show x)) -> lines (write_lines show l) = map show l.
Proof. intros H. induction l as [|x l IH]; [done|]. cbn [write_lines map]. by rewrite lines_cons, IH. Qed.
Lemma write_app {X} (show : X -> string) l l' : write_lines show (l ++ l') = write_lines show l +:+ write_lines show l'.
Proof. induction l as [|x l IH]; [done|]. cbn [write_lines app]. rewrite IH. by rewrite !app_assoc3. Qed.

Section window_files.
  Context {K D E B : Type} `{EqDecision K}.
  Context (W : R) (show : R -> string) (row : list R -> string).
  Context (Hshow : forall x, lacks newline (show x)) (Hrow : forall x, lacks newline (row x)).

  (** C128.  Whatever was called before: infoGainHist.txt has one line per window for which addBatch returned, in their order, with the information gain
      it returned; calibHist.txt has the initial parameters in its first line and then one line for each of the same windows, with the parameters after it.
      The windows are those of the calls (C46), processed one after the other. *)
  Theorem history_files (h : hooks K D E B (list R)) (e0 : E) (l : list (event K D)) :
    let c := (crun h (cal_new h e0 W) l).1 in
    exists e gs ps, replay (h_terms h) (h_addBatch h) (h_params h) e0 (map w_meas (c_sent c)) = (e, gs, ps) /\
      lines (gains_file show c) = map show gs /\
      lines (hist_file row c) = row (h_params h e0) :: map row ps /\
      length gs = length ps /\ length gs = length (List.filter w_returned (c_sent c)).
  Proof using Hshow Hrow.
    intros c. destruct (calibrator_history h e0 W l) as (ps & E1 & E2 & E3 & E4). fold c in E1, E2, E3, E4. exists (c_est c), (c_gains c), ps.
    split; [done|]. unfold gains_file, hist_file. rewrite !lines_write by done. rewrite E2. split; [done|]. split; [done|]. split; [|done].
    rewrite E2 in E4. cbn [length] in E4. lia.
  Qed.

  Lemma flush_files (h : hooks K D E B (list R)) c c' r : addMeasurements h c = (c', r) ->
    (exists g w, c_sent c' = c_sent c ++ [w] /\ w_returned w = true /\ r = Ret tt /\
       gains_file show c' = gains_file show c +:+ show g +:+ nl /\ hist_file row c' = hist_file row c +:+ row (h_params h (c_est c')) +:+ nl) \/
    (c' = c \/ exists w, c_sent c' = c_sent c ++ [w] /\ w_returned w = false /\ r <> Ret tt) /\
      gains_file show c' = gains_file show c /\ hist_file row c' = hist_file row c.
  Proof using.
    intros F. apply flush_cases in F as [[-> _]|(_ & _ & [(g & e' & _ & -> & ->)|(q & e' & _ & _ & Hr & ->)])].
    - right. split; [by left|done].
    - left. exists g. eexists. cbn [c_sent c_est]. split; [reflexivity|]. split; [done|]. split; [done|]. unfold gains_file, hist_file. cbn [c_gains c_hist].
      rewrite !write_app. cbn [write_lines]. done.
    - right. split; [|done]. right. eexists. cbn [c_sent]. split; [reflexivity|]. done.
  Qed.
  (** One call more: both files get exactly one line more if it handed over a window and addBatch returned, and stay as they are otherwise, also if
      addBatch failed. *)
  Theorem history_files_step (h : hooks K D E B (list R)) c (e : event K D) :
    let c' := (cstep h c e).1 in
    (exists g w, c_sent c' = c_sent c ++ [w] /\ w_returned w = true /\ (cstep h c e).2 = Ret tt /\
       gains_file show c' = gains_file show c +:+ show g +:+ nl /\ hist_file row c' = hist_file row c +:+ row (h_params h (c_est c')) +:+ nl) \/
    (c_sent c' = c_sent c \/ exists w, c_sent c' = c_sent c ++ [w] /\ w_returned w = false /\ (cstep h c e).2 <> Ret tt) /\
      gains_file show c' = gains_file show c /\ hist_file row c' = hist_file row c.
  Proof using.
    destruct e as [k ts d| | |w]; cbn [cstep].
    - destruct (addOne h c k ts d) as [c' r] eqn:Ea. cbn [fst snd].
      apply add_cases in Ea as [(_ & -> & ->)|(_ & c2 & F & Hc)]; [right; split; [by left|done]|].
      apply flush_files in F. destruct Hc as [[-> ->]|[Hr ->]].
      + destruct F as [(g & w & F1 & F2 & F3 & F4 & F5)|[[->|(w & F1 & F2 & F3)] F4]].
        * left. exists g, w. done.
        * right. split; [by left|done].
        * done.
      + destruct F as [(g & w & F1 & F2 & F3 & F4 & F5)|[[->|(w & F1 & F2 & F3)] F4]].
        * done.
        * right. split; [by left|done].
        * right. split; [right; by exists w|done].
    - destruct (addMeasurements h c) as [c' r] eqn:F. cbn [fst snd]. apply flush_files in F as [F|[[->|F1] F2]]; [by left|right; split; [by left|done]|right; split; [by right|done]].
    - right. split; [by left|done].
    - right. split; [by left|done].
  Qed.

  (** C128, refuted: the lines are not numbered by windows: a window for which addBatch threw has no line.  If it always throws, there are no gains and
      only the initial parameters, however many windows were handed over. *)
  Theorem history_files_failed_refuted (h : hooks K D E B (list R)) (e0 : E) (l : list (event K D)) :
    (forall e b, exists x e', h_addBatch h e b = (Throw x, e')) ->
    let c := (crun h (cal_new h e0 W) l).1 in lines (gains_file show c) = [] /\ lines (hist_file row c) = [row (h_params h e0)].
  Proof using Hshow Hrow.
    intros Hb c. destruct (history_files h e0 l) as (e & gs & ps & E1 & E2 & E3 & E4 & E5). fold c in E2, E3. rewrite E2, E3. clear E2 E3. revert E1. generalize (map w_meas (c_sent (crun h (cal_new h e0 W) l).1)) as ws.
    intros ws E1. assert (X : forall e1, replay (h_terms h) (h_addBatch h) (h_params h) e1 ws = (e, gs, ps) -> gs = [] /\ ps = []).
    { clear - Hb. induction ws as [|w ws IH]; intros e1 H; [by injection H as _ <- <-|]. cbn [replay] in H. destruct (Hb e1 (h_terms h e1 w)) as (x & e' & Ex).
      rewrite Ex in H. by apply IH in H. }
    destruct (X e0 E1) as [-> ->]. done.
  Qed.
  (** C128, refuted: the lines are not those of the accepted windows.  A rejected window, which leaves the parameters as they were, has its line as well:
      if all are rejected, the initial parameters are there once and once more for every window. *)
  Theorem history_files_rejected_refuted (h : hooks K D E B (list R)) (e0 : E) (l : list (event K D)) :
    (forall e b, exists g e', h_addBatch h e b = (Ret g, e') /\ h_params h e' = h_params h e) ->
    let c := (crun h (cal_new h e0 W) l).1 in
    lines (hist_file row c) = repeat (row (h_params h e0)) (S (length (c_sent c))) /\ length (lines (gains_file show c)) = length (c_sent c).
  Proof using Hshow Hrow.
    intros Hb c. destruct (history_files h e0 l) as (e & gs & ps & E1 & E2 & E3 & E4 & E5). fold c in E1, E2, E3, E5.
    assert (X : forall ws e1 e gs ps, replay (h_terms h) (h_addBatch h) (h_params h) e1 ws = (e, gs, ps) ->
      length gs = length ws /\ map row ps = repeat (row (h_params h e1)) (length ws)).
    { clear - Hb. induction ws as [|w ws IH]; intros e1 e gs ps H; [by injection H as _ <- <-|]. cbn [replay] in H.
      destruct (Hb e1 (h_terms h e1 w)) as (g & e' & Ex & Ep). rewrite Ex in H.
      destruct (replay _ _ _ e' ws) as [[e2 gs'] ps'] eqn:Er. injection H as _ <- <-. apply IH in Er as [R1 R2]. cbn [length map repeat].
      rewrite R1, R2, Ep. done. }
    apply X in E1 as [X1 X2]. rewrite map_length in X1, X2. rewrite E2, E3, X2, map_length. split; [done|exact X1].
  Qed.

  (** C128, egomotion: one file for every sensor with calibration variables, all of different names; each has the initial parameters of the sensor and one
      line for every window for which addBatch returned, with the parameters of this sensor after it. *)
  Theorem ego_history_files (h : hooks K D E B (nat -> list R)) (e0 : E) (l : list (event K D)) (order : list nat) : NoDup order ->
    let c := (crun h (cal_new h e0 W) l).1 in let files := ego_hist_files row order c in
    NoDup (map fst files) /\
    exists e gs ps, replay (h_terms h) (h_addBatch h) (h_params h) e0 (map w_meas (c_sent c)) = (e, gs, ps) /\
      lines (gains_file show c) = map show gs /\ length gs = length ps /\
      (forall k, k ∈ order -> exists t, ("calibHist_" +:+ pretty k +:+ ".txt", t) ∈ files /\ lines t = row (h_params h e0 k) :: map (fun p => row (p k)) ps) /\
      forall n t, (n, t) ∈ files -> exists k, k ∈ order /\ n = "calibHist_" +:+ pretty k +:+ ".txt".
  Proof using Hshow Hrow.
    intros Hn c files. split.
    { subst files. unfold ego_hist_files. rewrite map_map. cbn [fst].
      apply (NoDup_fmap_2_strong (fun k => "calibHist_" +:+ pretty k +:+ ".txt") order); [|exact Hn].
      intros a b _ _ Hab. apply app_inv_l in Hab. apply (inj pretty). revert Hab. generalize (pretty a) (pretty b). clear. 
      assert (L : forall s, String.length (s +:+ ".txt") = String.length s + 4).
      { induction s as [|c s IH]; [done|]. change (S (String.length (s +:+ ".txt")) = S (String.length s + 4)). by rewrite IH. }
      induction s as [|x s IH]; intros [|y s'] H; [done|exfalso|exfalso|].
      - apply (f_equal String.length) in H. rewrite !L in H. cbn in H. lia.
      - apply (f_equal String.length) in H. rewrite !L in H. cbn in H. lia.
      - change (String x (s +:+ ".txt") = String y (s' +:+ ".txt")) in H. injection H as <- H. by rewrite (IH _ H). }
    destruct (calibrator_history h e0 W l) as (ps & E1 & E2 & E3 & E4). fold c in E1, E2, E3, E4. exists (c_est c), (c_gains c), ps.
    split; [done|]. split; [by apply lines_write|]. split; [rewrite E2 in E4; cbn [length] in E4; lia|]. split.
    - intros k Hk. exists (write_lines (fun p => row (p k)) (c_hist c)). split.
      + apply elem_of_list_In, in_map_iff. exists k. split; [done|]. by apply elem_of_list_In.
      + rewrite lines_write by done. by rewrite E2.
    - intros n t Ht. apply elem_of_list_In, in_map_iff in Ht as (k & Hk & Hi). injection Hk as <- _. exists k. split; [by apply elem_of_list_In|done].
  Qed.
End window_files.

(** The hypotheses are met: two windows, the estimator of the second call throws, the third returns. *)
Example history_files_example :
  let h := Hooks (K := unit) (D := unit) (E := nat) (B := unit) (P := list R) (fun _ => true) (fun _ => Ret tt) (fun _ _ => [])
             (fun e _ => (if Nat.eqb e 1 then Throw External else Ret (INR e), S e)) (fun e => [INR e]) in
  let c := (crun h (cal_new h 0%nat 1%R) [Flush; Flush; Flush]).1 in
  length (c_sent c) = 3 /\ c_gains c = [INR 0; INR 2] /\ c_hist c = [[INR 0]; [INR 1]; [INR 3]] /\
  lines (hist_file (fun l => pretty (length l)) c) = ["1"; "1"; "1"] /\ lines (gains_file (fun _ => "g") c) = ["g"; "g"].
Proof. cbn. repeat split; reflexivity. Qed.
Example ego_files_example :
  let h := Hooks (K := unit) (D := unit) (E := nat) (B := unit) (P := nat -> list R) (fun _ => true) (fun _ => Ret tt) (fun _ _ => [])
             (fun e _ => (Ret 0%R, S e)) (fun e k => repeat 0%R (e + k)) in
  let c := (crun h (cal_new h 0%nat 1%R) [Flush]).1 in
  ego_hist_files (fun l => pretty (length l)) [2; 10]%nat c =
    [("calibHist_2.txt", "2" +:+ nl +:+ "3" +:+ nl); ("calibHist_10.txt", "10" +:+ nl +:+ "11" +:+ nl)].
Proof. vm_compute. reflexivity. Qed.
Print Assumptions history_files.
Print Assumptions ego_history_files.
