(** C105, C106: the adapter over histories of calls. *)
From stdpp Require Import prelude list gmap.
From Verif Require Import Base SolverModel Properties_Solver.

Section history.
Context {M Vec L P : Type} (lib : library M Vec L P).
Implicit Types a : adapter M Vec L.

(** What the last calls of a history made of the linear system and of the marginalisation index. *)
Definition system_step (s : M * Vec) (c : acall Vec P) : M * Vec :=
  match c with
  | ABuild => fst (build_values lib (fst s))          (* new values and errors in the present structure *)
  | AInit p => (fst (build_structure lib p), snd s)   (* new structure, old errors *)
  | ASolve _ | AAnalyze | AMarg _ => s
  end.
Definition marg_of (c : acall Vec P) : option nat := match c with AMarg k => Some k | _ => None end.
(** The component behind the call throws. *)
Definition throws {A} (r : result A) : Prop := exists e, r = Throw e.
Definition component_throws (a : adapter M Vec L) (c : acall Vec P) : Prop :=
  match c with
  | ABuild => throws (snd (build_values lib (a_Jt a)))
  | AInit p => throws (snd (build_structure lib p))
  | ASolve dx => exists J, transpose lib (a_Jt a) = Some J /\ throws (snd (lib_solve lib (a_lib a) J (a_e a) (a_margStart a) dx))
  | AAnalyze => exists J, transpose lib (a_Jt a) = Some J /\ throws (snd (lib_analyze lib (a_lib a) J (a_margStart a)))
  | AMarg _ => False
  end.
(** What the library's solver goes through. *)
Definition library_step (a : adapter M Vec L) (c : acall Vec P) : L :=
  match c with
  | ABuild | AMarg _ => a_lib a
  | AInit _ => lib_clear lib (a_lib a)
  | ASolve dx => match transpose lib (a_Jt a) with Some J => fst (fst (lib_solve lib (a_lib a) J (a_e a) (a_margStart a) dx)) | None => a_lib a end
  | AAnalyze => match transpose lib (a_Jt a) with Some J => fst (lib_analyze lib (a_lib a) J (a_margStart a)) | None => a_lib a end
  end.

Lemma acall_step_spec a c a' t :
  acall_step lib a c = (a', t) ->
  (a_Jt a', a_e a') = system_step (a_Jt a, a_e a) c /\ a_margStart a' = default (a_margStart a) (marg_of c) /\
  a_lib a' = library_step a c /\ (t = true <-> component_throws a c).
Proof.
  destruct c as [|dx|p| |k]; cbn.
  - unfold a_buildSystem. destruct (build_values lib (a_Jt a)) as [[J e] r]. intros [= <- <-]. cbn. split_and!; try done.
    unfold throws. destruct r; naive_solver.
  - unfold a_solveSystem. destruct (transpose lib (a_Jt a)) as [J|].
    + destruct (lib_solve lib (a_lib a) J (a_e a) (a_margStart a) dx) as [[l d] q] eqn:E.
      destruct q as [[]|e| |]; intros [= <- <-]; cbn; (split_and!; [done|done|done|]); unfold throws;
        (split; [try done; intros _; exists J; rewrite E; naive_solver|]); intros (J' & [= <-] & [e' He]); rewrite E in He; done.
    + intros [= <- <-]. split_and!; try done. naive_solver.
  - unfold a_initMatrixStructure. destruct (build_structure lib p) as [J r]. intros [= <- <-]. cbn. split_and!; try done.
    unfold throws. destruct r; naive_solver.
  - unfold a_analyzeMarginal. destruct (transpose lib (a_Jt a)) as [J|].
    + destruct (lib_analyze lib (a_lib a) J (a_margStart a)) as [l q] eqn:E.
      destruct q as [[]|e| |]; intros [= <- <-]; cbn; (split_and!; [done|done|done|]); unfold throws;
        (split; [try done; intros _; exists J; rewrite E; naive_solver|]); intros (J' & [= <-] & [e' He]); rewrite E in He; done.
    + intros [= <- <-]. split_and!; try done. naive_solver.
  - intros [= <- <-]. cbn. naive_solver.
Qed.

(** C105.  Whatever was called before, and whatever threw: the system that the library is given is the one of the last calls that built it, with the last
    marginalisation index; a call throws exactly when the component behind it throws, and the library's solver sees exactly the calls that reach it. *)
Theorem adapter_history (cs : list (acall Vec P)) a a' ts :
  acalls lib a cs = (a', ts) ->
  (a_Jt a', a_e a') = foldl system_step (a_Jt a, a_e a) cs /\
  a_margStart a' = default (a_margStart a) (last (omap marg_of cs)) /\
  length ts = length cs /\
  forall i c t, cs !! i = Some c -> ts !! i = Some t ->
    let b := fst (acalls lib a (take i cs)) in
    let b' := fst (acalls lib a (take (S i) cs)) in
    (t = true <-> component_throws b c) /\ a_lib b' = library_step b c.
Proof.
  revert a a' ts. induction cs as [|c cs IH]; intros a a' ts H; cbn [acalls] in H.
  { injection H as <- <-. split_and!; try done. }
  destruct (acall_step lib a c) as [a1 t1] eqn:E1. destruct (acalls lib a1 cs) as [a2 ts2] eqn:E2. injection H as <- <-.
  destruct (acall_step_spec _ _ _ _ E1) as (Hsys & Hm & Hl & Ht). destruct (IH _ _ _ E2) as (IHs & IHm & IHlen & IHi).
  split_and!.
  - cbn [foldl]. rewrite IHs, Hsys. done.
  - rewrite IHm, Hm. change (omap marg_of (c :: cs)) with (match marg_of c with Some k => k :: omap marg_of cs | None => omap marg_of cs end).
    destruct (marg_of c) as [k|]; [|done]. rewrite last_cons. by destruct (last (omap marg_of cs)).
  - cbn. by rewrite IHlen.
  - intros [|i] c' t'; cbn [lookup list_lookup].
    + intros [= <-] [= <-]. cbn [take acalls fst]. rewrite E1. destruct cs; cbn; done.
    + intros Hc Hts. specialize (IHi i c' t' Hc Hts). cbn [take acalls]. rewrite E1.
      change (match cs with [] => [] | a0 :: l' => a0 :: take i l' end) with (take (S i) cs).
      destruct (acalls lib a1 (take i cs)) as [b ts'] eqn:Eb. destruct (acalls lib a1 (take (S i) cs)) as [b' ts''] eqn:Eb'. cbn in *. exact IHi.
Qed.

(** C105, refuted: [rhsJtJrhs], which the trust region policies ask for the curvature along the gradient, is 0 for every system. *)
Theorem adapter_curvature_refuted a : a_rhsJtJrhs a = 0.
Proof. done. Qed.
End history.
Print Assumptions adapter_history. Print Assumptions adapter_curvature_refuted.

Example adapter_history_case :
  exists a' ts, acalls toy (Adapter 5 0 2 3 0) [AInit 6; ASolve 1; ABuild; ASolve 1; AMarg 4; AAnalyze] = (a', ts) /\
    ts = [false; true; false; false; false; false] /\ a_margStart a' = 4 /\ a_Jt a' = 6 /\ a_e a' = 7.
Proof. eexists _, _. split; [vm_compute; reflexivity|]. vm_compute. done. Qed.
