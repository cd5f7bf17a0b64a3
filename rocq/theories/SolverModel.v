(** Model of [aslam::backend::AslamTruncatedSvdSolver] (aslam_tsvd_solver/src/aslam-tsvd-solver.cc), the adapter between the
    optimizer and the external [truncated_svd_solver], and of the way IncrementalEstimator.cpp 269-276 and 370-377 uses it.

    External and arbitrary: the matrix type [M] with CHOLMOD's transposition ([None]: it returned NULL), the state [L] of the
    library's solver with [solve], [analyzeMarginal], [clear] and its getters, the builder of the Jacobian.  [a_live] counts the
    CHOLMOD matrices that were allocated by the adapter and not freed.  Printing ([verbose]) is omitted. *)
From stdpp Require Import prelude list.
From Verif Require Import Base.

Section adapter.
Context {M Vec L P : Type}.
Record library := Library {
  transpose : M -> option M;                                       (* cholmod_l_transpose(.., 1, ..) *)
  lib_solve : L -> M -> Vec -> nat -> Vec -> L * Vec * result unit;  (* solve(J, e, margStart, dx) *)
  lib_analyze : L -> M -> nat -> L * result unit;                    (* analyzeMarginal(J, margStart) *)
  lib_clear : L -> L;
  build_structure : P -> M * result unit;       (* jacobian_builder_.initMatrixStructure(dvs, errors) *)
  build_values : M -> M * Vec * result unit     (* jacobian_builder_.buildSystem(numThreads, useMEstimator) *)
}.
Variable lib : library.

Record adapter := Adapter { a_Jt : M; a_e : Vec; a_margStart : nat; a_lib : L; a_live : nat }.

(** 38-41 *)
Definition a_buildSystem (a : adapter) : adapter * result unit :=
  let '(Jt, e, r) := build_values lib (a_Jt a) in (Adapter Jt e (a_margStart a) (a_lib a) (a_live a), r).

(** 43-73; the transposed Jacobian is freed at the end of the function, not when [solve] throws *)
Definition a_solveSystem (a : adapter) (dx : Vec) : adapter * Vec * result bool :=
  match transpose lib (a_Jt a) with
  | None => (a, dx, Ret false)                                                                    (* 49-50 *)
  | Some J =>
    match lib_solve lib (a_lib a) J (a_e a) (a_margStart a) dx with                                (* 54 *)
    | (l, dx', Ret _) => (Adapter (a_Jt a) (a_e a) (a_margStart a) l (a_live a), dx', Ret true)    (* 71-72 *)
    | (l, dx', Throw e) => (Adapter (a_Jt a) (a_e a) (a_margStart a) l (S (a_live a)), dx', Throw e)
    | (l, dx', UB) => (Adapter (a_Jt a) (a_e a) (a_margStart a) l (S (a_live a)), dx', UB)
    | (l, dx', Diverge) => (Adapter (a_Jt a) (a_e a) (a_margStart a) l (S (a_live a)), dx', Diverge)
    end
  end.

(** 79-87; a failed CHECK ends the process ([None]) *)
Definition a_initMatrixStructure (a : adapter) (p : P) (diagonal : bool) : option (adapter * result unit) :=
  if diagonal then None
  else let '(Jt, r) := build_structure lib p in
       Some (Adapter Jt (a_e a) (a_margStart a) (lib_clear lib (a_lib a)) (a_live a), r).

(** 89-102; here the matrix is freed by its owner in every case *)
Definition a_analyzeMarginal (a : adapter) : adapter * result bool :=
  match transpose lib (a_Jt a) with
  | None => (a, Ret false)
  | Some J =>
    match lib_analyze lib (a_lib a) J (a_margStart a) with
    | (l, Ret _) => (Adapter (a_Jt a) (a_e a) (a_margStart a) l (a_live a), Ret true)
    | (l, Throw e) => (Adapter (a_Jt a) (a_e a) (a_margStart a) l (a_live a), Throw e)
    | (l, UB) => (Adapter (a_Jt a) (a_e a) (a_margStart a) l (a_live a), UB)
    | (l, Diverge) => (Adapter (a_Jt a) (a_e a) (a_margStart a) l (a_live a), Diverge)
    end
  end.

(** [setMargStartIndex] of the library's solver, called by the estimator *)
Definition a_setMargStart (a : adapter) (k : nat) : adapter := Adapter (a_Jt a) (a_e a) k (a_lib a) (a_live a).

(** Calls of the optimizer and of the estimator, in any order. *)
Inductive acall := ABuild | ASolve (dx : Vec) | AInit (p : P) | AAnalyze | AMarg (k : nat).
(** The state afterwards and whether the call threw. *)
Definition acall_step (a : adapter) (c : acall) : adapter * bool :=
  let threw {A} (r : result A) := match r with Throw _ => true | _ => false end in
  match c with
  | ABuild => let '(a', r) := a_buildSystem a in (a', threw r)
  | ASolve dx => let '(a', _, r) := a_solveSystem a dx in (a', threw r)
  | AInit p => match a_initMatrixStructure a p false with Some (a', r) => (a', threw r) | None => (a, false) end
  | AAnalyze => let '(a', r) := a_analyzeMarginal a in (a', threw r)
  | AMarg k => (a_setMargStart a k, false)
  end.
Fixpoint acalls (a : adapter) (cs : list acall) : adapter * list bool :=
  match cs with
  | [] => (a, [])
  | c :: cs' => let '(a', t) := acall_step a c in let '(a'', ts) := acalls a' cs' in (a'', t :: ts)
  end.
End adapter.
Global Arguments library : clear implicits. Global Arguments adapter : clear implicits. Global Arguments acall : clear implicits.
Global Arguments ABuild {Vec P}. Global Arguments AAnalyze {Vec P}. Global Arguments AMarg {Vec P} k. Global Arguments AInit {Vec P} p. Global Arguments ASolve {Vec P} dx.

(** [rhsJtJrhs], 75-77, for every system *)
Definition a_rhsJtJrhs {M Vec L} (a : adapter M Vec L) : nat := 0.
