(** Model of what the Python module keeps alive (incremental_calibration_python/src/OptimizationProblem.cpp, IncrementalEstimator.cpp,
    LinearSolver.cpp): which C++ objects exist while a Python program holds which Python objects.

    From the manual of Boost.Python (not in the repository): an object made by Python holds its C++ object through a shared_ptr (the
    second argument of class_); a Python object passed as a shared_ptr argument is converted to a shared_ptr that holds the Python
    object; [return_internal_reference<>] makes a Python object that holds a bare pointer and keeps the Python object on which the
    method was called alive.  A Python object is destroyed when nothing holds it any more: the model takes reachability from the names
    of the program, so objects in an abandoned cycle of references, which Boost.Python never frees, count as dead.
    Not modelled: the values in the objects (see OptProblem.v, IncProblem.v, Estimator.v), design variables and error terms as Python
    objects, None as an argument, the classes of aslam_optimizer exported by other modules. *)
From stdpp Require Import prelude list relations.

(** C++ objects: optimization problems, incremental optimization problems, estimators (estimator [c] has the incremental problem [c] and
    options), linear solvers and their options. *)
Inductive obj := OProblem (p : nat) | OInc (c : nat) | OEst (c : nat) | OOptions (c : nat) | OSolver (l : nat) | OSolverOptions (l : nat).
(** A Python object of one of the exported classes: the C++ object it refers to; whether it holds it by a shared_ptr; the Python object
    it keeps alive (return_internal_reference). *)
Record wrapper := Wrapper { w_obj : obj; w_owner : bool; w_patient : option nat }.
(** Python objects are numbered by creation.  A batch of an incremental problem is the problem and the Python object that the
    shared_ptr in the container holds.  [py_names]: what the program holds (variables, list elements, ...). *)
Record pstate := PState {
  py_wrappers : list wrapper; py_batches : nat -> list (nat * nat); py_names : list nat; py_fresh : nat }.
Definition py_start : pstate := PState [] (fun _ => []) [] 0.

(** Who keeps whom alive. *)
Inductive node := NW (w : nat) | NO (o : obj).
Inductive py_keeps (s : pstate) : node -> node -> Prop :=
| k_owner w wr : py_wrappers s !! w = Some wr -> w_owner wr = true -> py_keeps s (NW w) (NO (w_obj wr))
| k_patient w wr w' : py_wrappers s !! w = Some wr -> w_patient wr = Some w' -> py_keeps s (NW w) (NW w')
| k_batch c p w : (p, w) ∈ py_batches s c -> py_keeps s (NO (OInc c)) (NW w)
| k_problem c : py_keeps s (NO (OEst c)) (NO (OInc c))          (* _problem, core/IncrementalEstimator.cpp line 37 *)
| k_options c : py_keeps s (NO (OEst c)) (NO (OOptions c))      (* _options and the options of _optimizer and its solver *)
| k_solver l : py_keeps s (NO (OSolver l)) (NO (OSolverOptions l)).
Definition py_alive (s : pstate) (x : node) : Prop := exists w, w ∈ py_names s /\ rtc (py_keeps s) (NW w) x.

Inductive pcall :=
| PNewProblem | PNewInc | PNewEst | PNewSolver
| PGetProblem (w : nat) | PGetOptions (w : nat) | PGetSolverOptions (w : nat)
| PAdd (w wp : nat) (kept : bool)
| PAddBatch (w wp : nat) (outcome : option bool)
| PGetOptimizationProblem (w k : nat)
| PRemove (w k : nat) | PClear (w : nat)
| PRemoveBatch (w k : nat) | PRemoveBatchOf (w wp : nat)
| PUse (w : nat) | PDel (w : nat) | PCopy (w : nat).

(** The object that a name of the program refers to. *)
Definition py_obj (s : pstate) (w : nat) : option obj :=
  if decide (w ∈ py_names s) then w_obj <$> py_wrappers s !! w else None.
(** A new Python object, bound to a new name. *)
Definition py_bind (s : pstate) (wr : wrapper) (fresh : nat) : pstate :=
  PState (py_wrappers s ++ [wr]) (py_batches s) (py_names s ++ [List.length (py_wrappers s)]) fresh.
Definition py_set (s : pstate) (c : nat) (bs : list (nat * nat)) : pstate :=
  PState (py_wrappers s) (fun c' => if decide (c' = c) then bs else py_batches s c') (py_names s) (py_fresh s).
(** The problems that are dereferenced when the terms of incremental problem [c] are visited. *)
Definition py_terms (s : pstate) (c : nat) : list obj := (fun b => OProblem b.1) <$> py_batches s c.
(** std::find in the container compares the pointers (core/IncrementalOptimizationProblem.cpp 384-389); the entry is erased. *)
Fixpoint py_remove_first (p : nat) (bs : list (nat * nat)) : list (nat * nat) :=
  match bs with [] => [] | b :: bs => if decide (b.1 = p) then bs else b :: py_remove_first p bs end.

(** One call of the program: the objects whose memory it reads or writes, and the state after it ([None]: not a call that Python lets
    through to C++: unbound name or wrong type).  Exceptions of the C++ code become Python exceptions. *)
Definition py_step (s : pstate) (call : pcall) : option (list obj * pstate) :=
  match call with
  | PNewProblem =>    (* OptimizationProblem.cpp 25-29 *)
      Some ([], py_bind s (Wrapper (OProblem (py_fresh s)) true None) (S (py_fresh s)))
  | PNewInc =>        (* OptimizationProblem.cpp 50-54 *)
      Some ([], py_bind s (Wrapper (OInc (py_fresh s)) true None) (S (py_fresh s)))
  | PNewEst =>        (* IncrementalEstimator.cpp 146-154 *)
      Some ([], py_bind s (Wrapper (OEst (py_fresh s)) true None) (S (py_fresh s)))
  | PNewSolver =>     (* LinearSolver.cpp 39-42 *)
      Some ([], py_bind s (Wrapper (OSolver (py_fresh s)) true None) (S (py_fresh s)))
  | PGetProblem w =>  (* IncrementalEstimator.cpp 188-189 *)
      match py_obj s w with
      | Some (OEst c) => Some ([OEst c], py_bind s (Wrapper (OInc c) false (Some w)) (py_fresh s))
      | _ => None
      end
  | PGetOptions w =>  (* IncrementalEstimator.cpp 154-158: getOptions, getOptimizerOptions, getLinearSolverOptions *)
      match py_obj s w with
      | Some (OEst c) => Some ([OEst c], py_bind s (Wrapper (OOptions c) false (Some w)) (py_fresh s))
      | _ => None
      end
  | PGetSolverOptions w =>   (* LinearSolver.cpp 43 *)
      match py_obj s w with
      | Some (OSolver l) => Some ([OSolver l], py_bind s (Wrapper (OSolverOptions l) false (Some w)) (py_fresh s))
      | _ => None
      end
  | PAdd w wp kept => (* OptimizationProblem.cpp 55; core/IncrementalOptimizationProblem.cpp 173-210.  kept = false: an exception *)
      match py_obj s w, py_obj s wp with
      | Some (OInc c), Some (OProblem p) =>
          Some (OInc c :: OProblem p :: py_terms s c, if kept then py_set s c (py_batches s c ++ [(p, wp)]) else s)
      | _, _ => None
      end
  | PAddBatch w wp outcome =>  (* IncrementalEstimator.cpp 159; core/IncrementalEstimator.cpp 319-452.  None: add threw; Some true: the batch
                                  stays (accepted, or an exception later); Some false: rejected, then _problem->remove(problem) *)
      match py_obj s w, py_obj s wp with
      | Some (OEst c), Some (OProblem p) =>
          Some (OEst c :: OInc c :: OProblem p :: py_terms s c,
                match outcome with
                | None => s
                | Some true => py_set s c (py_batches s c ++ [(p, wp)])
                | Some false => py_set s c (py_remove_first p (py_batches s c ++ [(p, wp)]))
                end)
      | _, _ => None
      end
  | PGetOptimizationProblem w k =>  (* OptimizationProblem.cpp 45-47, 60-61; the dynamic type of the problem is looked up *)
      match py_obj s w with
      | Some (OInc c) =>
          match py_batches s c !! k with
          | Some (p, _) => Some ([OInc c; OProblem p], py_bind s (Wrapper (OProblem p) false (Some w)) (py_fresh s))
          | None => Some ([OInc c], s)
          end
      | _ => None
      end
  | PRemove w k =>    (* OptimizationProblem.cpp 42-43, 56; core/IncrementalOptimizationProblem.cpp 212-253 *)
      match py_obj s w with
      | Some (OInc c) =>
          match py_batches s c !! k with
          | Some (p, _) => Some ([OInc c; OProblem p], py_set s c (delete k (py_batches s c)))
          | None => Some ([OInc c], s)
          end
      | _ => None
      end
  | PClear w =>       (* OptimizationProblem.cpp 57; core/IncrementalOptimizationProblem.cpp 255-260 *)
      match py_obj s w with
      | Some (OInc c) => Some ([OInc c], py_set s c [])
      | _ => None
      end
  | PRemoveBatch w k =>   (* IncrementalEstimator.cpp 162; core/IncrementalEstimator.cpp 454-460: then reoptimize *)
      match py_obj s w with
      | Some (OEst c) =>
          match py_batches s c !! k with
          | Some (p, _) => Some (OEst c :: OInc c :: py_terms s c, py_set s c (delete k (py_batches s c)))
          | None => Some ([OEst c; OInc c], s)
          end
      | _ => None
      end
  | PRemoveBatchOf w wp => (* IncrementalEstimator.cpp 163; core/IncrementalEstimator.cpp 462-466 *)
      match py_obj s w, py_obj s wp with
      | Some (OEst c), Some (OProblem p) =>
          if decide (p ∈ (py_batches s c).*1)
          then Some (OEst c :: OInc c :: py_terms s c, py_set s c (py_remove_first p (py_batches s c)))
          else Some ([OEst c; OInc c], s)
      | _, _ => None
      end
  | PUse w =>         (* any other method, e.g. numErrorTerms, reoptimize, addErrorTerm, or an attribute *)
      match py_obj s w with
      | Some (OInc c) => Some (OInc c :: py_terms s c, s)
      | Some (OEst c) => Some (OEst c :: OInc c :: py_terms s c, s)
      | Some o => Some ([o], s)
      | None => None
      end
  | PDel w =>         (* the program drops one of its names *)
      if decide (w ∈ py_names s)
      then Some ([], PState (py_wrappers s) (py_batches s)
                      (match list_find (eq w) (py_names s) with Some (i, _) => delete i (py_names s) | None => py_names s end) (py_fresh s))
      else None
  | PCopy w => if decide (w ∈ py_names s) then Some ([], PState (py_wrappers s) (py_batches s) (py_names s ++ [w]) (py_fresh s)) else None
  end.

(** Histories. *)
Inductive py_run : pstate -> list pcall -> pstate -> Prop :=
| pr_nil s : py_run s [] s
| pr_cons s call ts s' calls s'' : py_step s call = Some (ts, s') -> py_run s' calls s'' -> py_run s (call :: calls) s''.
