(** Model of the two online programs of incremental_calibration_examples/incremental_calibration_examples_2dlrf/src/2dlrf:
    simulate-online-new.cpp 198-241 (batches for the incremental estimator) and simulate-online.cpp 186-288 (its own decision
    loop).  Objects are numbered: the calibration variable is 0, landmark k is 1 + k, the pose at time j is 1 + nl + j (the new
    program creates one pose variable per time step, as the batches do not overlap); the motion error term of time j is
    j (nl + 1) and the observation of landmark k at time j is j (nl + 1) + 1 + k.  [nl]: number of landmarks. *)
From stdpp Require Import prelude list gmap.
From Coq Require Import Reals.
From Verif Require Import Base OptProblemModel IncProblemModel EstimatorModel.

Definition id_theta : nat := 0.
Definition id_landmark (k : nat) : nat := 1 + k.
Definition id_pose (nl j : nat) : nat := 1 + nl + j.
Definition id_motion (nl j : nat) : nat := j * (nl + 1).
Definition id_obs (nl j k : nat) : nat := j * (nl + 1) + (1 + k).
(** The design variables of the error terms: ErrorTermMotion (x_{j-1}, x_j), ErrorTermObservation (x_j, landmark, Theta) *)
Definition lrf_edv (nl : nat) (e : nat) : list nat :=
  let j := (e / (nl + 1)) in
  match (e mod (nl + 1)) with
  | O => [id_pose nl (j - 1); id_pose nl j]
  | S k => [id_pose nl j; id_landmark k; id_theta]
  end.

(** The calls in the body of the loop, 201-237: batch that starts at time [i]; [stop]: min(i + batchSize, steps) *)
Definition lrf_calls {V} (nl stop i : nat) : list (oop V) :=
  [OAddDV (Some (id_pose nl i)) 0; OAddDV (Some id_theta) 2]
  ++ map (fun k => OAddDV (Some (id_landmark k)) 1) (seq 0 nl)
  ++ concat (map (fun j => OAddDV (Some (id_pose nl j)) 0 :: OAddET (Some (id_motion nl j))
                           :: map (fun k => OAddET (Some (id_obs nl j k))) (seq 0 nl))
                 (seq (S i) (stop - S i))).
(** A sequence of calls: an exception ends the program *)
Fixpoint run_calls {V} (edv : nat -> list nat) (s : oprob V) (ops : list (oop V)) : oprob V * result unit :=
  match ops with
  | [] => (s, Ret tt)
  | op :: ops => match ostep edv s op with
                 | (s, Ret _) => run_calls edv s ops
                 | (s, r) => (s, r)
                 end
  end.
Definition lrf_batch {V} (nl steps batchSize i : nat) : oprob V * result unit :=
  run_calls (lrf_edv nl) o_empty (lrf_calls nl (Nat.min (i + batchSize) steps) i).
(** 198: for (size_t i = 0; i < steps; i += batchSize); the values of i.  None: still running after [fuel] rounds *)
Fixpoint lrf_starts (fuel steps batchSize i : nat) : option (list nat) :=
  match fuel with
  | O => None
  | S fuel => if Nat.ltb i steps
              then match lrf_starts fuel steps batchSize (i + batchSize) with Some l => Some (i :: l) | None => None end
              else Some []
  end.
(** 241: the calls of addBatch, one per batch; an exception ends the program *)
Fixpoint add_batches {V D M} (A : arith D) (nil : M) (h : nat -> oprob V) (dim edim : nat -> nat)
    (s : est V D M) (bs : list nat) (ocs : nat -> outcome V D M) : est V D M * result (list (retval D M)) :=
  match bs with
  | [] => (s, Ret [])
  | b :: bs =>
    match e_addBatch A nil h dim edim s (Some b) false (ocs b) with
    | (s, Ret r) => match add_batches A nil h dim edim s bs ocs with
                    | (s, Ret rs) => (s, Ret (r :: rs))
                    | (s, Throw e) => (s, Throw e) | (s, UB) => (s, UB) | (s, Diverge) => (s, Diverge)
                    end
    | (s, Throw e) => (s, Throw e) | (s, UB) => (s, UB) | (s, Diverge) => (s, Diverge)
    end
  end.

(** ** simulate-online.cpp *)
Local Open Scope R_scope.
Definition log2 (x : R) : R := ln x / ln 2.
(** batchIdx, calibParams, SigmaDetRecord; [C]: calibration parameters (SigmaRecord is kept exactly like calibParams) *)
Record online (C : Type) := Online { on_idx : list nat; on_cal : C; on_det : R }.
Global Arguments Online {C}. Global Arguments on_idx {C}. Global Arguments on_cal {C}. Global Arguments on_det {C}.
(** The body of the loop for the batch that starts at time [i], 200-284.  [solve]: calibration and determinant that the optimization of
    the chosen data gives (dv_Theta, SigmaDet); every round has another last start, so this also covers results that depend on
    the values left in the variables by the rounds before.  209-211 and 217-227 read dv_x, u_noise, r and b up to index
    i + batchSize - 1. *)
Definition online_round {C} (steps batchSize : nat) (miTol : R) (solve : list nat -> C * R) (s : online C) (i : nat) : result (online C) :=
  let idx := on_idx s ++ [i] in
  if Nat.ltb steps (i + batchSize) then UB
  else
    let '(Theta, SigmaDet) := solve idx in
    if Nat.eqb (length idx) 1 then Ret (Online idx Theta SigmaDet)
    else
      let mi := 0.5 * log2 (on_det s / SigmaDet) in
      if Rlt_dec miTol mi then Ret (Online idx Theta SigmaDet) else Ret (Online (on_idx s) (on_cal s) (on_det s)).
Fixpoint online_loop {C} (steps batchSize : nat) (miTol : R) (solve : list nat -> C * R) (s : online C) (starts : list nat) : result (online C) :=
  match starts with
  | [] => Ret s
  | i :: starts => rbind (online_round steps batchSize miTol solve s i) (fun s => online_loop steps batchSize miTol solve s starts)
  end.
(** 186-288, from batchIdx empty, calibParams the initial guess and SigmaDetRecord = 0 *)
Definition online_run {C} (fuel steps batchSize : nat) (miTol : R) (solve : list nat -> C * R) (guess : C) : result (online C) :=
  match lrf_starts fuel steps batchSize 0 with
  | None => Diverge
  | Some l => online_loop steps batchSize miTol solve (Online [] guess 0) l
  end.
