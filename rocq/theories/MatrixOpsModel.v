(** Model of incremental_calibration/include/aslam/calibration/algorithms/matrixOperations.tpp with exact arithmetic. *)
From stdpp Require Import prelude list.
From Coq Require Import Reals.
From Verif Require Import Base.
Local Open Scope R_scope.

(** A dense matrix of doubles; reading a coefficient outside of it is undefined behaviour of Eigen. *)
Record matrix := Matrix { m_rows : nat; m_cols : nat; m_at : nat -> nat -> R }.

(** checkColumnIndices, 16-28 *)
Definition checkColumnIndices (M : matrix) (colBegin colEnd : nat) : result unit :=
  if Nat.leb colEnd colBegin then Throw OutOfBound
  else if Nat.leb (m_cols M) colEnd then Throw OutOfBound else Ret tt.

(** std::numeric_limits<double>::epsilon() and std::log2 *)
Definition epsilon : R := / 2 ^ 52.
Definition log2R (x : R) : R := ln x / ln 2.

(** The loop of computeSumLogDiagR, 34-38: [n] more columns from [i]. *)
Fixpoint sumLog_loop (M : matrix) (i n : nat) (sum : R) : result R :=
  match n with
  | O => Ret sum
  | S n' =>
    if Nat.ltb i (m_rows M) && Nat.ltb i (m_cols M) then
      let value := m_at M i i in
      sumLog_loop M (S i) n' (if Rlt_dec epsilon (Rabs value) then sum + log2R (Rabs value) else sum)
    else UB
  end.
(** computeSumLogDiagR, 30-40 *)
Definition computeSumLogDiagR (M : matrix) (colBegin colEnd : nat) : result R :=
  rbind (checkColumnIndices M colBegin colEnd) (fun _ =>
    sumLog_loop M colBegin (S colEnd - colBegin) 0).
