(** Model of incremental_calibration/src/base/Timestamp.cpp on IEEE doubles.  now() and getDate (system clock and
    calendar) are not modelled. *)
From stdpp Require Import prelude.
From Coq Require Import ZArith.
From Flocq Require Import Core BinarySingleNaN.
From Verif Require Import Base GridModel.

(** mSeconds; constructors 16-22, assignment 24-29 copy it. *)
Record timestamp := Timestamp { ts_seconds : double }.
(** getSeconds 56-58 and operator double 91-93 *)
Definition ts_double (t : timestamp) : double := ts_seconds t.

(** Comparison operators with a Timestamp and with a double, 102-148. *)
Definition ts_eq (a b : timestamp) : bool := Beqb (ts_seconds a) (ts_seconds b).
Definition ts_eqd (a : timestamp) (s : double) : bool := Beqb (ts_seconds a) s.
Definition ts_ne (a b : timestamp) : bool := negb (Beqb (ts_seconds a) (ts_seconds b)).
Definition ts_ned (a : timestamp) (s : double) : bool := negb (Beqb (ts_seconds a) s).
Definition ts_gt (a b : timestamp) : bool := Bltb (ts_seconds b) (ts_seconds a).
Definition ts_gtd (a : timestamp) (s : double) : bool := Bltb s (ts_seconds a).
Definition ts_lt (a b : timestamp) : bool := Bltb (ts_seconds a) (ts_seconds b).
Definition ts_ltd (a : timestamp) (s : double) : bool := Bltb (ts_seconds a) s.
Definition ts_ge (a b : timestamp) : bool := Bleb (ts_seconds b) (ts_seconds a).
Definition ts_ged (a : timestamp) (s : double) : bool := Bleb s (ts_seconds a).
Definition ts_le (a b : timestamp) : bool := Bleb (ts_seconds a) (ts_seconds b).
Definition ts_led (a : timestamp) (s : double) : bool := Bleb (ts_seconds a) s.

(** operator += 150-153, -= 155-158, + 160-166, - 168-174 *)
Definition ts_add_assign (t : timestamp) (s : double) : timestamp := Timestamp (d_add (ts_seconds t) s).
Definition ts_sub_assign (t : timestamp) (s : double) : timestamp := Timestamp (d_sub (ts_seconds t) s).
Definition ts_plus (t : timestamp) (s : double) : double := d_add (ts_seconds t) s.
Definition ts_plus_ts (t u : timestamp) : double := d_add (ts_seconds t) (ts_seconds u).
Definition ts_minus (t : timestamp) (s : double) : double := d_sub (ts_seconds t) s.
Definition ts_minus_ts (t u : timestamp) : double := d_sub (ts_seconds t) (ts_seconds u).

(** Conversion of a double to a 64-bit signed integer (time_t, long); [None]: undefined. *)
Definition double_to_int64 (x : double) : option Z :=
  if is_finite x then
    let z := Btrunc x in if ((- 2 ^ 63 <=? z) && (z <? 2 ^ 63))%Z then Some z else None
  else None.
(** operator timespec, 95-100: (tv_sec, tv_nsec) *)
Definition ts_timespec (t : timestamp) : result (Z * Z) :=
  match double_to_int64 (ts_seconds t) with
  | None => UB
  | Some s =>
    match double_to_int64 (d_mul (d_sub (ts_seconds t) (double_of_Z s 0)) (double_of_Z 1000000000 0)) with
    | None => UB
    | Some n => Ret (s, n)
    end
  end.
