(** Outcomes of C++ calls. *)
From stdpp Require Import prelude.

(** Exception classes thrown by the modelled code
    (incremental_calibration/include/aslam/calibration/exceptions/*.h) and
    [std::out_of_range] thrown by [at()].  Messages and payloads are not modelled. *)
Inductive exn :=
| NullPointer        (* NullPointerException *)
| InvalidOperation   (* InvalidOperationException *)
| OutOfBound         (* OutOfBoundException<X> *)
| BadArgument        (* BadArgumentException<X> *)
| StdOutOfRange      (* std::out_of_range, from container.at(..) *)
| External.          (* an exception out of a library that is not modelled *)

(** How a call ends.  [UB]: the call executed something the C++ standard leaves
    undefined.  [Diverge]: the call never returns. *)
Inductive result (A : Type) :=
| Ret (a : A)
| Throw (e : exn)
| UB
| Diverge.
Global Arguments Ret {A} a.
Global Arguments Throw {A} e.
Global Arguments UB {A}.
Global Arguments Diverge {A}.

(** The call came back to the caller (normally or by exception). *)
Definition came_back {A} (r : result A) : Prop :=
  match r with Ret _ | Throw _ => True | UB | Diverge => False end.

Definition rbind {A B} (r : result A) (f : A -> result B) : result B :=
  match r with Ret a => f a | Throw e => Throw e | UB => UB | Diverge => Diverge end.
