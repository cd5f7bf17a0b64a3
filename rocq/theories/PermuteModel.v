(** Model of [aslam::calibration::permute]
    (incremental_calibration/include/aslam/calibration/algorithms/permute.tpp 17-34). *)
From stdpp Require Import prelude list.
From Verif Require Import Base.

(** [while (k < i) k = permutation[k];]  permute.tpp 28-30.
    Fuel bounds the number of loop tests; [None] = the loop has not finished within
    the fuel.  [permutation[k]] outside the vector would be UB; it cannot happen because
    every entry read was range-checked (see [chase_no_ub] in the proofs), modelled as
    the inner [None]. *)
Fixpoint chase (fuel : nat) (p : list nat) (i k : nat) : option (option nat) :=
  match fuel with
  | 0 => None
  | S f => if Nat.ltb k i
           then match p !! k with Some k' => chase f p i k' | None => Some None end
           else Some (Some k)
  end.

(** [std::swap(container[i], container[k])], permute.tpp 31-32, for in-range i, k. *)
Definition swap {T} (c : list T) (i k : nat) : list T :=
  match c !! i, c !! k with
  | Some a, Some b => <[k := a]> (<[i := b]> c)
  | _, _ => c
  end.

(** The for loop, permute.tpp 23-33: [todo] iterations left, current index [i].
    The element type [I] of the permutation is [size_t] in every use in the library. *)
Fixpoint permute_loop {T} (fuel todo i : nat) (c : list T) (p : list nat)
  : list T * result unit :=
  match todo with
  | 0 => (c, Ret tt)
  | S todo' =>
    match p !! i with
    | None => (c, UB)
    | Some pi =>
      if Nat.leb (length c) pi then (c, Throw OutOfBound)          (* 24-27 *)
      else match chase fuel p i pi with
           | None => (c, Diverge)
           | Some None => (c, UB)
           | Some (Some k) =>
             permute_loop fuel todo' (S i) (if Nat.ltb i k then swap c i k else c) p
           end
    end
  end.

(** permute.tpp 17-34 with explicit fuel for the inner loop. *)
Definition permute_fuel {T} (fuel : nat) (c : list T) (p : list nat)
  : list T * result unit :=
  if Nat.eqb (length c) (length p) then permute_loop fuel (length c) 0 c p
  else (c, Throw OutOfBound).                                       (* 19-22 *)

(** [length p + 1] tests are always enough if the loop terminates at all
    ([permute_fuel_complete] in the proofs), so running out means divergence. *)
Definition permute {T} (c : list T) (p : list nat) : list T * result unit :=
  permute_fuel (S (length p)) c p.
