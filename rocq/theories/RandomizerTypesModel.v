(** Model of [Randomizer<double, M>::samplePoisson] in IEEE binary64
    (incremental_calibration/include/aslam/calibration/statistics/Randomizer.tpp 135-150); the library's exp is an argument. *)
From stdpp Require Import prelude list.
From Coq Require Import ZArith.
From Flocq Require Import Core BinarySingleNaN.
From Verif Require Import Base GridModel RandomizerModel Spec_Randomizer.

Section poissonD.
  Context {G : Type} (next : G -> Z * G) (RM : Z) (dexp : double -> double).
  (** 144-148: [p] is the running product, [k] the number of draws so far *)
  Fixpoint poissonD_loop (fuel : nat) (l p : double) (k : nat) (g : G) : option (nat * G) :=
    match fuel with
    | O => None
    | S fuel' =>
      match sampleUniformD next RM (double_of_Z 0 0) (double_of_Z 1 0) g with
      | (Ret u, g') => let p' := d_mul p u in if Bltb l p' then poissonD_loop fuel' l p' (S k) g' else Some (S k, g')
      | (_, g') => Some (S k, g')
      end
    end.
  (** 135-150 *)
  Definition samplePoissonD (fuel : nat) (mean : double) (g : G) : result nat * G :=
    if Bleb mean (B754_zero false) then (Throw BadArgument, g) else
    match poissonD_loop fuel (dexp (Bopp mean)) (double_of_Z 1 0) 0 g with
    | None => (Diverge, g) | Some (k, g') => (Ret (k - 1), g') end.
End poissonD.

(** Specification: the draw made from the number [r], and the product, rounded after every factor, of the first [n] draws. *)
Definition unit_double (RM r : Z) : double :=
  d_add (double_of_Z 0 0) (d_mul (d_div (double_of_Z r 0) (double_of_Z RM 0)) (d_sub (double_of_Z 1 0) (double_of_Z 0 0))).
Fixpoint products {G} (next : G -> Z * G) (RM : Z) (g : G) (n : nat) : double :=
  match n with O => double_of_Z 1 0 | S n' => d_mul (products next RM g n') (unit_double RM (number next g n')) end.
