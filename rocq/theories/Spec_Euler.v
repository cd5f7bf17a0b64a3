(** The value of the gamma function as Euler's integral over all positive numbers. *)
From Coq Require Import Reals.
From Verif Require Import Spec_Gamma.
Local Open Scope R_scope.

(** [gamma_value a c]: the integrals of [t^(a-1) e^-t] over [s, t] tend to [c] as [s] goes to zero and [t] to infinity. *)
Definition gamma_value (a c : R) : Prop :=
  forall eps, 0 < eps -> exists small big, 0 < small /\ forall s t, 0 < s -> s <= small -> big <= t -> Rabs (integral (euler a) s t - c) < eps.
