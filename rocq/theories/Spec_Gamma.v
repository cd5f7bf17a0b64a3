(** Textbook notions for the gamma and chi-square distributions. *)
From Coq Require Import Reals.
From Coquelicot Require Coquelicot.
Local Open Scope R_scope.

(** [f b] tends to [l] as [b] grows without bound. *)
Definition tends_to (f : R -> R) (l : R) : Prop :=
  forall eps, 0 < eps -> exists B, forall b, B <= b -> Rabs (f b - l) < eps.
(** The integral of [f] over [u, v]. *)
Definition integral (f : R -> R) (u v : R) : R := @RInt.RInt Hierarchy.R_CompleteNormedModule f u v.
(** The integrand of Euler's integral. *)
Definition euler (a t : R) : R := Rpower t (a - 1) * exp (- t).
(** The gamma density with shape [a] and inverse scale [b], [G] being the value of the gamma function at [a]. *)
Definition gamma_density (G a b x : R) : R := Rpower b a * Rpower x (a - 1) * exp (- (b * x)) / G.
(** Kullback-Leibler divergence of Gamma(a1, b1) from Gamma(a2, b2); [lg], [psi]: log-gamma and its derivative. *)
Definition gamma_KL (lg psi : R -> R) (a1 b1 a2 b2 : R) : R :=
  (a1 - a2) * psi a1 - lg a1 + lg a2 + a2 * (ln b1 - ln b2) + a1 * (b2 - b1) / b1.
