(** Textbook notions used in the statements about normal distributions and their ML estimators. *)
From stdpp Require Import prelude list.
From Coq Require Import Reals.
Local Open Scope R_scope.

Definition Rsum (l : list R) : R := fold_right Rplus 0 l.
(** Arithmetic mean and population variance of a list. *)
Definition amean (l : list R) : R := Rsum l / INR (length l).
Definition pvar (l : list R) : R := Rsum (map (fun x => (x - amean l) * (x - amean l)) l) / INR (length l).
(** Two different values occur in the list. *)
Definition two_values (l : list R) : Prop := exists x y, x ∈ l /\ y ∈ l /\ x <> y.

(** Weighted mean and variance; [pw] is a list of (point, weight). *)
Definition wsum (f : R -> R) (pw : list (R * R)) : R := Rsum (map (fun p => snd p * f (fst p)) pw).
Definition wmean (pw : list (R * R)) : R := wsum (fun x => x) pw / wsum (fun _ => 1) pw.
Definition wvar (pw : list (R * R)) : R :=
  wsum (fun x => (x - wmean pw) * (x - wmean pw)) pw / wsum (fun _ => 1) pw.
Definition two_weighted_values (pw : list (R * R)) : Prop :=
  exists x y a b, (x, a) ∈ pw /\ (y, b) ∈ pw /\ 0 < a /\ 0 < b /\ x <> y.

(** The normal density with mean [m] and variance [v]. *)
Definition gauss (m v x : R) : R := / sqrt (2 * PI * v) * exp (- ((x - m) * (x - m)) / (2 * v)).
(** Kullback-Leibler divergence of N(m1,v1) from N(m2,v2), closed form. *)
Definition gauss_KL (m1 v1 m2 v2 : R) : R :=
  / 2 * (v1 / v2 + (m2 - m1) * (m2 - m1) / v2 - 1 + ln (v2 / v1)).
