(** Vocabulary for the outcome of permute, without reference to the model. *)
From stdpp Require Import prelude list.
(** Following the index vector from position [i]: [p[i]], [p[p[i]]], ... *)
Inductive leads_to (p : list nat) (i : nat) : nat -> Prop :=
| lead_first k : p !! i = Some k -> leads_to p i k
| lead_next k k' : leads_to p i k -> p !! k = Some k' -> leads_to p i k'.
(** From [i] one comes back to [i] or gets beyond it. *)
Definition escapes (p : list nat) (i : nat) : Prop := exists k, leads_to p i k /\ i <= k.
(** The entry at [i] is an index of the vector. *)
Definition in_range (p : list nat) (i : nat) : Prop := exists x, p !! i = Some x /\ x < length p.
