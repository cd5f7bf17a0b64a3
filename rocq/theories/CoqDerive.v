(** Derivative facts that need Coquelicot's [auto_derive] (kept apart: its notations clash with std++ lists). *)
From Coq Require Import Reals Lra.
From Coquelicot Require Import Coquelicot.
Local Open Scope R_scope.

Lemma cube_derive m k x : is_derive (fun x => (x - m) ^ 3 / 3 * k) x ((x - m) * (x - m) * k).
Proof. auto_derive; [exact I|]. field. Qed.
Lemma square_cont m k x : continuous (fun x => (x - m) * (x - m) * k) x.
Proof. apply (@ex_derive_continuous R_AbsRing R_NormedModule). auto_derive. exact I. Qed.
