(** C01-C03: [permute] (algorithms/permute.tpp). Statements only. *)
From stdpp Require Import prelude list.
From Verif Require Import Base PermuteModel PermuteProofs Spec_Permute PermuteOutcome.

(** C01.  For every container and every permutation [p] of its indices, the call returns and
    position [i] holds the element formerly at [p[i]]. *)
Theorem permute_applies_permutation :
  forall (T : Type) (c : list T) (p : list nat),
    p ≡ₚ seq 0 (length c) ->
    exists c', permute c p = (c', Ret tt) /\ length c' = length c /\
               forall i k, p !! i = Some k -> c' !! i = c !! k.
Proof. exact @permute_valid. Qed.
Print Assumptions permute_applies_permutation.

Example permute_applies_permutation_case :
  [2; 0; 1; 4; 3] ≡ₚ seq 0 (length [10; 11; 12; 13; 14]) /\
  permute [10; 11; 12; 13; 14] [2; 0; 1; 4; 3] =
    ([12; 10; 11; 14; 13], Ret tt).
Proof. split; [apply (bool_decide_unpack _); vm_compute; exact I|reflexivity]. Qed.

(** C02, first half: whatever the index vector and however the call ends, the container is a
    rearrangement of the original one, and no undefined behaviour occurs. *)
Theorem permute_preserves_elements :
  forall (T : Type) (c c' : list T) (p : list nat) (r : result unit),
    permute c p = (c', r) -> c' ≡ₚ c /\ r <> UB.
Proof.
  exact (fun T c c' p r H => conj (permute_fuel_perm _ _ _ _ _ H) (permute_never_ub _ _ _ _ H)).
Qed.
Print Assumptions permute_preserves_elements.

(** C02, second half: exceptions.  A length mismatch throws [OutOfBoundException] with the
    container untouched; any throw is [OutOfBoundException] and due to a length mismatch or an
    out-of-range entry; a normal return implies equal lengths and only in-range entries. *)
Theorem permute_rejects_bad_indices :
  forall (T : Type) (c : list T) (p : list nat),
    (length c <> length p -> permute c p = (c, Throw OutOfBound)) /\
    (forall c' e, permute c p = (c', Throw e) ->
       e = OutOfBound /\ (length c <> length p \/ exists x, x ∈ p /\ length c <= x)) /\
    (forall c', permute c p = (c', Ret tt) ->
       length c = length p /\ forall x, x ∈ p -> x < length c).
Proof. exact @permute_exceptions. Qed.
Print Assumptions permute_rejects_bad_indices.

Example permute_rejects_case :
  permute [7; 8; 9] [1; 0; 5] = ([8; 7; 9], Throw OutOfBound) /\
  permute [7; 8; 9] [1; 0] = ([7; 8; 9], Throw OutOfBound).
Proof. split; reflexivity. Qed.

(** C03 (violated): an index vector with only in-range entries for which the call never returns,
    whatever number of loop iterations is allowed. *)
Theorem permute_termination_refuted :
  exists (c : list nat) (p : list nat),
    length c = length p /\ (forall x, x ∈ p -> x < length c) /\
    forall fuel, snd (permute_fuel fuel c p) = Diverge.
Proof. exact permute_diverges_somewhere. Qed.
Print Assumptions permute_termination_refuted.

(** C03, what does hold: with in-range, pairwise different entries the call returns; and the
    iteration bound used by the model never changes the outcome of a terminating call. *)
Theorem permute_terminates_on_distinct :
  forall (T : Type) (c : list T) (p : list nat),
    length p = length c -> (forall x, x ∈ p -> x < length c) -> NoDup p ->
    snd (permute c p) = Ret tt /\
    forall fuel c' r, permute_fuel fuel c p = (c', r) -> r <> Diverge -> permute c p = (c', r).
Proof. exact @permute_distinct_returns. Qed.
Print Assumptions permute_terminates_on_distinct.

Example permute_terminates_case : snd (permute [1; 2; 3; 4] [3; 2; 0; 1]) = Ret tt.
Proof. reflexivity. Qed.

(** C03, exactly: with as many indices as elements, the call returns iff every entry is in range and, from every position, following the
    index vector comes back or gets beyond that position; it throws OutOfBoundException iff the first position where this fails has an
    entry out of range; it loops for ever, whatever number of iterations is allowed, iff the entry there is in range.  There is no other outcome. *)
Theorem permute_outcome :
  forall (T : Type) (c : list T) (p : list nat), length c = length p ->
    (snd (permute c p) = Ret tt <-> forall i, i < length p -> in_range p i /\ escapes p i) /\
    (snd (permute c p) = Throw OutOfBound <->
       exists i, i < length p /\ ~ in_range p i /\ forall j, j < i -> in_range p j /\ escapes p j) /\
    ((forall fuel, snd (permute_fuel fuel c p) = Diverge) <->
       exists i, i < length p /\ in_range p i /\ ~ escapes p i /\ forall j, j < i -> in_range p j /\ escapes p j) /\
    (snd (permute c p) = Ret tt \/ snd (permute c p) = Throw OutOfBound \/
     forall fuel, snd (permute_fuel fuel c p) = Diverge).
Proof. exact @permute_outcome_lemma. Qed.
Print Assumptions permute_outcome.

Example permute_outcome_cases :
  permute [7; 8] [1; 1] = ([8; 7], Ret tt) /\ snd (permute [7; 8; 9] [0; 0; 5]) = Diverge /\
  snd (permute [7; 8; 9] [5; 0; 0]) = Throw OutOfBound /\ ~ escapes [0; 0; 5] 1 /\ escapes [1; 1] 1.
Proof.
  repeat split; try reflexivity.
  - intros (k & Hk & Hle). assert (k = 0); [|lia].
    induction Hk as [k Hk|k k' _ IH Hk]; [simpl in Hk; congruence|].
    destruct k as [|[|[|k]]]; simpl in Hk; try discriminate; try congruence. lia.
  - exists 1. split; [by constructor|lia].
Qed.
