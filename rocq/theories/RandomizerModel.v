(** Model of [Randomizer<T, M>]
    (incremental_calibration/include/aslam/calibration/statistics/Randomizer.tpp), of
    [SampleDistribution<X>::getSamples] (.../statistics/SampleDistribution.tpp 20-28) and of the [getSample] members of
    the uniform and one-dimensional normal distributions.

    The C library's generator ([random], [srandom], one global state for the whole program) is abstract: a type [G] of
    states with [next].  Every sampler takes the state and returns the state after it.  Loops without a bound take
    [fuel]; [Diverge] means the fuel ran out, so a call that never returns gives [Diverge] for every fuel.
    Arithmetic on doubles is exact except in [sampleUniformD] and [geometricD] (IEEE binary64). *)
From stdpp Require Import prelude list.
From Coq Require Import Reals ZArith.
From Flocq Require Import Core BinarySingleNaN.
From Verif Require Import Base GridModel UniformModel.
Local Open Scope R_scope.

(** What the template needs from [T]; [None] stands for undefined behaviour (signed overflow, bad conversion). *)
Record rops (T : Type) := ROps {
  r_ge : T -> T -> bool;
  r_sub : T -> T -> option T;      (* b - a, arguments (a, b) *)
  r_add : T -> T -> option T;
  r_R : T -> R;                    (* conversion to double *)
  r_round : R -> option T;         (* Traits::round, Randomizer.tpp 221-231 *)
  r_0 : T; r_1 : T
}.
Global Arguments ROps {T}. Global Arguments r_ge {T}. Global Arguments r_sub {T}. Global Arguments r_add {T}.
Global Arguments r_R {T}. Global Arguments r_round {T}. Global Arguments r_0 {T}. Global Arguments r_1 {T}.

Definition rreal : rops R :=
  ROps (fun a b => if Rle_dec b a then true else false) (fun a b => Some (b - a)) (fun a b => Some (a + b))
    (fun x => x) Some 0 1.
(** Signed integers of [w] bits; ::round rounds halves away from zero. *)
Definition rint (w : Z) : rops Z :=
  ROps (fun a b => Z.leb b a) (fun a b => irange w (b - a)%Z) (fun a b => irange w (a + b)%Z)
    IZR (fun x => irange w (ZnearestA x)) 0%Z 1%Z.

Definition of_opt {A} (x : option A) : result A := match x with Some a => Ret a | None => UB end.
(** Conversion of a non-negative double to size_t. *)
Definition to_size_t (x : R) : option nat :=
  if Rlt_dec x 0 then None else if Rle_dec (IZR (2 ^ 64)) x then None else Some (Z.to_nat (Zfloor x)).

Section rand.
  Context {G : Type} (next : G -> Z * G) (RM : Z).   (* RM: RAND_MAX *)
  Context {T : Type} (o : rops T).

  (** sampleUniform, 84-95 *)
  Definition sampleUniform (a b : T) (g : G) : result T * G :=
    if r_ge o a b then (Throw BadArgument, g) else
    let (r, g') := next g in
    (match r_sub o a b with
     | None => UB
     | Some d => match r_round o (IZR r / IZR RM * r_R o d) with
                 | None => UB | Some x => of_opt (r_add o a x) end
     end, g').

  (** [double x = sampleUniform()] with the default arguments (Randomizer.h); the call cannot fail for the types used
      (see [unit_real], [unit_int] in RandomizerProofs.v). *)
  Definition unit (g : G) : R * G :=
    match sampleUniform (r_0 o) (r_1 o) g with
    | (Ret x, g') => (r_R o x, g')
    | (_, g') => (0, g')
    end.

  (** The rejection loop of sampleNormal, 104-110. *)
  Fixpoint normal_loop (fuel : nat) (g : G) : option (R * R * G) :=
    match fuel with
    | O => None
    | S fuel' =>
      let (a, g1) := unit g in
      let u := 2 * a - 1 in
      let (b, g2) := unit g1 in
      let v := 2 * b - 1 in
      let s := u * u + v * v in
      if (if Rle_dec 1 s then true else false) || (if Req_EM_T s 0 then true else false)
      then normal_loop fuel' g2 else Some (u, s, g2)
    end.
  (** sampleNormal, 97-113 *)
  Definition sampleNormal (fuel : nat) (mean variance : T) (g : G) : result T * G :=
    if Rle_dec (r_R o variance) 0 then (Throw BadArgument, g) else
    match normal_loop fuel g with
    | None => (Diverge, g)
    | Some (u, s, g') =>
      (of_opt (r_round o (r_R o mean + sqrt (r_R o variance) * u * sqrt (- 2 * ln s / s))), g')
    end.

  (** The loop of sampleCategorical, 125-132: [i] is the index of the head of [ps]. *)
  Fixpoint cat_loop (u sum : R) (i : nat) (ps : list R) : nat :=
    match ps with
    | [] => i - 1
    | p :: ps' => if Rlt_dec sum u then cat_loop u (sum + p) (S i) ps' else i - 1
    end.
  (** sampleCategorical, 115-133.  With no category the sum is 0 and the call throws. *)
  Definition sampleCategorical (p : list R) (g : G) : result nat * G :=
    if (if Rlt_dec (1 / 10 ^ 12) (Rabs (fold_left Rplus p 0 - 1)) then true else false)
       || existsb (fun x => if Rlt_dec x 0 then true else false) p
    then (Throw BadArgument, g) else
    match p with
    | [] => (UB, g)
    | p0 :: ps => let (u, g') := unit g in (Ret (cat_loop u p0 1 ps), g')
    end.

  (** samplePoisson, 135-150 *)
  Fixpoint poisson_loop (fuel : nat) (l p : R) (k : nat) (g : G) : option (nat * G) :=
    match fuel with
    | O => None
    | S fuel' =>
      let (u, g') := unit g in
      let p' := p * u in
      if Rlt_dec l p' then poisson_loop fuel' l p' (S k) g' else Some (S k, g')
    end.
  Definition samplePoisson (fuel : nat) (mean : R) (g : G) : result nat * G :=
    if Rle_dec mean 0 then (Throw BadArgument, g) else
    match poisson_loop fuel (exp (- mean)) 1 0 g with
    | None => (Diverge, g) | Some (k, g') => (Ret (k - 1)%nat, g') end.

  (** The loops of sampleExponential, 159-163, and sampleGeometric, 174-178. *)
  Fixpoint nonzero_loop (fuel : nat) (g : G) : option (R * G) :=
    match fuel with
    | O => None
    | S fuel' => let (u, g') := unit g in if Req_EM_T u 0 then nonzero_loop fuel' g' else Some (u, g')
    end.
  (** sampleExponential, 152-165 *)
  Definition sampleExponential (fuel : nat) (rate : R) (g : G) : result R * G :=
    if Rle_dec rate 0 then (Throw BadArgument, g) else
    match nonzero_loop fuel g with
    | None => (Diverge, g) | Some (u, g') => (Ret (- ln u / rate), g') end.
  (** sampleGeometric, 167-180; log(0) is -inf, so the quotient is (-)0 for probability 1. *)
  Definition sampleGeometric (fuel : nat) (p : R) (g : G) : result nat * G :=
    if (if Rle_dec p 0 then true else false) || (if Rlt_dec 1 p then true else false)
    then (Throw BadArgument, g) else
    match nonzero_loop fuel g with
    | None => (Diverge, g)
    | Some (u, g') =>
      (if Req_EM_T p 1 then Ret 0%nat else of_opt (to_size_t (IZR (Zfloor (ln u / ln (1 - p))))), g')
    end.

  (** The sum of exponential samples of sampleGamma, 195-197. *)
  Fixpoint exp_sum (fuel : nat) (n : nat) (y : R) (g : G) : option (R * G) :=
    match n with
    | O => Some (y, g)
    | S n' => match sampleExponential fuel 1 g with
              | (Ret x, g') => exp_sum fuel n' (y + x) g'
              | _ => None
              end
    end.
  (** The rejection loop of sampleGamma, 200-217; [None] in the first component is +inf
      (log(0) = -inf; pow(+inf, negative) = 0). pow(0, positive) = 0. *)
  Definition rpow0 (x e : R) : R := if Req_EM_T x 0 then 0 else Rpower x e.
  Fixpoint gamma_loop (fuel : nat) (frac b : R) (g : G) : option (option R * G) :=
    match fuel with
    | O => None
    | S fuel' =>
      let (u, g1) := unit g in
      let p := b * u in
      if Rlt_dec 1 p then
        let z := if Req_EM_T (b - p) 0 then None else Some (- ln ((b - p) / frac)) in
        let (w, g2) := unit g1 in
        if Rlt_dec (match z with None => 0 | Some z => Rpower z (frac - 1) end) w
        then gamma_loop fuel' frac b g2 else Some (z, g2)
      else
        let z := rpow0 p (1 / frac) in
        let (w, g2) := unit g1 in
        if Rlt_dec (exp (- z)) w then gamma_loop fuel' frac b g2 else Some (Some z, g2)
    end.
  (** sampleGamma, 182-219; the result [None] is +inf. *)
  Definition sampleGamma (fuel : nat) (shape invScale : R) (g : G) : result (option R) * G :=
    if Rle_dec shape 0 then (Throw BadArgument, g) else
    if Rle_dec invScale 0 then (Throw BadArgument, g) else
    match to_size_t (IZR (Zfloor shape)) with
    | None => (UB, g)
    | Some n =>
      let frac := shape - INR n in
      match exp_sum fuel n 0 g with
      | None => (Diverge, g)
      | Some (y, g1) =>
        if Rlt_dec (/ 2 ^ 52) (Rabs frac)
        then match gamma_loop fuel frac ((exp 1 + frac) / exp 1) g1 with
             | None => (Diverge, g)
             | Some (None, g2) => (Ret None, g2)
             | Some (Some z, g2) => (Ret (Some ((y + z) / invScale)), g2)
             end
        else (Ret (Some (y / invScale)), g1)
      end
    end.

  (** UniformDistribution<X>::getSample, UniformDistribution1v.tpp 129-134. *)
  Definition uniform_getSample (d : unif) (g : G) : result T * G := sampleUniform (un_min d) (un_max d) g.

  (** SampleDistribution<X>::getSamples, SampleDistribution.tpp 20-28: [samples] is the caller's vector before. *)
  Fixpoint push_samples {X} (getSample : G -> result X * G) (n : nat) (acc : list X) (g : G) :
    list X * result Datatypes.unit * G :=
    match n with
    | O => (acc, Ret tt, g)
    | S n' => match getSample g with
              | (Ret x, g') => push_samples getSample n' (acc ++ [x]) g'
              | (Throw e, g') => (acc, Throw e, g')
              | (UB, g') => (acc, UB, g')
              | (Diverge, g') => (acc, Diverge, g')
              end
    end.
  Definition getSamples {X} (getSample : G -> result X * G) (samples : list X) (n : nat) (g : G) :=
    push_samples getSample n [] g.
End rand.

(** ** IEEE doubles *)
Section randD.
  Context {G : Type} (next : G -> Z * G) (RM : Z).
  (** sampleUniform, 84-95, with T = double. *)
  Definition sampleUniformD (a b : double) (g : G) : result double * G :=
    if Bleb b a then (Throw BadArgument, g) else
    let (r, g') := next g in
    (Ret (d_add a (d_mul (d_div (double_of_Z r 0) (double_of_Z RM 0)) (d_sub b a))), g').
  (** The last line of sampleGeometric, 179, for the sample [u] and the library's log. *)
  Definition geometricD (dlog : double -> double) (p u : double) : option Z :=
    let q := d_div (dlog u) (dlog (d_sub (double_of_Z 1 0) p)) in
    if is_finite q then
      let z := Zfloor (B2R q) in
      if ((0 <=? z) && (z <? 2 ^ 64))%Z then Some z else None
    else None.
End randD.

(** ** Seeding: constructors 17-19, setSeed 62-66, getSeed 68-79 *)
Section seed.
  Context {G : Type} (next : G -> Z * G) (srandom : Z -> G).
  (** The program state: the generator, and which instantiations Randomizer<T, M> (numbered) have run getSeed. *)
  Record pstate := PState { p_gen : G; p_seeded : nat -> bool }.
  (** setSeed (mSeed is write-only). *)
  Definition setSeed (seed : Z) (s : pstate) : pstate := PState (srandom seed) (p_seeded s).
  (** getSeed of instantiation [k]; [now]: the seed computed from the clock. *)
  Definition getSeed (k : nat) (now : Z) (s : pstate) : Z * pstate :=
    let g := if p_seeded s k then p_gen s else srandom now in
    let (r, g') := next g in
    (r, PState g' (fun j => if Nat.eqb j k then true else p_seeded s j)).
  (** Randomizer(seed): stores the seed, nothing else; Randomizer(): calls getSeed for the default argument. *)
  Definition randomizer_new (seed : Z) (s : pstate) : pstate := s.
  Definition randomizer_default (k : nat) (now : Z) (s : pstate) : pstate := snd (getSeed k now s).
  (** Operations of a program that touch the generator. *)
  Inductive rcall := RSetSeed (z : Z) | RNew (seed : Z) | RDefault (k : nat) (now : Z) | RDraw.
  Definition rstep (s : pstate) (c : rcall) : pstate * list Z :=
    match c with
    | RSetSeed z => (setSeed z s, [])
    | RNew z => (randomizer_new z s, [])
    | RDefault k now => (randomizer_default k now s, [])
    | RDraw => let (r, g') := next (p_gen s) in (PState g' (p_seeded s), [r])
    end.
  Fixpoint rrun (s : pstate) (l : list rcall) : pstate * list Z :=
    match l with
    | [] => (s, [])
    | c :: l' => let (s1, o1) := rstep s c in let (s2, o2) := rrun s1 l' in (s2, o1 ++ o2)
    end.
End seed.
