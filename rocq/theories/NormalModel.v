(** Model of [NormalDistribution<1>] (incremental_calibration/src/statistics/NormalDistribution1v.cpp) and of
    [EstimatorML<NormalDistribution<1>>] (incremental_calibration/src/statistics/EstimatorMLNormal1v.cpp).

    Both are written once over a record of scalar operations and instantiated twice: exact reals ([real_sops])
    and IEEE binary64 with NaNs and infinities ([double_sops], Flocq). *)
From stdpp Require Import prelude list.
From Coq Require Import Reals ZArith.
From Coquelicot Require Import Coquelicot.
From Flocq Require Import Core BinarySingleNaN.
From Verif Require Import Base GridModel.
Local Open Scope Z_scope.

(** The arithmetic a C++ [double] offers to this code. *)
Record sops (A : Type) := SOps {
  s_le : A -> A -> bool; s_add : A -> A -> A; s_sub : A -> A -> A; s_mul : A -> A -> A; s_div : A -> A -> A;
  s_sqrt : A -> A; s_log : A -> A; s_exp : A -> A; s_erf : A -> A;
  s_Z : Z -> A;          (* conversion of an integer, and integer constants *)
  s_pi : A               (* M_PI *)
}.
Global Arguments s_le {A}. Global Arguments s_add {A}. Global Arguments s_sub {A}. Global Arguments s_mul {A}.
Global Arguments s_div {A}. Global Arguments s_sqrt {A}. Global Arguments s_log {A}. Global Arguments s_exp {A}.
Global Arguments s_erf {A}. Global Arguments s_Z {A}. Global Arguments s_pi {A}. Global Arguments SOps {A}.

(** The error function of <cmath>, by its definition as an integral. *)
Definition erf (x : R) : R := (2 / sqrt PI * RInt (fun t => exp (- (t * t))) 0 x)%R.

(** Exact arithmetic. *)
Definition real_sops : sops R :=
  SOps (fun a b => if Rle_dec a b then true else false) Rplus Rminus Rmult Rdiv sqrt ln exp erf IZR PI.

(** IEEE binary64.  The library functions log, exp, erf are arbitrary ([dl], [de], [df]); [dpi] stands for M_PI. *)
Definition double_sops (dl de df : double -> double) (dpi : double) : sops double :=
  SOps Bleb d_add d_sub d_mul d_div (Bsqrt mode_NE) dl de df (fun z => double_of_Z z 0) dpi.

Section normal.
  Context {A : Type} (o : sops A).
  Local Notation "a + b" := (s_add o a b). Local Notation "a - b" := (s_sub o a b).
  Local Notation "a * b" := (s_mul o a b). Local Notation "a / b" := (s_div o a b).
  Local Notation "# z" := (s_Z o z) (at level 5, format "# z").
  (** The literal 0.5. *)
  Definition half : A := #1 / #2.

  (** Data members, NormalDistribution1v.h (protected section). *)
  Record normal1 := Normal1 {
    n1_mean : A; n1_var : A; n1_prec : A; n1_std : A; n1_norm : A }.

  (** NormalDistribution1v.cpp 74-76 *)
  Definition setMean (d : normal1) (m : A) : normal1 := Normal1 m (n1_var d) (n1_prec d) (n1_std d) (n1_norm d).
  (** 82-92; the exception is thrown before anything is written. *)
  Definition setVariance (d : normal1) (v : A) : normal1 * result unit :=
    if s_le o v #0 then (d, Throw BadArgument)
    else (Normal1 (n1_mean d) v (#1 / v) (s_sqrt o v) (half * s_log o (#2 * s_pi o * v)), Ret tt).
  (** Constructors 18-27: the remaining members are uninitialised ([junk]) until [setVariance] has run. *)
  Definition normal1_new (junk : A) (m v : A) : result normal1 :=
    match setVariance (Normal1 m junk junk junk junk) v with
    | (d, Ret _) => Ret d | (_, Throw e) => Throw e | (_, UB) => UB | (_, Diverge) => Diverge end.
  (** 37-47 (assignment) and 29-35 (copy): all members. *)
  Definition normal1_assign (d other : normal1) : normal1 := other.

  (** Accessors 78-110, 142-148. *)
  Definition getMean (d : normal1) : A := n1_mean d.
  Definition getVariance (d : normal1) : A := n1_var d.
  Definition getPrecision (d : normal1) : A := n1_prec d.
  Definition getStandardDeviation (d : normal1) : A := n1_std d.
  Definition getNormalizer (d : normal1) : A := n1_norm d.
  Definition getMedian (d : normal1) : A := n1_mean d.
  Definition getMode (d : normal1) : A := n1_mean d.
  (** 137-140 *)
  Definition mahalanobisDistance (d : normal1) (x : A) : A := (x - n1_mean d) * n1_prec d * (x - n1_mean d).
  (** 116-118; -0.5 is 0 - 0.5. *)
  Definition logpdf (d : normal1) (x : A) : A := (#0 - half) * mahalanobisDistance d x - n1_norm d.
  (** 112-114 *)
  Definition pdf (d : normal1) (x : A) : A := s_exp o (logpdf d x).
  (** 120-122 *)
  Definition cdf (d : normal1) (x : A) : A :=
    half * (#1 + s_erf o ((x - n1_mean d) / s_sqrt o (#2 * n1_var d))).
  (** 130-135 *)
  Definition KLDivergence (d other : normal1) : A :=
    half * (s_log o (n1_var other * n1_prec d) + n1_prec other * n1_var d - #1 +
            (n1_mean d - n1_mean other) * n1_prec other * (n1_mean d - n1_mean other)).

  (** EstimatorMLNormal1v.h (protected section); [e_n] is a [size_t]. *)
  Record est1 := Est1 { e_dist : normal1; e_n : Z; e_valid : bool; e_sum : A; e_sq : A }.
  Definition size_t_mod : Z := 2 ^ 64.

  (** Default constructor, EstimatorMLNormal1v.cpp 15-20 (default NormalDistribution: mean 0, variance 1). *)
  Definition est1_new (junk : A) : result est1 :=
    rbind (normal1_new junk #0 #1) (fun d => Ret (Est1 d 0 false #0 #0)).
  (** reset, 84-89: the distribution is kept. *)
  Definition est_reset (e : est1) : est1 := Est1 (e_dist e) 0 false #0 #0.

  (** The try/catch of 95-105 and 134-141: mValid is set before the setters run and cleared if they throw;
      what the setters did before throwing stays. *)
  Definition try_set (d : normal1) (m v : A) : normal1 * bool :=
    match setVariance (setMean d m) v with
    | (d', Ret _) => (d', true)
    | (d', _) => (d', false)
    end.

  (** addPoint, 91-106; mNumPoints++ and mNumPoints * mNumPoints are size_t arithmetic. *)
  Definition addPoint (e : est1) (x : A) : est1 :=
    let n := ((e_n e + 1) mod size_t_mod)%Z in
    let s := e_sum e + x in
    let q := e_sq e + x * x in
    let mean := s / #n in
    let v := q / #n - s * s * #2 / #((n * n) mod size_t_mod)%Z + mean * mean in
    let r := try_set (e_dist e) mean v in
    Est1 (fst r) n (snd r) s q.

  (** addPoints over a range / a container, 108-117. *)
  Definition addPoints (e : est1) (l : list A) : est1 := fold_left addPoint l e.

  (** Weighted addPoints, 119-142.  (Eigen's [sum()] may add in another order; here left to right.) *)
  Definition addPointsWeighted (e : est1) (l : list A) (w : list A) : est1 :=
    if negb (Nat.eqb (length w) (length l)) then e else
    let m0 := fold_left (fun acc p => acc + snd p * fst p) (zip l w) #0 in
    let n := fold_left (s_add o) w #0 in
    let mean := m0 / n in
    let v0 := fold_left (fun acc p => acc + snd p * (fst p - mean) * (fst p - mean)) (zip l w) #0 in
    let r := try_set (e_dist e) mean (v0 / n) in
    Est1 (fst r) (e_n e) (snd r) (e_sum e) (e_sq e).

  (** Everything a program can do with one distribution. *)
  Inductive normal1_reach : normal1 -> Prop :=
  | nr_new junk m v d : normal1_new junk m v = Ret d -> normal1_reach d
  | nr_mean d m : normal1_reach d -> normal1_reach (setMean d m)
  | nr_var d v : normal1_reach d -> normal1_reach (fst (setVariance d v))
  | nr_assign d d' : normal1_reach d -> normal1_reach d' -> normal1_reach (normal1_assign d d').

  (** ... and with one estimator. *)
  Inductive est1_reach : est1 -> Prop :=
  | er_new junk e : est1_new junk = Ret e -> est1_reach e
  | er_reset e : est1_reach e -> est1_reach (est_reset e)
  | er_add e x : est1_reach e -> est1_reach (addPoint e x)
  | er_range e l : est1_reach e -> est1_reach (addPoints e l)
  | er_weighted e l w : est1_reach e -> est1_reach (addPointsWeighted e l w).
End normal.
Global Arguments Normal1 {A}. Global Arguments n1_mean {A}. Global Arguments n1_var {A}.
Global Arguments n1_prec {A}. Global Arguments n1_std {A}. Global Arguments n1_norm {A}.
Global Arguments Est1 {A}. Global Arguments e_dist {A}. Global Arguments e_n {A}. Global Arguments e_valid {A}.
Global Arguments e_sum {A}. Global Arguments e_sq {A}.
Global Arguments getMean {A}. Global Arguments getVariance {A}. Global Arguments getPrecision {A}.
Global Arguments getStandardDeviation {A}. Global Arguments getNormalizer {A}. Global Arguments getMedian {A}.
Global Arguments getMode {A}.
