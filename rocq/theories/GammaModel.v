(** Model of [GammaDistribution<T>]
    (incremental_calibration/include/aslam/calibration/statistics/GammaDistribution.tpp) and [ChiSquareDistribution]
    (incremental_calibration/src/statistics/ChiSquareDistribution.cpp), in exact arithmetic with log(0) = -inf.

    [T] is [double] (modelled by R) or [size_t] (modelled by nat).  The library functions lgamma, digamma and the
    regularised incomplete gamma function are parameters; for [size_t] the log-gamma function is the one of this
    code base (FunctionsModel.v). *)
From stdpp Require Import prelude list.
From Coq Require Import Reals.
From Verif Require Import Base FunctionsModel.
Local Open Scope R_scope.

(** A double that may be infinite or NaN. *)
Inductive ext := Fin (r : R) | PInf | MInf | NaN.
(** exp of <cmath> on such values *)
Definition ext_exp (e : ext) : ext :=
  match e with Fin r => Fin (exp r) | PInf => PInf | MInf => Fin 0 | NaN => NaN end.

(** What the template needs from the type of the shape. *)
Record gops (T : Type) := GOps {
  t_nonpos : T -> bool;         (* shape <= 0 *)
  t_is1 : T -> bool;            (* shape == T(1) *)
  t_ge1 : T -> bool;            (* shape >= 1 *)
  t_R : T -> R;                 (* conversion to double *)
  t_lg : T -> R;                (* LogGammaFunction<T>, for a positive argument *)
  t_psi : T -> R                (* DigammaFunction<T> *)
}.
Global Arguments GOps {T}. Global Arguments t_nonpos {T}. Global Arguments t_is1 {T}. Global Arguments t_ge1 {T}.
Global Arguments t_R {T}. Global Arguments t_lg {T}. Global Arguments t_psi {T}.

(** LogGammaFunction<double> has dimension 1 by default (LogGammaFunction.h, constructor). *)
Definition greal (lgamma psi : R -> R) : gops R :=
  GOps (fun a => if Rle_dec a 0 then true else false) (fun a => if Req_EM_T a 1 then true else false)
    (fun a => if Rle_dec 1 a then true else false) (fun a => a) (logGammaDim lgamma 1) psi.
Definition gnat (psi : nat -> R) : gops nat :=
  GOps (fun a => Nat.leb a 0) (fun a => Nat.eqb a 1) (fun a => Nat.leb 1 a) INR
    (fun a => match logGammaNat a with Ret r => r | _ => 0 end) psi.

Section gamma.
  Context {T : Type} (o : gops T).

  Record gamma := Gamma { g_shape : T; g_inv : R; g_nrm : R }.

  (** computeNormalizer 106-110 *)
  Definition computeNormalizer (d : gamma) : gamma :=
    Gamma (g_shape d) (g_inv d) (t_lg o (g_shape d) - t_R o (g_shape d) * ln (g_inv d)).
  (** setShape 75-83 *)
  Definition setShape (d : gamma) (a : T) : gamma * result unit :=
    if t_nonpos o a then (d, Throw BadArgument)
    else (computeNormalizer (Gamma a (g_inv d) (g_nrm d)), Ret tt).
  (** setInvScale 90-99 *)
  Definition setInvScale (d : gamma) (b : R) : gamma * result unit :=
    if Rle_dec b 0 then (d, Throw BadArgument)
    else (computeNormalizer (Gamma (g_shape d) b (g_nrm d)), Ret tt).
  (** Constructor 22-26; [junk]: the uninitialised members (setShape reads mInvScale before it is set). *)
  Definition gamma_new (junk : gamma) (a : T) (b : R) : result gamma :=
    match setShape junk a with
    | (d, Ret _) => match setInvScale d b with
                    | (d', Ret _) => Ret d' | (_, Throw e) => Throw e | (_, UB) => UB | (_, Diverge) => Diverge end
    | (_, Throw e) => Throw e | (_, UB) => UB | (_, Diverge) => Diverge
    end.

  (** (mShape - 1) * log(value) for a value >= 0, with log(0) = -inf and 0 * -inf = NaN. *)
  Definition mul_log (c v : R) : ext :=
    if Rlt_dec 0 v then Fin (c * ln v)
    else if Rlt_dec 0 c then MInf else if Rlt_dec c 0 then PInf else NaN.
  (** logpdf 125-131; log of a negative number is NaN. *)
  Definition glogpdf (d : gamma) (v : R) : ext :=
    if (if Req_EM_T v 0 then true else false) && t_is1 o (g_shape d) then Fin (- g_nrm d)
    else if Rlt_dec v 0 then NaN else
    match mul_log (t_R o (g_shape d) - 1) v with
    | Fin r => Fin (r - v * g_inv d - g_nrm d)
    | e => e
    end.
  (** pdf 117-123 *)
  Definition gpdf (d : gamma) (v : R) : ext := if Rlt_dec v 0 then Fin 0 else ext_exp (glogpdf d v).
  (** cdf 133-140; [gammaP a x] is boost::math::gamma_p. *)
  Definition gcdf (gammaP : R -> R -> R) (d : gamma) (v : R) : R :=
    if Rle_dec v 0 then 0 else gammaP (t_R o (g_shape d)) (v * g_inv d).
  (** invcdf 142-151; [quantile] is the boost function. *)
  Definition ginvcdf (quantile : R -> R -> R -> R) (d : gamma) (p : R) : result R :=
    if Rlt_dec p 0 then Throw BadArgument else if Rlt_dec 1 p then Throw BadArgument
    else Ret (quantile (t_R o (g_shape d)) (1 / g_inv d) p).
  (** 160-178 *)
  Definition ggetMean (d : gamma) : R := t_R o (g_shape d) / g_inv d.
  Definition ggetMode (d : gamma) : result R :=
    if t_ge1 o (g_shape d) then Ret ((t_R o (g_shape d) - 1) / g_inv d) else Throw InvalidOperation.
  Definition ggetVariance (d : gamma) : R := t_R o (g_shape d) / (g_inv d * g_inv d).
  (** KLDivergence 180-191 *)
  Definition gKL (d q : gamma) : R :=
    (t_R o (g_shape d) - 1) * t_psi o (g_shape d) - (t_R o (g_shape q) - 1) * t_psi o (g_shape q)
    - t_lg o (g_shape d) + t_lg o (g_shape q) + t_R o (g_shape q) * (ln (g_inv d) - ln (g_inv q))
    + t_R o (g_shape d) * (1 / g_inv d - 1 / g_inv q) * g_inv q.

  Inductive gamma_reach : gamma -> Prop :=
  | gr_new junk a b d : gamma_new junk a b = Ret d -> gamma_reach d
  | gr_shape d a : gamma_reach d -> gamma_reach (fst (setShape d a))
  | gr_inv d b : gamma_reach d -> gamma_reach (fst (setInvScale d b)).
End gamma.
Global Arguments Gamma {T}. Global Arguments g_shape {T}. Global Arguments g_inv {T}. Global Arguments g_nrm {T}.

(** ChiSquareDistribution.cpp 15-17, 56-66; the setters of the base class are public too. *)
Section chi.
  Context (lgamma psi : R -> R).
  Local Notation o := (greal lgamma psi).
  Definition chi_new (junk : gamma) (degrees : R) : result gamma := gamma_new o junk (/ 2 * degrees) (/ 2).
  Definition setDegrees (d : gamma) (degrees : R) : gamma * result unit := setShape o d (degrees * / 2).
  Definition getDegrees (d : @gamma R) : R := g_shape d * 2.
  Definition chiMedian (d : gamma) : R := getDegrees d * (1 - 2 / (9 * getDegrees d)) ^ 3.
End chi.
