(** Model of [NormalDistribution<M>]
    (incremental_calibration/include/aslam/calibration/statistics/NormalDistributionMv.tpp) and of
    [EstimatorML<NormalDistribution<M>>] (.../statistics/EstimatorMLNormalMv.tpp), [M] fixed at compile time.

    Scalars are the operations [o : sops A] of NormalModel.v.  A vector is the function giving its entries, a matrix
    likewise; only indices below [M] are meaningful.  Eigen's decompositions are parameters: [llt] (the Cholesky
    factor as [matrixL()] returns it), [isPositive] (LDLT), [inv], [det]; nothing is assumed about them here. *)
From stdpp Require Import prelude list.
From Coq Require Import Reals ZArith.
From Verif Require Import Base GridModel NormalModel.
Local Open Scope Z_scope.

Record eigen (A : Type) := Eigen {
  eg_llt : (nat -> nat -> A) -> (nat -> nat -> A);
  eg_isPositive : (nat -> nat -> A) -> bool;
  eg_inv : (nat -> nat -> A) -> (nat -> nat -> A);
  eg_det : (nat -> nat -> A) -> A }.
Global Arguments Eigen {A}. Global Arguments eg_llt {A}. Global Arguments eg_isPositive {A}.
Global Arguments eg_inv {A}. Global Arguments eg_det {A}.

Section mv.
  Context {A : Type} (o : sops A) (g : eigen A) (M : nat).
  Local Notation "a + b" := (s_add o a b). Local Notation "a - b" := (s_sub o a b).
  Local Notation "a * b" := (s_mul o a b). Local Notation "a / b" := (s_div o a b).
  Local Notation "# z" := (s_Z o z) (at level 5, format "# z").
  Local Notation vec := (nat -> A).
  Local Notation mat := (nat -> nat -> A).

  (** [==] of doubles (false if one is NaN). *)
  Definition s_eq (a b : A) : bool := s_le o a b && s_le o b a.
  Definition idx : list nat := seq 0 M.
  Definition vsum (f : nat -> A) : A := fold_left (fun acc i => acc + f i) idx #0.

  (** Data members (NormalDistributionMv.h, protected section). *)
  Record normalM := NormalM { nm_mean : vec; nm_cov : mat; nm_prec : mat; nm_det : A; nm_norm : A; nm_L : mat }.

  (** setMean, lines 86-89. *)
  Definition setMeanM (d : normalM) (m : vec) : normalM :=
    NormalM m (nm_cov d) (nm_prec d) (nm_det d) (nm_norm d) (nm_L d).

  (** [covariance.transpose() != covariance], line 99. *)
  Definition is_symmetric (c : mat) : bool :=
    forallb (fun i => forallb (fun j => s_eq (c j i) (c i j)) idx) idx.
  (** [(covariance.diagonal().array() < 0).any()], line 110; a < 0 is 0 > a: here "a <= 0 and not a == 0". *)
  Definition neg_diagonal (c : mat) : bool :=
    existsb (fun i => s_le o (c i i) #0 && negb (s_eq (c i i) #0)) idx.

  (** setCovariance, lines 97-119.  The Cholesky factor is written (line 104) before the two remaining checks. *)
  Definition setCovariance (d : normalM) (c : mat) : normalM * result unit :=
    if negb (is_symmetric c) then (d, Throw BadArgument) else
    let d1 := NormalM (nm_mean d) (nm_cov d) (nm_prec d) (nm_det d) (nm_norm d) (eg_llt g c) in
    if negb (eg_isPositive g c) then (d1, Throw BadArgument) else
    if neg_diagonal c then (d1, Throw BadArgument) else
    (NormalM (nm_mean d1) c (eg_inv g c) (eg_det g c)
       (half o * #(Z.of_nat M) * s_log o (#2 * s_pi o) + half o * s_log o (eg_det g c)) (nm_L d1), Ret tt).

  (** Constructors, lines 18-30; [junk]: the members the constructor leaves uninitialised. *)
  Definition normalM_new (junk : normalM) (m : vec) (c : mat) : result normalM :=
    match setCovariance (setMeanM junk m) c with
    | (d, Ret _) => Ret d | (_, Throw e) => Throw e | (_, UB) => UB | (_, Diverge) => Diverge end.

  (** getSample, lines 160-168; [z]: the standard normal numbers drawn. *)
  Definition getSampleM (d : normalM) (z : vec) : vec :=
    fun i => nm_mean d i + vsum (fun k => nm_L d i k * z k).
  (** mahalanobisDistance, lines 179-184; logpdf, pdf 149-158. *)
  Definition quad (p : mat) (x : vec) : A := vsum (fun j => vsum (fun i => x i * p i j) * x j).
  Definition mahalanobisM (d : normalM) (x : vec) : A := quad (nm_prec d) (fun i => x i - nm_mean d i).
  Definition logpdfM (d : normalM) (x : vec) : A := (#0 - half o) * mahalanobisM d x - nm_norm d.
  Definition pdfM (d : normalM) (x : vec) : A := s_exp o (logpdfM d x).
  (** KLDivergence, lines 170-177. *)
  Definition KLDivergenceM (d other : normalM) : A :=
    half o * (s_log o (nm_det other / nm_det d) +
      vsum (fun i => vsum (fun k => nm_prec other i k * nm_cov d k i)) - #(Z.of_nat M) +
      quad (nm_prec other) (fun i => nm_mean d i - nm_mean other i)).

  (** OuterProduct::compute, utils/OuterProduct.tpp 18-28: upper triangle, mirrored. *)
  Definition outer (v : vec) : mat := fun i j => if Nat.leb i j then v i * v j else v j * v i.

  (** EstimatorMLNormalMv.h 104-113 *)
  Record estM := EstM { em_dist : normalM; em_n : Z; em_valid : bool; em_sum : vec; em_sq : mat }.

  (** Constructor 15-19: the default distribution (zero mean, identity covariance); the sums are uninitialised. *)
  Definition estM_new (junkd : normalM) (junkv : vec) (junkm : mat) : result estM :=
    rbind (normalM_new junkd (fun _ => #0) (fun i j => if Nat.eqb i j then #1 else #0))
      (fun d => Ret (EstM d 0 false junkv junkm)).
  (** reset, 93-97 *)
  Definition estM_reset (e : estM) : estM := EstM (em_dist e) 0 false (em_sum e) (em_sq e).

  Definition try_setM (d : normalM) (m : vec) (c : mat) : normalM * bool :=
    match setCovariance (setMeanM d m) c with (d', Ret _) => (d', true) | (d', _) => (d', false) end.

  (** addPoint, 99-120 *)
  Definition addPointM (e : estM) (x : vec) : estM :=
    let s0 : vec := if Z.eqb (em_n e) 0 then (fun _ => #0) else em_sum e in
    let q0 : mat := if Z.eqb (em_n e) 0 then (fun _ _ => #0) else em_sq e in
    let n := ((em_n e + 1) mod size_t_mod)%Z in
    let s : vec := fun i => s0 i + x i in
    let q : mat := fun i j => q0 i j + outer x i j in
    let mean : vec := fun i => s i / #n in
    let c : mat := fun i j =>
      q i j / #n - outer s i j * #2 / #((n * n) mod size_t_mod)%Z + outer mean i j in
    let r := try_setM (em_dist e) mean c in
    EstM (fst r) n (snd r) s q.
  (** addPoints, 122-133 *)
  Definition addPointsM (e : estM) (l : list vec) : estM := fold_left addPointM l e.

  (** Weighted addPoints, 135-161.  On an empty range [itStart->size()] (142) dereferences the end iterator: UB. *)
  Definition addPointsWeightedM (e : estM) (l : list vec) (w : list A) : estM * result unit :=
    if negb (Nat.eqb (length w) (length l)) then (e, Ret tt) else
    match l with
    | [] => (e, UB)
    | _ =>
      let m0 : vec := fun i => fold_left (fun acc p => acc + snd p * fst p i) (zip l w) #0 in
      let n := fold_left (s_add o) w #0 in
      let mean : vec := fun i => m0 i / n in
      let c0 : mat := fun i j =>
        fold_left (fun acc p => acc + snd p * outer (fun k => fst p k - mean k) i j) (zip l w) #0 in
      let r := try_setM (em_dist e) mean (fun i j => c0 i j / n) in
      (EstM (fst r) (em_n e) (snd r) (em_sum e) (em_sq e), Ret tt)
    end.

  Inductive estM_reach : estM -> Prop :=
  | emr_new jd jv jm e : estM_new jd jv jm = Ret e -> estM_reach e
  | emr_reset e : estM_reach e -> estM_reach (estM_reset e)
  | emr_add e x : estM_reach e -> estM_reach (addPointM e x)
  | emr_range e l : estM_reach e -> estM_reach (addPointsM e l)
  | emr_weighted e l w : estM_reach e -> estM_reach (fst (addPointsWeightedM e l w)).

  (** Histories of one distribution: the calls that can change it. *)
  Inductive mcall := MSetMean (m : vec) | MSetCov (c : mat) | MAssign (other : normalM).
  Definition mstep (d : normalM) (c : mcall) : normalM * result unit :=
    match c with
    | MSetMean m => (setMeanM d m, Ret tt)
    | MSetCov c => setCovariance d c
    | MAssign other => (other, Ret tt)
    end.
  Fixpoint mrun (d : normalM) (h : list mcall) : normalM :=
    match h with [] => d | c :: h' => mrun (fst (mstep d c)) h' end.
End mv.
Global Arguments NormalM {A}. Global Arguments nm_mean {A}. Global Arguments nm_cov {A}.
Global Arguments nm_prec {A}. Global Arguments nm_det {A}. Global Arguments nm_norm {A}. Global Arguments nm_L {A}.
Global Arguments EstM {A}. Global Arguments em_dist {A}. Global Arguments em_n {A}. Global Arguments em_valid {A}.
Global Arguments em_sum {A}. Global Arguments em_sq {A}.
