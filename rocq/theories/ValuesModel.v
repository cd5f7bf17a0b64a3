(** Copy constructors and assignment operators, member by member, of the distributions, estimators, grids, histograms and time stamps (those of
    Transformation and VectorDesignVariable are in GeometryModel.v and VectorDVModel.v, of function objects in FunctionObjModel.v).  [this == &other] leaves
    the object alone: assignment from itself writes back what is there. *)
From stdpp Require Import prelude list.
From Verif Require Import Base GridModel NormalModel NormalMvModel GammaModel UniformModel TimestampModel.

(** NormalDistribution1v.cpp 29-35, 37-47 *)
Definition normal1_copy {A} (other : @normal1 A) : normal1 :=
  Normal1 (n1_mean other) (n1_var other) (n1_prec other) (n1_std other) (n1_norm other).
Definition normal1_assign_members {A} (this other : @normal1 A) : normal1 :=
  Normal1 (n1_mean other) (n1_var other) (n1_prec other) (n1_std other) (n1_norm other).
(** NormalDistributionMv.tpp 33-40, 43-54 *)
Definition normalM_copy {A} (other : @normalM A) : normalM :=
  NormalM (nm_mean other) (nm_cov other) (nm_prec other) (nm_det other) (nm_norm other) (nm_L other).
Definition normalM_assign {A} (this other : @normalM A) : normalM :=
  NormalM (nm_mean other) (nm_cov other) (nm_prec other) (nm_det other) (nm_norm other) (nm_L other).
(** GammaDistribution.tpp 29-33, 36-44; ChiSquareDistribution.cpp 19-22, 24-30 call these and have no members of their own. *)
Definition gamma_copy {T} (other : @gamma T) : gamma := Gamma (GammaModel.g_shape other) (GammaModel.g_inv other) (GammaModel.g_nrm other).
Definition gamma_assign {T} (this other : @gamma T) : gamma := Gamma (GammaModel.g_shape other) (GammaModel.g_inv other) (GammaModel.g_nrm other).
(** UniformDistribution1v.tpp 24-29, 32-40 *)
Definition unif_copy {X} (other : @unif X) : unif := Unif (un_min other) (un_max other) (un_area other).
Definition unif_assign {X} (this other : @unif X) : unif := Unif (un_min other) (un_max other) (un_area other).
(** UniformDistributionMv.tpp 25-30, 33-41 *)
Definition unifM_copy {X} (other : @unifM X) : unifM := UnifM (um_min other) (um_max other) (um_area other).
Definition unifM_assign {X} (this other : @unifM X) : unifM := UnifM (um_min other) (um_max other) (um_area other).
(** EstimatorMLNormal1v.cpp 22-28, 30-41; the distribution is copied by its own operators. *)
Definition est1_copy {A} (other : @est1 A) : est1 := Est1 (normal1_copy (e_dist other)) (e_n other) (e_valid other) (e_sum other) (e_sq other).
Definition est1_assign {A} (this other : @est1 A) : est1 :=
  Est1 (normal1_assign_members (e_dist this) (e_dist other)) (e_n other) (e_valid other) (e_sum other) (e_sq other).
(** EstimatorMLNormalMv.tpp 22-28, 31-42 *)
Definition estM_copy {A} (other : @estM A) : estM := EstM (normalM_copy (em_dist other)) (em_n other) (em_valid other) (em_sum other) (em_sq other).
Definition estM_assign {A} (this other : @estM A) : estM :=
  EstM (normalM_assign (em_dist this) (em_dist other)) (em_n other) (em_valid other) (em_sum other) (em_sq other).
(** Grid.tpp 49-57, 60-71; Histogram1v.tpp 23-25, 28-33 and HistogramMv.tpp 22-24, 27-32 call these and have no members of their own. *)
Definition grid_copy {T C} (other : grid T C) : grid T C :=
  Grid (g_min other) (g_max other) (g_res other) (g_n other) (g_tot other) (g_lin other) (g_cells other).
Definition grid_assign {T C} (this other : grid T C) : grid T C :=
  Grid (g_min other) (g_max other) (g_res other) (g_n other) (g_tot other) (g_lin other) (g_cells other).
(** Timestamp.cpp 21-23, 25-30 *)
Definition ts_copy (other : timestamp) : timestamp := Timestamp (ts_seconds other).
Definition ts_assign (this other : timestamp) : timestamp := Timestamp (ts_seconds other).

(** A program with objects of one class, numbered in the order in which they are made: a new object from any constructor, copy construction, assignment
    i = j, and a call that may change object i in any way the class offers ([f]: its effect on the object, also when it throws). *)
Section program.
  Context {O : Type} (copy : O -> O) (assign : O -> O -> O).
  Inductive vline : Type := VNew (o : O) | VCopy (i : nat) | VAssign (i j : nat) | VDo (i : nat) (f : O -> O).
  Definition vstep (s : list O) (c : vline) : option (list O) :=
    match c with
    | VNew o => Some (s ++ [o])
    | VCopy i => o ← s !! i; Some (s ++ [copy o])
    | VAssign i j => o ← s !! i; o2 ← s !! j; Some (<[i := assign o o2]> s)
    | VDo i f => o ← s !! i; Some (<[i := f o]> s)
    end.
  Fixpoint vrun (s : list O) (h : list vline) : option (list O) :=
    match h with [] => Some s | c :: h' => s' ← vstep s c; vrun s' h' end.
End program.
Arguments vline : clear implicits.
