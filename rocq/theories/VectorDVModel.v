(** Model of [VectorDesignVariable<M>].
    incremental_calibration/include/aslam/calibration/data-structures/VectorDesignVariable.tpp
    (the whole file: lines 16-38, 71-80, 87-118).

    Scalars are abstract: [A] stands for [double] and [add] for its addition, about which nothing is
    assumed (so the results hold for IEEE arithmetic, with its rounding and NaNs).
    A vector ([Eigen::Matrix<double, M, 1>], fixed or dynamic [M]) is the list of its entries. *)
From stdpp Require Import prelude list.
From Verif Require Import Base.

(** An [Eigen::MatrixXd]: numbers of rows and columns, and the entries column by column. *)
Record matrix (A : Type) := Mat { m_rows : nat; m_cols : nat; m_data : list A }.
Global Arguments Mat {A}. Global Arguments m_rows {A}. Global Arguments m_cols {A}. Global Arguments m_data {A}.

Section dv.
  Context {A : Type} (add : A -> A -> A).

  (** Members [_value], [_oldValue] (VectorDesignVariable.h, private section). *)
  Record vdv := VDV { v_value : list A; v_old : list A }.

  (** Constructor, lines 16-19. *)
  Definition vdv_new (init : list A) : vdv := VDV init init.

  (** Copy constructor, lines 21-27, and assignment, lines 29-38 (base class state not modelled). *)
  Definition vdv_copy (other : vdv) : vdv := VDV (v_value other) (v_old other).
  Definition vdv_assign (this other : vdv) : vdv := VDV (v_value other) (v_old other).

  (** getValue, lines 70-74. *)
  Definition getValue (d : vdv) : list A := v_value d.

  (** setValue, lines 76-80. *)
  Definition setValue (d : vdv) (v : list A) : vdv := VDV v (v_value d).

  (** minimalDimensionsImplementation, lines 86-89. *)
  Definition minimalDimensions (d : vdv) : nat := length (v_value d).

  (** updateImplementation, lines 91-97.  [dp] is the array of [size] doubles at the pointer.  [_value += update]
      with vectors of different sizes is outside Eigen's contract: [UB]; [_oldValue] is written before it. *)
  Definition update (d : vdv) (dp : list A) : vdv * result unit :=
    let d1 := VDV (v_value d) (v_value d) in
    if Nat.eqb (length dp) (length (v_value d))
    then (VDV (zip_with add (v_value d1) dp) (v_old d1), Ret tt)
    else (d1, UB).

  (** revertUpdateImplementation, lines 99-102. *)
  Definition revertUpdate (d : vdv) : vdv := VDV (v_old d) (v_old d).

  (** getParametersImplementation, lines 104-108: assigns the column vector to the caller's matrix. *)
  Definition getParameters (d : vdv) : matrix A := Mat (length (v_value d)) 1 (v_value d).

  (** setParametersImplementation, lines 110-118. *)
  Definition setParameters (d : vdv) (p : matrix A) : vdv * result unit :=
    if negb (Nat.eqb (m_cols p) 1) || negb (Nat.eqb (m_rows p) (length (v_value d)))
    then (d, Throw OutOfBound)
    else (VDV (m_data p) (v_value d), Ret tt).

  (** The public calls that can change a variable; [CAssign] is [operator=] from a variable with that state. *)
  Inductive vcall :=
  | CSetValue (v : list A)
  | CUpdate (dp : list A)
  | CRevert
  | CSetParameters (p : matrix A)
  | CAssign (other : vdv).

  Definition vstep (d : vdv) (c : vcall) : vdv * result unit :=
    match c with
    | CSetValue v => (setValue d v, Ret tt)
    | CUpdate dp => update d dp
    | CRevert => (revertUpdate d, Ret tt)
    | CSetParameters p => setParameters d p
    | CAssign o => (vdv_assign d o, Ret tt)
    end.

  Fixpoint vrun (d : vdv) (h : list vcall) : vdv :=
    match h with [] => d | c :: h' => vrun (fst (vstep d c)) h' end.
End dv.
Global Arguments VDV {A}. Global Arguments v_value {A}. Global Arguments v_old {A}.
