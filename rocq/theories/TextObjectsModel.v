(** Model of what [write(std::ostream&)] appends for the objects of the library and of the examples, in terms of the members of the
    objects as modelled elsewhere.  How a number, a row, a column vector or a matrix is formatted is a parameter
    (of the standard library and Eigen).  Also the object part of [Randomizer] (the member [mSeed]). *)
From stdpp Require Import prelude list strings pretty gmap.
From Coq Require Import Reals ZArith Ascii String.
From Verif Require Import Base GridModel TextModel NormalModel NormalMvModel UniformModel GammaModel VectorDVModel GeometryModel RandomizerModel DesignVarsModel.
Local Open Scope string_scope.

Section objects.
Context {A : Type} (fmt : A -> string).
(** NormalDistribution1v.cpp 59-62 *)
Definition print_normal1 (d : @normal1 A) : string := write_normal1 fmt (n1_mean d) (n1_var d).
(** EstimatorMLNormal1v.cpp 53-58 *)
Definition print_est1 (e : @est1 A) : string := write_estimator (print_normal1 (e_dist e)) (Z.to_N (e_n e)) (e_valid e).
(** NormalDistributionMv.tpp 68-72 *)
Definition print_normalM (showv : (nat -> A) -> string) (showm : (nat -> nat -> A) -> string) (d : @normalM A) : string :=
  "mean: " +:+ nl +:+ showv (nm_mean d) +:+ nl +:+ "covariance: " +:+ nl +:+ showm (nm_cov d).
(** EstimatorMLNormalMv.tpp 56-62 *)
Definition print_estM (showv : (nat -> A) -> string) (showm : (nat -> nat -> A) -> string) (e : @estM A) : string :=
  write_estimator (print_normalM showv showm (em_dist e)) (Z.to_N (em_n e)) (em_valid e).
(** UniformDistribution1v.tpp 54-58 *)
Definition print_unif (d : @unif A) : string := write_uniform1 fmt (un_min d) (un_max d).
(** UniformDistributionMv.tpp 55-60 *)
Definition print_unifM (col : list A -> string) (d : @unifM A) : string :=
  "minimum support: " +:+ nl +:+ col (um_min d) +:+ nl +:+ "maximum support: " +:+ nl +:+ col (um_max d) +:+ nl +:+
  "support area: " +:+ fmt (um_area d).
(** GammaDistribution.tpp 58-62; the shape has the template's type, the inverse scale is a double. *)
Definition print_gamma (fmtR : R -> string) (d : @gamma A) : string :=
  write_gamma (fun s : string => s) (fmt (g_shape d)) (fmtR (g_inv d)).
(** VectorDesignVariable.tpp 52-55 and, for a file, 61-64 *)
Definition print_vdv (row : list A -> string) (d : @vdv A) : string := row (v_value d).
End objects.
(** ChiSquareDistribution.cpp 42-44 *)
Definition print_chi (fmt : R -> string) (d : @gamma R) : string := write_chi2 fmt (getDegrees d).
(** Transformation2d.tpp 60-63, Transformation3d.tpp 59-62 *)
Definition print_transf (showm : (nat -> nat -> R) -> string) (t : transf) : string := "Transformation matrix: " +:+ nl +:+ showm (t_T t).

(** ** Randomizer objects: the member [mSeed], Randomizer.tpp 17-34, 46-49, 62-66 *)
Section randomizers.
Context {G : Type} (next : G -> Z * G) (srandom : Z -> G).
(** The program's generator and the Randomizer objects made so far, in order. *)
Record rworld := RWorld { rw_state : @pstate G; rw_seeds : list Z }.
Inductive rzcall :=
| RzNew (seed : Z)                 (* Randomizer(seed), 17-19 *)
| RzDefault (k : nat) (now : Z)    (* Randomizer(), default argument getSeed() of the class numbered k *)
| RzCopy (i : nat)                 (* Randomizer(other), 21-24 *)
| RzAssign (i j : nat)             (* object i = object j, 26-32 *)
| RzSetSeed (i : nat) (seed : Z)   (* 62-66 *)
| RzDraw.                          (* one call of random() by any sampler *)
Definition rzstep (w : rworld) (c : rzcall) : rworld * list Z :=
  match c with
  | RzNew z => (RWorld (rw_state w) (rw_seeds w ++ [z]), [])
  | RzDefault k now => let (r, s) := getSeed next srandom k now (rw_state w) in (RWorld s (rw_seeds w ++ [r]), [])
  | RzCopy i => (RWorld (rw_state w) (rw_seeds w ++ match rw_seeds w !! i with Some z => [z] | None => [] end), [])
  | RzAssign i j => (RWorld (rw_state w) match rw_seeds w !! j with Some z => <[i := z]> (rw_seeds w) | None => rw_seeds w end, [])
  | RzSetSeed i z => (RWorld (setSeed srandom z (rw_state w)) (<[i := z]> (rw_seeds w)), [])
  | RzDraw => let (r, g') := next (p_gen (rw_state w)) in (RWorld (PState g' (p_seeded (rw_state w))) (rw_seeds w), [r])
  end.
Fixpoint rzrun (w : rworld) (l : list rzcall) : rworld * list Z :=
  match l with
  | [] => (w, [])
  | c :: l' => let (w1, o1) := rzstep w c in let (w2, o2) := rzrun w1 l' in (w2, (o1 ++ o2)%list)
  end.
(** write, 46-49, of object [i] *)
Definition print_randomizer (fmt : Z -> string) (w : rworld) (i : nat) : option string :=
  match rw_seeds w !! i with Some z => Some ("seed: " +:+ fmt z) | None => None end.
End randomizers.

(** ** Calibration variables of the examples; [out] as in DesignVarsModel.v *)
Section calibration.
Context {A : Type} (fmt : A -> string) (row : list A -> string) (out : nat -> nat -> A).
Definition out3 (d : nat) : list A := [out d 0; out d 1; out d 2].
(** time_delay OdometryDesignVariables.cpp 117-127 *)
Definition print_td (v : td_vars) : string :=
  "b: " +:+ fmt (out (td_b v) 0) +:+ nl +:+
  "k_l: " +:+ fmt (out (td_k_l v) 0) +:+ nl +:+
  "t_l: " +:+ fmt (out (td_t_l v) 0) +:+ nl +:+
  "k_r: " +:+ fmt (out (td_k_r v) 0) +:+ nl +:+
  "t_r: " +:+ fmt (out (td_t_r v) 0) +:+ nl +:+
  "v_r_vp: " +:+ row (out3 (td_v_r_vp v)) +:+ nl +:+
  "v_R_p: " +:+ row (out3 (td_v_R_p v)) +:+ nl.
(** car OdometryDesignVariables.cpp 159-177; [a] is printed by VectorDesignVariable's own operator *)
Definition print_car (v : car_vars) : string :=
  "e_r: " +:+ fmt (out (cv_e_r v) 0) +:+ nl +:+
  "e_f: " +:+ fmt (out (cv_e_f v) 0) +:+ nl +:+
  "L: " +:+ fmt (out (cv_L v) 0) +:+ nl +:+
  "a: " +:+ row [out (cv_a v) 0; out (cv_a v) 1; out (cv_a v) 2; out (cv_a v) 3] +:+ nl +:+
  "k_rl: " +:+ fmt (out (cv_k_rl v) 0) +:+ nl +:+
  "k_rr: " +:+ fmt (out (cv_k_rr v) 0) +:+ nl +:+
  "k_fl: " +:+ fmt (out (cv_k_fl v) 0) +:+ nl +:+
  "k_fr: " +:+ fmt (out (cv_k_fr v) 0) +:+ nl +:+
  "k_dmi: " +:+ fmt (out (cv_k_dmi v) 0) +:+ nl +:+
  "v_r_vr: " +:+ row (out3 (cv_v_r_vr v)) +:+ nl +:+
  "v_R_r: " +:+ row (out3 (cv_v_R_r v)) +:+ nl +:+
  "t_r: " +:+ fmt (out (cv_t_r v) 0) +:+ nl +:+
  "t_f: " +:+ fmt (out (cv_t_f v) 0) +:+ nl +:+
  "t_s: " +:+ fmt (out (cv_t_s v) 0) +:+ nl +:+
  "t_dmi: " +:+ fmt (out (cv_t_dmi v) 0) +:+ nl.
(** egomotion DesignVariables.cpp 106-118; [order]: the entries in the iteration order of the unordered_map *)
Fixpoint print_ego (order : list (nat * ego_vars)) : string :=
  match order with
  | [] => ""
  | (i, v) :: order' =>
    "t_" +:+ pretty i +:+ ": " +:+ fmt (out (ev_t v) 0) +:+ nl +:+
    "r_" +:+ pretty i +:+ ": " +:+ row (out3 (ev_r v)) +:+ nl +:+
    "R_" +:+ pretty i +:+ ": " +:+ row (out3 (ev_R v)) +:+ nl +:+ print_ego order'
  end.
End calibration.
