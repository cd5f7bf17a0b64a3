(** C125: what the description of an object shows. *)
From stdpp Require Import prelude list strings pretty gmap.
From Coq Require Import Reals ZArith Ascii String Lra Lia Psatz.
From Verif Require Import Base GridModel GridProofs Spec_Grid TextModel Spec_Text TextProofs Spec_Document TextObjectsModel NormalModel NormalMvModel UniformModel GammaModel
  VectorDVModel GeometryModel RandomizerModel DesignVarsModel Spec_Normal NormalProofs NormalMvProofs Properties_Normal Properties_NormalMv Properties_Uniform
  UniformProofs Properties_Gamma.
Local Open Scope string_scope.

(** A report determines the values, given the names: values on one line have no line break in them. *)
Theorem report_unambiguous :
  forall names vs ws, List.length vs = List.length names -> List.length ws = List.length names ->
    Forall (lacks newline) vs -> Forall (lacks newline) ws ->
    report (zip_with Line names vs) = report (zip_with Line names ws) -> vs = ws.
Proof.
  induction names as [|n names IH]; intros [|v vs] [|w ws] Hv Hw Fv Fw; simplify_eq/=; [done|].
  apply Forall_cons in Fv as [F1 Fv], Fw as [F2 Fw]. rewrite !app_assoc3. intros H. apply app_inv_l in H. apply (app_inv_l ": ") in H. change (line_break +:+ ?s) with (String newline s) in H.
  apply cut in H as [-> H]; [|done..]. f_equal. by apply IH.
Qed.

(** Distributions and transformations: the names are those of the parameters, the values those given; what was refused is not shown. *)
Theorem distribution_text :
  (forall A (o : sops A) (fmt : A -> string),
     (forall junk m v d, normal1_new o junk m v = Ret d -> print_normal1 fmt d = document [Line "mean" (fmt m); Line "variance" (fmt v)]) /\
     (forall d m, print_normal1 fmt (setMean d m) = document [Line "mean" (fmt m); Line "variance" (fmt (getVariance d))]) /\
     (forall d v d' r, setVariance o d v = (d', r) ->
        print_normal1 fmt d' = document [Line "mean" (fmt (getMean d)); Line "variance" (fmt (match r with Ret _ => v | _ => getVariance d end))])) /\
  (forall A (o : sops A) g M showv showm,
     (forall junk m c d, normalM_new o g M junk m c = Ret d -> print_normalM showv showm d = document [Block "mean" (showv m); Block "covariance" (showm c)]) /\
     (forall d c d' r, setCovariance o g M d c = (d', r) ->
        print_normalM showv showm d' = document [Block "mean" (showv (nm_mean d)); Block "covariance" (showm (match r with Ret _ => c | _ => nm_cov d end))])) /\
  (forall X (o : uops X) (fmt : X -> string) (col : list X -> string),
     (forall junk a b d, unif_new o junk a b = Ret d -> print_unif fmt d = document [Line "minimum support" (fmt a); Line "maximum support" (fmt b)]) /\
     (forall d a b d' e, setSupport o d a b = (d', Throw e) -> print_unif fmt d' = print_unif fmt d) /\
     (forall d a b d' e, setSupportM o d a b = (d', Throw e) -> print_unifM fmt col d' = print_unifM fmt col d)) /\
  (forall (fmt : R -> string) (col : list R -> string) junk a b d, unifM_new ureal junk a b = Ret d ->
     print_unifM fmt col d = document [Block "minimum support" (col a); Block "maximum support" (col b);
       Line "support area" (fmt (fold_right Rmult 1%R (zip_with (fun x y => y - x)%R a b)))]) /\
  (forall T (o : gops T) (fmt : T -> string) (fmtR : R -> string),
     (forall junk a b d, gamma_new o junk a b = Ret d -> print_gamma fmt fmtR d = document [Line "shape" (fmt a); Line "inverse scale" (fmtR b)]) /\
     (forall d a d' r, setShape o d a = (d', r) -> print_gamma fmt fmtR d' =
        document [Line "shape" (fmt (match r with Ret _ => a | _ => g_shape d end)); Line "inverse scale" (fmtR (g_inv d))])) /\
  (forall lgamma psi (fmt : R -> string) junk k d, chi_new lgamma psi junk k = Ret d -> print_chi fmt d = document [Line "degrees" (fmt k)]) /\
  (forall showm t, print_transf showm t = document [Block "Transformation matrix" (showm (getTransformationMatrix t))]).
Proof.
  split_and!.
  - intros A o fmt. split_and!.
    + intros junk m v d. unfold normal1_new, setVariance. destruct (s_le o v _); [done|]. by intros [= <-].
    + done.
    + intros d v d' r. unfold setVariance. destruct (s_le o v _); by intros [= <- <-].
  - intros A o g M showv showm. split.
    + intros junk m c d. unfold normalM_new, setCovariance. destruct (negb (is_symmetric o M c)); [done|].
      destruct (negb (eg_isPositive g c)); [done|]. destruct (neg_diagonal o M c); [done|]. by intros [= <-].
    + intros d c d' r. unfold setCovariance. destruct (negb (is_symmetric o M c)); [by intros [= <- <-]|].
      destruct (negb (eg_isPositive g c)); [by intros [= <- <-]|]. destruct (neg_diagonal o M c); by intros [= <- <-].
  - intros X o fmt col. split_and!.
    + intros junk a b d. unfold unif_new, setSupport. destruct (u_le o b a); [done|]. destruct (u_area o a b); [|done]. by intros [= <-].
    + intros d a b d' e. unfold setSupport. destruct (u_le o b a); [by intros [= <- _]|]. destruct (u_area o a b); done.
    + intros d a b d' e. unfold setSupportM. destruct (negb _); [done|]. destruct (existsb _ _); [by intros [= <- _]|]. destruct (areaM o a b); done.
  - intros fmt col junk a b d H.
    assert (E : um_min d = a /\ um_max d = b).
    { revert H. unfold unifM_new, setSupportM. destruct (negb _); [done|]. destruct (existsb _ _); [done|]. destruct (areaM ureal a b); [|done].
      by intros [= <-]. }
    destruct E as [<- <-]. destruct (uniformM_support_real d (umr_new ureal _ _ _ _ H)) as (_ & _ & HA & _).
    unfold print_unifM. by rewrite HA.
  - intros T o fmt fmtR. split.
    + intros junk a b d. unfold gamma_new, setShape, setInvScale. destruct (t_nonpos o a); [done|]. cbn. destruct (Rle_dec b 0); [done|].
      by intros [= <-].
    + intros d a d' r. unfold setShape. destruct (t_nonpos o a); by intros [= <- <-].
  - intros lgamma psi fmt junk k d H. unfold print_chi, write_chi2.
    destruct (chi_square_degrees lgamma psi junk k) as (H1 & H2 & _).
    destruct (Rle_dec k 0) as [Hk|Hk]; [rewrite H1 in H by lra; done|].
    destruct H2 as (d' & H2 & _ & Hd & _); [lra|]. rewrite H2 in H. injection H as ->. by rewrite Hd.
  - done.
Qed.

(** Time stamps, incomplete gamma functions and grids. *)
Theorem value_text :
  forall D (fmt : D -> string) (row : list D -> string) (rowZ : list Z -> string),
    (forall s, write_timestamp fmt s = document [Line "seconds" (fmt s)]) /\
    (forall alpha, write_incgamma fmt alpha = document [Line "alpha" (fmt alpha)]) /\
    (forall C (cell : C -> string) (o : coord_ops D) (c0 : C) (g : grid D C), grid_reachable o c0 g ->
       write_grid row rowZ cell g =
       report [Line "minimum" (row (g_min g)); Line "maximum" (row (g_max g)); Line "resolution" (row (g_res g));
               Line "number of cells per dim" (rowZ (g_n g)); Line "total number of cells" (pretty (Z.to_N (product (g_n g))))] +:+
       "cells: " +:+ line_break +:+ foldr (fun c s => cell c +:+ line_break +:+ s) "" (g_cells g)).
Proof.
  intros D fmt row rowZ. split_and!; [done..|]. intros C cell o c0 g Hg.
  assert (Htot : g_tot g = product (g_n g)) by (pose proof (reachable_wf o c0 g Hg) as Hw; unfold gwf in Hw; naive_solver).
  unfold write_grid. rewrite Htot. cbn [report show_field]. rewrite !app_assoc3. done.
Qed.

(** Estimators show the estimate of the points added since the last reset, how many they were and whether the estimate is valid. *)
Theorem estimator_text :
  (forall (fmt : R -> string) e l, est1_reach real_sops e -> (Z.of_nat (List.length l) < 2 ^ 32)%Z -> two_values l ->
     print_est1 fmt (addPoints real_sops (est_reset real_sops e) l) =
     document [Block "distribution" (document [Line "mean" (fmt (amean l)); Line "variance" (fmt (pvar l))]);
               Line "number of points" (pretty (N.of_nat (List.length l))); Line "valid" "1"]) /\
  (forall (fmt : R -> string) e l, est1_reach real_sops e -> (Z.of_nat (List.length l) < 2 ^ 32)%Z -> ~ two_values l ->
     exists distribution, print_est1 fmt (addPoints real_sops (est_reset real_sops e) l) =
     document [Block "distribution" distribution; Line "number of points" (pretty (N.of_nat (List.length l))); Line "valid" "0"]) /\
  (forall showv showm g M e l, l <> [] -> (Z.of_nat (List.length l) < 2 ^ 32)%Z -> eg_isPositive g (vcov l) = true ->
     print_estM showv showm (addPointsM real_sops g M (estM_reset e) l) =
     document [Block "distribution" (document [Block "mean" (showv (vmean l)); Block "covariance" (showm (vcov l))]);
               Line "number of points" (pretty (N.of_nat (List.length l))); Line "valid" "1"]).
Proof.
  split_and!.
  - intros fmt e l He Hl H2. destruct (ml1_running_estimate e l He Hl) as (Hn & Hm & Hv & Hvar & _).
    assert (Hval := proj2 Hv H2). specialize (Hvar Hval). specialize (Hm ltac:(intros ->; destruct H2 as (x & y & Hx & _); by apply elem_of_nil in Hx)).
    unfold print_est1, print_normal1, write_estimator. rewrite Hn, Hval. unfold getMean in Hm. unfold getVariance in Hvar. rewrite Hm, Hvar.
    replace (Z.to_N (Z.of_nat (List.length l))) with (N.of_nat (List.length l)) by lia. done.
  - intros fmt e l He Hl H2. destruct (ml1_running_estimate e l He Hl) as (Hn & Hm & Hv & Hvar & _).
    unfold print_est1, write_estimator. rewrite Hn. eexists.
    destruct (e_valid _) eqn:Hval; [by destruct H2; apply Hv|].
    replace (Z.to_N (Z.of_nat (List.length l))) with (N.of_nat (List.length l)) by lia. reflexivity.
  - intros showv showm g M e l H0 Hl Hp. destruct (mlM_running_estimate g M e l H0 Hl) as (Hn & Hm & Hv & Hc).
    rewrite Hp in Hv. destruct (Hc Hv) as (Hcov & _).
    unfold print_estM, print_normalM, write_estimator. rewrite Hn, Hv, Hm, Hcov.
    replace (Z.to_N (Z.of_nat (List.length l))) with (N.of_nat (List.length l)) by lia. done.
Qed.

(** Vector design variables show their current value, to the console and to a file; reverting an update brings the text back. *)
Theorem vector_text :
  forall A (add : A -> A -> A) (row : list A -> string) (d : vdv),
    (forall init, print_vdv row (vdv_new init) = row init) /\
    (forall v, print_vdv row (setValue d v) = row v) /\
    (forall dp d', update add d dp = (d', Ret tt) -> print_vdv row d' = row (zip_with add (getValue d) dp) /\
       print_vdv row (revertUpdate d') = print_vdv row d) /\
    (forall t, insert t (Vector (print_vdv row d)) = (t, row (getValue d))).
Proof.
  intros A add row d. split_and!; try done.
  - intros dp d'. unfold update. destruct (Nat.eqb _ _); [|done]. by intros [= <-].
Qed.

(** The seed a Randomizer shows: the one it was made with, copied from another or given to it last; samples never change it. *)
Theorem randomizer_text {G} (next : G -> Z * G) (srandom : Z -> G) (fmt : Z -> string) (w : rworld) :
  let after c := fst (rzstep next srandom w c) in
  let shown w' i z := print_randomizer fmt w' i = Some (document [Line "seed" (fmt z)]) in
  let n := List.length (rw_seeds w) in
  (forall z, shown (after (RzNew z)) n z) /\
  (forall i z, (i < n)%nat -> shown (after (RzSetSeed i z)) i z) /\
  (forall i, (i < n)%nat -> print_randomizer fmt (after (RzCopy i)) n = print_randomizer fmt w i) /\
  (forall c i, (i < n)%nat -> (forall z, c <> RzSetSeed i z) -> (forall j, c <> RzAssign i j) ->
     print_randomizer fmt (after c) i = print_randomizer fmt w i) /\
  (forall i j, (i < n)%nat -> (j < n)%nat -> print_randomizer fmt (after (RzAssign i j)) i = print_randomizer fmt w j).
Proof.
  intros after shown n. unfold after, shown, print_randomizer. split_and!.
  - intros z. cbn. by rewrite list_lookup_middle.
  - intros i z Hi. cbn. by rewrite list_lookup_insert.
  - intros i Hi. destruct (rw_seeds w !! i) as [z'|] eqn:E; [|apply lookup_ge_None_1 in E; lia].
    cbn. by rewrite E, list_lookup_middle.
  - intros c i Hi H1 H2. destruct c as [z|k now|j|j k|j z|]; cbn.
    + by rewrite lookup_app_l.
    + destruct (getSeed next srandom k now (rw_state w)) as [r s]. cbn. by rewrite lookup_app_l.
    + by rewrite lookup_app_l.
    + destruct (rw_seeds w !! k); [|done]. destruct (decide (j = i)) as [->|]; [by destruct (H2 k)|]. by rewrite list_lookup_insert_ne.
    + destruct (decide (j = i)) as [->|]; [by destruct (H1 z)|]. by rewrite list_lookup_insert_ne.
    + by destruct (next (p_gen (rw_state w))).
  - intros i j Hi Hj. cbn. destruct (rw_seeds w !! j) as [z|] eqn:E; [|apply lookup_ge_None_1 in E; lia].
    cbn. by rewrite list_lookup_insert.
Qed.
(** A user expects the shown seed to reproduce the samples.  Refuted: the seed given to the constructor is shown but not used, and the
    seed given to one object is that of the samples of every other object, whatever that one shows. *)
Theorem randomizer_seed_refuted (fmt : Z -> string) :
  exists (next : Z -> Z * Z) (srandom : Z -> Z), 
    (exists w w' l, rw_seeds w = [] /\ rw_seeds w' = [] /\
       print_randomizer fmt (fst (rzrun next srandom w l)) 0 = print_randomizer fmt (fst (rzrun next srandom w' l)) 0 /\
       snd (rzrun next srandom w l) <> snd (rzrun next srandom w' l)) /\
    (exists w l l', print_randomizer fmt (fst (rzrun next srandom w l)) 0 = print_randomizer fmt (fst (rzrun next srandom w l')) 0 /\
       In (RzSetSeed 0 1) l /\ In (RzSetSeed 0 1) l' /\
       snd (rzrun next srandom w l) <> snd (rzrun next srandom w l')).
Proof.
  exists (fun g => (g, g + 1)%Z), (fun z => z). split.
  - exists (RWorld (PState 0%Z (fun _ => true)) []), (RWorld (PState 1%Z (fun _ => true)) []), [RzNew 7; RzDraw]. by split_and!.
  - exists (RWorld (PState 0%Z (fun _ => true)) [0; 0]%Z), [RzSetSeed 0 1; RzDraw], [RzSetSeed 0 1; RzSetSeed 1 2; RzDraw].
    split_and!; [done|by left|by left|done].
Qed.

(** Calibration variables of the examples: printed under each name is the value exported for it. *)
Theorem calibration_text :
  forall A (fmt : A -> string) (row : list A -> string) (out : nat -> nat -> A),
    (forall v b kl tl kr tr x y z yaw pitch roll,
       td_getParameters out v = Some <$> [b; kl; tl; kr; tr; x; y; z; yaw; pitch; roll] ->
       print_td fmt row out v = report [Line "b" (fmt b); Line "k_l" (fmt kl); Line "t_l" (fmt tl); Line "k_r" (fmt kr); Line "t_r" (fmt tr);
         Line "v_r_vp" (row [x; y; z]); Line "v_R_p" (row [yaw; pitch; roll])]) /\
    (forall m order, Permutation order (map_to_list m) ->
       exists values : nat -> A * list A * list A,
         (forall i v, m !! i = Some v -> exists t x y z yaw pitch roll, values i = (t, [x; y; z], [yaw; pitch; roll]) /\
            ego_getParameters out m i = Ret (Some <$> [t; x; y; z; yaw; pitch; roll])) /\
         print_ego fmt row out order = report (flat_map (fun i => let '(t, r, R) := values i in
           [Line ("t_" +:+ pretty i) (fmt t); Line ("r_" +:+ pretty i) (row r); Line ("R_" +:+ pretty i) (row R)]) order.*1)).
Proof.
  intros A fmt row out. split.
  - intros v b kl tl kr tr x y z yaw pitch roll H. vm_compute in H. injection H as <- <- <- <- <- <- <- <- <- <- <-. done.
  - intros m order HP.
    exists (fun i => match m !! i with Some v => (out (ev_t v) 0, out3 out (ev_r v), out3 out (ev_R v)) | None => (out 0 0, [], []) end).
    split.
    + intros i v Hv. rewrite Hv. unfold ego_getParameters. rewrite Hv. do 7 eexists. split; reflexivity.
    + assert (HF : Forall (fun e => m !! e.1 = Some e.2) order).
      { apply Forall_forall. intros [i v] Hi. rewrite HP in Hi. by apply elem_of_map_to_list in Hi. }
      clear HP. induction order as [|[i v] order IH]; [done|]. apply Forall_cons in HF as [H1 HF]. cbn [print_ego fmap list_fmap flat_map fst].
      cbn [fst snd] in H1. rewrite H1. cbn [app report show_field]. rewrite IH by done. rewrite !app_assoc3. done.
Qed.
(** The car's text shows all variables, also the two the exported vector loses: the fourth steering coefficient (its place holds the delay
    of the odometer) and that delay (its place is not written). *)
Theorem car_text :
  forall A (fmt : A -> string) (row : list A -> string) (out : nat -> nat -> A) v,
    exists er ef L krl krr kfl kfr kdmi a0 a1 a2 a3 x y z yaw pitch roll tr tf ts tdmi,
      a3 = out (cv_a v) 3 /\ tdmi = out (cv_t_dmi v) 0 /\
      car_getParameters out v = ((Some <$> [er; ef; L; krl; krr; kfl; kfr; kdmi; a0; a1; a2; tdmi; x; y; z; yaw; pitch; roll; tr; tf; ts]) ++ [None])%list /\
      print_car fmt row out v = report [Line "e_r" (fmt er); Line "e_f" (fmt ef); Line "L" (fmt L); Line "a" (row [a0; a1; a2; a3]);
        Line "k_rl" (fmt krl); Line "k_rr" (fmt krr); Line "k_fl" (fmt kfl); Line "k_fr" (fmt kfr); Line "k_dmi" (fmt kdmi);
        Line "v_r_vr" (row [x; y; z]); Line "v_R_r" (row [yaw; pitch; roll]);
        Line "t_r" (fmt tr); Line "t_f" (fmt tf); Line "t_s" (fmt ts); Line "t_dmi" (fmt tdmi)].
Proof. intros A fmt row out v. do 22 eexists. split_and!; [reflexivity|reflexivity|reflexivity|reflexivity]. Qed.

(** Non-vacuity: the texts of a chi square distribution with three degrees, of an estimator after two points and of two sensors. *)
Example texts_ex (fmt : R -> string) (lg psi : R -> R) (j : gamma) (e : est1) : est1_reach real_sops e ->
  (exists d, chi_new lg psi j 3 = Ret d /\ print_chi fmt d = "degrees: " +:+ fmt 3%R) /\
  (exists mv, print_est1 fmt (addPoints real_sops (est_reset real_sops e) [0; 2]%R) =
     document [Block "distribution" mv; Line "number of points" "2"; Line "valid" "1"]) /\
  print_ego (fun n : nat => pretty n) (fun _ => "x") (fun d i => d) [(4, EgoVars 1 2 3); (5, EgoVars 6 7 8)] =
    report [Line "t_4" "1"; Line "r_4" "x"; Line "R_4" "x"; Line "t_5" "6"; Line "r_5" "x"; Line "R_5" "x"].
Proof.
  intros He. split_and!.
  - destruct (chi_square_degrees lg psi j 3) as (_ & H & _). destruct H as (d & H & _); [lra|]. exists d. split; [done|].
    by rewrite (proj1 (proj2 (proj2 (proj2 (proj2 (proj2 distribution_text))))) lg psi fmt j 3%R d H).
  - rewrite (proj1 estimator_text fmt e _ He).
    + eexists. reflexivity.
    + simpl. lia.
    + exists 0%R, 2%R. rewrite !elem_of_cons. split_and!; [by left|by right; left|lra].
  - vm_compute. done.
Qed.
