(** C115 and C120, continued: cases the other theorems leave open. *)
From stdpp Require Import prelude list.
From Coq Require Import Reals Lra Psatz ZArith.
From Flocq Require Import Core.
From Verif Require Import Base UniformModel UniformTypesModel CameraModel ValidatorModel.
Local Open Scope R_scope.

(** The "mean" of a uniform distribution over floating values is half the length of its support for every floating type (C38). *)
Theorem uniform_mean_floating t d : unif_reach (ufloating t) d -> ugetMean (ufloating t) d = Ret (/ 2 * (un_max d - un_min d)).
Proof. intros _. unfold ugetMean, ufloating. destruct (is_real t); done. Qed.

(** Boxes of unsigned integers: the number of points of the box, unless it does not fit the type. *)
Theorem uniform_box_unsigned w junk a b : (0 < w)%Z ->
  Forall2 (fun x y => (0 <= x < y)%Z /\ (y < 2 ^ w)%Z /\ ~ (x = 0 /\ y = 2 ^ w - 1)%Z) a b ->
  let points := fold_right Z.mul 1%Z (zip_with (fun x y => (y - x + 1)%Z) a b) in
  unifM_new (uunsigned w) junk a b = if (points <? 2 ^ w)%Z then Ret (UnifM a b points) else UB.
Proof.
  intros Hw HF points. unfold unifM_new, setSupportM.
  rewrite (Forall2_length _ _ _ HF), Nat.eqb_refl. cbn [negb].
  assert (He : existsb (fun p => u_le (uunsigned w) (snd p) (fst p)) (zip a b) = false).
  { clear points. induction HF as [|x y a b H HF IH]; [done|]. cbn [zip_with existsb]. rewrite IH, orb_false_r. apply Z.leb_gt. simpl. lia. }
  rewrite He.
  assert (Hp : forall acc, area_prod (uunsigned w) (IZR acc) a b =
    Some (IZR (acc * fold_right Z.mul 1%Z (zip_with (fun x y => (y - x + 1)%Z) a b)))).
  { clear points He. induction HF as [|x y a b H HF IH]; intros acc; [simpl; by rewrite Z.mul_1_r|].
    cbn [area_prod zip_with fold_right]. cbn [uunsigned u_area u_R].
    rewrite (Z.mod_small (y - x)) by lia. rewrite Z.mod_small by lia.
    rewrite <- mult_IZR. fold (uunsigned w). rewrite IH. by rewrite Z.mul_assoc. }
  assert (Hpos : (1 <= points)%Z).
  { unfold points. clear -HF. induction HF as [|x y a b H HF IH]; simpl; [lia|]. nia. }
  unfold areaM. specialize (Hp 1%Z). rewrite Z.mul_1_l in Hp. fold points in Hp. rewrite Hp. cbn [uunsigned u_ofR].
  rewrite Ztrunc_IZR. destruct (Z.leb_spec 0 points); [|lia]. cbn [andb]. destruct (points <? 2 ^ w)%Z; done.
Qed.
Example uniform_box_unsigned_ex junk : unifM_new (uunsigned 32) junk [3; 0]%Z [7; 9]%Z = Ret (UnifM [3; 0]%Z [7; 9]%Z 50%Z).
Proof. apply (uniform_box_unsigned 32 junk [3; 0]%Z [7; 9]%Z); [lia|]. repeat constructor; lia. Qed.

(** validateCamera with images to be saved: whatever the image writer does for an empty image (throws, never returns, misbehaves) is what the program does
    when the first image does not show the target. *)
Theorem validator_first_image_outcome output ew sigma2 q i l : vi_det i = None ->
  match ew with
  | Ret _ => True
  | Throw e => snd (v_program true true output ew sigma2 q (i :: l)) = Throw e
  | UB => snd (v_program true true output ew sigma2 q (i :: l)) = UB
  | Diverge => snd (v_program true true output ew sigma2 q (i :: l)) = Diverge
  end.
Proof. intros Hi. destruct ew; [done|..]; unfold v_program; cbn [v_loop]; unfold v_image; rewrite Hi; done. Qed.
