(** Derivative lemmas for Properties_ErrorTerm.v. *)
From Coq Require Import Reals Lra Psatz Lia.
From Coquelicot Require Import Coquelicot.
From Verif Require Import ErrorTermModel.
Local Open Scope R_scope.

Lemma locally_pos (f : R -> R) t d : is_derive f t d -> 0 < f t -> locally t (fun s => 0 < f s).
Proof.
  intros H Hp. assert (C : continuous f t) by (apply (@ex_derive_continuous R_AbsRing R_NormedModule); eexists; exact H).
  apply (C (fun y => 0 < y)). apply open_gt. exact Hp.
Qed.
Lemma locally_neg (f : R -> R) t d : is_derive f t d -> f t < 0 -> locally t (fun s => f s < 0).
Proof.
  intros H Hp. assert (C : continuous f t) by (apply (@ex_derive_continuous R_AbsRing R_NormedModule); eexists; exact H).
  apply (C (fun y => y < 0)). apply open_lt. exact Hp.
Qed.

(** Rules for real functions. *)
Lemma d_mult (f g : R -> R) t df dg : is_derive f t df -> is_derive g t dg -> is_derive (fun s => f s * g s) t (df * g t + f t * dg).
Proof. intros Hf Hg. apply is_derive_Reals. apply derivable_pt_lim_mult; apply is_derive_Reals; assumption. Qed.
Lemma d_plus (f g : R -> R) t df dg : is_derive f t df -> is_derive g t dg -> is_derive (fun s => f s + g s) t (df + dg).
Proof. intros Hf Hg. apply is_derive_Reals. apply derivable_pt_lim_plus; apply is_derive_Reals; assumption. Qed.
Lemma d_minus (f g : R -> R) t df dg : is_derive f t df -> is_derive g t dg -> is_derive (fun s => f s - g s) t (df - dg).
Proof. intros Hf Hg. apply is_derive_Reals. apply derivable_pt_lim_minus; apply is_derive_Reals; assumption. Qed.
Lemma d_opp (f : R -> R) t df : is_derive f t df -> is_derive (fun s => - f s) t (- df).
Proof. intros Hf. apply is_derive_Reals. apply derivable_pt_lim_opp; apply is_derive_Reals; assumption. Qed.
Lemma d_const c t : is_derive (fun _ : R => c) t 0.
Proof. apply is_derive_Reals. apply derivable_pt_lim_const. Qed.
Lemma d_comp (g f : R -> R) t dg df : is_derive g (f t) dg -> is_derive f t df -> is_derive (fun s => g (f s)) t (dg * df).
Proof. intros Hg Hf. apply is_derive_Reals. apply (derivable_pt_lim_comp f g); apply is_derive_Reals; assumption. Qed.
Lemma d_cos (f : R -> R) t df : is_derive f t df -> is_derive (fun s => cos (f s)) t (- sin (f t) * df).
Proof. intros Hf. apply (d_comp cos); [apply is_derive_Reals, derivable_pt_lim_cos|exact Hf]. Qed.
Lemma d_sin (f : R -> R) t df : is_derive f t df -> is_derive (fun s => sin (f s)) t (cos (f t) * df).
Proof. intros Hf. apply (d_comp sin); [apply is_derive_Reals, derivable_pt_lim_sin|exact Hf]. Qed.
Lemma d_eq (f : R -> R) (t d d' : R) : is_derive f t d -> d = d' -> is_derive f t d'.
Proof. intros H <-. exact H. Qed.
Lemma d_ext (f g : R -> R) t d : (forall s, f s = g s) -> is_derive f t d -> is_derive g t d.
Proof. intros H. apply is_derive_ext. exact H. Qed.

Lemma atan_inv_neg x : x < 0 -> atan (/ x) = - (PI / 2) - atan x.
Proof.
  intros Hx. assert (E : x = - (- x)) by ring. set (y := - x) in *. rewrite E.
  replace (/ - y) with (- / y) by (field; unfold y; lra). rewrite !atan_opp, atan_inv by (unfold y; lra). ring.
Qed.
Lemma atan2_up a b : 0 < b -> atan2 b a = PI / 2 - atan (a / b).
Proof.
  intros Hb. unfold atan2. destruct (Rlt_dec 0 a) as [Ha|Ha].
  - replace (b / a) with (/ (a / b)) by (field; lra). apply atan_inv. apply Rdiv_lt_0_compat; lra.
  - destruct (Rlt_dec a 0) as [Ha'|Ha'].
    + destruct (Rle_dec 0 b); [|lra]. replace (b / a) with (/ (a / b)) by (field; lra). rewrite atan_inv_neg; [field|].
      replace (a / b) with (- (- a / b)) by (field; lra). assert (0 < - a / b) by (apply Rdiv_lt_0_compat; lra). lra.
    + destruct (Rlt_dec 0 b); [|lra]. replace a with 0 by lra. replace (0 / b) with 0 by (field; lra). rewrite atan_0. ring.
Qed.
Lemma atan2_down a b : b < 0 -> atan2 b a = - (PI / 2) - atan (a / b).
Proof.
  intros Hb. unfold atan2. destruct (Rlt_dec 0 a) as [Ha|Ha].
  - replace (b / a) with (/ (a / b)) by (field; lra). apply atan_inv_neg.
    replace (a / b) with (- (a / - b)) by (field; lra). assert (0 < a / - b) by (apply Rdiv_lt_0_compat; lra). lra.
  - destruct (Rlt_dec a 0) as [Ha'|Ha'].
    + destruct (Rle_dec 0 b); [lra|]. replace (b / a) with (/ (a / b)) by (field; lra). rewrite atan_inv; [field|].
      replace (a / b) with (- a / - b) by (field; lra). apply Rdiv_lt_0_compat; lra.
    + destruct (Rlt_dec 0 b); [lra|]. destruct (Rlt_dec b 0); [|lra].
      replace a with 0 by lra. replace (0 / b) with 0 by (field; lra). rewrite atan_0. ring.
Qed.

Section angle.
  Context (angleMod : R -> R) (Hper : forall x, angleMod (x + 2 * PI) = angleMod x).
  Context (a b c : R -> R) (t da db dc : R).
  Context (Ha : is_derive a t da) (Hb : is_derive b t db) (Hc : is_derive c t dc).

  Lemma branch (phi : R -> R) d :
    is_derive phi t d ->
    locally t (fun s => angleMod (c s - phi s) = angleMod (c s - atan2 (b s) (a s))) ->
    is_derive angleMod (c t - phi t) 1 ->
    is_derive (fun s => angleMod (c s - atan2 (b s) (a s))) t (dc - d).
  Proof using Hc.
    intros Hphi Hloc Hm. apply (is_derive_ext_loc _ _ _ _ Hloc).
    replace (dc - d) with (scal (minus dc d) 1).
    - apply (is_derive_comp angleMod (fun s => c s - phi s) t 1 (minus dc d) Hm). apply @is_derive_minus; assumption.
    - unfold scal, minus, plus, opp. simpl. unfold mult. simpl. ring.
  Qed.
  Lemma derive_quot (f g : R -> R) df dg : is_derive f t df -> is_derive g t dg -> g t <> 0 ->
    is_derive (fun s => atan (f s / g s)) t ((df * g t - f t * dg) / (g t * g t + f t * f t)).
  Proof.
    intros Hf Hg Hn. assert (Hs : 0 < g t * g t + f t * f t) by (pose proof (Rlt_0_sqr _ Hn) as Q; unfold Rsqr in Q; nra).
    evar_last.
    - apply (is_derive_comp atan (fun s => f s / g s) t (/ (1 + (f t / g t) ^ 2))).
      + apply is_derive_Reals. apply derivable_pt_lim_atan.
      + apply (is_derive_div f g t df dg Hf Hg Hn).
    - unfold scal. simpl. unfold mult. simpl. field. repeat split; try assumption; try (intros E; nra).
  Qed.

  Lemma atan2_derive : a t * a t + b t * b t <> 0 -> is_derive angleMod (c t - atan2 (b t) (a t)) 1 ->
    is_derive (fun s => angleMod (c s - atan2 (b s) (a s))) t (dc - (a t * db - b t * da) / (a t * a t + b t * b t)).
  Proof using All.
    intros Hn Hm. destruct (Rlt_dec 0 (b t)) as [Hbp|Hbp]; [|destruct (Rlt_dec (b t) 0) as [Hbn|Hbn]].
    - replace ((a t * db - b t * da) / (a t * a t + b t * b t)) with (0 - (da * b t - a t * db) / (b t * b t + a t * a t))
        by (field; nra).
      apply (branch (fun s => PI / 2 - atan (a s / b s))).
      + apply @is_derive_minus; [apply @is_derive_const|]. apply derive_quot; [assumption|assumption|lra].
      + apply (filter_imp (fun s => 0 < b s)); [|eapply locally_pos; eassumption].
        intros s Hs. rewrite atan2_up by exact Hs. reflexivity.
      + rewrite atan2_up in Hm by exact Hbp. exact Hm.
    - replace ((a t * db - b t * da) / (a t * a t + b t * b t)) with (0 - (da * b t - a t * db) / (b t * b t + a t * a t))
        by (field; nra).
      apply (branch (fun s => - (PI / 2) - atan (a s / b s))).
      + apply @is_derive_minus; [apply @is_derive_const|]. apply derive_quot; [assumption|assumption|lra].
      + apply (filter_imp (fun s => b s < 0)); [|eapply locally_neg; eassumption].
        intros s Hs. rewrite atan2_down by exact Hs. reflexivity.
      + rewrite atan2_down in Hm by exact Hbn. exact Hm.
    - assert (Hb0 : b t = 0) by lra. assert (Ha0 : a t <> 0) by nra.
      replace ((a t * db - b t * da) / (a t * a t + b t * b t)) with ((db * a t - b t * da) / (a t * a t + b t * b t))
        by (f_equal; ring).
      destruct (Rlt_dec 0 (a t)) as [Hap|Han].
      + apply (branch (fun s => atan (b s / a s))).
        * apply derive_quot; assumption.
        * apply (filter_imp (fun s => 0 < a s)); [|eapply locally_pos; eassumption].
          intros s Hs. unfold atan2. destruct (Rlt_dec 0 (a s)); [reflexivity|lra].
        * unfold atan2 in Hm. destruct (Rlt_dec 0 (a t)); [exact Hm|lra].
      + replace ((db * a t - b t * da) / (a t * a t + b t * b t)) with ((db * a t - b t * da) / (a t * a t + b t * b t) + 0) by ring.
        apply (branch (fun s => atan (b s / a s) + PI)).
        * apply @is_derive_plus; [|apply @is_derive_const]. apply derive_quot; assumption.
        * apply (filter_imp (fun s => a s < 0)); [|eapply locally_neg; [eassumption|lra]].
          intros s Hs. unfold atan2. destruct (Rlt_dec 0 (a s)); [lra|]. destruct (Rlt_dec (a s) 0); [|lra].
          destruct (Rle_dec 0 (b s)); [reflexivity|]. rewrite <- Hper. f_equal. ring.
        * unfold atan2 in Hm. destruct (Rlt_dec 0 (a t)); [lra|]. destruct (Rlt_dec (a t) 0); [|lra].
          destruct (Rle_dec 0 (b t)); [exact Hm|lra].
  Qed.
End angle.

(** The length of a vector. *)
Lemma norm_derive (a b : R -> R) (t da db : R) : is_derive a t da -> is_derive b t db -> a t * a t + b t * b t <> 0 ->
  is_derive (fun s => sqrt (a s * a s + b s * b s)) t ((a t * da + b t * db) / sqrt (a t * a t + b t * b t)).
Proof.
  intros Ha Hb Hn. assert (Hp : 0 < a t * a t + b t * b t) by nra. assert (Hs : 0 < sqrt (a t * a t + b t * b t)) by (apply sqrt_lt_R0; exact Hp).
  apply (d_eq _ _ (/ (2 * sqrt (a t * a t + b t * b t)) * ((da * a t + a t * da) + (db * b t + b t * db)))).
  - apply (d_comp sqrt (fun s => a s * a s + b s * b s)).
    + apply is_derive_Reals. apply derivable_pt_lim_sqrt. exact Hp.
    + apply d_plus; apply d_mult; assumption.
  - field. lra.
Qed.

(** The same rules with the standard library's notion of derivative (plain real types). *)
Lemma p_mult (f g : R -> R) (t df dg : R) : derivable_pt_lim f t df -> derivable_pt_lim g t dg -> derivable_pt_lim (fun s => f s * g s) t (df * g t + f t * dg).
Proof. apply derivable_pt_lim_mult. Qed.
Lemma p_plus (f g : R -> R) (t df dg : R) : derivable_pt_lim f t df -> derivable_pt_lim g t dg -> derivable_pt_lim (fun s => f s + g s) t (df + dg).
Proof. apply derivable_pt_lim_plus. Qed.
Lemma p_minus (f g : R -> R) (t df dg : R) : derivable_pt_lim f t df -> derivable_pt_lim g t dg -> derivable_pt_lim (fun s => f s - g s) t (df - dg).
Proof. apply derivable_pt_lim_minus. Qed.
Lemma p_opp (f : R -> R) (t df : R) : derivable_pt_lim f t df -> derivable_pt_lim (fun s => - f s) t (- df).
Proof. apply derivable_pt_lim_opp. Qed.
Lemma p_const (c t : R) : derivable_pt_lim (fun _ => c) t 0.
Proof. apply derivable_pt_lim_const. Qed.
Lemma p_comp (g f : R -> R) (t dg df : R) : derivable_pt_lim g (f t) dg -> derivable_pt_lim f t df -> derivable_pt_lim (fun s => g (f s)) t (dg * df).
Proof. intros Hg Hf. apply (derivable_pt_lim_comp f g); assumption. Qed.
Lemma p_cos (f : R -> R) (t df : R) : derivable_pt_lim f t df -> derivable_pt_lim (fun s => cos (f s)) t (- sin (f t) * df).
Proof. intros Hf. apply (p_comp cos); [apply derivable_pt_lim_cos|exact Hf]. Qed.
Lemma p_sin (f : R -> R) (t df : R) : derivable_pt_lim f t df -> derivable_pt_lim (fun s => sin (f s)) t (cos (f t) * df).
Proof. intros Hf. apply (p_comp sin); [apply derivable_pt_lim_sin|exact Hf]. Qed.
Lemma p_eq (f : R -> R) (t d d' : R) : derivable_pt_lim f t d -> d = d' -> derivable_pt_lim f t d'.
Proof. intros H <-. exact H. Qed.
Lemma p_ext (f g : R -> R) (t d : R) : (forall s, f s = g s) -> derivable_pt_lim f t d -> derivable_pt_lim g t d.
Proof. intros H Hf. apply is_derive_Reals. apply (is_derive_ext f); [exact H|]. apply is_derive_Reals. exact Hf. Qed.
Lemma p_norm (a b : R -> R) (t da db : R) : derivable_pt_lim a t da -> derivable_pt_lim b t db -> a t * a t + b t * b t <> 0 ->
  derivable_pt_lim (fun s => sqrt (a s * a s + b s * b s)) t ((a t * da + b t * db) / sqrt (a t * a t + b t * b t)).
Proof. intros Ha Hb H. apply is_derive_Reals. apply norm_derive; [apply is_derive_Reals; assumption..|exact H]. Qed.
Lemma p_angle (angleMod : R -> R) (a b c : R -> R) (t da db dc : R) : (forall x, angleMod (x + 2 * PI) = angleMod x) ->
  derivable_pt_lim a t da -> derivable_pt_lim b t db -> derivable_pt_lim c t dc ->
  a t * a t + b t * b t <> 0 -> derivable_pt_lim angleMod (c t - atan2 (b t) (a t)) 1 ->
  derivable_pt_lim (fun s => angleMod (c s - atan2 (b s) (a s))) t (dc - (a t * db - b t * da) / (a t * a t + b t * b t)).
Proof.
  intros Hp Ha Hb Hc Hn Hm. apply is_derive_Reals. apply atan2_derive; try assumption; apply is_derive_Reals; assumption.
Qed.
(** A differentiable function keeps its sign in a neighbourhood: two functions that agree where [a] has the sign of [a t]
    have the same derivative at [t]. *)
Lemma p_sign (a f g : R -> R) (t da d : R) : derivable_pt_lim a t da -> a t <> 0 ->
  (forall s, 0 < a s * a t -> f s = g s) -> derivable_pt_lim f t d -> derivable_pt_lim g t d.
Proof.
  intros Ha Hn He Hf. apply is_derive_Reals. apply is_derive_Reals in Ha. apply (is_derive_ext_loc f); [|apply is_derive_Reals; exact Hf].
  destruct (Rlt_dec 0 (a t)) as [L|L].
  - eapply filter_imp; [|eapply locally_pos; [exact Ha|exact L]]. intros s Hs. apply He. cbv beta in Hs. nra.
  - eapply filter_imp; [|eapply locally_neg; [exact Ha|lra]]. intros s Hs. apply He. cbv beta in Hs. nra.
Qed.
