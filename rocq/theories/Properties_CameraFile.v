(** C111: the calibration file of the camera. *)
From stdpp Require Import base list.
From Coq Require Import List String Ascii Reals Lra Lia Arith.
From Verif Require Import Base CameraModel CameraDriverModel.
Import ListNotations.
Local Open Scope list_scope.

(** What a reader of the file finds under a key: the value written last. *)
Definition file (es : list (string * value)) (key : string) : option value :=
  fold_left (fun acc e => if String.eqb (fst e) key then Some (snd e) else acc) es None.
Lemma file_app es1 es2 key acc : fold_left (fun acc (e : string * value) => if String.eqb (fst e) key then Some (snd e) else acc) (es1 ++ es2) acc
  = fold_left (fun acc e => if String.eqb (fst e) key then Some (snd e) else acc) es2
      (fold_left (fun acc e => if String.eqb (fst e) key then Some (snd e) else acc) es1 acc).
Proof. apply fold_left_app. Qed.
Lemma file_fresh es key : ~ In key (map fst es) -> forall acc,
  fold_left (fun acc (e : string * value) => if String.eqb (fst e) key then Some (snd e) else acc) es acc = acc.
Proof.
  induction es as [|[k v] es IH]; intros H acc; [reflexivity|]. cbn in *. destruct (String.eqb_spec k key) as [E|E]; [tauto|]. apply IH. tauto.
Qed.
Lemma file_in es key v : List.NoDup (map fst es) -> In (key, v) es -> file es key = Some v.
Proof.
  intros Hn Hi. apply in_split in Hi as (l1 & l2 & ->). unfold file. rewrite file_app. cbn. rewrite String.eqb_refl. apply file_fresh.
  rewrite map_app in Hn. cbn in Hn. apply NoDup_remove_2 in Hn. intros H. apply Hn. apply in_or_app. right. exact H.
Qed.

(** ** The keys *)
Fixpoint no_slash (s : string) : Prop := match s with EmptyString => True | String c s => c <> "/"%char /\ no_slash s end.
(** A sensible way of writing numbers. *)
Definition decimal (num : nat -> string) : Prop := (forall a b, num a = num b -> a = b) /\ forall a, no_slash (num a).
Lemma slash_split a a' b b' : no_slash a -> no_slash a' -> (a ++ String "/"%char b)%string = (a' ++ String "/"%char b')%string -> a = a' /\ b = b'.
Proof.
  revert a'. induction a as [|c a IH]; intros [|c' a'] Ha Ha' E; cbn in *.
  - injection E as E. auto.
  - injection E as E1 E2. destruct Ha' as [Ha' _]. congruence.
  - injection E as E1 E2. destruct Ha as [Ha _]. congruence.
  - injection E as -> E. destruct (IH a') as [-> ->]; tauto.
Qed.
Lemma app_same a b b' : (a ++ b)%string = (a ++ b')%string -> b = b'.
Proof. induction a as [|c a IH]; intros E; [exact E|]. injection E as E. auto. Qed.
Definition basis_key (num : nat -> string) (dir : string) (c r : nat) : string := (dir ++ "/c" ++ num c ++ "/r" ++ num r)%string.
Definition vector_key (num : nat -> string) (dir : string) (i : nat) : string := (dir ++ "/x" ++ num i)%string.
Lemma basis_key_inj num dir c r c' r' : decimal num -> basis_key num dir c r = basis_key num dir c' r' -> c = c' /\ r = r'.
Proof.
  intros [Hi Hs] E. unfold basis_key in E. apply app_same in E. cbn in E. injection E as E. apply slash_split in E as [E1 E2]; auto.
  injection E2 as E2. auto.
Qed.
Lemma vector_key_inj num dir i j : decimal num -> vector_key num dir i = vector_key num dir j -> i = j.
Proof. intros [Hi _] E. unfold vector_key in E. apply app_same in E. cbn in E. injection E as E. auto. Qed.

(** ** The numbered entries *)
Lemma imap_in {A B} (f : nat -> A -> B) (l : list A) y : In y (imap f l) <-> exists i x, nth_error l i = Some x /\ y = f i x.
Proof.
  revert f. induction l as [|a l IH]; intros f; cbn.
  - split; [tauto|]. intros (i & x & H & _). destruct i; discriminate H.
  - rewrite IH. split.
    + intros [H|(i & x & H & ->)]; [exists 0, a; auto|]. exists (S i), x. auto.
    + intros ([|i] & x & H & ->); [injection H as ->; auto|]. right. exists i, x. auto.
Qed.
Lemma imap_nodup {A B} (f : nat -> A -> B) (l : list A) : (forall i j x y, f i x = f j y -> i = j) -> List.NoDup (imap f l).
Proof.
  revert f. induction l as [|a l IH]; intros f Hf; cbn; constructor.
  - rewrite imap_in. intros (i & x & _ & E). apply Hf in E. lia.
  - apply IH. intros i j x y E. unfold compose in E. apply Hf in E. lia.
Qed.
Lemma map_imap {A B C} (g : B -> C) (f : nat -> A -> B) (l : list A) : map g (imap f l) = imap (fun i x => g (f i x)) l.
Proof. revert f. induction l as [|a l IH]; intros f; cbn; [reflexivity|]. f_equal. apply IH. Qed.
Lemma put_vector_in num dir v key x : In (key, x) (put_vector num dir v) <-> exists i y, nth_error v i = Some y /\ key = vector_key num dir i /\ x = VReal y.
Proof.
  unfold put_vector. rewrite imap_in. split; intros (i & y & H & E); exists i, y; (split; [exact H|]).
  - injection E as -> ->. auto.
  - destruct E as [-> ->]. reflexivity.
Qed.
Lemma put_vector_keys num dir v : decimal num -> List.NoDup (map fst (put_vector num dir v)).
Proof. intros Hd. unfold put_vector. rewrite map_imap. apply imap_nodup. intros i j x0 y0 E. exact (vector_key_inj num dir i j Hd E). Qed.
Lemma put_basis_in num dir cols key x : In (key, x) (put_basis num dir cols) <->
  exists c col r y, nth_error cols c = Some col /\ nth_error col r = Some y /\ key = basis_key num dir c r /\ x = VReal y.
Proof.
  unfold put_basis. rewrite in_concat. split.
  - intros (l0 & Hl & Hi). rewrite imap_in in Hl. destruct Hl as (c & col & Hc & ->). rewrite imap_in in Hi. destruct Hi as (r & y & Hr & E).
    exists c, col, r, y. injection E as -> ->. auto.
  - intros (c & col & r & y & Hc & Hr & -> & ->). eexists. split; [apply imap_in; exists c, col; split; [exact Hc|reflexivity]|].
    apply imap_in. exists r, y. auto.
Qed.
Lemma nodup_app {A} (l1 l2 : list A) : List.NoDup l1 -> List.NoDup l2 -> (forall x, In x l1 -> In x l2 -> False) -> List.NoDup (l1 ++ l2).
Proof.
  induction l1 as [|a l1 IH]; intros H1 H2 Hd; cbn; [exact H2|]. inversion H1; subst. constructor.
  - rewrite in_app_iff. intros [H|H]; [contradiction|]. apply (Hd a); cbn; auto.
  - apply IH; auto. intros x Hx Hy. apply (Hd x); cbn; auto.
Qed.
Lemma put_basis_keys num dir cols : decimal num -> List.NoDup (map fst (put_basis num dir cols)).
Proof.
  intros Hd. unfold put_basis.
  assert (G : forall k, List.NoDup (map fst (List.concat (imap (fun c col => imap (fun r x => (basis_key num dir (k + c) r, VReal x)) col) cols)))).
  2:{ exact (G 0). }
  induction cols as [|col cols IH]; intros k; cbn; [constructor|]. rewrite map_app. apply nodup_app.
  - rewrite map_imap. apply imap_nodup. intros i j x0 y0 E. cbn in E. apply basis_key_inj in E; tauto.
  - specialize (IH (S k)). erewrite imap_ext in IH; [exact IH|]. intros i c _. unfold compose. apply imap_ext. intros j y _.
    by replace (S k + i) with (k + S i) by lia.
  - intros key H1 H2. rewrite map_imap in H1. apply imap_in in H1 as (r & y & _ & ->). apply in_map_iff in H2 as ([k' v] & E & H2). cbn in E. subst k'.
    apply in_concat in H2 as (l & Hl & H2). apply imap_in in Hl as (c & cl & _ & ->). apply imap_in in H2 as (r' & y' & _ & E). unfold compose in E.
    assert (E' : basis_key num dir (k + 0) r = basis_key num dir (k + S c) r') by (apply (f_equal fst) in E; exact E).
    apply basis_key_inj in E' as [E' _]; [lia|exact Hd].
Qed.

(** ** What the file contains *)
Local Open Scope string_scope.
Local Open Scope list_scope.
Local Notation "a +s b" := (String.append a b) (at level 60, right associativity).
Definition projection_names (omni : bool) : list string := (if omni then ["xi"] else []) ++ ["fu"; "fv"; "cu"; "cv"].
Definition distortion_names : list string := ["k1"; "k2"; "p1"; "p2"].
(** The entries that do not depend on the dimensions. *)
Definition head_entries (omni : bool) (type : string) (w : cam_result) (proj sp dist sd : list R) : list (string * value) :=
  flat_map (fun n => [("projection/" +s fst n, VReal (fst (snd n))); ("projection/" +s "sigma_" +s fst n, VReal (snd (snd n)))])
    (combine (projection_names omni) (combine proj sp)) ++
  [("projection/ru", VInt (cr_ru w)); ("projection/rv", VInt (cr_rv w)); ("projection/type", VString type)] ++
  flat_map (fun n => [("projection/distortion/" +s fst n, VReal (fst (snd n))); ("projection/distortion/" +s "sigma_" +s fst n, VReal (snd (snd n)))])
    (combine distortion_names (combine dist sd)) ++
  [("shutter/line-delay", VReal 0); ("mask/mask-file", VString "")].
Definition tail_entries (num : nat -> string) (w : cam_result) : list (string * value) :=
  put_basis num "nobsBasis" (cr_nobs w) ++ put_basis num "nobsBasisScaled" (cr_nobsS w) ++
  put_vector num "singularValues" (cr_sv w) ++ put_vector num "scaledSingularValues" (cr_svS w) ++
  [("epsSVD", VReal (cr_eps w)); ("infoGainDelta", VReal (cr_delta w))].
Lemma geometry_type type omni : cam_geometry type = Ret omni -> String.eqb type "omni" = omni.
Proof.
  unfold cam_geometry. destruct (String.eqb type "omni"); [intros E; by injection E|].
  destruct (String.eqb type "pinhole"); [intros E; by injection E|discriminate].
Qed.
Local Ltac lists := repeat match goal with H : List.length ?l = S _ |- _ => destruct l as [|? l]; [discriminate H|]; cbn in H; injection H as H
                                  | H : List.length ?l = 0 |- _ => apply length_zero_iff_nil in H; subst l end.
Lemma cam_write_eq num type w omni : cam_geometry type = Ret omni -> 1 <= cr_batches w ->
  List.length (cr_diag w) = dim_projection omni + 4 -> List.length (cr_proj w) = dim_projection omni -> List.length (cr_dist w) = 4 ->
  cam_write num type w = Some (head_entries omni type w (cr_proj w) (List.map sqrt (List.firstn (dim_projection omni) (cr_diag w)))
                                 (cr_dist w) (List.map sqrt (List.skipn (dim_projection omni) (cr_diag w))) ++ tail_entries num w).
Proof.
  intros Ht Hb Hd Hp Hk. apply geometry_type in Ht. unfold cam_write, tail_entries. rewrite Ht. destruct w as [nb diag proj dist ru rv n1 n2 s1 s2 eps delta].
  cbn [cr_batches cr_diag cr_proj cr_dist cr_ru cr_rv cr_nobs cr_nobsS cr_sv cr_svS cr_eps cr_delta] in *.
  destruct nb as [|nb]; [lia|]. unfold proj_std, dist_std. cbn [Nat.eqb].
  destruct omni; cbn in Hd, Hp; lists; cbn; rewrite app_nil_r; reflexivity.
Qed.
Lemma head_keys omni type w proj sp dist sd : List.length proj = dim_projection omni -> List.length sp = dim_projection omni ->
  List.length dist = 4 -> List.length sd = 4 ->
  List.map fst (head_entries omni type w proj sp dist sd) =
  flat_map (fun n => ["projection/" +s n; "projection/" +s "sigma_" +s n]) (projection_names omni) ++ ["projection/ru"; "projection/rv"; "projection/type"] ++
  flat_map (fun n => ["projection/distortion/" +s n; "projection/distortion/" +s "sigma_" +s n]) distortion_names ++ ["shutter/line-delay"; "mask/mask-file"].
Proof. intros H1 H2 H3 H4. destruct omni; cbn in H1, H2; lists; reflexivity. Qed.
Local Ltac nodups := repeat (apply List.NoDup_cons; [cbn; intuition discriminate|]); apply List.NoDup_nil.
Lemma tail_keys num w : decimal num -> List.NoDup (List.map fst (tail_entries num w)).
Proof.
  intros Hd. unfold tail_entries. rewrite !map_app.
  assert (Hb : forall dir cols k, In k (List.map fst (put_basis num dir cols)) -> exists t, k = dir +s "/c" +s t).
  { intros dir cols k Hk. apply in_map_iff in Hk as ([k' v] & E & Hk). cbn in E. subst k'. apply put_basis_in in Hk as (c & col & r & y & _ & _ & -> & _).
    eexists. reflexivity. }
  assert (Hv : forall dir v k, In k (List.map fst (put_vector num dir v)) -> exists t, k = dir +s "/x" +s t).
  { intros dir v k Hk. apply in_map_iff in Hk as ([k' x] & E & Hk). cbn in E. subst k'. apply put_vector_in in Hk as (i & y & _ & -> & _).
    eexists. reflexivity. }
  assert (Hend : forall k, In k (List.map fst [("epsSVD", VReal (cr_eps w)); ("infoGainDelta", VReal (cr_delta w))]) -> k = "epsSVD" \/ k = "infoGainDelta").
  { intros k [<-|[<-|[]]]; auto. }
  apply nodup_app; [by apply put_basis_keys| |].
  2:{ intros k H1 H2. apply Hb in H1 as [t ->]. rewrite !in_app_iff in H2. destruct H2 as [H2|[H2|[H2|H2]]].
      - apply Hb in H2 as [t' H2]. discriminate H2.
      - apply Hv in H2 as [t' H2]. discriminate H2.
      - apply Hv in H2 as [t' H2]. discriminate H2.
      - apply Hend in H2 as [H2|H2]; discriminate H2. }
  apply nodup_app; [by apply put_basis_keys| |].
  2:{ intros k H1 H2. apply Hb in H1 as [t ->]. rewrite !in_app_iff in H2. destruct H2 as [H2|[H2|H2]].
      - apply Hv in H2 as [t' H2]. discriminate H2.
      - apply Hv in H2 as [t' H2]. discriminate H2.
      - apply Hend in H2 as [H2|H2]; discriminate H2. }
  apply nodup_app; [by apply put_vector_keys| |].
  2:{ intros k H1 H2. apply Hv in H1 as [t ->]. rewrite !in_app_iff in H2. destruct H2 as [H2|H2].
      - apply Hv in H2 as [t' H2]. discriminate H2.
      - apply Hend in H2 as [H2|H2]; discriminate H2. }
  apply nodup_app; [by apply put_vector_keys| |].
  - cbn. nodups.
  - intros k H1 H2. apply Hv in H1 as [t ->]. apply Hend in H2 as [H2|H2]; discriminate H2.
Qed.
Lemma write_keys num omni type w proj sp dist sd : decimal num -> List.length proj = dim_projection omni -> List.length sp = dim_projection omni ->
  List.length dist = 4 -> List.length sd = 4 -> List.NoDup (List.map fst (head_entries omni type w proj sp dist sd ++ tail_entries num w)).
Proof.
  intros Hd H1 H2 H3 H4. rewrite map_app, (head_keys _ _ _ _ _ _ _ H1 H2 H3 H4). apply nodup_app.
  - destruct omni; cbn; nodups.
  - by apply tail_keys.
  - intros k Hh Ht. assert (Hs : exists c t, k = String c t /\ (c = "p" \/ c = "s" /\ (exists t', t = String "h" t') \/ c = "m")%char).
    { destruct omni; cbn in Hh; repeat (destruct Hh as [<-|Hh]; [eexists _, _; split; [reflexivity|]; cbn; eauto 6|]); destruct Hh. }
    destruct Hs as (c & t & -> & Hs). unfold tail_entries in Ht. rewrite !map_app, !in_app_iff in Ht.
    destruct Ht as [Ht|[Ht|[Ht|[Ht|Ht]]]].
    1,2: apply in_map_iff in Ht as ([k' v] & E & Hk); cbn in E; subst k'; apply put_basis_in in Hk as (cc & col & r & y & _ & _ & E & _);
      injection E as E _; subst c; destruct Hs as [Hs|[[Hs _]|Hs]]; discriminate Hs.
    1,2: apply in_map_iff in Ht as ([k' v] & E & Hk); cbn in E; subst k'; apply put_vector_in in Hk as (i & y & _ & E & _);
      injection E as E E'; subst c t; destruct Hs as [Hs|[[_ [t' Hs]]|Hs]]; discriminate Hs.
    cbn in Ht. destruct Ht as [E|[E|[]]]; injection E as E _; subst c; destruct Hs as [Hs|[[Hs _]|Hs]]; discriminate Hs.
Qed.

(** C111: with at least one accepted batch, the file has every parameter under its name, the square root of its variance under sigma_ + its name, the image size,
    the type, the singular values and the bases of the unobservable directions entry by entry, and the two thresholds. *)
Theorem cam_write_values num type w omni : decimal num -> cam_geometry type = Ret omni -> 1 <= cr_batches w ->
  List.length (cr_diag w) = dim_projection omni + 4 -> List.length (cr_proj w) = dim_projection omni -> List.length (cr_dist w) = 4 ->
  exists es, cam_write num type w = Some es
  /\ (forall i n x v, nth_error (projection_names omni) i = Some n -> nth_error (cr_proj w) i = Some x -> nth_error (cr_diag w) i = Some v ->
        file es ("projection/" +s n) = Some (VReal x) /\ file es ("projection/sigma_" +s n) = Some (VReal (sqrt v)))
  /\ (forall i n x v, nth_error distortion_names i = Some n -> nth_error (cr_dist w) i = Some x -> nth_error (cr_diag w) (dim_projection omni + i) = Some v ->
        file es ("projection/distortion/" +s n) = Some (VReal x) /\ file es ("projection/distortion/sigma_" +s n) = Some (VReal (sqrt v)))
  /\ file es "projection/type" = Some (VString type) /\ file es "projection/ru" = Some (VInt (cr_ru w)) /\ file es "projection/rv" = Some (VInt (cr_rv w))
  /\ (forall c col r x, nth_error (cr_nobs w) c = Some col -> nth_error col r = Some x -> file es ("nobsBasis/c" +s num c +s "/r" +s num r) = Some (VReal x))
  /\ (forall c col r x, nth_error (cr_nobsS w) c = Some col -> nth_error col r = Some x ->
        file es ("nobsBasisScaled/c" +s num c +s "/r" +s num r) = Some (VReal x))
  /\ (forall i x, nth_error (cr_sv w) i = Some x -> file es ("singularValues/x" +s num i) = Some (VReal x))
  /\ (forall i x, nth_error (cr_svS w) i = Some x -> file es ("scaledSingularValues/x" +s num i) = Some (VReal x))
  /\ file es "epsSVD" = Some (VReal (cr_eps w)) /\ file es "infoGainDelta" = Some (VReal (cr_delta w)).
Proof.
  intros Hdec Ht Hb Hd Hp Hk. eexists. split; [exact (cam_write_eq num type w omni Ht Hb Hd Hp Hk)|].
  set (sp := List.map sqrt (List.firstn (dim_projection omni) (cr_diag w))). set (sd := List.map sqrt (List.skipn (dim_projection omni) (cr_diag w))).
  assert (Hsp : List.length sp = dim_projection omni) by (unfold sp; rewrite map_length, firstn_length; lia).
  assert (Hsd : List.length sd = 4) by (unfold sd; rewrite map_length, skipn_length; lia).
  pose proof (write_keys num omni type w (cr_proj w) sp (cr_dist w) sd Hdec Hp Hsp Hk Hsd) as Hnd.
  assert (Hf : forall key v, In (key, v) (head_entries omni type w (cr_proj w) sp (cr_dist w) sd) \/ In (key, v) (tail_entries num w) ->
            file (head_entries omni type w (cr_proj w) sp (cr_dist w) sd ++ tail_entries num w) key = Some v).
  { intros key v H. apply file_in; [exact Hnd|]. apply in_or_app. exact H. }
  assert (Hc : forall names vs ss i n x s, nth_error names i = Some n -> nth_error vs i = Some x -> nth_error ss i = Some s ->
            In (n, (x, s)) (combine (names : list string) (combine (vs : list R) (ss : list R)))).
  { clear. induction names as [|a names IH]; intros [|b vs] [|c ss] [|i] n x s H1 H2 H3; try discriminate; cbn in *.
    - injection H1 as ->. injection H2 as ->. injection H3 as ->. auto.
    - right. eauto. }
  split; [|split]; [| |repeat split].
  - intros i n x v Hn Hx Hv. assert (Hi : i < dim_projection omni) by (rewrite <-Hp; apply nth_error_Some; congruence).
    assert (Hs : nth_error sp i = Some (sqrt v)).
    { unfold sp. apply map_nth_error. rewrite <-Hv. rewrite <-(firstn_skipn (dim_projection omni) (cr_diag w)) at 2. rewrite nth_error_app1; [reflexivity|].
      rewrite firstn_length. lia. }
    pose proof (Hc _ _ _ _ _ _ _ Hn Hx Hs) as Hin.
    split; apply Hf; left; unfold head_entries; apply in_or_app; left; apply in_flat_map; eexists; (split; [exact Hin|]); cbn; auto.
  - intros i n x v Hn Hx Hv.
    assert (Hs : nth_error sd i = Some (sqrt v)).
    { unfold sd. apply map_nth_error. rewrite <-Hv. rewrite <-(firstn_skipn (dim_projection omni) (cr_diag w)) at 2.
      assert (Hl : List.length (List.firstn (dim_projection omni) (cr_diag w)) = dim_projection omni) by (rewrite firstn_length; lia).
      rewrite nth_error_app2 by lia. rewrite Hl. f_equal. lia. }
    pose proof (Hc _ _ _ _ _ _ _ Hn Hx Hs) as Hin.
    split; apply Hf; left; unfold head_entries; apply in_or_app; right; apply in_or_app; right; apply in_or_app; left; apply in_flat_map; eexists;
      (split; [exact Hin|]); cbn; auto.
  - apply Hf. left. unfold head_entries. rewrite !in_app_iff. cbn. auto 8.
  - apply Hf. left. unfold head_entries. rewrite !in_app_iff. cbn. auto 8.
  - apply Hf. left. unfold head_entries. rewrite !in_app_iff. cbn. auto 8.
  - intros c col r x H1 H2. apply Hf. right. unfold tail_entries. rewrite !in_app_iff. left. apply put_basis_in. exists c, col, r, x. auto.
  - intros c col r x H1 H2. apply Hf. right. unfold tail_entries. rewrite !in_app_iff. right. left. apply put_basis_in. exists c, col, r, x. auto.
  - intros i x H. apply Hf. right. unfold tail_entries. rewrite !in_app_iff. right. right. left. apply put_vector_in. exists i, x. auto.
  - intros i x H. apply Hf. right. unfold tail_entries. rewrite !in_app_iff. right. right. right. left. apply put_vector_in. exists i, x. auto.
  - apply Hf. right. unfold tail_entries. rewrite !in_app_iff. cbn. auto 8.
  - apply Hf. right. unfold tail_entries. rewrite !in_app_iff. cbn. auto 8.
Qed.
(** The type in the file makes the validator use the geometry of the calibrator; any other type is refused by both. *)
Theorem cam_type_roundtrip num type w es : cam_write num type w = Some es -> decimal num -> List.length (cr_diag w) = dim_projection (String.eqb type "omni") + 4 ->
  List.length (cr_proj w) = dim_projection (String.eqb type "omni") -> List.length (cr_dist w) = 4 ->
  forall omni, cam_geometry type = Ret omni -> exists t, file es "projection/type" = Some (VString t) /\ cam_geometry t = Ret omni.
Proof.
  intros E Hdec Hd Hp Hk omni Ht. rewrite (geometry_type _ _ Ht) in Hd, Hp. exists type. split; [|exact Ht].
  destruct (decide (1 <= cr_batches w)) as [Hb|Hb].
  - destruct (cam_write_values num type w omni Hdec Ht Hb Hd Hp Hk) as (es' & E' & _ & _ & H & _). congruence.
  - exfalso. unfold cam_write, proj_std, dist_std in E. rewrite (geometry_type _ _ Ht) in E.
    replace (cr_batches w) with 0 in E by lia. cbn in E. destruct omni; destruct (nth_error (cr_proj w) 0); cbn in E; unfold put in E; cbn in E; try discriminate E;
    destruct (cr_proj w); discriminate E.
Qed.
Theorem cam_type_refused type : type <> "omni" -> type <> "pinhole" -> cam_geometry type = Throw BadArgument.
Proof. intros H1 H2. unfold cam_geometry. destruct (String.eqb_spec type "omni"); [tauto|]. by destruct (String.eqb_spec type "pinhole"). Qed.
(** C111, refuted: without an accepted batch the standard deviations are empty vectors, and writing the file reads their entries: undefined behaviour. *)
Theorem cam_write_no_batch_refuted num type w : cr_batches w = 0 -> cam_write num type w = None.
Proof.
  intros H. unfold cam_write, proj_std, dist_std. rewrite H. cbn. destruct (String.eqb type "omni"); unfold put; cbn; destruct (cr_proj w); reflexivity.
Qed.
(** C111: the camera's variables enter the set of the batch in an order that depends on their addresses. If the distortion comes first, the standard
    deviations are those of other parameters: fu (pinhole) has the one of k1. If the projection comes first they are right. *)
Theorem cam_sigma_order num w vp vd : decimal num -> 1 <= cr_batches w -> List.length vp = 4 -> List.length vd = 4 ->
  List.length (cr_proj w) = 4 -> List.length (cr_dist w) = 4 ->
  (cr_diag w = cam_group_diag true vp vd -> forall i n v, nth_error (projection_names false) i = Some n -> nth_error vp i = Some v ->
     exists es, cam_write num "pinhole" w = Some es /\ file es ("projection/sigma_" +s n) = Some (VReal (sqrt v)))
  /\ (cr_diag w = cam_group_diag false vp vd -> forall i n v, nth_error (projection_names false) i = Some n -> nth_error vd i = Some v ->
     exists es, cam_write num "pinhole" w = Some es /\ file es ("projection/sigma_" +s n) = Some (VReal (sqrt v))).
Proof.
  intros Hdec Hb H1 H2 H3 H4. split; intros Hd i n v Hn Hv.
  all: destruct (cam_write_values num "pinhole" w false Hdec eq_refl Hb) as (es & E & Hs & _); [rewrite Hd; unfold cam_group_diag; rewrite app_length; cbn; lia|exact H3|exact H4|].
  all: exists es; split; [exact E|].
  all: assert (Hi : i < 4) by (change 4 with (List.length (projection_names false)); apply nth_error_Some; congruence).
  all: destruct (nth_error (cr_proj w) i) as [x|] eqn:Ex; [|apply nth_error_None in Ex; lia].
  all: refine (proj2 (Hs i n x v Hn Ex _)); rewrite Hd; unfold cam_group_diag; rewrite nth_error_app1 by lia; exact Hv.
Qed.
(** Example: the hypotheses are met, e.g. with numbers written as tallies. *)
Fixpoint tally (n : nat) : string := match n with 0 => "" | S n => String "1" (tally n) end.
Lemma tally_decimal : decimal tally.
Proof.
  split.
  - induction a as [|a IH]; intros [|b] E; try discriminate E; [reflexivity|]. injection E as E. f_equal. auto.
  - induction a as [|a IH]; cbn; [exact Logic.I|]. split; [discriminate|exact IH].
Qed.
Definition example_result : cam_result :=
  CamResult 1 [25; 25; 4; 4; 1; 1; 1; 1]%R [600; 601; 320; 240]%R [1; 2; 3; 4]%R 640 480 [[1; 0]%R] [] [5; 6]%R [] 1%R 2%R.
Example cam_write_example : exists es, cam_write tally "pinhole" example_result = Some es
  /\ file es "projection/fv" = Some (VReal 601) /\ file es "projection/sigma_fv" = Some (VReal (sqrt 25))
  /\ file es "projection/distortion/p2" = Some (VReal 4) /\ file es "singularValues/x1" = Some (VReal 6).
Proof.
  destruct (cam_write_values tally "pinhole" example_result false tally_decimal eq_refl) as (es & E & H1 & H2 & _ & _ & _ & _ & _ & H3 & _); try (cbn; lia).
  exists es. split; [exact E|]. destruct (H1 1 "fv" 601%R 25%R) as [A B]; try reflexivity. destruct (H2 3 "p2" 4%R 1%R) as [C _]; try reflexivity.
  repeat split; auto. exact (H3 1 6%R eq_refl).
Qed.
(** C111, refuted: with the distortion first, sigma_fu is not the standard deviation of fu. *)
Theorem cam_sigma_order_refuted : exists w vp vd, cr_diag w = cam_group_diag false vp vd /\ List.length vp = 4 /\ List.length vd = 4 /\ 1 <= cr_batches w /\
  exists es x, cam_write tally "pinhole" w = Some es /\ file es "projection/sigma_fu" = Some (VReal x) /\ Some x <> option_map sqrt (nth_error vp 0).
Proof.
  exists (CamResult 1 [0; 0; 0; 0; 25; 25; 4; 4]%R [600; 601; 320; 240]%R [1; 2; 3; 4]%R 640 480 [] [] [] [] 1%R 2%R), [25; 25; 4; 4]%R, [0; 0; 0; 0]%R.
  repeat split; try (cbn; lia).
  destruct (cam_sigma_order tally (CamResult 1 [0; 0; 0; 0; 25; 25; 4; 4]%R [600; 601; 320; 240]%R [1; 2; 3; 4]%R 640 480 [] [] [] [] 1%R 2%R)
              [25; 25; 4; 4]%R [0; 0; 0; 0]%R tally_decimal) as [_ H]; try (cbn; lia).
  destruct (H eq_refl 0 "fu" 0%R eq_refl eq_refl) as (es & E & Hs). exists es, (sqrt 0). split; [exact E|]. split; [exact Hs|].
  cbn. intros X. injection X as X. rewrite sqrt_0 in X. assert (0 < sqrt 25)%R by (apply sqrt_lt_R0; lra). lra.
Qed.
Print Assumptions cam_write_values.
