(** C102-C104: configurations. *)
From stdpp Require Import prelude list gmap strings pretty.
From Coq Require Import Reals Lra.
From Verif Require Import Base OptionsModel Spec_Options.
Local Open Scope string_scope.

Lemma rbind_Ret {A B} (r : result A) (f : A -> result B) b : rbind r f = Ret b <-> exists a, r = Ret a /\ f a = Ret b.
Proof. destruct r as [a|e| |]; cbn [rbind]; split; try (intros (? & ? & ?); done); try done; [eauto|]. by intros (? & [= ->] & ?). Qed.
Lemma need_Ret {A} (e : entry A) a : need e = Ret a <-> e = Value a.
Proof. destruct e; cbn; naive_solver. Qed.
Lemma need_or_Ret {A} (e : entry A) d a : need_or e d = Ret a <-> e = Value a \/ e = Missing /\ a = d.
Proof. destruct e; cbn; naive_solver. Qed.
Lemma came_back_bind {A B} (r : result A) (f : A -> result B) : came_back r -> (forall a, came_back (f a)) -> came_back (rbind r f).
Proof. destruct r; cbn; auto. Qed.
Lemma came_back_need {A} (e : entry A) : came_back (need e).
Proof. by destruct e. Qed.
Lemma came_back_need_or {A} (e : entry A) d : came_back (need_or e d).
Proof. by destruct e. Qed.
Lemma Forall_table {X} (P : X -> Prop) x l : Forall P (x :: l) <-> P x /\ Forall P l.
Proof. apply Forall_cons. Qed.
Lemma Forall_table_nil {X} (P : X -> Prop) : Forall P [] <-> True.
Proof. split; [done|constructor]. Qed.

Lemma splines_of_Ret t g tl rl kn to ro :
  splines_of t g = Ret (tl, rl, kn, to, ro) <->
  t_double t "splines/transSplineLambda" = Value tl /\ t_double t "splines/rotSplineLambda" = Value rl /\
  t_int t "splines/splineKnotsPerSecond" = Value kn /\
  (t_int t "splines/transSplineOrder" = Value to \/ t_int t "splines/transSplineOrder" = Missing /\ to = g) /\
  t_int t "splines/rotSplineOrder" = Value ro.
Proof.
  unfold splines_of, getDouble, getInt, getIntOr. repeat setoid_rewrite rbind_Ret. repeat setoid_rewrite need_Ret.
  setoid_rewrite need_or_Ret. split; [naive_solver|].
  intros (H1 & H2 & H3 & H4 & H5). exists tl. split; [done|]. exists rl. split; [done|]. exists kn. split; [done|].
  exists to. split; [done|]. exists ro. done.
Qed.
Ltac invert_reads H :=
  repeat (apply rbind_Ret in H; let x := fresh "x" in let E := fresh "E" in destruct H as (x & E & H);
          first [apply need_Ret in E | apply need_or_Ret in E | idtac]).
Ltac tables := unfold splines_hold, holds, holds_or, vec_holds, spline_doubles, spline_ints, spline_bools, car_doubles, car_bools, td_doubles,
  tsvd_doubles, tsvd_bools, est_doubles, est_bools, td_sim_doubles in *; rewrite ?Forall_table, ?Forall_table_nil in *.
Ltac conj := repeat match goal with H : _ /\ _ |- _ => destruct H | H : exists _, _ |- _ => destruct H end.
Ltac reads := repeat first
  [ rewrite (proj2 (need_Ret _ _)) by eassumption; cbn [rbind]
  | rewrite (proj2 (need_or_Ret _ _ _)) by eassumption; cbn [rbind]
  | rewrite (proj2 (splines_of_Ret _ _ _ _ _ _ _)) by (split_and!; eassumption); cbn [rbind]].

(** C103.  The car calibrator's options are exactly those of the table; the constructor throws iff no options match. *)
Theorem car_options_read (t : tree) (g : Z) (o : car_options) :
  car_options_of t g = Ret o <->
  splines_hold t "odometry/timeDelays/delayBound" g (co_splines o) /\ holds (t_double t) car_doubles o /\ holds (t_bool t) car_bools o /\
  exists z, t_int t "odometry/sensors/wheelSpeedSensorCutoff" = Value z /\ co_wheelSpeedSensorCutoff o = (z mod 65536)%Z.
Proof.
  split.
  - intros H. unfold car_options_of, getDouble, getInt, getBool in H. invert_reads H.
    destruct x4 as [[[[tl rl] kn] to] ro]. apply splines_of_Ret in E4 as (S1 & S2 & S3 & S4 & S5).
    invert_reads H. injection H as <-. tables. cbn. split_and!; try done. eauto.
  - destruct o as [[wd tl rl kn to ro vb db] lv dp dv flp flv frp frv rlp rlv rrp rrv sv co vy vz up uv].
    intros H. tables. cbn in H. conj. subst co.
    unfold car_options_of, getDouble, getInt, getBool. reads. done.
Qed.
Print Assumptions car_options_read.
Theorem td_options_read (t : tree) (g : Z) (o : td_options) :
  td_options_of t g = Ret o <-> splines_hold t "delayBound" g (to_splines o) /\ holds (t_double t) td_doubles o.
Proof.
  split.
  - intros H. unfold td_options_of, getDouble, getInt, getBool in H. invert_reads H.
    destruct x2 as [[[[tl rl] kn] to] ro]. apply splines_of_Ret in E2 as (S1 & S2 & S3 & S4 & S5).
    invert_reads H. injection H as <-. tables. cbn. split_and!; done.
  - destruct o as [[wd tl rl kn to ro vb db] lw rw vy vz]. intros H. tables. cbn in H. conj.
    unfold td_options_of, getDouble, getInt, getBool. reads. done.
Qed.
Print Assumptions td_options_read.
Theorem ego_options_read (t : tree) (g : Z) (o : ego_options) :
  ego_options_of t g = Ret o <-> splines_hold t "delayBound" g (eg_splines o) /\
  exists z, t_int t "referenceSensor" = Value z /\ eg_referenceSensor o = (z mod 2 ^ 64)%Z.
Proof.
  split.
  - intros H. unfold ego_options_of, getDouble, getInt, getBool in H. invert_reads H.
    destruct x3 as [[[[tl rl] kn] to] ro]. apply splines_of_Ret in E3 as (S1 & S2 & S3 & S4 & S5).
    injection H as <-. tables. cbn [eg_splines eg_referenceSensor so_windowDuration so_transSplineLambda so_rotSplineLambda
      so_splineKnotsPerSecond so_transSplineOrder so_rotSplineOrder so_verbose so_delayBound]. split_and!; try done. exists x2. done.
  - destruct o as [[wd tl rl kn to ro vb db] rs]. intros H. tables.
    cbn [eg_splines eg_referenceSensor so_windowDuration so_transSplineLambda so_rotSplineLambda
      so_splineKnotsPerSecond so_transSplineOrder so_rotSplineOrder so_verbose so_delayBound] in H. conj. subst rs.
    unfold ego_options_of, getDouble, getInt, getBool. reads. done.
Qed.
Print Assumptions ego_options_read.

(** Whatever the configuration, the constructors return or throw. *)
Ltac cb := repeat (first [apply came_back_bind; [|intros ?] | apply came_back_need | apply came_back_need_or | exact I | progress unfold splines_of, getDouble, getInt, getBool, getIntOr, getDoubleOr, getBoolOr, getString, getVec]).
Lemma splines_of_back t g : came_back (splines_of t g).
Proof. cb. Qed.
Theorem options_total (t : tree) (g : Z) :
  came_back (car_options_of t g) /\ came_back (td_options_of t g) /\ came_back (ego_options_of t g).
Proof.
  unfold car_options_of, td_options_of, ego_options_of. split_and!;
    repeat first [apply came_back_bind; [first [apply came_back_need|apply splines_of_back]|]; try (intros [[[[? ?] ?] ?] ?]); try intros ? | exact I].
Qed.
Print Assumptions options_total.

(** The defaults used without a configuration satisfy the same table as a configuration that spells them out. *)
Definition look {A} (l : list (string * A)) (k : string) : entry A :=
  match list_find (fun p => p.1 = k) l with Some (_, (_, a)) => Value a | None => Missing end.
Definition spelled (o : spline_options) (bound : string) (ds : list (string * R)) (bs : list (string * bool)) (is : list (string * Z)) : tree :=
  Tree (look (map (fun '(k, f) => (k, f o)) spline_doubles ++ ds)) (look (map (fun '(k, f) => (k, f o)) spline_ints ++ (bound, so_delayBound o) :: ("splines/transSplineOrder", so_transSplineOrder o) :: is))
    (look (map (fun '(k, f) => (k, f o)) spline_bools ++ bs)) (fun _ => Missing).
Definition car_config (cutoff : Z) : tree :=
  spelled (co_splines car_options0) "odometry/timeDelays/delayBound" (map (fun '(k, f) => (k, f car_options0)) car_doubles)
    (map (fun '(k, f) => (k, f car_options0)) car_bools) [("odometry/sensors/wheelSpeedSensorCutoff", cutoff)].
Example car_config_default : forall g, car_options_of (car_config 350) g = Ret car_options0.
Proof. intros g. vm_compute. done. Qed.

(** C103, refuted: a cutoff of 65536 (or any multiple) is accepted and switches the cutoff off; -1 becomes 65535. *)
Theorem car_cutoff_refuted :
  exists (t : tree) (o : car_options) (z : Z), (forall g, car_options_of t g = Ret o) /\
    t_int t "odometry/sensors/wheelSpeedSensorCutoff" = Value z /\ (350 < z)%Z /\ co_wheelSpeedSensorCutoff o = 0%Z.
Proof. exists (car_config 65536). eexists _, _. split; [intros g; vm_compute; reflexivity|]. split; [vm_compute; reflexivity|]. done. Qed.
Print Assumptions car_cutoff_refuted.

(** C103, refuted: without the key of the order of the translation spline the constructor does not throw; the order is
    whatever the memory held, not the default 4 that it has without a configuration. *)
Definition without_order (t : tree) : tree :=
  Tree (t_double t) (fun k => if decide (k = "splines/transSplineOrder") then Missing else t_int t k) (t_bool t) (t_string t).
Theorem spline_order_default_refuted :
  exists t : tree, t_int t "splines/transSplineOrder" = Missing /\
    (forall g, exists o, car_options_of t g = Ret o /\ so_transSplineOrder (co_splines o) = g) /\
    so_transSplineOrder (co_splines car_options0) = 4%Z.
Proof.
  exists (without_order (car_config 350)). split; [vm_compute; reflexivity|]. split; [|done].
  intros g. eexists. split; [vm_compute; reflexivity|]. done.
Qed.
Print Assumptions spline_order_default_refuted.

(** ** Estimator *)
Theorem tsvd_options_read (d : tsvd_options) (t : tree) (o : tsvd_options) :
  tsvd_of d t = Ret o <-> holds_or (t_double t) tsvd_doubles d o /\ holds_or (t_bool t) tsvd_bools d o.
Proof.
  split.
  - intros H. unfold tsvd_of, getDoubleOr, getBoolOr in H. invert_reads H. injection H as <-. tables. cbn. split_and!; done.
  - destruct o as [cs en es eq st qt v]. intros H. tables. cbn in H. conj.
    unfold tsvd_of, getDoubleOr, getBoolOr. reads. done.
Qed.
Print Assumptions tsvd_options_read.
(** C102. *)
Theorem estimator_config_read {O} (d : tsvd_options) (optimizer : tree -> result O) (t : tree) (c : est_config O) :
  estimator_of d optimizer t = Ret c <->
  (let ls k := "optimizer/linearSolver/" +:+ k in
   Forall (fun '(k, f) => t_double t (ls k) = Value (f (ec_solver c)) \/ t_double t (ls k) = Missing /\ f (ec_solver c) = f d) tsvd_doubles /\
   Forall (fun '(k, f) => t_bool t (ls k) = Value (f (ec_solver c)) \/ t_bool t (ls k) = Missing /\ f (ec_solver c) = f d) tsvd_bools) /\
  optimizer (subtree t "optimizer") = Ret (ec_optimizer c) /\
  holds_or (t_double t) est_doubles (EstOptions 0.2 false false) (ec_options c) /\
  holds_or (t_bool t) est_bools (EstOptions 0.2 false false) (ec_options c) /\
  exists z, t_int t "groupId" = Value z /\ ec_margGroupId c = (z mod 2 ^ 64)%Z.
Proof.
  unfold estimator_of. rewrite rbind_Ret. setoid_rewrite tsvd_options_read. unfold holds_or at 1 2.
  split.
  - intros (ls & [L1 L2] & H). apply rbind_Ret in H as (op & Hop & H). unfold getDoubleOr, getBoolOr, getInt in H. invert_reads H.
    injection H as <-. cbn [ec_solver ec_optimizer ec_options ec_margGroupId]. split; [split; [exact L1|exact L2]|]. split; [done|].
    tables. cbn. split_and!; try done. eauto.
  - destruct c as [ls op [ig cv v] m]. cbn [ec_solver ec_optimizer ec_options ec_margGroupId].
    intros ([L1 L2] & Hop & H). exists ls. split; [split; [exact L1|exact L2]|]. rewrite Hop. cbn [rbind].
    tables. cbn in H. conj. subst m. unfold getDoubleOr, getBoolOr, getInt. cbn [est_options0 eo_infoGainDelta eo_checkValidity eo_verbose]. reads. done.
Qed.
Print Assumptions estimator_config_read.
(** C102, refuted: a negative group id is accepted; no batch can hold a variable of that group under the id given. *)
Theorem estimator_group_id_refuted :
  exists (t : tree) (c : est_config unit), estimator_of (TsvdOptions false 0 0 0 0 0 false) (fun _ => Ret tt) t = Ret c /\
    t_int t "groupId" = Value (-1)%Z /\ ec_margGroupId c = (2 ^ 64 - 1)%Z.
Proof.
  exists (Tree (fun _ => Missing) (fun k => if decide (k = "groupId") then Value (-1)%Z else Missing) (fun _ => Missing) (fun _ => Missing)).
  eexists. split; [vm_compute; reflexivity|]. done.
Qed.
Print Assumptions estimator_group_id_refuted.

(** ** Simulations *)
Section sim.
Context {T : Type} (identity : T) (ypr_xyz : R * R * R -> R * R * R -> T).
Lemma getVec_Ret t k1 k2 k3 v : getVec t k1 k2 k3 = Ret v <-> vec_holds t k1 k2 k3 v.
Proof.
  unfold getVec, getDouble, vec_holds. destruct v as [[a b] c]. repeat setoid_rewrite rbind_Ret. repeat setoid_rewrite need_Ret. cbn. split.
  - intros (? & H1 & ? & H2 & ? & H3 & [= -> -> ->]). done.
  - intros (H1 & H2 & H3). exists a. split; [done|]. exists b. split; [done|]. exists c. done.
Qed.
(** C104.  Time-delay simulation: the start pose is the identity whatever the configuration says. *)
Theorem td_sim_read (t : tree) (p : td_sim) :
  td_sim_of identity ypr_xyz t = Ret p <->
  holds (t_double t) td_sim_doubles p /\
  (exists e x, tp_v_T_p p = ypr_xyz e x /\
     vec_holds t "calibration/v_T_p/v_R_p/e1" "calibration/v_T_p/v_R_p/e2" "calibration/v_T_p/v_R_p/e3" e /\
     vec_holds t "calibration/v_T_p/v_r_vp/e1" "calibration/v_T_p/v_r_vp/e2" "calibration/v_T_p/v_r_vp/e3" x) /\
  vec_holds t "noise/pose/sigma2_w_r_wp/e1" "noise/pose/sigma2_w_r_wp/e2" "noise/pose/sigma2_w_r_wp/e3" (tp_sigma2_position p) /\
  vec_holds t "noise/pose/sigma2_w_R_p/e1" "noise/pose/sigma2_w_R_p/e2" "noise/pose/sigma2_w_R_p/e3" (tp_sigma2_rotation p) /\
  t_double t "trajectory/A" = Value (tt_A (tp_trajectory p)) /\ t_double t "trajectory/f" = Value (tt_f (tp_trajectory p)) /\
  tt_start (tp_trajectory p) = identity.
Proof.
  split.
  - intros H. unfold td_sim_of in H.
    repeat (apply rbind_Ret in H; let x := fresh "x" in let E := fresh "E" in destruct H as (x & E & H);
      first [apply getVec_Ret in E | unfold getDouble in E; apply need_Ret in E | idtac]).
    unfold td_trajectory_of in E12. invert_reads E12. injection E12 as <-. injection H as <-.
    unfold holds, td_sim_doubles. rewrite ?Forall_table, ?Forall_table_nil.
    cbn [tp_b tp_k_l tp_t_l tp_k_r tp_t_r tp_dt tp_T tp_sigma2_l tp_sigma2_r tp_v_T_p tp_sigma2_position tp_sigma2_rotation tp_trajectory tt_A tt_f tt_start].
    split_and!; try done. eexists _, _. split_and!; [done|done|done].
  - destruct p as [[st a f] vtp b kl tl kr tr dt TT sl sr sp sq]. unfold holds, td_sim_doubles. rewrite ?Forall_table, ?Forall_table_nil.
    cbn [tp_b tp_k_l tp_t_l tp_k_r tp_t_r tp_dt tp_T tp_sigma2_l tp_sigma2_r tp_v_T_p tp_sigma2_position tp_sigma2_rotation tp_trajectory tt_A tt_f tt_start].
    intros ((H1 & H2 & H3 & H4 & H5 & H6 & H7 & H8 & H9 & _) & (e & x & -> & V1 & V2) & V3 & V4 & HA & Hf & ->).
    apply getVec_Ret in V1, V2, V3, V4. unfold td_sim_of, getDouble.
    repeat first [rewrite (proj2 (need_Ret _ _)) by eassumption; cbn [rbind] | rewrite V1; cbn [rbind] | rewrite V2; cbn [rbind] | rewrite V3; cbn [rbind] | rewrite V4; cbn [rbind]].
    unfold td_trajectory_of, getDouble. cbn [subtree t_double]. change ("trajectory" +:+ "/" +:+ "A") with "trajectory/A". change ("trajectory" +:+ "/" +:+ "f") with "trajectory/f".
    rewrite HA, Hf. done.
Qed.

(** What the loop over the sensors leaves: for every id the entry of the last sensor with that id. *)
Lemma fill_spec {X} (read : nat -> result (Z * X)) is : forall m m',
  fill read is m = Ret m' <->
  (exists l, Forall2 (fun i p => read i = Ret p) is l /\ m' = foldl (fun m p => <[p.1 := p.2]> m) m l).
Proof.
  induction is as [|i is IH]; intros m m'; cbn [fill].
  - split; [intros [= <-]; exists []; split; [constructor|done]|]. intros (l & Hl & ->). by inversion Hl; subst.
  - rewrite rbind_Ret. split.
    + intros ([k x] & Hr & Hf). apply IH in Hf as (l & Hl & ->). exists ((k, x) :: l). split; [by constructor|done].
    + intros (l & Hl & ->). inversion Hl as [|? [k x] ? l' Hr Hl']; subst. exists (k, x). split; [done|]. apply IH. by exists l'.
Qed.
Lemma foldl_insert_lookup {X} (l : list (Z * X)) : forall (m : gmap Z X) k x,
  foldl (fun m p => <[p.1 := p.2]> m) m l !! k = Some x <->
  (exists i, l !! i = Some (k, x) /\ forall j y, i < j -> l !! j <> Some (k, y)) \/ m !! k = Some x /\ forall j y, l !! j <> Some (k, y).
Proof.
  induction l as [|[k0 x0] l IH] using rev_ind; intros m k x.
  - cbn. split; [intros H; right; done|]. intros [(i & Hi & _)|[? _]]; [by rewrite lookup_nil in Hi|done].
  - rewrite foldl_app. cbn. destruct (decide (k0 = k)) as [->|Hne].
    + rewrite lookup_insert. split.
      * intros [= <-]. left. exists (length l). rewrite list_lookup_middle by done. split; [done|]. intros j y Hj E. apply lookup_lt_Some in E. rewrite app_length in E. cbn in E. lia.
      * intros [(i & Hi & Hlast)|[_ Hno]].
        -- destruct (decide (i = length l)) as [->|Hil]; [rewrite list_lookup_middle in Hi by done; congruence|].
           pose proof (lookup_lt_Some _ _ _ Hi) as Hlt. rewrite app_length in Hlt. cbn in Hlt.
           exfalso. apply (Hlast (length l) x0); [lia|]. by rewrite list_lookup_middle.
        -- exfalso. apply (Hno (length l) x0). by rewrite list_lookup_middle.
    + rewrite lookup_insert_ne by done. rewrite IH. split.
      * intros [(i & Hi & Hlast)|[Hm Hno]].
        -- left. exists i. split; [by apply lookup_app_l_Some|]. intros j y Hj E. apply lookup_app_Some in E as [E|[_ E]]; [by eapply Hlast|].
           apply list_lookup_singleton_Some in E as [_ [= ? ?]]. done.
        -- right. split; [done|]. intros j y E. apply lookup_app_Some in E as [E|[_ E]]; [by eapply Hno|].
           apply list_lookup_singleton_Some in E as [_ [= ? ?]]. done.
      * intros [(i & Hi & Hlast)|[Hm Hno]].
        -- left. exists i. apply lookup_app_Some in Hi as [Hi|[_ E]].
           ++ split; [done|]. intros j y Hj E. apply (Hlast j y Hj). by apply lookup_app_l_Some.
           ++ apply list_lookup_singleton_Some in E as [_ [= ? ?]]. done.
        -- right. split; [done|]. intros j y E. apply (Hno j y). by apply lookup_app_l_Some.
Qed.
(** C104.  Egomotion simulation: the constructor returns only if every sensor of the configuration is complete; the calibration of
    a sensor id is that of the last entry with that id, likewise the noise (one entry more). *)
Theorem ego_sim_sensors (t parent : tree) (g : Z) (p : ego_sim) :
  ego_sim_of ypr_xyz t parent g = Ret p ->
  exists (n : nat) cal noise, t_int t "calibration/num" = Value (Z.of_nat n) /\ length cal = n /\ length noise = S n /\
    (forall i, i < n -> exists e x d idx, cal !! i = Some ((idx mod 2 ^ 64)%Z, (d, ypr_xyz e x)) /\
       let tag := "calibration/sensor_" +:+ pretty i +:+ "/" in
       t_int t (tag +:+ "idx") = Value idx /\ t_int t (tag +:+ "intrinsics/timeDelay") = Value d /\
       vec_holds t (tag +:+ "extrinsics/rotation/yaw") (tag +:+ "extrinsics/rotation/pitch") (tag +:+ "extrinsics/rotation/roll") e /\
       vec_holds t (tag +:+ "extrinsics/translation/x") (tag +:+ "extrinsics/translation/y") (tag +:+ "extrinsics/translation/z") x) /\
    (forall i, i <= n -> exists a b idx, noise !! i = Some ((idx mod 2 ^ 64)%Z, (a, b)) /\
       let tag := "noise/sensor_" +:+ pretty i +:+ "/" in
       t_int t (tag +:+ "idx") = Value idx /\ vec_holds t (tag +:+ "e1") (tag +:+ "e2") (tag +:+ "e3") a /\
       vec_holds t (tag +:+ "e4") (tag +:+ "e5") (tag +:+ "e6") b) /\
    (forall k c, ep_calibration p !! k = Some c <-> exists i, cal !! i = Some (k, c) /\ forall j c', i < j -> cal !! j <> Some (k, c')) /\
    (forall k s, ep_sigma2 p !! k = Some s <-> exists i, noise !! i = Some (k, s) /\ forall j s', i < j -> noise !! j <> Some (k, s')) /\
    t_double t "dt" = Value (ep_dt p) /\ t_double t "T" = Value (ep_T p) /\
    (exists z, t_int parent "egomotion/calibrator/referenceSensor" = Value z /\ ep_referenceSensor p = (z mod 2 ^ 64)%Z) /\
    ego_trajectory_of ypr_xyz (subtree t "trajectory") g = Ret (ep_trajectory p).
Proof.
  intros H. unfold ego_sim_of in H. apply rbind_Ret in H as (rs & Hrs & H). apply rbind_Ret in H as (n & Hn & H).
  destruct (Z.ltb_spec n 0) as [?|Hn0]; [done|].
  apply rbind_Ret in H as (cm & Hc & H). apply rbind_Ret in H as (dt & Hdt & H). apply rbind_Ret in H as (TT & HT & H).
  apply rbind_Ret in H as (nm & Hnm & H). apply rbind_Ret in H as (tj & Htj & H). injection H as <-.
  apply fill_spec in Hc as (cal & Hcal & ->). apply fill_spec in Hnm as (noise & Hnoise & ->).
  unfold getInt, getDouble in *. apply need_Ret in Hrs, Hn, Hdt, HT.
  exists (Z.to_nat n), cal, noise. rewrite Z2Nat.id by done. split; [done|].
  pose proof (Forall2_length _ _ _ Hcal) as L1. pose proof (Forall2_length _ _ _ Hnoise) as L2. rewrite seq_length in L1, L2.
  split; [done|]. split; [lia|]. split; [|split; [|split; [|split; [|split; [done|split; [done|split; [eauto|done]]]]]]].
  - intros i Hi. assert (Hs : seq 0 (Z.to_nat n) !! i = Some i) by (apply lookup_seq; lia).
    destruct (Forall2_lookup_l _ _ _ _ _ Hcal Hs) as (q & Hq & Hr). unfold ego_sensor, getInt in Hr. cbv zeta in Hr.
    apply rbind_Ret in Hr as (e & He & Hr). apply getVec_Ret in He. apply rbind_Ret in Hr as (x & Hx & Hr). apply getVec_Ret in Hx.
    apply rbind_Ret in Hr as (d & Hd & Hr). apply need_Ret in Hd. apply rbind_Ret in Hr as (idx & Hidx & Hr). apply need_Ret in Hidx.
    injection Hr as <-. exists e, x, d, idx. split; [exact Hq|]. cbv zeta. split_and!; done.
  - intros i Hi. assert (Hs : seq 0 (Z.to_nat n + 1) !! i = Some i) by (apply lookup_seq; lia).
    destruct (Forall2_lookup_l _ _ _ _ _ Hnoise Hs) as (q & Hq & Hr). unfold ego_noise, getInt in Hr. cbv zeta in Hr.
    apply rbind_Ret in Hr as (idx & Hidx & Hr). apply need_Ret in Hidx.
    apply rbind_Ret in Hr as (a & Ha & Hr). apply getVec_Ret in Ha. apply rbind_Ret in Hr as (b & Hb & Hr). apply getVec_Ret in Hb.
    injection Hr as <-. exists a, b, idx. split; [exact Hq|]. cbv zeta. split_and!; done.
  - intros k c. cbn [ep_calibration]. rewrite foldl_insert_lookup, lookup_empty. naive_solver.
  - intros k s. cbn [ep_sigma2]. rewrite foldl_insert_lookup, lookup_empty. naive_solver.
Qed.
(** The trajectory of the egomotion simulation. *)
Theorem ego_trajectory_read (t : tree) (g : Z) (p : ego_trajectory) :
  ego_trajectory_of ypr_xyz t g = Ret p <->
  t_double t "A" = Value (et_A p) /\ t_double t "f" = Value (et_f p) /\ t_string t "type" = Value (et_type p) /\
  t_double t "splines/transSplineLambda" = Value (et_transSplineLambda p) /\ t_double t "splines/rotSplineLambda" = Value (et_rotSplineLambda p) /\
  t_int t "splines/splineKnotsPerSecond" = Value (et_splineKnotsPerSecond p) /\ t_int t "splines/rotSplineOrder" = Value (et_rotSplineOrder p) /\
  (t_int t "splines/transSplineOrder" = Value (et_transSplineOrder p) \/ t_int t "splines/transSplineOrder" = Missing /\ et_transSplineOrder p = g) /\
  exists e x, et_start p = ypr_xyz e x /\ vec_holds t "w_T_v_0/yaw" "w_T_v_0/pitch" "w_T_v_0/roll" e /\ vec_holds t "w_T_v_0/x" "w_T_v_0/y" "w_T_v_0/z" x.
Proof.
  split.
  - intros H. unfold ego_trajectory_of, getDouble, getString in H.
    apply rbind_Ret in H as (a & Ha & H). apply need_Ret in Ha. apply rbind_Ret in H as (f & Hf & H). apply need_Ret in Hf.
    apply rbind_Ret in H as (e & He & H). apply getVec_Ret in He. apply rbind_Ret in H as (x & Hx & H). apply getVec_Ret in Hx.
    apply rbind_Ret in H as ([[[[tl rl] kn] to] ro] & Hs & H). apply splines_of_Ret in Hs as (S1 & S2 & S3 & S4 & S5).
    apply rbind_Ret in H as (ty & Hty & H). apply need_Ret in Hty. injection H as <-. cbn. split_and!; try done. eauto.
  - destruct p as [st a f tl rl kn to ro ty]. cbn. intros (H1 & H2 & H3 & H4 & H5 & H6 & H7 & H8 & e & x & -> & He & Hx).
    apply getVec_Ret in He, Hx. unfold ego_trajectory_of, getDouble, getString.
    rewrite (proj2 (need_Ret _ _) H1). cbn [rbind]. rewrite (proj2 (need_Ret _ _) H2). cbn [rbind]. rewrite He. cbn [rbind]. rewrite Hx. cbn [rbind].
    rewrite (proj2 (splines_of_Ret _ _ _ _ _ _ _)) by (split_and!; eassumption). cbn [rbind]. rewrite (proj2 (need_Ret _ _) H3). done.
Qed.
End sim.
Print Assumptions td_sim_read. Print Assumptions ego_sim_sensors. Print Assumptions ego_trajectory_read.
(** C104, refuted for the count: two entries with the same id are accepted and only one sensor is simulated. *)
Definition same_ids : tree :=
  Tree (fun _ => Value 1%R) (fun k => if decide (k = "calibration/num") then Value 2%Z else Value 3%Z) (fun _ => Value true) (fun _ => Value "sine").
Theorem ego_sim_duplicate_refuted :
  exists (t parent : tree) (n : Z) (p : ego_sim (T := unit)), (forall g, ego_sim_of (fun _ _ => tt) t parent g = Ret p) /\
    t_int t "calibration/num" = Value n /\ (Z.of_nat (size (ep_calibration p)) < n)%Z /\ ep_calibration p !! 3%Z = Some (3%Z, tt).
Proof.
  exists same_ids, same_ids, 2%Z. eexists. split; [intros g; cbv; reflexivity|]. split; [done|]. split; vm_compute; done.
Qed.
Print Assumptions ego_sim_duplicate_refuted.
(** Such a configuration read for the time-delay simulation: [td_sim_read] and [ego_trajectory_read] are not vacuous. *)
Example td_sim_case : exists p, td_sim_of (T := bool) true (fun _ _ => false) same_ids = Ret p /\ tt_start (tp_trajectory p) = true.
Proof. eexists. split; [cbv; reflexivity|done]. Qed.
