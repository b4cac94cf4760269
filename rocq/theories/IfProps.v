(** Property theorems C113: the ROS interface of the node.  Everywhere the namespaces, the
    parameters on the server and the values of dynamic_reconfigure are arbitrary. *)
From Coq Require Import String Ascii.
From Coq Require Import Reals ZArith NArith List Bool Lia.
From Verif Require PfModel FilterModel AccumModel.
From Verif Require Import Arith KdModel QuatModel StateModel LidarModel ParamModel ParamProps NodeModel IfModel.
Import ListNotations.
Open Scope string_scope.
Open Scope list_scope.
Open Scope nat_scope.

(** ** Specification *)
(** the compatibility level the user asks for; 0 if there is no (numeric) parameter *)
Definition level (s : server) : Z :=
  match s "compatible" with Some (PInt n) => n | Some (PDouble x) => round_int x | _ => 0%Z end.
(** an integer parameter with its default *)
Definition int_setting (s : server) (k : string) (d : Z) : Z :=
  match s k with Some (PInt n) => n | Some (PDouble x) => round_int x | _ => d end.
Definition asks (s : server) (k : string) : Prop := s k = Some (PBool true).
(** the topic of every kind of input: name in the node's namespace at the current level, name
    below the node's own name at the old level, queue size, delivered without delay *)
Definition topic (s : server) (cb : callback) : string * string * Z * bool :=
  match cb with
  | CbOdom => ("odom", "odom", int_setting s "odom_queue_size" 200, true)
  | CbImu => ("imu/data", "imu", int_setting s "imu_queue_size" 200, true)
  | CbCloud => ("cloud", "cloud", int_setting s "cloud_queue_size" 100, false)
  | CbMapcloud => ("mapcloud", "mapcloud", 1%Z, false)
  | CbMapcloudUpdate => ("mapcloud_update", "mapcloud_update", 1%Z, false)
  | CbPosition => ("initialpose", "initialpose", 1%Z, false)
  | CbLandmark => ("mcl_measurement", "landmark", 1%Z, false)
  end.
(** an input whose sensor is faked is not subscribed *)
Definition faked (s : server) (cb : callback) : Prop :=
  match cb with CbOdom => asks s "fake_odom" | CbImu => asks s "fake_imu" | _ => False end.
(** published topics: below the node's own name?, name, queue size, latched *)
Definition out_topic (m : message) : bool * string * N * bool :=
  match m with
  | MsPose => (false, "amcl_pose", 5%N, false)
  | MsParticles => (true, "particles", 1%N, true)
  | MsMap => (true, "updated_map", 1%N, true)
  | MsMarkers => (true, "debug_marker", 1%N, true)
  | MsStatus => (true, "status", 1%N, true)
  | MsMatched => (true, "matched", 2%N, true)
  | MsUnmatched => (true, "unmatched", 2%N, true)
  end.
(** services: name at the current level, name below the node's own name at the old level (if it
    depends on the level) *)
Definition service_name (c : service) : string * option string :=
  match c with
  | SvResize => ("resize_mcl_particle", Some "resize_particle")
  | SvGlobal => ("global_localization", Some "global_localization")
  | SvExpansion => ("expansion_resetting", Some "expansion_resetting")
  | SvLoadPcd => ("load_pcd", None)
  end.
(** a name below a namespace *)
Definition below (ns name : string) : string := (ns ++ "/" ++ name)%string.
(** what has to be registered for an input of the node model to arrive (the timer is internal) *)
Definition route (ev : event) : option (callback + service) :=
  match ev with
  | EOdom _ _ _ _ => Some (inl CbOdom) | EImu _ _ _ _ _ => Some (inl CbImu) | ECloud _ _ => Some (inl CbCloud)
  | EMap _ _ _ => Some (inl CbMapcloud) | EUpdate _ => Some (inl CbMapcloudUpdate)
  | EPosition _ _ _ _ _ => Some (inl CbPosition) | ELandmark _ _ _ _ _ _ => Some (inl CbLandmark)
  | EResize _ _ _ => Some (inr SvResize) | EGlobal _ _ => Some (inr SvGlobal) | EExpansion _ _ => Some (inr SvExpansion)
  | ELoadPcd _ _ => Some (inr SvLoadPcd) | ETimer _ => None
  end.
Definition cb_eqb (a b : callback) : bool := match a, b with
  | CbOdom, CbOdom | CbImu, CbImu | CbCloud, CbCloud | CbMapcloud, CbMapcloud | CbMapcloudUpdate, CbMapcloudUpdate
  | CbPosition, CbPosition | CbLandmark, CbLandmark => true | _, _ => false end.
Definition sv_eqb (a b : service) : bool := match a, b with
  | SvResize, SvResize | SvGlobal, SvGlobal | SvExpansion, SvExpansion | SvLoadPcd, SvLoadPcd => true | _, _ => false end.
Definition ms_eqb (a b : message) : bool := match a, b with
  | MsPose, MsPose | MsParticles, MsParticles | MsMap, MsMap | MsMarkers, MsMarkers | MsStatus, MsStatus
  | MsMatched, MsMatched | MsUnmatched, MsUnmatched => true | _, _ => false end.

(** ** Lemmas *)
Lemma getCompat_level s : getCompat s = level s.
Proof. unfold getCompat, param, level. destruct (s "compatible") as [[]|]; reflexivity. Qed.
Lemma param_int s k d : param to_int s k d = int_setting s k d.
Proof. unfold param, int_setting. destruct (s k) as [[]|]; reflexivity. Qed.
Lemma loaded_flags rf junk cfg s p s' : load rf junk cfg s = Some (p, s') ->
  (fake_odom p = true <-> asks s "fake_odom") /\ (fake_imu p = true <-> asks s "fake_imu") /\ s' = rename_all junk s.
Proof.
  unfold load, asks. intro H.
  assert (B : forall k, param to_bool s k false = true <-> s k = Some (PBool true)).
  { intro k. unfold param. destruct (s k) as [[]|]; cbn; split; intro E; try discriminate; congruence. }
  destruct (_ && _); [discriminate|]. cbv zeta in H.
  assert (Hgen : forall s1 fi fo, Some (load_params rf fi fo cfg s1, s1) = Some (p, s') -> s' = s1 /\ p = load_params rf fi fo cfg s1)
    by (intros s1 fi fo E; injection E; auto).
  destruct (Hgen _ _ _ H) as [-> ->]. clear H Hgen. generalize (rename_all junk s) as s1. intro s1.
  unfold load_params. destruct (load_dda _ _ _) as [[use angle] grid]. cbn [fake_odom fake_imu]. split; [apply B|]. split; [apply B|reflexivity].
Qed.
(** renaming touches none of the parameters of the interface *)
Lemma renamed_keeps junk s k : In k ["compatible"; "odom_queue_size"; "imu_queue_size"; "cloud_queue_size"] -> rename_all junk s k = s k.
Proof. intro H. rewrite rename_all_point. cbn [In] in H. destruct H as [<-|[<-|[<-|[<-|[]]]]]; reflexivity. Qed.
Lemma runs_inv rf junk cfg nh pnh s p i : configure_ros rf junk cfg nh pnh s = Runs p i ->
  load rf junk cfg s = Some (p, rename_all junk s) /\ i = register nh pnh (rename_all junk s) p /\ (0 <= level s <= 1)%Z.
Proof.
  unfold configure_ros. intro H. destruct (C73_levels s) as (L1 & L2 & L3 & L4). rewrite getCompat_level in L1, L2, L3, L4.
  destruct (checkCompatMode s) eqn:Ec; try discriminate; destruct (load rf junk cfg s) as [[p0 s0]|] eqn:El; try discriminate.
  all: assert (p0 = p) by congruence; assert (register nh pnh s0 p0 = i) by congruence; subst p0 i.
  all: destruct (loaded_flags _ _ _ _ _ _ El) as (_ & _ & ->); split; [reflexivity|]; split; [reflexivity|].
  - rewrite (proj1 L3 eq_refl). lia.
  - rewrite (proj1 L4 eq_refl). lia.
Qed.

(** ** C113: starting *)
(** The node throws (main does not catch it) exactly if the level is not supported; it exits with
    status 1 exactly if both sensors are faked; otherwise it runs. *)
Theorem C113_startup rf junk cfg nh pnh s :
  let r := configure_ros rf junk cfg nh pnh s in
  (r = Throws <-> (level s < 0 \/ 1 < level s)%Z)
  /\ (r = Fails <-> (0 <= level s <= 1)%Z /\ asks s "fake_imu" /\ asks s "fake_odom")
  /\ (main_status r = None <-> r = Throws) /\ (main_status r = Some 1%Z <-> r = Fails)
  /\ (main_status r = Some 0%Z <-> exists p i, r = Runs p i).
Proof.
  cbv zeta. unfold configure_ros. destruct (C73_levels s) as (L1 & L2 & L3 & L4). rewrite getCompat_level in L1, L2, L3, L4.
  pose proof (C72_fails_iff_both_fake rf junk cfg s) as F. unfold asks.
  destruct (checkCompatMode s) eqn:Ec.
  - pose proof (proj1 L1 eq_refl). cbn. repeat split; intros; try discriminate; try lia; auto. all: destruct H0 as (? & ? & ?); discriminate.
  - pose proof (proj1 L2 eq_refl). cbn. repeat split; intros; try discriminate; try lia; auto. all: destruct H0 as (? & ? & ?); discriminate.
  - pose proof (proj1 L3 eq_refl) as L. rewrite L. destruct (load rf junk cfg s) as [[p s']|]; cbn.
    + repeat split; intros; try discriminate; try lia; eauto; try (destruct H as (_ & H); apply F in H; discriminate).
    + repeat split; intros; try discriminate; try lia; auto; try (apply F; reflexivity). destruct H as (? & ? & ?); discriminate.
  - pose proof (proj1 L4 eq_refl) as L. rewrite L. destruct (load rf junk cfg s) as [[p s']|]; cbn.
    + repeat split; intros; try discriminate; try lia; eauto; try (destruct H as (_ & H); apply F in H; discriminate).
    + repeat split; intros; try discriminate; try lia; auto; try (apply F; reflexivity). destruct H as (? & ? & ?); discriminate.
Qed.

(** ** C113: topics and services *)
(** Every input is subscribed exactly once, under its name and with its queue size, except a
    faked one, which is not subscribed; every output is advertised exactly once, every service
    is offered exactly once. *)
Theorem C113_interface rf junk cfg nh pnh s p i : configure_ros rf junk cfg nh pnh s = Runs p i ->
  (forall cb, filter (fun x => cb_eqb cb (sub_cb x)) (subs i) =
     let '(new, old, queue, nodelay) := topic s cb in
     if match cb with CbOdom => fake_odom p | CbImu => fake_imu p | _ => false end then []
     else [{| sub_name := if (level s =? 1)%Z then below nh new else below pnh old; sub_queue := queue_u32 queue;
              sub_cb := cb; sub_nodelay := nodelay |}])
  /\ (fake_odom p = true <-> faked s CbOdom) /\ (fake_imu p = true <-> faked s CbImu)
  /\ (forall m, filter (fun x => ms_eqb m (pub_msg x)) (pubs i) =
       let '(own, name, queue, latch) := out_topic m in
       [{| pub_name := below (if own : bool then pnh else nh) name; pub_queue := queue; pub_latch := latch; pub_msg := m |}])
  /\ (forall c, filter (fun x => sv_eqb c (srv_cb x)) (srvs i) =
       let '(new, old) := service_name c in
       [{| srv_name := match old with Some o => if (level s =? 1)%Z then below nh new else below pnh o | None => below nh new end; srv_cb := c |}]).
Proof.
  intro H. destruct (runs_inv _ _ _ _ _ _ _ _ H) as (El & -> & _). destruct (loaded_flags _ _ _ _ _ _ El) as (F1 & F2 & _).
  set (s1 := rename_all junk s) in *.
  assert (Lv : level s1 = level s) by (unfold level, s1; rewrite renamed_keeps by (cbn; tauto); reflexivity).
  assert (Q1 : int_setting s1 "odom_queue_size" 200 = int_setting s "odom_queue_size" 200) by (unfold int_setting, s1; rewrite renamed_keeps by (cbn; tauto); reflexivity).
  assert (Q2 : int_setting s1 "imu_queue_size" 200 = int_setting s "imu_queue_size" 200) by (unfold int_setting, s1; rewrite renamed_keeps by (cbn; tauto); reflexivity).
  assert (Q3 : int_setting s1 "cloud_queue_size" 100 = int_setting s "cloud_queue_size" 100) by (unfold int_setting, s1; rewrite renamed_keeps by (cbn; tauto); reflexivity).
  assert (N : forall new old, compat_name s1 (in_ns nh new) (in_ns pnh old) = if (level s =? 1)%Z then below nh new else below pnh old).
  { intros new old. unfold compat_name. rewrite getCompat_level, Lv. unfold current_level. destruct (level s =? 1)%Z; reflexivity. }
  split; [|split; [exact F1|split; [exact F2|split]]].
  - intro cb. unfold register. cbn [subs]. unfold subscribe. rewrite !N, !param_int, Q1, Q2, Q3. clear.
    destruct (fake_odom p), (fake_imu p), cb; reflexivity.
  - intro m. destruct m; reflexivity.
  - intro c. unfold register. cbn [srvs]. unfold advertiseService. rewrite !N. destruct c; reflexivity.
Qed.
(** a queue size is the configured one, or, if that is negative, a value of the order of 2^32 *)
Theorem C113_queue_sizes n : (- 2 ^ 31 <= n < 2 ^ 31)%Z ->
  (0 <= n -> queue_u32 n = Z.to_N n)%Z /\ (n < 0 -> queue_u32 n = Z.to_N (2 ^ 32 + n) /\ 2 ^ 31 <= Z.of_N (queue_u32 n))%Z.
Proof.
  intro H. unfold queue_u32. split; intro Hn.
  - rewrite Z.mod_small by lia. reflexivity.
  - assert (E : (n mod 2 ^ 32 = 2 ^ 32 + n)%Z) by (symmetry; apply Z.mod_unique with (-1)%Z; lia). rewrite E. split; [reflexivity|].
    rewrite Z2N.id by lia. lia.
Qed.

(** ** C113: no name is used twice *)
(** the part of a name behind its last slash *)
Fixpoint no_slash (x : string) : bool := match x with EmptyString => true | String c t => negb (Ascii.eqb c "/"%char) && no_slash t end.
Fixpoint leaf (x : string) : string :=
  match x with EmptyString => EmptyString | String c t => if no_slash x then x else leaf t end.
Lemma no_slash_app a b : no_slash (a ++ b) = no_slash a && no_slash b.
Proof. induction a as [|c a IH]; [reflexivity|]. cbn. rewrite IH, andb_assoc. reflexivity. Qed.
Lemma leaf_below ns name : leaf (below ns name) = leaf name.
Proof.
  unfold below. induction ns as [|c ns IH].
  - cbn. reflexivity.
  - cbn [append leaf]. cbn [no_slash]. rewrite no_slash_app. cbn [append no_slash]. rewrite Ascii.eqb_refl. cbn [negb andb]. rewrite !andb_false_r. exact IH.
Qed.
Fixpoint distinct (l : list string) : bool := match l with [] => true | x :: t => negb (existsb (String.eqb x) t) && distinct t end.
Lemma distinct_nodup l : distinct l = true -> NoDup l.
Proof.
  induction l as [|x l IH]; cbn; intro H; [constructor|]. apply andb_prop in H. destruct H as [H1 H2]. constructor; [|exact (IH H2)].
  intro Hi. apply negb_true_iff in H1. rewrite (proj2 (existsb_exists _ _)) in H1; [discriminate|]. exists x. split; [exact Hi|apply String.eqb_refl].
Qed.
Lemma nodup_of_map {A B} (f : A -> B) (l : list A) : NoDup (map f l) -> NoDup l.
Proof. apply NoDup_map_inv. Qed.
(** whatever the names of the namespace and of the node: no topic is subscribed twice or
    published by two publishers, the node subscribes to none of its own outputs, and no two
    services have the same name *)
Theorem C113_names_distinct rf junk cfg nh pnh s p i : configure_ros rf junk cfg nh pnh s = Runs p i ->
  NoDup (map sub_name (subs i) ++ map pub_name (pubs i)) /\ NoDup (map srv_name (srvs i)).
Proof.
  intro H. destruct (runs_inv _ _ _ _ _ _ _ _ H) as (_ & -> & _). clear H. generalize (rename_all junk s) as s1. clear s. intro s1.
  assert (B : forall ns x, leaf (in_ns ns x) = leaf x) by (intros; apply leaf_below).
  assert (N : forall new old, leaf (compat_name s1 (in_ns nh new) (in_ns pnh old)) = compat_name s1 (leaf new) (leaf old)).
  { intros new old. unfold compat_name. destruct (negb (getCompat s1 =? current_level)%Z); apply B. }
  split; apply (nodup_of_map leaf).
  - rewrite map_app, !map_map. unfold register. cbn [subs pubs]. unfold subscribe, advertise.
    destruct (fake_odom p), (fake_imu p); cbn [negb app map sub_name pub_name]; rewrite !B, !N; unfold compat_name;
      destruct (negb (getCompat s1 =? current_level)%Z); apply distinct_nodup; reflexivity.
  - rewrite map_map. unfold register. cbn [srvs]. unfold advertiseService. cbn [map srv_name]. rewrite !B, !N. unfold compat_name.
    destruct (negb (getCompat s1 =? current_level)%Z); apply distinct_nodup; reflexivity.
Qed.

(** ** C113: which events of the node model can happen *)
Definition handlers (i : interface) (ev : event) : nat :=
  match route ev with
  | Some (inl cb) => length (filter (fun x => cb_eqb cb (sub_cb x)) (subs i))
  | Some (inr c) => length (filter (fun x => sv_eqb c (srv_cb x)) (srvs i))
  | None => 1
  end.
(** every input reaches exactly one callback, except that nothing receives odometry (IMU)
    messages if the odometry (IMU) is faked *)
Theorem C113_every_event_handled_once rf junk cfg nh pnh s p i ev : configure_ros rf junk cfg nh pnh s = Runs p i ->
  handlers i ev = match route ev with
                  | Some (inl CbOdom) => if fake_odom p then 0 else 1
                  | Some (inl CbImu) => if fake_imu p then 0 else 1
                  | _ => 1
                  end.
Proof.
  intro H. destruct (C113_interface _ _ _ _ _ _ _ _ H) as (A & _ & _ & _ & D). unfold handlers.
  destruct (route ev) as [[cb|c]|]; [|rewrite D; destruct (service_name c); reflexivity|reflexivity].
  rewrite A. destruct cb; try reflexivity; cbn; [destruct (fake_odom p)|destruct (fake_imu p)]; reflexivity.
Qed.
(** at least one of the two sensors is real *)
Theorem C113_one_real_sensor rf junk cfg nh pnh s p i : configure_ros rf junk cfg nh pnh s = Runs p i ->
  fake_odom p = false \/ fake_imu p = false.
Proof.
  intro H. destruct (runs_inv _ _ _ _ _ _ _ _ H) as (El & _ & _). destruct (loaded_flags _ _ _ _ _ _ El) as (F1 & F2 & _).
  destruct (fake_odom p); [|left; reflexivity]. destruct (fake_imu p); [|right; reflexivity]. exfalso.
  assert (E : load rf junk cfg s = None) by (apply C72_fails_iff_both_fake; unfold asks in *; tauto). congruence.
Qed.

(** non-vacuity: without any parameter the node runs at the old level; level 1 uses the new names;
    a faked IMU is not subscribed; unsupported levels exist *)
Example C113_nonvacuous rf junk cfg :
  (exists p i, configure_ros rf junk cfg "" "/mcl_3dl" (fun _ => None) = Runs p i /\ In "/mcl_3dl/imu" (map sub_name (subs i)))
  /\ (exists p i, configure_ros rf junk cfg "" "/mcl_3dl" (set_param "compatible" (PInt 1) (fun _ => None)) = Runs p i /\ In "/imu/data" (map sub_name (subs i)))
  /\ (exists p i, configure_ros rf junk cfg "" "/mcl_3dl" (set_param "fake_imu" (PBool true) (fun _ => None)) = Runs p i /\ length (subs i) = 6)
  /\ configure_ros rf junk cfg "" "/mcl_3dl" (set_param "compatible" (PInt 2) (fun _ => None)) = Throws
  /\ configure_ros rf junk cfg "" "/mcl_3dl" (set_param "fake_odom" (PBool true) (set_param "fake_imu" (PBool true) (fun _ => None))) = Fails.
Proof.
  split; [|split; [|split; [|split; reflexivity]]]; eexists; eexists; (split; [reflexivity|]); cbn [subs register].
  - cbn. tauto.
  - cbn. tauto.
  - reflexivity.
Qed.
