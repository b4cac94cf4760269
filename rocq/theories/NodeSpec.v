(** Vocabulary for the properties of the whole node: what a user would write down by looking
    at the sequence of messages only, without the node's pointers. *)
From Coq Require Import String Reals ZArith List Bool Arith.
From Verif Require PfModel FilterModel AccumModel.
From Verif Require Import Arith KdModel QuatModel StateModel StateSpec RayModel LidarModel NdModel ParamModel NodeModel.
Import ListNotations.
Open Scope R_scope.
Open Scope list_scope.

Section Spec.
Context {S : Type} (voxel : R * R * R -> list lpt -> list lpt) (p : params).

(** What the search map should contain after a history: the points, the received but not
    yet applied update, and whether the map is available. *)
Record expected := { content : list lpt; pending : option (list lpt); avail : bool }.
Definition expected0 : expected := {| content := []; pending := None; avail := false |}.
Definition map_leaf : R * R * R := (map_ds_x p, map_ds_y p, map_ds_z p).
Definition upd_leaf : R * R * R := (upd_ds_x p, upd_ds_y p, upd_ds_z p).
(** an initial pose is accepted: its orientation is nearly a unit quaternion and the transform
    from its frame to the map frame, at its own time, is known *)
Definition pose_accepted (m : pose_msg) (lk : tf_buffer) : bool :=
  negb (Rltb (1 / 10) (Rabs (qdot (pm_rot m) (pm_rot m) - 1)))
  && match lk (frame_map p) (pm_frame m) (pm_stamp m) with Some _ => true | None => false end.

(** [overlay]: what applying an update means, given the base map, the current content and
    the update.  The documented meaning is [base ++ update]; the code does [current ++ update]. *)
Definition expect_step (overlay : list lpt -> list lpt -> list lpt) (x : expected) (ev : event) : expected :=
  match ev with
  | EMap None _ _ | ELoadPcd None _ => {| content := content x; pending := pending x; avail := false |}
  | EMap (Some b) _ _ | ELoadPcd (Some b) _ => {| content := voxel map_leaf b; pending := None; avail := true |}
  | EUpdate (Some u) => {| content := content x; pending := Some (voxel upd_leaf u); avail := avail x |}
  | EPosition m lk _ _ _ => if pose_accepted m lk then {| content := content x; pending := None; avail := avail x |} else x
  | ETimer _ => match avail x, pending x with
                | true, Some u => {| content := overlay (content x) u; pending := None; avail := true |}
                | _, _ => x
                end
  | _ => x
  end.
Definition expect_run (evs : list event) : expected :=
  fold_left (expect_step (fun cur u => cur ++ u)) evs expected0.

(** ** Histories, event by event *)
(** one event of a history: the node before, the event, what was published, the node after *)
Record entry := { before : @node S; what : event; outs : list output; after : @node S }.
Fixpoint trace (caster : cloud -> (pt -> R -> search) -> raycaster S) (n : @node S) (evs : list event) : outcome (list entry) :=
  match evs with
  | [] => Ok []
  | e :: t => do (n1, o1) <- step caster voxel p n e;
              do r <- trace caster n1 t;
              Ok ({| before := n; what := e; outs := o1; after := n1 |} :: r)
  end.
(** number of particles before the event *)
Definition size_before (x : entry) : nat := length (PfModel.parts RA (n_pf (before x))).
Definition size_after (x : entry) : nat := length (PfModel.parts RA (n_pf (after x))).
(** the event published a pose: it was a localization step *)
Definition is_pose (o : output) : bool := match o with OPose _ _ _ => true | _ => false end.
Definition localizes (x : entry) : bool := existsb is_pose (outs x).
(** the status kind the event published *)
Definition published_status (x : entry) (k : status -> Prop) : Prop :=
  exists s d a b c, In (OStatus s d a b c) (outs x) /\ k s.
(** the localization steps of a history, in order *)
Definition loc_steps (tr : list entry) : list entry := filter localizes tr.
(** the configured particle count and the number of steps it takes the pose filter to settle *)
Definition np_nat : nat := Z.to_nat (num_particles p).
Definition settle : nat := 3 * Z.to_nat (Rceil (lpf_step p)).
(** one step towards the configured count: three quarters, rounded down, but not below it *)
Definition shrink (x : nat) : nat := if (np_nat <? x)%nat then Nat.max np_nat (3 * x / 4) else x.
(** at the j-th localization step: some localization step from number [j - settle] up to
    number [last] started with more particles than configured *)
Definition recently_global (tr : list entry) (last j : nat) : Prop :=
  exists i x, nth_error (loc_steps tr) i = Some x /\ (i <= last)%nat /\ (j - i <= settle)%nat /\ (np_nat < size_before x)%nat.
(** the published covariance exceeds a warning threshold / is below the convergence thresholds *)
Definition too_wide (c : nat -> nat -> R) : Prop :=
  let '(txy, tz, tyaw) := std_warn p in
  txy < sqrt (c 0%nat 0%nat + c 1%nat 1%nat) \/ tz < sqrt (c 2%nat 2%nat) \/ tyaw < sqrt (c 5%nat 5%nat).
Definition narrow (c : nat -> nat -> R) : Prop :=
  sqrt (c 0%nat 0%nat + c 1%nat 1%nat + c 2%nat 2%nat) < fix_dist p
  /\ sqrt (c 3%nat 3%nat + c 4%nat 4%nat + c 5%nat 5%nat) < fix_ang p.
(** std::sort: the result holds the same elements, in order of their keys *)
Definition sorts (srt : sorter) : Prop := forall l : list (RA * state), PfModel.sorted_copy RA l (srt l).
(** services that change the number of particles *)
Definition resizes (ev : event) : bool := match ev with EResize _ _ _ | EGlobal _ _ => true | _ => false end.

(** ** Clouds *)
(** the points of a cloud in the odometry frame, with the transform at the time of the cloud *)
Definition in_odom (m : cloud_msg) : option (list vec3) :=
  match cm_lookup m (frame_odom p) (cm_frame m) (cm_stamp m), cm_conv m with
  | Some (t, r), Some l => Some (map (fun v => vadd (qrot r v) t) l)
  | _, _ => None
  end.
(** the clouds of a history that could be transformed and arrived while a map was available
    (from the [avail] of the map history [x]) *)
Fixpoint accepted (x : expected) (evs : list event) : list cloud_msg :=
  match evs with
  | [] => []
  | ev :: t =>
      let rest := accepted (expect_step (fun cur u => cur ++ u) x ev) t in
      match ev with
      | ECloud m _ => match avail x, in_odom m with true, Some _ => m :: rest | _, _ => rest end
      | _ => rest
      end
  end.
Definition msg_header (m : cloud_msg) : header := {| h_frame := cm_frame m; h_stamp := cm_stamp m |}.
Definition msg_points (m : cloud_msg) : list vec3 := match in_odom m with Some l => l | None => [] end.
(** all points of the clouds, each labelled with the number of its cloud, starting at [i] *)
Fixpoint labelled (i : nat) (ms : list cloud_msg) : list lpt :=
  match ms with
  | [] => []
  | m :: t => map (fun v => {| p3 := v; lab := i |}) (msg_points m) ++ labelled (i + 1) t
  end.
Definition is_suffix {X} (s l : list X) : Prop := exists pre, l = pre ++ s.
(** the voxel filter does not invent labels: a point never carries a larger label than every
    input point (PCL takes the most frequent label, an average, or zero) *)
Definition keeps_labels (f : list lpt -> list lpt) : Prop :=
  forall l q, In q (f l) -> exists q0, In q0 l /\ (lab q <= lab q0)%nat.
(** a sampler only returns input points *)
Definition picks_members (f : list lpt -> N -> list lpt) : Prop := forall l k q, In q (f l k) -> In q l.
(** all transforms that a measurement asks for are available *)
Definition transforms_ok (e : menv) : Prop :=
  (forall t, e_lookup e (frame_base p) (frame_odom p) t <> None)
  /\ forall f t t', e_lookup5 e (frame_base p) t' f t (frame_odom p) <> None.

(** the event is a cloud that made the accumulation logic process the buffered clouds *)
Definition is_process (c : AccumModel.call cloud_msg) : bool := match c with AccumModel.Process => true | _ => false end.
Definition processes (x : entry) : bool :=
  match what x with
  | ECloud m _ => has_map (n_map (before x))
      && match push_calls p (ac (n_acc (before x))) m with Ok (_, cs) => existsb is_process cs | _ => false end
  | _ => false
  end.
(** a status message (and diagnostics) was published *)
Definition is_status (o : output) : bool := match o with OStatus _ _ _ _ _ => true | _ => false end.

(** the node at the moment when the measurement starts *)
Fixpoint at_process (caster : cloud -> (pt -> R -> search) -> raycaster S) (e : menv) (n : @node S) (cs : list (AccumModel.call cloud_msg))
  : outcome (option (@node S)) :=
  match cs with
  | [] => Ok None
  | AccumModel.Process :: _ => Ok (Some n)
  | c :: t => do (n1, _) <- callback caster voxel p e n c; at_process caster e n1 t
  end.
(** the cloud [m], arriving at node [n], leads to a measurement that uses the newest header [h],
    the points [pc] and the sensor origins [os]; [n1] is the node at that moment *)
Inductive measures_with (caster : cloud -> (pt -> R -> search) -> raycaster S) (n : @node S) (m : cloud_msg) (e : menv)
  (n1 : @node S) (h : header) (pc : list lpt) (os : list vec3) : Prop :=
| mw_intro a cs na n0 : has_map (n_map n) = true -> push_calls p (ac (n_acc n)) m = Ok (a, cs) ->
    at_process caster e (set_stat n status0) cs = Ok (Some na) -> gate p na = Ok (n0, true) ->
    prepare p n0 e = Ok (n1, Some (h, pc, os)) -> measures_with caster n m e n1 h pc os.

(** the last map that was published *)
Fixpoint last_map (os : list output) (acc : option cloud) : option cloud :=
  match os with
  | [] => acc
  | OMap c :: t => last_map t (Some c)
  | _ :: t => last_map t acc
  end.
End Spec.
