(** Model of the node: /repo/src/mcl_3dl.cpp:103-1454.

    The state of the node is a record; every callback is a function from the state and the
    outcome of the outside world (messages, transforms, clock, random draws, sorting order,
    sampling, number of subscribers: all arbitrary inputs) to a new state and the list of
    published messages.  The parts that have their own models are used from there:
    accumulation (AccumModel), particle filter (PfModel, real arithmetic), poses and motion
    model (StateModel), filters (FilterModel), chunked kd-tree (KdModel), ray casters
    (RayModel), measurement models (LidarModel), IMU model (NdModel), parameters (ParamModel).

    Simplifications: real arithmetic (also for time, in seconds); pcl::VoxelGrid is an
    arbitrary function [voxel] of leaf size and cloud; message conversion (ConvModel) enters as its result, tf
    lookups as functions; log output and the PCD file are not modelled, the markers are in MarkerModel
    (the ray casts that the marker code performs are here, because they can fail). *)
From Coq Require Import String.
From Coq Require Import Reals ZArith NArith List Bool Arith.
From Verif Require PfModel FilterModel AccumModel.
From Verif Require Import Arith KdModel QuatModel StateModel StateSpec RayModel LidarModel NdModel ParamModel MatModel.
Import ListNotations.
Open Scope string_scope.
Open Scope R_scope.
Open Scope list_scope.

(** Outcome of a call: [Null] a null pointer was dereferenced, [Undef] other undefined
    behaviour, a failed assertion or an uncaught exception, [Fuel] a ray cast did not finish
    within the given number of steps. *)
Inductive outcome (X : Type) := Ok (x : X) | Null | Undef | Fuel.
Arguments Ok {X}. Arguments Null {X}. Arguments Undef {X}. Arguments Fuel {X}.
Definition bind {X Y} (a : outcome X) (f : X -> outcome Y) : outcome Y :=
  match a with Ok x => f x | Null => Null | Undef => Undef | Fuel => Fuel end.
Notation "'do' x <- a ; b" := (bind a (fun x => b)) (at level 200, x pattern, a at level 100, b at level 200).
Definition of_option {X} (a : option X) : outcome X := match a with Some x => Ok x | None => Undef end.
Definition of_run {X} (a : run X) : outcome X :=
  match a with Done x => Ok x | Undefined => Undef | Running => Fuel end.

(** ** State: mcl_3dl.cpp:1408-1453 *)
(** map part (1419, 1434-1438): clouds are objects in a heap, pointers are indices *)
Record mapst := {
  heap : list cloud; pc_map : option nat; pc_map2 : option nat; pc_update : option nat;
  kd_ptr : option nat; kd : kdt; has_map : bool; pc_all : option (list lpt) }.
(** accumulation part (1440-1442) *)
Record header := { h_frame : string; h_stamp : R }.
Record accst := { ac : AccumModel.accum_st; local : option (list lpt); headers : list header }.
(** odometry (1418, 1420, 1422-1423) and IMU (1410, 1421, 1425, 1427) *)
Record odomst := { odom : state; odom_prev : state; odom_last : R; has_odom : bool }.
Record imust := { imu_last : R; has_imu : bool; f_acc : FilterModel.filt3; imu_quat : quat }.
(** mcl_3dl_msgs/Status *)
Inductive st_kind := NORMAL | EXPANSION_RESETTING | GLOBAL_LOCALIZATION.
Inductive err_kind := ERROR_NORMAL | ERROR_POINTS_NOT_FOUND.
Inductive conv_kind := CONV_NORMAL | LARGE_STD_VALUE | CONVERGED.
Record status := {
  s_status : st_kind; s_error : err_kind; s_conv : conv_kind; s_match : R; s_size : nat;
  s_entropy : option R }.            (* [None]: a value that was never written *)
Definition status0 : status :=
  {| s_status := NORMAL; s_error := ERROR_NORMAL; s_conv := CONV_NORMAL; s_match := 0; s_size := 0; s_entropy := Some 0 |}.
(** output side (1408-1413, 1417, 1424, 1426, 1428, 1430) *)
Record outst := {
  f_pos : FilterModel.filt3; f_ang : FilterModel.filt3; rate : FilterModel.filt;
  localized_last : R; tf_base : R; match_last : R; state_prev : state; cnt_measure : Z; fix_cnt : nat;
  stat : status }.

(** tf2_ros::Buffer: lookupTransform(target, source, time) ([None]: it throws); time 0 is the
    latest one.  A transform is a translation and a rotation. *)
Definition tf_buffer : Type := string -> string -> R -> option (vec3 * quat).
(** lookupTransform(target, target_time, source, source_time, fixed) *)
Definition tf_buffer5 : Type := string -> R -> string -> R -> string -> option (vec3 * quat).
(** tf2::doTransform of a point; pcl::transformPointCloud *)
Definition tf_point (tf : vec3 * quat) (v : vec3) : vec3 := vadd (qrot (snd tf) v) (fst tf).

(** Random numbers: a stream of draws from the standard normal distribution; a draw from
    normal_distribution(mean, sigma) is the next one, scaled *)
Definition stream : Type := nat -> R.
Definition next_normal (m sg : R) (z : stream) : R * stream := (m + sg * z 0%nat, fun k => z (k + 1)%nat).
(** diagonal_noise_generator.h and state_6dof.h:226-248: one generated state *)
Definition diag_noise (mean sigma : state) (z : stream) : state := fst (generateNoise next_normal mean sigma z).
(** the standard deviations of a State6DOF(Vec3, Vec3) built from six parameters, 168-173, 810-815,
    857-862, 930-935, 1029-1034 *)
Definition sigma_of (l : list R) : state :=
  let g k := nth k l 0 in state_rpy (V3 (g 0%nat) (g 1%nat) (g 2%nat)) (V3 (g 3%nat) (g 4%nat) (g 5%nat)).
(** std::sort of the copy of the particles with their cumulative weights, pf.h:189-197, 401-409
    (an arbitrary function here; [sorts] says what it is asked for) *)
Definition sorter : Type := list (R * state) -> list (R * state).
Definition sorted_dup (srt : sorter) (f : PfModel.filter RA state) : list (R * state) := srt (PfModel.dup_of RA (0 : RA) (PfModel.parts RA f)).

Section Node.
(** the state of the ray caster and its implementation for a map cloud and a search *)
Context {S : Type} (caster : cloud -> (pt -> R -> search) -> raycaster S).
Context (voxel : R * R * R -> list lpt -> list lpt).
Context (p : params).

(** lidar models (1444-1447) *)
Record lidst := { l_beam : beam; l_like : like; l_rc : S }.
Record node := { n_map : mapst; n_acc : accst; n_odom : odomst; n_imu : imust; n_out : outst; n_lid : lidst;
                 n_pf : PfModel.filter RA state }.
Definition set_map n x := {| n_map := x; n_acc := n_acc n; n_odom := n_odom n; n_imu := n_imu n; n_out := n_out n; n_lid := n_lid n; n_pf := n_pf n |}.
Definition set_acc n x := {| n_map := n_map n; n_acc := x; n_odom := n_odom n; n_imu := n_imu n; n_out := n_out n; n_lid := n_lid n; n_pf := n_pf n |}.
Definition set_odom n x := {| n_map := n_map n; n_acc := n_acc n; n_odom := x; n_imu := n_imu n; n_out := n_out n; n_lid := n_lid n; n_pf := n_pf n |}.
Definition set_imu n x := {| n_map := n_map n; n_acc := n_acc n; n_odom := n_odom n; n_imu := x; n_out := n_out n; n_lid := n_lid n; n_pf := n_pf n |}.
Definition set_out n x := {| n_map := n_map n; n_acc := n_acc n; n_odom := n_odom n; n_imu := n_imu n; n_out := x; n_lid := n_lid n; n_pf := n_pf n |}.
Definition set_lid n x := {| n_map := n_map n; n_acc := n_acc n; n_odom := n_odom n; n_imu := n_imu n; n_out := n_out n; n_lid := x; n_pf := n_pf n |}.
Definition set_pf n x := {| n_map := n_map n; n_acc := n_acc n; n_odom := n_odom n; n_imu := n_imu n; n_out := n_out n; n_lid := n_lid n; n_pf := x |}.
Definition set_stat n x := set_out n
  {| f_pos := f_pos (n_out n); f_ang := f_ang (n_out n); rate := rate (n_out n); localized_last := localized_last (n_out n);
     tf_base := tf_base (n_out n); match_last := match_last (n_out n); state_prev := state_prev (n_out n);
     cnt_measure := cnt_measure (n_out n); fix_cnt := fix_cnt (n_out n); stat := x |}.

(** The answers of the services.  [REmpty]: resize_particle has no answer fields (1019-1025);
    [RLoad]: load_pcd (1172-1192); [RTrigger]: std_srvs::TriggerResponse, which starts as
    success = false with an empty message. *)
Inductive message := MEmpty | MNoMap (* "No map received." *) | MParticles (k : nat) (* "k particles" *).
Inductive response := REmpty | RLoad (success : bool) | RTrigger (success : bool) (text : message).
(** Published messages and service answers *)
Inductive output :=
| OMap (c : cloud)                                           (* updated_map *)
| OParticles (stamp : R) (ps : list (vec3 * quat))           (* particles *)
| OTf (stamp : R) (map_odom : vec3 * quat) (floor_z : R)     (* the two transforms *)
| OPose (stamp : R) (pose : vec3 * quat) (cov : nat -> nat -> R)   (* amcl_pose *)
| OMatched (matched unmatched : list vec3)
| OStatus (s : status) (diag_error : bool) (map_ok odom_ok imu_ok : bool)   (* status, diagnostics *)
| OService (r : response).

(** ** configure, 1270-1329 (the constructor 1195-1203); [gen i]: the draws for the i-th particle *)
Definition v3 (r : R * R * R) : vec3 := let '(a, b, c) := r in V3 a b c.
Definition tup (v : vec3) : R * R * R := (vx v, vy v, vz v).
Definition configure (gen : nat -> stream) (rc0 : S) : node :=
  let tc x := (x, x, x) in
  {| n_map := {| heap := []; pc_map := None; pc_map2 := None; pc_update := None; kd_ptr := None;
                 kd := configured_kdtree p; has_map := false; pc_all := None |};
     n_acc := {| ac := AccumModel.accum_init; local := None; headers := [] |};
     n_odom := {| odom := state0; odom_prev := state0; odom_last := 0; has_odom := false |};
     n_imu := {| imu_last := 0; has_imu := false;
                 f_acc := FilterModel.new_filt3 FilterModel.FILTER_LPF (tc (acc_lpf_step p)) (0, 0, 0) false; imu_quat := q1 |};
     n_out := {| f_pos := FilterModel.new_filt3 FilterModel.FILTER_LPF (tc (lpf_step p)) (0, 0, 0) false;
                 f_ang := FilterModel.new_filt3 FilterModel.FILTER_LPF (tc (lpf_step p)) (0, 0, 0) true;
                 rate := FilterModel.new_filt FilterModel.FILTER_LPF 5 0 false;
                 localized_last := 0; tf_base := 0; match_last := 0; state_prev := state0; cnt_measure := 0; fix_cnt := 0;
                 stat := status0 |};
     n_lid := {| l_beam := beam_refresh (p_beam p); l_like := like_refresh (p_like p); l_rc := rc0 |};
     n_pf := PfModel.init RA (fun i => diag_noise (initial_pose p) (initial_pose_std p) (gen i)) (PfModel.new_filter RA state0 (Z.to_nat (num_particles p))) |}.

(** ** Map handling *)
Definition to_pts (l : list lpt) : list pt := map (fun q => to_pt (p3 q)) l.
Definition get_obj (m : mapst) (l : option nat) : outcome cloud :=
  match l with None => Null | Some i => of_option (nth_error (heap m) i) end.
Fixpoint replace (h : list cloud) (i : nat) (c : cloud) : list cloud :=
  match h, i with
  | [], _ => []
  | _ :: t, O => c :: t
  | x :: t, Datatypes.S j => x :: replace t j c
  end.
(** ~MCL3dlNode, 1340-1348: the points written to mcl_3dl.pcd when the node ends ([None]: no file) *)
Definition saved_pcd (n : node) : option (list lpt) := if output_pcd p then pc_all (n_map n) else None.
(** cbMapUpdateTimer, 1350-1378; [now]: the stamp given to an updated map *)
Definition timer_map (m : mapst) (now : Z) : outcome (mapst * list output) :=
  if has_map m then
    match pc_update m with
    | Some _ =>
        (* 1357-1358 *)
        let '(h0, m2) := match pc_map2 m with
                         | Some l => (heap m, l)
                         | None => (heap m ++ [{| cl_id := length (heap m); cl_stamp := 0; cl_pts := [] |}], length (heap m))
                         end in
        let m0 := {| heap := h0; pc_map := pc_map m; pc_map2 := Some m2; pc_update := pc_update m; kd_ptr := kd_ptr m;
                     kd := kd m; has_map := has_map m; pc_all := pc_all m |} in
        do a <- get_obj m0 (pc_map m0);
        do b <- get_obj m0 (pc_update m0);
        (* 1359-1361: the object pc_map2_ points to is overwritten *)
        let c := {| cl_id := m2; cl_stamp := now; cl_pts := cl_pts a ++ cl_pts b |} in
        Ok ({| heap := replace h0 m2 c; pc_map := pc_map m; pc_map2 := Some m2; pc_update := None; kd_ptr := Some m2;
               kd := setInputCloud (to_pts (cl_pts c)) (kd m); has_map := true; pc_all := pc_all m |}, [OMap c])
    | None =>
        match pc_map2 m with
        | Some _ => Ok (m, [])
        | None =>
            do c <- get_obj m (pc_map m);
            Ok ({| heap := heap m; pc_map := pc_map m; pc_map2 := pc_map m; pc_update := None; kd_ptr := pc_map m;
                   kd := setInputCloud (to_pts (cl_pts c)) (kd m); has_map := true; pc_all := pc_all m |}, [OMap c])
        end
    end
  else Ok (m, []).
Definition cbMapUpdateTimer (n : node) (now : Z) : outcome (node * list output) :=
  do (m, o) <- timer_map (n_map n) now; Ok (set_map n m, o).
(** accumClear, 267-272 *)
Definition accumClear (a : accst) : accst := {| ac := ac a; local := Some []; headers := [] |}.
(** loadMapCloud, 1150-1170 *)
Definition loadMapCloud (n : node) (stamp : Z) (pts : list lpt) (now : Z) : outcome (node * list output) :=
  let m := n_map n in
  let l := length (heap m) in
  let c := {| cl_id := l; cl_stamp := stamp; cl_pts := voxel (map_ds_x p, map_ds_y p, map_ds_z p) pts |} in
  let m1 := {| heap := heap m ++ [c]; pc_map := Some l; pc_map2 := None; pc_update := None; kd_ptr := kd_ptr m;
               kd := kd m; has_map := true; pc_all := Some [] |} in
  let a := accumClear (n_acc n) in
  let a1 := {| ac := if (accum_cloud p =? 0)%Z then ac a else AccumModel.reset (ac a); local := local a; headers := headers a |} in
  cbMapUpdateTimer (set_acc (set_map n m1) a1) now.
Definition drop_map (n : node) : node :=
  let m := n_map n in
  set_map n {| heap := heap m; pc_map := pc_map m; pc_map2 := pc_map2 m; pc_update := pc_update m; kd_ptr := kd_ptr m;
               kd := kd m; has_map := false; pc_all := pc_all m |}.
(** cbMapcloud, 127-140; [conv]: the converted message ([None] = conversion failed) *)
Definition cbMapcloud (n : node) (conv : option (list lpt)) (stamp now : Z) : outcome (node * list output) :=
  match conv with
  | None => Ok (drop_map n, [])
  | Some pts => loadMapCloud n (if (stamp =? 0)%Z then now else stamp) pts now
  end.
(** cbLoadPCD, 1172-1192; [file]: the content of the file ([None] = unreadable) *)
Definition cbLoadPCD (n : node) (file : option (list lpt)) (now : Z) : outcome (node * list output) :=
  match file with
  | None => Ok (drop_map n, [OService (RLoad false)])
  | Some pts => do (n', o) <- loadMapCloud n now pts now; Ok (n', o ++ [OService (RLoad true)])
  end.
(** cbMapcloudUpdate, 141-153 *)
Definition cbMapcloudUpdate (n : node) (conv : option (list lpt)) : outcome (node * list output) :=
  match conv with
  | None => Ok (n, [])
  | Some pts =>
      let m := n_map n in
      let c := {| cl_id := length (heap m); cl_stamp := 0; cl_pts := voxel (upd_ds_x p, upd_ds_y p, upd_ds_z p) pts |} in
      Ok (set_map n {| heap := heap m ++ [c]; pc_map := pc_map m; pc_map2 := pc_map2 m; pc_update := Some (length (heap m));
                       kd_ptr := kd_ptr m; kd := kd m; has_map := has_map m; pc_all := pc_all m |}, [])
  end.

(** publishParticles, 1101-1125 *)
Definition publishParticles (n : node) (now : R) : output :=
  OParticles ((if has_odom (n_odom n) then odom_last (n_odom n) else now) + tf_base (n_out n) + tf_tolerance p)
             (map (fun q => (pos (PfModel.st RA q), qnormalized (rot (PfModel.st RA q)))) (PfModel.parts RA (n_pf n))).
(** diagnoseStatus, 1127-1148, and force_update *)
Definition force_update (n : node) : node * output :=
  let s := stat (n_out n) in
  let s' := {| s_status := s_status s; s_error := s_error s; s_conv := s_conv s; s_match := s_match s; s_size := s_size s;
               s_entropy := PfModel.entropy RA (n_pf n) |} in
  (set_stat n s', OStatus s' (match s_error s, s_conv s with ERROR_POINTS_NOT_FOUND, _ | _, LARGE_STD_VALUE => true | _, _ => false end)
                            (has_map (n_map n)) (has_odom (n_odom n)) (has_imu (n_imu n))).

(** ** Poses and particles *)
(** the reset of the integrated odometry error, 190-195 and 653-658 *)
Definition reset_err (s : state) : state :=
  {| pos := pos s; rot := rot s; diff := diff s; noise_ll := noise_ll s; noise_la := noise_la s; noise_al := noise_al s;
     noise_aa := noise_aa s; err_lin := v0; err_ang := v0; rpy := rpy s |}.
Definition drop_update (m : mapst) : mapst :=
  {| heap := heap m; pc_map := pc_map m; pc_map2 := pc_map2 m; pc_update := None; kd_ptr := kd_ptr m; kd := kd m;
     has_map := has_map m; pc_all := pc_all m |}.
(** a pose message with its covariance (row by row) *)
Record pose_msg := { pm_frame : string; pm_stamp : R; pm_pos : vec3; pm_rot : quat; pm_cov : list R }.
(** 170-186: the pose in the map frame ([None]: no transform).  Simplified: for unit quaternions
    tf2::doTransform returns the product, up to its sign, which does not change the rotation; for
    a quaternion that is only nearly a unit one (157-166) the product is normalized here, while
    what the library returns depends on its version. *)
Definition pose_in_map (lk : tf_buffer) (m : pose_msg) : option state :=
  option_map (fun tf => state_pr (tf_point tf (pm_pos m)) (qnormalized (qmul (snd tf) (pm_rot m))))
             (lk (frame_map p) (pm_frame m) (pm_stamp m)).
(** cbPosition, 155-198; [solver]: Eigen's SelfAdjointEigenSolver, [z i]: the draws for the i-th
    particle *)
Definition cbPosition (n : node) (m : pose_msg) (lk : tf_buffer) (solver : mat -> mat * vec) (z : nat -> stream) (now : R) : outcome (node * list output) :=
  if Rltb (1 / 10) (Rabs (qdot (pm_rot m) (pm_rot m) - 1)) then Ok (n, [])
  else
    match pose_in_map lk m with
    | None => Ok (n, [])
    | Some mean =>
        let pf1 := PfModel.init RA (fun i => initial_state solver mean (pm_cov m) (z i)) (n_pf n) in
        let pf2 := PfModel.predict RA (fun _ => reset_err) pf1 in
        let n' := set_pf (set_map n (drop_update (n_map n))) pf2 in
        Ok (n', [publishParticles n' now])
    end.
(** cbResizeParticle, 1019-1025 *)
Definition cbResizeParticle (n : node) (size : nat) (srt : sorter) (now : R) : outcome (node * list output) :=
  do f <- of_option (PfModel.resize RA state0 (sorted_dup srt (n_pf n)) size (n_pf n));
  let n' := set_pf n f in Ok (n', [publishParticles n' now; OService REmpty]).
(** 809-815, 929-935 and 856-862, 1028-1034: the noise of the i-th call of the generator *)
Definition resample_noise (z : nat -> stream) (i : nat) : state := diag_noise state0 (sigma_of (resample_var p)) (z i).
Definition expansion_noise (z : nat -> stream) (i : nat) : state := diag_noise state0 (sigma_of (expansion_var p)) (z i).
(** cbExpansionReset, 1026-1038: the answer keeps its initial values *)
Definition cbExpansionReset (n : node) (z : nat -> stream) (now : R) : outcome (node * list output) :=
  let n' := set_pf n (PfModel.add_noise RA splus (expansion_noise z) (n_pf n)) in
  Ok (n', [publishParticles n' now; OService (RTrigger false MEmpty)]).

(** cbGlobalLocalization, 1039-1099 *)
Definition raised (q : lpt) : pt := {| px := vx (p3 q); py := vy (p3 q); pz := vz (p3 q) + (1 / 100 + glob_grid p) |}.
(** 1062-1074; [hits]: the search (at most one result) in the tree of the cells *)
Fixpoint keep_floor (hits : pt -> R -> list (nat * R)) (pts : list lpt) : list lpt :=
  match pts with
  | [] => []
  | q :: t => match hits (raised q) (glob_grid p) with
              | [] => q :: keep_floor hits t
              | _ :: _ => keep_floor hits t
              end
  end.
(** 1089 *)
Definition heading (iq : quat) (cnt dir : Z) : quat :=
  qnormalized (qmul (setRPY (V3 0 0 (2 * PI * IZR cnt / IZR dir))) iq).
(** 1082-1095: the remaining particles, cells and counter; a particle without a cell fails
    the assertion in 1084 *)
Fixpoint fill (iq : quat) (prob : R) (dir : Z) (ps : list (PfModel.particle RA state)) (pts : list lpt) (cnt : Z)
  : option (list (PfModel.particle RA state)) :=
  match ps with
  | [] => Some []
  | q :: ps' =>
      match pts with
      | [] => None
      | c :: cs =>
          let q' := {| PfModel.st := state_pr (p3 c) (heading iq cnt dir); PfModel.w := (prob : RA); PfModel.bias := (1 : RA);
                       PfModel.acc := PfModel.acc RA q |} in
          let '(pts', cnt') := if (dir <=? cnt + 1)%Z then (cs, 0%Z) else (pts, (cnt + 1)%Z) in
          option_map (cons q') (fill iq prob dir ps' pts' cnt')
      end
  end.
(** the number requested in 1077: size_t times int *)
Definition glob_num (cells : nat) : nat := Z.to_nat ((Z.of_nat cells * glob_div_yaw p) mod 2 ^ 64).
(** [hits c]: the k-d tree of the points [c] (1057-1059) *)
Definition cbGlobalLocalization (n : node) (hits : list pt -> pt -> R -> list (nat * R)) (srt : sorter) : outcome (node * list output) :=
  if has_map (n_map n) then
    do c <- get_obj (n_map n) (pc_map (n_map n));
    let cells := voxel (glob_grid p, glob_grid p, glob_grid p) (cl_pts c) in
    let pts := keep_floor (hits (to_pts cells)) cells in
    do f <- of_option (PfModel.resize RA state0 (sorted_dup srt (n_pf n)) (glob_num (length pts)) (n_pf n));
    do ps <- of_option (fill (imu_quat (n_imu n)) (1 / INR (length pts)) (glob_div_yaw p) (PfModel.parts RA f) pts 0);
    Ok (set_pf n {| PfModel.parts := ps; PfModel.entropy := PfModel.entropy RA f |}, [OService (RTrigger true (MParticles (length ps)))])
  else Ok (n, [OService (RTrigger false MNoMap)]).

(** ** Odometry and IMU *)
(** cbOdom up to line 235; the flag says whether line 236 is reached *)
Definition odom_apply (n : node) (stamp : R) (pose : state) : node * bool :=
  let s := n_odom n in
  if negb (has_odom s) then
    (set_odom n {| odom := pose; odom_prev := pose; odom_last := stamp; has_odom := true |}, false)
  else
    let dt := stamp - odom_last s in
    if Rltb dt 0 || Rltb 5 dt then
      (set_odom n {| odom := pose; odom_prev := odom_prev s; odom_last := odom_last s; has_odom := false |}, false)
    else if Rltb (5 / 100) dt then
      let mm := setOdoms (integ_lin_tc p) (integ_ang_tc p) (odom_prev s) pose dt in
      (set_pf (set_odom n {| odom := pose; odom_prev := pose; odom_last := stamp; has_odom := true |})
              (PfModel.predict RA (fun _ => motion_predict mm) (n_pf n)), true)
    else (set_odom n {| odom := pose; odom_prev := odom_prev s; odom_last := odom_last s; has_odom := true |}, true).
(** cbImu up to line 1005; [tf]: rotation of base_link <- IMU frame; the flag says whether
    line 1006 is reached *)
Definition imu_rotated (tfr orient : quat) : quat :=
  let '(ax, an) := getAxisAng orient in setAxisAng (qrot tfr ax) an.
Definition imu_apply (n : node) (stamp : R) (acc : vec3) (orient : quat) (tf : option quat) : node * bool :=
  let s := n_imu n in
  let f := FilterModel.input3 (f_acc s) (tup acc) in
  if negb (has_imu s) then
    (set_imu n {| imu_last := stamp; has_imu := true; f_acc := FilterModel.set3 f (0, 0, 0); imu_quat := imu_quat s |}, false)
  else
    let dt := stamp - imu_last s in
    if Rltb dt 0 || Rltb 5 dt then
      (set_imu n {| imu_last := imu_last s; has_imu := false; f_acc := f; imu_quat := imu_quat s |}, false)
    else if Rltb (5 / 100) dt then
      match tf with
      | None => (set_imu n {| imu_last := imu_last s; has_imu := true; f_acc := f; imu_quat := imu_quat s |}, false)
      | Some tfr =>
          let am := qrot tfr (vnormalized (v3 (FilterModel.v_out f))) in
          let g := gravity_set (gravity_new (acc_var p)) am in
          (set_pf (set_imu n {| imu_last := stamp; has_imu := true; f_acc := f; imu_quat := imu_rotated tfr orient |})
                  (PfModel.measure RA (fun _ s => gravity_measure g s) (n_pf n)), true)
      end
    else (set_imu n {| imu_last := imu_last s; has_imu := true; f_acc := f; imu_quat := imu_quat s |}, false).
(** 973-975: the rotation of base_link <- [frame], at the latest time *)
Definition imu_tf (lk : tf_buffer) (frame : string) : option quat := option_map snd (lk (frame_base p) frame 0).
(** cbOdom, 200-247, and cbImu, 941-1018; with both flags the two functions would call each
    other for ever (load() refuses that).  The faked IMU message has the header of the odometry
    message (240). *)
Definition cbOdom (n : node) (frame : string) (stamp : R) (pose : state) (lk : tf_buffer) : outcome (node * list output) :=
  let '(n1, go) := odom_apply n stamp pose in
  if go && fake_imu p then
    let '(n2, go2) := imu_apply n1 stamp (qrot (rot pose) (V3 0 0 1)) (rot pose) (imu_tf lk frame) in
    if go2 && fake_odom p then Undef else Ok (n2, [])
  else Ok (n1, []).
Definition cbImu (n : node) (frame : string) (stamp : R) (acc : vec3) (orient : quat) (lk : tf_buffer) : outcome (node * list output) :=
  let '(n1, go) := imu_apply n stamp acc orient (imu_tf lk frame) in
  if go && fake_odom p then
    let '(n2, go2) := odom_apply n1 stamp (state_pr v0 (imu_quat (n_imu n1))) in
    if go2 && fake_imu p then Undef else Ok (n2, [])
  else Ok (n1, []).

(** cbLandmark, 899-940; [inverse]: Eigen's inverse().  The header of the message is not used. *)
Definition diff6 (measured s : state) : list R :=
  let d := sminus s measured in let v := getRPY (rot d) in
  [vx (pos d); vy (pos d); vz (pos d); vx v; vy v; vz v].
Definition cbLandmark (n : node) (m : pose_msg) (inverse : mat -> mat) (srt : sorter) (offset : R) (z : nat -> stream) (now : R)
  : outcome (node * list output) :=
  let measured := state_pr (pm_pos m) (pm_rot m) in
  let f1 := PfModel.measure RA (fun _ s => landmark_like (pm_cov m) inverse (diff6 measured s)) (n_pf n) in
  do f2 <- of_option (PfModel.resample RA splus normalize (offset : RA) (resample_noise z) (sorted_dup srt f1) f1);
  let n' := set_pf n f2 in Ok (n', [publishParticles n' now]).

(** ** measure(), 304-898 *)
(** What the outside world contributes to one call *)
Record menv := {
  e_lookup : tf_buffer;                     (* 321-324 *)
  e_lookup5 : tf_buffer5;                   (* 348-349 *)
  e_stat_shuffle : list nat -> list nat;    (* 373: std::shuffle of covariance() *)
  e_beam : list lpt -> N -> list lpt;       (* 382: the sampler *)
  e_like : list lpt -> N -> list lpt;
  e_search : pt -> R -> search;             (* radiusSearch of the chunked kd-tree with limit 1 *)
  e_fuel : nat;
  e_now : R;                                (* ros::Time::now() *)
  e_shuffle : list nat -> list nat;         (* 706: std::shuffle of covariance() *)
  e_subs : bool * bool;                     (* 763: subscribers of matched / unmatched *)
  e_sort : sorter; e_offset : R; e_noise : nat -> stream;      (* 809: resample *)
  e_noise4 : nat -> R * R * R * R;          (* 820-823: normal draws *)
  e_expand : nat -> stream;                 (* 856: noise *)
  e_sort2 : sorter }.                       (* 880/884: resizeParticle *)

(** static_cast<size_t>(params_.skip_measure_) *)
Definition skip_size : Z := Z.modulo (skip_measure p) (2 ^ 64).
Definition np : Z := num_particles p.
Definition psize (n : node) : nat := length (PfModel.parts RA (n_pf n)).
Definition too_many (n : node) : bool := (np <? Z.of_nat (psize n))%Z.
(** 306-310: [None]: division by zero; the flag says whether to go on *)
Definition gate (n : node) : outcome (node * bool) :=
  let o := n_out n in
  let c := Z.modulo (cnt_measure o + 1) (2 ^ 64) in
  if (skip_size =? 0)%Z then Undef
  else Ok (set_out n {| f_pos := f_pos o; f_ang := f_ang o; rate := rate o; localized_last := localized_last o; tf_base := tf_base o;
                        match_last := match_last o; state_prev := state_prev o; cnt_measure := c; fix_cnt := fix_cnt o; stat := stat o |},
           (c mod skip_size =? 0)%Z).
(** 336 *)
Definition to_base (tf : vec3 * quat) (pc : list lpt) : list lpt :=
  map (fun q => {| p3 := tf_point tf (p3 q); lab := lab q |}) pc.
(** 321-324: base_link <- frame of the accumulated cloud (set in 270) at the time of the last cloud *)
Definition base_tf (e : menv) (h : header) : option (vec3 * quat) := e_lookup e (frame_base p) (frame_odom p) (h_stamp h).
(** 348-352: the origin of a sensor, from where it was to where the robot is at the last cloud *)
Definition origin_of (e : menv) (last h : header) : option vec3 :=
  option_map fst (e_lookup5 e (frame_base p) (h_stamp last) (h_frame h) (h_stamp h) (frame_odom p)).
(** 343-359 *)
Fixpoint get_origins (f : header -> option vec3) (hs : list header) : option (list vec3) :=
  match hs with
  | [] => Some []
  | h :: t => match f h with
              | None => None
              | Some v => option_map (cons v) (get_origins f t)
              end
  end.
(** 312-359: the transformed cloud is stored; the rest only continues with all origins *)
Definition prepare (n : node) (e : menv) : outcome (node * option (header * list lpt * list vec3)) :=
  match rev (headers (n_acc n)) with
  | [] => Ok (n, None)
  | h :: _ =>
      match local (n_acc n) with
      | None => Null
      | Some pc =>
          match base_tf e h with
          | None => Ok (n, None)
          | Some tf =>
              let pc' := to_base tf pc in
              let n' := set_acc n {| ac := ac (n_acc n); local := Some pc'; headers := headers (n_acc n) |} in
              match get_origins (origin_of e h) (headers (n_acc n)) with
              | None => Ok (n', None)
              | Some os => Ok (n', Some (h, pc', os))
              end
          end
      end
  end.
(** state_6dof.h:162-184 as a total function (its loops run at most once: property C88) *)
Definition cov_el (s e : state) (j k : nat) : RA := match covElement 1 s e j k with Some x => x | None => 0 end.
(** 372, 706-709: std::max(0.1f, num_particles / size) *)
Definition cov_ratio (n : node) : R := Rmax (1 / 10) (IZR np / INR (psize n)).
Definition pf_cov (n : node) (shuffle : list nat -> list nat) : outcome (nat -> nat -> R) :=
  of_option (PfModel.covariance RA pose_mean cov_el 6 (1 : RA) (cov_ratio n : RA) shuffle (n_pf n)).
(** 369-375 *)
Definition statistics (n : node) (e : menv) : outcome unit :=
  if use_sampler_normal p then
    do _ <- of_option (PfModel.expectation RA pose_mean (1 : RA) (n_pf n));
    do _ <- pf_cov n (e_stat_shuffle e); Ok tt
  else Ok tt.
(** 377-383: budgets and filtered clouds (beam, likelihood) *)
Definition filters (n : node) (e : menv) (full : list lpt) : node * list lpt * list lpt :=
  let b := beam_set_global (l_beam (n_lid n)) (Z.to_N (np mod 2 ^ 64)) (N.of_nat (psize n)) in
  let l := like_set_global (l_like (n_lid n)) (Z.to_N (np mod 2 ^ 64)) (N.of_nat (psize n)) in
  let bp := fst (beam_filter b (fun pc k (_ : unit) => (e_beam e pc k, tt)) full tt) in
  let lp := fst (like_filter l (fun pc k (_ : unit) => (e_like e pc k, tt)) full tt) in
  (set_lid n {| l_beam := b; l_like := l; l_rc := l_rc (n_lid n) |}, bp, lp).
(** the map as the ray caster sees it *)
Definition map_cloud (n : node) : outcome cloud := get_obj (n_map n) (kd_ptr (n_map n)).
(** 409-415 for all particles in order; the ray caster keeps its state *)
Fixpoint lidar_all (b : beam) (l : like) (rc : raycaster S) (e : menv) (os : list vec3) (bp lp : list lpt) (ss : list state) (s : S)
  : outcome (S * list (R * R)) :=
  match ss with
  | [] => Ok (s, [])
  | x :: t =>
      do (s1, rb) <- of_run (beam_measure b rc (e_fuel e) s (Some bp) os x);
      do rl <- of_option (like_measure l (e_search e) (Some lp) x);
      do (s2, rest) <- lidar_all b l rc e os bp lp t s1;
      Ok (s2, (1 * fst rb * fst rl, snd rl) :: rest)
  end.
(** 398-399, 416-419 *)
Definition match_max (qs : list R) : R := fold_left (fun m q => if Rltb m q then q else m) qs 0.
Definition match_min (qs : list R) : R := fold_left (fun m q => if Rltb q m then q else m) qs 1.
(** 442-446 *)
Definition bias_of (prev s : state) : R :=
  nd_eval (nd_new (bias_var_dist p)) (vnorm (vsub (pos s) (pos prev)))
  * nd_eval (nd_new (bias_var_ang p)) (snd (getAxisAng (qmul (rot s) (inv (rot prev))))) + 1 / 1000000.
(** 397-462: particle weights, estimate *)
Definition estimate (n : node) (e : menv) (os : list vec3) (bp lp : list lpt) : outcome (node * state * R) :=
  do mc <- map_cloud n;
  let rc := caster mc (e_search e) in
  do (s1, res) <- lidar_all (l_beam (n_lid n)) (l_like (n_lid n)) rc e os bp lp (map (PfModel.st RA) (PfModel.parts RA (n_pf n))) (l_rc (n_lid n));
  let nd := nd_new (integ_lin_sigma p) in
  let f1 := PfModel.measure RA (fun i s => fst (nth i res (0, 0)) * nd_eval nd (vnorm (err_lin s))) (n_pf n) in
  let f2 := if too_many n then PfModel.do_bias RA (fun _ _ _ => (1 : RA)) f1
            else PfModel.do_bias RA (fun _ s _ => (bias_of (state_prev (n_out n)) s : RA)) f1 in
  do est <- of_option (PfModel.expectation_biased RA pose_mean f2);
  do _ <- of_option (PfModel.max RA f2);
  let est' := normalize est in
  (* 464-596: the ray casts of the markers *)
  do (s2, _) <- of_run (beam_points (l_beam (n_lid n)) rc os est' (e_fuel e) (transform est' bp) s1 1);
  Ok (set_lid (set_pf n f2) {| l_beam := l_beam (n_lid n); l_like := l_like (n_lid n); l_rc := s2 |}, est', match_max (map snd res)).
(** 632-633 *)
Definition map_odom (est od : state) : vec3 * quat :=
  (vsub (pos est) (qrot (qmul (rot est) (inv (rot od))) (pos od)), qmul (rot est) (inv (rot od))).
(** 635-661: jump detection *)
Definition far_off (prev est : state) : bool :=
  Rltb (jump_dist p) (vnorm (vsub (pos est) (pos prev)))
  || Rltb (jump_ang p) (Rabs (snd (getAxisAng (qmul (inv (rot est)) (rot prev))))).
Definition jumped (n : node) (est : state) : bool :=
  if too_many n then true else far_off (state_prev (n_out n)) est.
Definition after_jump (n : node) (est : state) : node :=
  let n1 := if negb (too_many n) && far_off (state_prev (n_out n)) est
            then set_pf n (PfModel.predict RA (fun _ => reset_err) (n_pf n)) else n in
  let o := n_out n1 in
  set_out n1 {| f_pos := f_pos o; f_ang := f_ang o; rate := rate o; localized_last := localized_last o; tf_base := tf_base o;
                match_last := match_last o; state_prev := est; cnt_measure := cnt_measure o; fix_cnt := fix_cnt o; stat := stat o |}.
(** 630-702: the filtered transform and the pose that follows from it *)
Definition publish_tf_step (n : node) (e : menv) (est : state) : node * state * list output :=
  let od := odom (n_odom n) in
  let '(mp, mr) := map_odom est od in
  let jump := jumped n est in
  let n1 := after_jump n est in
  let o := n_out n1 in
  let stamp := (if has_odom (n_odom n) then odom_last (n_odom n) else e_now e) + tf_base o + tf_tolerance p in
  let rpy := getRPY mr in
  let fa0 := if jump then FilterModel.set3 (f_ang o) (tup rpy) else f_ang o in
  let fp0 := if jump then FilterModel.set3 (f_pos o) (tup mp) else f_pos o in
  let fa := FilterModel.input3 fa0 (tup rpy) in
  let fp := FilterModel.input3 fp0 (tup mp) in
  let mr' := setRPY (v3 (FilterModel.v_out fa)) in
  let mp' := v3 (FilterModel.v_out fp) in
  let est' := {| pos := vadd mp' (qrot mr' (pos od)); rot := qmul mr' (rot od); diff := diff est; noise_ll := noise_ll est;
                 noise_la := noise_la est; noise_al := noise_al est; noise_aa := noise_aa est; err_lin := err_lin est;
                 err_ang := err_ang est; StateModel.rpy := StateModel.rpy est |} in
  let n2 := set_out n1 {| f_pos := fp; f_ang := fa; rate := rate o; localized_last := localized_last o; tf_base := tf_base o;
                          match_last := match_last o; state_prev := state_prev o; cnt_measure := cnt_measure o; fix_cnt := fix_cnt o; stat := stat o |} in
  (n2, est', if publish_tf p then [OTf stamp (mp', mr') (vz (pos est'))] else []).
(** 727-751 *)
Definition std_xy (c : nat -> nat -> R) : R := sqrt (c 0%nat 0%nat + c 1%nat 1%nat).
Definition conv_status (fixc : nat) (c : nat -> nat -> R) (s : conv_kind) : conv_kind :=
  let '(txy, tz, tyaw) := std_warn p in
  let s1 := if (fixc =? 0)%nat
            then if Rltb txy (std_xy c) || Rltb tz (sqrt (c 2%nat 2%nat)) || Rltb tyaw (sqrt (c 5%nat 5%nat))
                 then LARGE_STD_VALUE else s
            else s in
  match s1 with
  | LARGE_STD_VALUE => LARGE_STD_VALUE
  | _ => let fix_a := sqrt (c 3%nat 3%nat + c 4%nat 4%nat + c 5%nat 5%nat) in
         let fix_d := sqrt (c 0%nat 0%nat + c 1%nat 1%nat + c 2%nat 2%nat) in
         if Rltb fix_d (fix_dist p) && Rltb (Rabs fix_a) (fix_ang p) then CONVERGED else s1
  end.
Definition with_conv (n : node) (c : conv_kind) : node :=
  let s := stat (n_out n) in
  set_stat n {| s_status := s_status s; s_error := s_error s; s_conv := c; s_match := s_match s; s_size := s_size s; s_entropy := s_entropy s |}.
Definition with_status (n : node) (k : st_kind) : node :=
  let s := stat (n_out n) in
  set_stat n {| s_status := k; s_error := s_error s; s_conv := s_conv s; s_match := s_match s; s_size := s_size s; s_entropy := s_entropy s |}.
(** 753-759 *)
Definition collect_pcd (n : node) (est : state) (lp : list lpt) : outcome node :=
  if output_pcd p then
    match pc_all (n_map n) with
    | None => Null
    | Some l => let m := n_map n in
        Ok (set_map n {| heap := heap m; pc_map := pc_map m; pc_map2 := pc_map2 m; pc_update := pc_update m; kd_ptr := kd_ptr m;
                         kd := kd m; has_map := has_map m; pc_all := Some (l ++ transform est lp) |})
    end
  else Ok n.
(** 775-788: matched and unmatched points *)
Fixpoint match_points (f : pt -> R -> search) (pts : list lpt) : outcome (list vec3 * list vec3) :=
  match pts with
  | [] => Ok ([], [])
  | q :: t =>
      do (m, u) <- match_points f t;
      match f (to_pt (p3 q)) (unmatch_output_dist p) with
      | Throws => Undef
      | NoChunk | Found [] => Ok (m, p3 q :: u)
      | Found ((_, sq) :: _) => if Rltb sq (match_output_dist p * match_output_dist p) then Ok (p3 q :: m, u) else Ok (m, u)
      end
  end.
(** 761-805 *)
Definition match_output (n : node) (e : menv) (h : header) (est : state) (full : list lpt) : outcome (node * list output) :=
  let o := n_out n in
  if (Rltb (match_last o + match_output_interval p) (h_stamp h) || Rltb (h_stamp h + 1) (match_last o))
     && (fst (e_subs e) || snd (e_subs e)) then
    do (m, u) <- match_points (e_search e) (transform est full);
    Ok (set_out n {| f_pos := f_pos o; f_ang := f_ang o; rate := rate o; localized_last := localized_last o; tf_base := tf_base o;
                     match_last := h_stamp h; state_prev := state_prev o; cnt_measure := cnt_measure o; fix_cnt := fix_cnt o; stat := stat o |},
        [OMatched m u])
  else Ok (n, []).
(** 817-825 *)
Definition update_noise (z : nat -> R * R * R * R) (i : nat) (s : state) : state :=
  let '(ll, la, aa, al) := z i in
  {| pos := pos s; rot := rot s; diff := diff s; noise_ll := ll * odom_err_ll p; noise_la := la * odom_err_la p;
     noise_al := al * odom_err_al p; noise_aa := aa * odom_err_aa p; err_lin := err_lin s; err_ang := err_ang s; rpy := rpy s |}.
(** 853-864 *)
Definition expansion (n : node) (e : menv) (ratio : R) : node :=
  if Rltb ratio (match_ratio_thresh p)
  then with_status (set_pf n (PfModel.add_noise RA splus (expansion_noise (e_expand e)) (n_pf n))) EXPANSION_RESETTING else n.
(** 866-873 *)
Definition clock_step (n : node) (now : R) : node :=
  let o := n_out n in
  let dt := now - localized_last o in
  let dt' := if Rltb 1 dt then 1 else if Rltb dt 0 then 0 else dt in
  let r := FilterModel.input (rate o) dt' in
  set_out n {| f_pos := f_pos o; f_ang := f_ang o; rate := r; localized_last := now; tf_base := FilterModel.out r;
               match_last := match_last o; state_prev := state_prev o; cnt_measure := cnt_measure o; fix_cnt := fix_cnt o; stat := stat o |}.
(** 877: int reduced = size * 0.75 *)
Definition reduced (n : nat) : Z := Rtrunc (INR n * (3 / 4)).
Definition shrunk (n : nat) : Z := if (np <? reduced n)%Z then reduced n else np.
(** 887 *)
Definition fix_steps : nat := Z.to_nat (Rtrunc (1 + IZR (Rceil (lpf_step p)) * 3)).
Definition with_fix (n : node) (k : nat) : node :=
  let o := n_out n in
  set_out n {| f_pos := f_pos o; f_ang := f_ang o; rate := rate o; localized_last := localized_last o; tf_base := tf_base o;
               match_last := match_last o; state_prev := state_prev o; cnt_measure := cnt_measure o; fix_cnt := k; stat := stat o |}.
(** 875-893 *)
Definition shrink_step (n : node) (e : menv) : outcome node :=
  do n1 <- (if too_many n then
              do f <- of_option (PfModel.resize RA state0 (sorted_dup (e_sort2 e) (n_pf n)) (Z.to_nat (shrunk (psize n))) (n_pf n));
              Ok (with_fix (set_pf n f) fix_steps)
            else Ok n);
  match fix_cnt (n_out n1) with
  | O => Ok n1
  | Datatypes.S k => Ok (with_status (with_fix n1 k) GLOBAL_LOCALIZATION)
  end.
(** 895-896 *)
Definition final_status (n : node) (ratio : R) : node :=
  let s := stat (n_out n) in
  set_stat n {| s_status := s_status s; s_error := s_error s; s_conv := s_conv s; s_match := ratio; s_size := psize n; s_entropy := s_entropy s |}.
(** 385-391 *)
Definition points_lost (n : node) : node :=
  let s := stat (n_out n) in
  set_stat n {| s_status := s_status s; s_error := ERROR_POINTS_NOT_FOUND; s_conv := s_conv s; s_match := s_match s; s_size := s_size s; s_entropy := s_entropy s |}.
(** 392-898: everything after the points were found *)
Definition localize (n : node) (e : menv) (h : header) (os : list vec3) (full bp lp : list lpt) : outcome (node * list output) :=
  do (n1, est, ratio) <- estimate n e os bp lp;
  let '(n2, est', o1) := publish_tf_step n1 e est in
  do c <- pf_cov n2 (e_shuffle e);
  let n3 := with_conv n2 (conv_status (fix_cnt (n_out n2)) c (s_conv (stat (n_out n2)))) in
  do n4 <- collect_pcd n3 est' lp;
  do (n5, o2) <- match_output n4 e h est' full;
  let o3 := publishParticles n5 (e_now e) in
  do f <- of_option (PfModel.resample RA splus normalize (e_offset e : RA) (resample_noise (e_noise e)) (sorted_dup (e_sort e) (n_pf n5)) (n_pf n5));
  let n6 := set_pf n5 (PfModel.predict RA (update_noise (e_noise4 e)) f) in
  let n7 := clock_step (expansion n6 e ratio) (e_now e) in
  do n8 <- shrink_step n7 e;
  let '(n9, o4) := force_update (final_status n8 ratio) in
  Ok (n9, o1 ++ [OPose (h_stamp h) (pos est', rot est') c] ++ o2 ++ [o3; o4]).
Definition measure (n : node) (e : menv) : outcome (node * list output) :=
  do (n0, go) <- gate n;
  if negb go then Ok (n0, [])
  else
    do (n1, ready) <- prepare n0 e;
    match ready with
    | None => Ok (n1, [])
    | Some (h, pc, os) =>
        let full := voxel (ds_x p, ds_y p, ds_z p) pc in
        do _ <- statistics n1 e;
        let '(n2, bp, lp) := filters n1 e full in
        match lp with
        | [] => let '(n3, o) := force_update (points_lost n2) in Ok (n3, [o])
        | _ :: _ => localize n2 e h os full bp lp
        end
    end.

(** ** Clouds *)
(** a cloud message: frame, stamp, its points ([None]: it cannot be converted), and the
    transforms available when it is accumulated *)
Record cloud_msg := { cm_frame : string; cm_stamp : R; cm_conv : option (list vec3); cm_lookup : tf_buffer }.
(** 276-294: the points in the odometry frame ([None]: the transform or the conversion failed;
    converting and transforming commute) *)
Definition cm_pts (m : cloud_msg) : option (list vec3) :=
  match cm_lookup m (frame_odom p) (cm_frame m) (cm_stamp m) with
  | None => None
  | Some tf => option_map (map (tf_point tf)) (cm_conv m)
  end.
(** accumCloud, 274-302 *)
Definition accumCloud (n : node) (m : cloud_msg) : outcome (node * bool) :=
  match cm_pts m with
  | None => Ok (n, false)
  | Some pts =>
      let a := n_acc n in
      match local a with
      | None => Null
      | Some l =>
          Ok (set_acc n {| ac := ac a; local := Some (l ++ map (fun v => {| p3 := v; lab := length (headers a) |}) pts);
                           headers := headers a ++ [{| h_frame := cm_frame m; h_stamp := cm_stamp m |}] |}, true)
      end
  end.
(** the callbacks of the accumulation logic, 259-264 *)
Definition callback (e : menv) (n : node) (c : AccumModel.call cloud_msg) : outcome (node * list output) :=
  match c with
  | AccumModel.Process => measure n e
  | AccumModel.Accumulate m _ => do (n', _) <- accumCloud n m; Ok (n', [])
  | AccumModel.Clear => Ok (set_acc n (accumClear (n_acc n)), [])
  end.
Fixpoint callbacks (e : menv) (n : node) (cs : list (AccumModel.call cloud_msg)) : outcome (node * list output) :=
  match cs with
  | [] => Ok (n, [])
  | c :: t => do (n1, o1) <- callback e n c; do (n2, o2) <- callbacks e n1 t; Ok (n2, o1 ++ o2)
  end.
Definition acc_cfg : AccumModel.accum_cfg :=
  {| AccumModel.accum := Z.to_nat (accum_cloud p mod 2 ^ 64); AccumModel.accum_max := Z.to_nat (total_accum_max p mod 2 ^ 64) |}.
(** push, cloud_accum.cpp:41-119; the members of the logic are not used by the callbacks *)
Definition push_calls (a : AccumModel.accum_st) (m : cloud_msg) : outcome (AccumModel.accum_st * list (AccumModel.call cloud_msg)) :=
  let ok := match cm_pts m with Some _ => true | None => false end in
  if (accum_cloud p =? 0)%Z then Ok (a, AccumModel.push_pass m ok)
  else of_option (AccumModel.push acc_cfg (cm_frame m) m ok a).
(** cbCloud, 248-265 *)
Definition cbCloud (n : node) (m : cloud_msg) (e : menv) : outcome (node * list output) :=
  let n0 := set_stat n status0 in
  if has_map (n_map n) then
    do (a, cs) <- push_calls (ac (n_acc n0)) m;
    do (n1, o) <- callbacks e n0 cs;
    Ok (set_acc n1 {| ac := a; local := local (n_acc n1); headers := headers (n_acc n1) |}, o)
  else Ok (n0, []).

(** ** Events *)
Inductive event :=
| EMap (conv : option (list lpt)) (stamp now : Z)
| ELoadPcd (file : option (list lpt)) (now : Z)
| EUpdate (conv : option (list lpt))
| ETimer (now : Z)
| EPosition (m : pose_msg) (lk : tf_buffer) (solver : mat -> mat * vec) (z : nat -> stream) (now : R)
| EOdom (frame : string) (stamp : R) (pose : state) (lk : tf_buffer)
| EImu (frame : string) (stamp : R) (acc : vec3) (orient : quat) (lk : tf_buffer)
| ECloud (m : cloud_msg) (e : menv)
| ELandmark (m : pose_msg) (inverse : mat -> mat) (srt : sorter) (offset : R) (z : nat -> stream) (now : R)
| EResize (size : nat) (srt : sorter) (now : R)
| EExpansion (z : nat -> stream) (now : R)
| EGlobal (hits : list pt -> pt -> R -> list (nat * R)) (srt : sorter).
Definition step (n : node) (ev : event) : outcome (node * list output) :=
  match ev with
  | EMap c s t => cbMapcloud n c s t
  | ELoadPcd f t => cbLoadPCD n f t
  | EUpdate c => cbMapcloudUpdate n c
  | ETimer t => cbMapUpdateTimer n t
  | EPosition m lk sv z now => cbPosition n m lk sv z now
  | EOdom f s x lk => cbOdom n f s x lk
  | EImu f s a o lk => cbImu n f s a o lk
  | ECloud m e => cbCloud n m e
  | ELandmark m i d o z t => cbLandmark n m i d o z t
  | EResize k d t => cbResizeParticle n k d t
  | EExpansion z t => cbExpansionReset n z t
  | EGlobal h d => cbGlobalLocalization n h d
  end.
Fixpoint steps (n : node) (evs : list event) : outcome (node * list output) :=
  match evs with
  | [] => Ok (n, [])
  | e :: t => do (n1, o1) <- step n e; do (n2, o2) <- steps n1 t; Ok (n2, o1 ++ o2)
  end.
End Node.
