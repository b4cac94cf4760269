(** Model of the ROS interface of the node: the first half of MCL3dlNode::configure()
    (/repo/src/mcl_3dl.cpp:1204-1268), main (1457-1469) and the helpers of
    /repo/include/mcl_3dl_compat/compatibility.h:46-198.
    Simplifications: a node handle is the namespace it prefixes names with; remapping of
    names is left out (roscpp applies it to every name alike); logging is left out. *)
From Coq Require Import String.
From Coq Require Import Reals ZArith NArith List Bool.
From Verif Require Import Arith KdModel QuatModel StateModel LidarModel ParamModel.
Import ListNotations.
Open Scope string_scope.
Open Scope list_scope.

(** the member functions that are registered as callbacks *)
Inductive callback := CbOdom | CbImu | CbCloud | CbMapcloud | CbMapcloudUpdate | CbPosition | CbLandmark.
Inductive service := SvResize | SvGlobal | SvExpansion | SvLoadPcd.
(** the messages that are advertised *)
Inductive message := MsPose | MsParticles | MsMap | MsMarkers | MsStatus | MsMatched | MsUnmatched.
Record subscription := { sub_name : string; sub_queue : N; sub_cb : callback; sub_nodelay : bool }.
Record publication := { pub_name : string; pub_queue : N; pub_latch : bool; pub_msg : message }.
Record serving := { srv_name : string; srv_cb : service }.
Record interface := { subs : list subscription; pubs : list publication; srvs : list serving }.

(** a name in the namespace of a handle (ros::names::resolve for a relative name) *)
Definition in_ns (ns name : string) : string := ns ++ "/" ++ name.
(** conversion of the int queue size to the parameter of type uint32_t *)
Definition queue_u32 (n : Z) : N := Z.to_N (n mod 2 ^ 32).

Section Interface.
(** mcl_3dl.cpp:1381-1382, 1196: nh_ (namespace of the node) and pnh_ (the node's own name) *)
Variables (nh pnh : string) (s : server).
(** compatibility.h:99-150 (both overloads are the same) *)
Definition subscribe (new old : string) (queue : Z) (cb : callback) (nodelay : bool) : subscription :=
  {| sub_name := compat_name s (in_ns nh new) (in_ns pnh old); sub_queue := queue_u32 queue; sub_cb := cb; sub_nodelay := nodelay |}.
(** compatibility.h:175-198 *)
Definition advertiseService (new old : string) (cb : service) : serving :=
  {| srv_name := compat_name s (in_ns nh new) (in_ns pnh old); srv_cb := cb |}.
(** ros::NodeHandle::advertise *)
Definition advertise (ns name : string) (queue : N) (latch : bool) (m : message) : publication :=
  {| pub_name := in_ns ns name; pub_queue := queue; pub_latch := latch; pub_msg := m |}.
(** mcl_3dl.cpp:1214-1268 *)
Definition register (p : params) : interface :=
  {| subs :=
       (if negb (fake_odom p) then [subscribe "odom" "odom" (param to_int s "odom_queue_size" 200%Z) CbOdom true] else [])
       ++ (if negb (fake_imu p) then [subscribe "imu/data" "imu" (param to_int s "imu_queue_size" 200%Z) CbImu true] else [])
       ++ [subscribe "cloud" "cloud" (param to_int s "cloud_queue_size" 100%Z) CbCloud false;
           subscribe "mapcloud" "mapcloud" 1 CbMapcloud false;
           subscribe "mapcloud_update" "mapcloud_update" 1 CbMapcloudUpdate false;
           subscribe "initialpose" "initialpose" 1 CbPosition false;
           subscribe "mcl_measurement" "landmark" 1 CbLandmark false];
     pubs :=
       [advertise nh "amcl_pose" 5 false MsPose; advertise pnh "particles" 1 true MsParticles;
        advertise pnh "updated_map" 1 true MsMap; advertise pnh "debug_marker" 1 true MsMarkers;
        advertise pnh "status" 1 true MsStatus; advertise pnh "matched" 2 true MsMatched;
        advertise pnh "unmatched" 2 true MsUnmatched];
     srvs :=
       [advertiseService "resize_mcl_particle" "resize_particle" SvResize;
        advertiseService "global_localization" "global_localization" SvGlobal;
        advertiseService "expansion_resetting" "expansion_resetting" SvExpansion;
        {| srv_name := in_ns nh "load_pcd"; srv_cb := SvLoadPcd |}] |}.
End Interface.

(** mcl_3dl.cpp:1204-1268: an exception, false, or the interface and the parameters *)
Inductive startup := Throws | Fails | Runs (p : params) (i : interface).
Definition configure_ros (rf : R -> R) (junk : R) (cfg : R * R * R) (nh pnh : string) (s : server) : startup :=
  match checkCompatMode s with
  | Obsolete | Futuredated => Throws
  | Deprecated | Current =>
      match load rf junk cfg s with
      | None => Fails
      | Some (p, s') => Runs p (register nh pnh s' p)
      end
  end.
(** mcl_3dl.cpp:1457-1469: the exit status; [None]: an uncaught exception *)
Definition main_status (r : startup) : option Z :=
  match r with Throws => None | Fails => Some 1%Z | Runs _ _ => Some 0%Z end.
