(** Model of the parameters that can be changed while the node runs:
    /repo/src/parameters.cpp:313-325, /repo/cfg/MCL3DLParams.cfg:9-35, and of the functions of the
    dynamic_reconfigure library that are called there (an external library, modelled by its
    documented behaviour: the defaults of the .cfg file, overwritten by the values on the
    parameter server, clamped, are given to the callback once; a request overwrites the values
    it names, the first entry of a name counts, the result is clamped and given to the callback).
    Simplifications: doubles are real numbers, the narrowing to float is a function [rf] as in
    ParamModel.v; the levels and groups of the library are not used by the node. *)
From Coq Require Import String.
From Coq Require Import Reals ZArith NArith List Bool.
From Verif Require Import Arith KdModel QuatModel StateModel RayModel LidarModel ParamModel NodeModel.
Import ListNotations.
Open Scope string_scope.
Open Scope R_scope.
Open Scope list_scope.

(** MCL3DLParams.cfg:9-35: three doubles *)
Record config := { c_xy : R; c_z : R; c_yaw : R }.
(** sys.float_info.max *)
Definition dbl_max : R := IZR ((2 ^ 53 - 1) * 2 ^ 971).
(** __getDefault__, MCL3DLParams.cfg:14, 23, 32 *)
Definition config_default : config := {| c_xy := dbl_max; c_z := dbl_max; c_yaw := dbl_max |}.
(** __clamp__, MCL3DLParams.cfg:15-16, 24-25, 33-34 *)
Definition clampd (x : R) : R := let y := if Rltb dbl_max x then dbl_max else x in if Rltb y 0 then 0 else y.
Definition config_clamp (c : config) : config := {| c_xy := clampd (c_xy c); c_z := clampd (c_z c); c_yaw := clampd (c_yaw c) |}.
(** __fromServer__ *)
Definition config_from_server (s : server) (c : config) : config :=
  {| c_xy := param to_double s "std_warn_thresh_xy" (c_xy c); c_z := param to_double s "std_warn_thresh_z" (c_z c);
     c_yaw := param to_double s "std_warn_thresh_yaw" (c_yaw c) |}.
(** the first callback, parameters.cpp:313-315 *)
Definition config_first (s : server) : config := config_clamp (config_from_server s config_default).
(** a request of the reconfigure service: names and values *)
Definition request := list (string * R).
Fixpoint msg_get (r : request) (k : string) (d : R) : R :=
  match r with [] => d | (k', x) :: t => if String.eqb k' k then x else msg_get t k d end.
(** __fromMessage__ *)
Definition config_from_msg (r : request) (c : config) : config :=
  {| c_xy := msg_get r "std_warn_thresh_xy" (c_xy c); c_z := msg_get r "std_warn_thresh_z" (c_z c);
     c_yaw := msg_get r "std_warn_thresh_yaw" (c_yaw c) |}.
(** Server::setConfigCallback *)
Definition reconfigure (c : config) (r : request) : config := config_clamp (config_from_msg r c).

(** parameters with other warning thresholds *)
Definition set_warn (p : params) (w : R * R * R) : params :=
  {| fake_imu := fake_imu p; fake_odom := fake_odom p; frame_map := frame_map p; frame_base := frame_base p;
     frame_odom := frame_odom p; frame_floor := frame_floor p; map_ds_x := map_ds_x p; map_ds_y := map_ds_y p;
     map_ds_z := map_ds_z p; ds_x := ds_x p; ds_y := ds_y p; ds_z := ds_z p; upd_ds_x := upd_ds_x p;
     upd_ds_y := upd_ds_y p; upd_ds_z := upd_ds_z p; map_grid_min := map_grid_min p; map_grid_max := map_grid_max p;
     map_update_interval := map_update_interval p; dist_weight := dist_weight p; glob_grid := glob_grid p;
     glob_div_yaw := glob_div_yaw p; num_particles := num_particles p; resample_var := resample_var p;
     expansion_var := expansion_var p; match_ratio_thresh := match_ratio_thresh p; odom_err_ll := odom_err_ll p;
     odom_err_la := odom_err_la p; odom_err_al := odom_err_al p; odom_err_aa := odom_err_aa p;
     integ_lin_tc := integ_lin_tc p; integ_lin_sigma := integ_lin_sigma p; integ_ang_tc := integ_ang_tc p;
     integ_ang_sigma := integ_ang_sigma p; lpf_step := lpf_step p; acc_lpf_step := acc_lpf_step p; acc_var := acc_var p;
     jump_dist := jump_dist p; jump_ang := jump_ang p; fix_dist := fix_dist p; fix_ang := fix_ang p;
     bias_var_dist := bias_var_dist p; bias_var_ang := bias_var_ang p; skip_measure := skip_measure p;
     accum_cloud := accum_cloud p; total_accum_max := total_accum_max p; match_output_interval := match_output_interval p;
     tf_tolerance := tf_tolerance p; match_output_dist := match_output_dist p; unmatch_output_dist := unmatch_output_dist p;
     publish_tf := publish_tf p; output_pcd := output_pcd p; std_warn := w; map_chunk := map_chunk p;
     initial_pose := initial_pose p; initial_pose_std := initial_pose_std p; use_sampler_normal := use_sampler_normal p;
     sampler_normal := sampler_normal p; p_like := p_like p; p_beam := p_beam p; use_dda := use_dda p;
     ray_angle_half := ray_angle_half p; dda_grid := dda_grid p |}.

Section Dyn.
Context {S : Type} (caster : cloud -> (pt -> R -> search) -> raycaster S)
        (voxel : R * R * R -> list lpt -> list lpt) (rf : R -> R) (p : params).
(** the events of the node (mcl_3dl.cpp:1457-1469: one thread calls all callbacks, also those of
    the reconfigure service) *)
Inductive devent := DEvent (ev : event) | DReconfigure (r : request).
(** cbParameter, parameters.cpp:320-325 *)
Definition thresholds (c : config) : R * R * R := (rf (c_xy c), rf (c_z c), rf (c_yaw c)).
Record dnode := { d_config : config; d_node : node (S := S) }.
Definition dstep (d : dnode) (e : devent) : outcome (dnode * list output) :=
  match e with
  | DEvent ev =>
      do (n, o) <- step caster voxel (set_warn p (thresholds (d_config d))) (d_node d) ev;
      Ok ({| d_config := d_config d; d_node := n |}, o)
  | DReconfigure r => Ok ({| d_config := reconfigure (d_config d) r; d_node := d_node d |}, [])
  end.
Fixpoint dsteps (d : dnode) (es : list devent) : outcome (dnode * list output) :=
  match es with
  | [] => Ok (d, [])
  | e :: t => do (d1, o1) <- dstep d e; do (d2, o2) <- dsteps d1 t; Ok (d2, o1 ++ o2)
  end.
(** configure(), mcl_3dl.cpp:1204-1330, with the parameters of the server [s] *)
Definition dconfigure (s : server) (gen : nat -> stream) (rc0 : S) : dnode :=
  {| d_config := config_first s; d_node := configure p gen rc0 |}.
End Dyn.
