(** Model of the parameter handling:
    /repo/src/parameters.cpp:45-325, /repo/include/mcl_3dl/parameters.h:46-209,
    /repo/include/mcl_3dl_compat/compatibility.h:46-90, 110-223.
    The parameter server is a map from names (relative to the node) to values, with the
    conversions of roscpp's getParam (an external library): double accepts double and int,
    int accepts int and rounds a double, bool and string accept their own type only.
    Simplifications: doubles are real numbers and the narrowing to float is an arbitrary
    function [rf] (the identity in the other models); the dynamic_reconfigure server is
    represented by the three values its first callback delivers. *)
From Coq Require Import String.
From Coq Require Import Reals ZArith NArith List Bool.
From Verif Require Import Arith KdModel QuatModel StateModel LidarModel.
Import ListNotations.
Open Scope string_scope.
Open Scope R_scope.
Open Scope list_scope.

Inductive pval := PDouble (x : R) | PInt (n : Z) | PBool (b : bool) | PString (s : string).
Definition server := string -> option pval.
Definition set_param (k : string) (v : pval) (s : server) : server := fun k' => if String.eqb k k' then Some v else s k'.

(** roscpp getParam for double, int, bool, std::string *)
Definition to_double (v : pval) : option R := match v with PDouble x => Some x | PInt n => Some (IZR n) | _ => None end.
Definition round_int (x : R) : Z :=
  let fl := Rfloor x in
  if Rltb x 0 then fl else if Rltb (x - IZR fl) (/ 2) then fl else Rceil x.
Definition to_int (v : pval) : option Z := match v with PInt n => Some n | PDouble x => Some (round_int x) | _ => None end.
Definition to_bool (v : pval) : option bool := match v with PBool b => Some b | _ => None end.
Definition to_string (v : pval) : option string := match v with PString x => Some x | _ => None end.
(** NodeHandle::param: the configured value if it is there and has the right type *)
Definition param {X} (conv : pval -> option X) (s : server) (k : string) (d : X) : X :=
  match s k with Some v => match conv v with Some x => x | None => d end | None => d end.

(** compatibility.h:200-223 for T = double; [junk]: the uninitialised variable *)
Definition paramRename (junk : R) (new old : string) (s : server) : server :=
  match s old with
  | None => s
  | Some v => match s new with
              | Some _ => s
              | None => set_param new (PDouble (match to_double v with Some x => x | None => junk end)) s
              end
  end.
(** parameters.cpp:67-83 *)
Definition renames : list (string * string) :=
  [("likelihood/clip_near", "clip_near"); ("likelihood/clip_far", "clip_far");
   ("likelihood/clip_z_min", "clip_z_min"); ("likelihood/clip_z_max", "clip_z_max");
   ("likelihood/match_dist_min", "match_dist_min"); ("likelihood/match_dist_flat", "match_dist_flat");
   ("likelihood/match_weight", "match_weight"); ("likelihood/num_points", "num_points");
   ("likelihood/num_points_global", "num_points_global");
   ("beam/clip_near", "clip_beam_near"); ("beam/clip_far", "clip_beam_far");
   ("beam/clip_z_min", "clip_beam_z_min"); ("beam/clip_z_max", "clip_beam_z_max");
   ("beam/num_points", "num_points_beam"); ("beam/beam_likelihood", "beam_likelihood");
   ("beam/ang_total_ref", "ang_total_ref")].
Fixpoint rename_list (junk : R) (l : list (string * string)) (s : server) : server :=
  match l with [] => s | (new, old) :: t => rename_list junk t (paramRename junk new old s) end.
Definition rename_all (junk : R) (s : server) : server := rename_list junk renames s.

(** conversion of an int to size_t / uint32_t *)
Definition int_to_size (n : Z) : N := Z.to_N (n mod 2 ^ 64).
Definition int_to_u32 (n : Z) : nat := Z.to_nat (n mod 2 ^ 32).
(** std::lround *)
Definition lround (x : R) : Z := if Rltb x 0 then (- Rfloor (- x + / 2))%Z else Rfloor (x + / 2).

(** parameters.h:134-209 *)
Record params := {
  fake_imu : bool; fake_odom : bool;
  frame_map : string; frame_base : string; frame_odom : string; frame_floor : string;
  map_ds_x : R; map_ds_y : R; map_ds_z : R; ds_x : R; ds_y : R; ds_z : R; upd_ds_x : R; upd_ds_y : R; upd_ds_z : R;
  map_grid_min : R; map_grid_max : R; map_update_interval : R;
  dist_weight : R * R * R * R;
  glob_grid : R; glob_div_yaw : Z; num_particles : Z;
  resample_var : list R; expansion_var : list R; match_ratio_thresh : R;
  odom_err_ll : R; odom_err_la : R; odom_err_al : R; odom_err_aa : R;
  integ_lin_tc : R; integ_lin_sigma : R; integ_ang_tc : R; integ_ang_sigma : R;
  lpf_step : R; acc_lpf_step : R; acc_var : R;
  jump_dist : R; jump_ang : R; fix_dist : R; fix_ang : R; bias_var_dist : R; bias_var_ang : R;
  skip_measure : Z; accum_cloud : Z; total_accum_max : Z;
  match_output_interval : R; tf_tolerance : R; match_output_dist : R; unmatch_output_dist : R;
  publish_tf : bool; output_pcd : bool; std_warn : R * R * R; map_chunk : R;
  initial_pose : state; initial_pose_std : state;
  use_sampler_normal : bool; sampler_normal : R * R * R * R;   (* ratio, max_ratio, max_weight, search range *)
  p_like : like_params; p_beam : beam_params;
  use_dda : bool; ray_angle_half : R; dda_grid : R
}.

Section Load.
Variable rf : R -> R.   (* narrowing to float *)
(** std::min/max of two doubles *)
Definition fmin (a b : R) : R := if Rltb b a then b else a.
Definition fmax (a b : R) : R := if Rltb a b then b else a.

(** parameters.cpp:215-245 ("likelihood/" is the namespace of lml_pnh) *)
Definition load_like (s : server) : like_params :=
  {| lp_default := int_to_size (param to_int s "likelihood/num_points" 96%Z);
     lp_global := int_to_size (param to_int s "likelihood/num_points_global" 8%Z);
     lp_near := rf (param to_double s "likelihood/clip_near" (1 / 2));
     lp_far := rf (param to_double s "likelihood/clip_far" 10);
     lp_zmin := rf (param to_double s "likelihood/clip_z_min" (-2));
     lp_zmax := rf (param to_double s "likelihood/clip_z_max" 2);
     lp_weight := rf (param to_double s "likelihood/match_weight" 5);
     lp_dist_min := rf (param to_double s "likelihood/match_dist_min" (2 / 10));
     lp_dist_flat := rf (param to_double s "likelihood/match_dist_flat" (5 / 100)) |}.
(** parameters.cpp:247-287 *)
Definition load_beam (s : server) (gx gy gz : R) : beam_params :=
  {| bp_gx := rf gx; bp_gy := rf gy; bp_gz := rf gz;
     bp_default := int_to_size (param to_int s "beam/num_points" 3%Z);
     bp_global := int_to_size (param to_int s "beam/num_points_global" 0%Z);
     bp_near := rf (param to_double s "beam/clip_near" (1 / 2));
     bp_far := rf (param to_double s "beam/clip_far" 4);
     bp_zmin := rf (param to_double s "beam/clip_z_min" (-2));
     bp_zmax := rf (param to_double s "beam/clip_z_max" 2);
     bp_alpha := rf (param to_double s "beam/beam_likelihood" (2 / 10));
     bp_ang_total_ref := rf (param to_double s "beam/ang_total_ref" (PI / 6));
     bp_label_max := int_to_u32 (param to_int s "beam/filter_label_max" (-1)%Z);
     bp_short_only := param to_bool s "beam/add_penalty_short_only_mode" true;
     bp_hit_range := rf (param to_double s "beam/hit_range" (3 / 10)) |}.
(** parameters.cpp:289-310: the voxel size and the angle keep the constructor's values
    (parameters.h:110-111) unless the DDA ray caster is enabled *)
Definition load_dda (s : server) (b : beam_params) : bool * R * R :=
  let use := param to_bool s "beam/use_raycast_using_dda" false in
  if use then
    let angle := rf (param to_double s "beam/ray_angle_half" (25 / 100 * PI / 180)) in
    let g := param to_double s "beam/dda_grid_size" (2 / 10) in
    let mx := fmax (fmax (bp_gx b) (bp_gy b)) (bp_gz b) in
    (use, angle, rf (if Rltb g mx then mx else g))
  else (use, rf (25 / 100 * PI / 180), rf (2 / 10)).

(** parameters.cpp:62-65 and 85-317, reading the renamed parameters [s]; [cfg]: the values
    of the first dynamic_reconfigure callback (313-325).  A zero grid_ang makes the argument
    of lround infinite: the result is then unspecified and left as the value of the model's
    division. *)
Definition load_params (fi fo : bool) (cfg : R * R * R) (s : server) : params :=
    let pd k d := param to_double s k d in
    let gx := pd "map_downsample_x" (1 / 10) in
    let gy := pd "map_downsample_y" (1 / 10) in
    let gz := pd "map_downsample_z" (1 / 10) in
    let beam := load_beam s gx gy gz in
    let '(use, angle, grid) := load_dda s beam in
    let accum := param to_int s "accum_cloud" 1%Z in
    let usn := param to_bool s "use_random_sampler_with_normal" false in
    {|
      fake_imu := fi; fake_odom := fo;
      frame_map := param to_string s "map_frame" "map"%string; frame_base := param to_string s "robot_frame" "base_link"%string;
      frame_odom := param to_string s "odom_frame" "odom"%string; frame_floor := param to_string s "floor_frame" "floor"%string;
      map_ds_x := gx; map_ds_y := gy; map_ds_z := gz;
      ds_x := pd "downsample_x" (1 / 10); ds_y := pd "downsample_y" (1 / 10); ds_z := pd "downsample_z" (5 / 100);
      upd_ds_x := pd "update_downsample_x" (3 / 10); upd_ds_y := pd "update_downsample_y" (3 / 10); upd_ds_z := pd "update_downsample_z" (3 / 10);
      map_grid_min := fmin (fmin gx gy) gz; map_grid_max := fmax (fmax gx gy) gz;
      map_update_interval := pd "map_update_interval_interval" 2;
      dist_weight := (rf (pd "dist_weight_x" 1), rf (pd "dist_weight_y" 1), rf (pd "dist_weight_z" 5), 0);
      glob_grid := pd "global_localization_grid_lin" (3 / 10);
      glob_div_yaw := lround (2 * PI / pd "global_localization_grid_ang" (524 / 1000));
      num_particles := param to_int s "num_particles" 64%Z;
      resample_var := [pd "resample_var_x" (5 / 100); pd "resample_var_y" (5 / 100); pd "resample_var_z" (5 / 100);
                       pd "resample_var_roll" (5 / 100); pd "resample_var_pitch" (5 / 100); pd "resample_var_yaw" (5 / 100)];
      expansion_var := [pd "expansion_var_x" (2 / 10); pd "expansion_var_y" (2 / 10); pd "expansion_var_z" (2 / 10);
                        pd "expansion_var_roll" (5 / 100); pd "expansion_var_pitch" (5 / 100); pd "expansion_var_yaw" (5 / 100)];
      match_ratio_thresh := pd "match_ratio_thresh" 0;
      odom_err_ll := pd "odom_err_lin_lin" (1 / 10); odom_err_la := pd "odom_err_lin_ang" (5 / 100);
      odom_err_al := pd "odom_err_ang_lin" (5 / 100); odom_err_aa := pd "odom_err_ang_ang" (5 / 100);
      integ_lin_tc := pd "odom_err_integ_lin_tc" 10; integ_lin_sigma := pd "odom_err_integ_lin_sigma" 100;
      integ_ang_tc := pd "odom_err_integ_ang_tc" 10; integ_ang_sigma := pd "odom_err_integ_ang_sigma" 100;
      lpf_step := pd "lpf_step" 16; acc_lpf_step := pd "acc_lpf_step" 128; acc_var := pd "acc_var" (PI / 4);
      jump_dist := pd "jump_dist" 1; jump_ang := pd "jump_ang" (157 / 100);
      fix_dist := pd "fix_dist" (2 / 10); fix_ang := pd "fix_ang" (1 / 10);
      bias_var_dist := pd "bias_var_dist" 2; bias_var_ang := pd "bias_var_ang" (157 / 100);
      skip_measure := param to_int s "skip_measure" 1%Z; accum_cloud := accum;
      total_accum_max := param to_int s "total_accum_cloud_max" (accum * 10)%Z;
      match_output_interval := pd "match_output_interval_interval" (2 / 10); tf_tolerance := pd "tf_tolerance" (5 / 100);
      match_output_dist := pd "match_output_dist" (1 / 10); unmatch_output_dist := pd "unmatch_output_dist" (5 / 10);
      publish_tf := param to_bool s "publish_tf" true; output_pcd := param to_bool s "output_pcd" false;
      std_warn := cfg; map_chunk := pd "map_chunk" 20;
      initial_pose := state_pr (V3 (pd "init_x" 0) (pd "init_y" 0) (pd "init_z" 0))
                               (setRPY (V3 (pd "init_roll" 0) (pd "init_pitch" 0) (pd "init_yaw" 0)));
      initial_pose_std := state_rpy (V3 (pd "init_var_x" 2) (pd "init_var_y" 2) (pd "init_var_z" (1 / 2)))
                                    (V3 (pd "init_var_roll" (1 / 10)) (pd "init_var_pitch" (1 / 10)) (pd "init_var_yaw" (1 / 2)));
      use_sampler_normal := usn;
      sampler_normal := if usn then (pd "random_sampler_with_normal/perform_weighting_ratio" 2, pd "random_sampler_with_normal/max_weight_ratio" 5,
                                     pd "random_sampler_with_normal/max_weight" 5, pd "random_sampler_with_normal/normal_search_range" (4 / 10))
                        else (2, 5, 5, 4 / 10);
      p_like := load_like s; p_beam := beam;
      use_dda := use; ray_angle_half := angle; dda_grid := grid |}.
(** parameters.cpp:52-83; [None]: load returned false (nothing but the two flags was
    read); [junk]: an uninitialised double *)
Definition load (junk : R) (cfg : R * R * R) (s0 : server) : option (params * server) :=
  let fi := param to_bool s0 "fake_imu" false in
  let fo := param to_bool s0 "fake_odom" false in
  if fi && fo then None
  else let s := rename_all junk s0 in Some (load_params fi fo cfg s, s).
End Load.

(** mcl_3dl.cpp:1320-1329: the search structure that configure() creates.  The models are
    visited in the order of the std::map keys ("beam", "likelihood"); getMaxSearchRange is
    lidar_measurement_model_beam.h:74-77 and lidar_measurement_model_likelihood.h:61-64. *)
Definition configured_radius (p : params) : R :=
  fold_left (fun m r => fmax m r) [b_range (beam_refresh (p_beam p)); lp_dist_min (p_like p)] 0.
Definition configured_kdtree (p : params) : kdt :=
  let '(wx, wy, wz, _) := dist_weight p in
  setPointRepresentation (wx, wy, wz)
    (setEpsilon (map_grid_min p / 16) (new_kdt (map_chunk p) (configured_radius p) false)).

(** ** compatibility.h:46-90, 110-198 *)
Definition current_level : Z := 1.
Definition supported_level : Z := 0.
Definition default_level : Z := supported_level.
Definition getCompat (s : server) : Z := param to_int s "compatible" default_level.
Inductive compat_result := Obsolete | Futuredated | Deprecated | Current.
(** checkCompatMode: the first two throw *)
Definition checkCompatMode (s : server) : compat_result :=
  if (getCompat s <? supported_level)%Z then Obsolete
  else if (current_level <? getCompat s)%Z then Futuredated
  else if negb (getCompat s =? current_level)%Z then Deprecated else Current.
(** subscribe / advertise / advertiseService: the name that is used *)
Definition compat_name {X} (s : server) (new old : X) : X := if negb (getCompat s =? current_level)%Z then old else new.
