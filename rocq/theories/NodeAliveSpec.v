(** Vocabulary for "the node never fails": settings that make sense, legal behaviour of the
    outside world, and particles that can be used. *)
From Coq Require Import String Reals ZArith NArith List Bool Arith Permutation.
From Verif Require PfModel FilterModel AccumModel.
From Verif Require Import Arith KdModel QuatModel StateModel StateSpec RayModel LidarModel NdModel ParamModel MatModel NodeModel NodeSpec.
Import ListNotations.
Open Scope R_scope.
Open Scope list_scope.

(** Settings that make sense. *)
Record settings_ok (p : params) : Prop := {
  so_particles : (1 <= num_particles p)%Z;
  so_skip : (1 <= skip_measure p < 2 ^ 31)%Z;
  so_fake : fake_imu p && fake_odom p = false;
  so_accum : accum_cloud p = 0%Z \/ (1 <= total_accum_max p < 2 ^ 31)%Z;
  so_alpha : 0 <= bp_alpha (p_beam p);
  so_weight : 0 <= lp_weight (p_like p);
  (* the search radii do not exceed the chunk length *)
  so_match_dist : lp_dist_min (p_like p) <= map_chunk p;
  so_unmatch_dist : unmatch_output_dist p <= map_chunk p;
  so_sigma : integ_lin_sigma p <> 0 /\ acc_var p <> 0 /\ bias_var_dist p <> 0 /\ bias_var_ang p <> 0;
  so_headings : (1 <= glob_div_yaw p < 2 ^ 31)%Z }.

(** Particles that can be used: at least one, no negative weight, not all weights zero. *)
Definition usable_particles (f : PfModel.filter RA state) : Prop :=
  PfModel.parts RA f <> []
  /\ (forall q, In q (PfModel.parts RA f) -> 0 <= PfModel.w RA q)
  /\ exists q, In q (PfModel.parts RA f) /\ 0 < PfModel.w RA q.

Section Legal.
Context {S : Type} (caster : cloud -> (pt -> R -> search) -> raycaster S)
        (voxel : R * R * R -> list lpt -> list lpt) (p : params).
(** Every ray cast from a state of the ray caster in [Inv] comes to an end without undefined
    behaviour and leaves the caster in [Inv]. *)
Definition casts_finish (Inv : S -> Prop) (rc : raycaster S) : Prop :=
  forall bm s lidar scan, Inv s -> exists s' st n0, Inv s' /\ forall k, (n0 <= k)%nat -> getBeamStatus bm rc k s lidar scan = Done (s', st).
(** The ray caster can be used with the map [cl], and with every legal outcome of the searches
    in this map; [Inv cl] are the states in which it may be when this map is the current one. *)
Definition castable (Inv : cloud -> S -> Prop) (cl : cloud) : Prop :=
  forall f, (forall q r, radiusSearch (setInputCloud (to_pts (cl_pts cl)) (configured_kdtree p)) q r 1 (f q r)) -> casts_finish (Inv cl) (caster cl f).
(** A state of the ray caster stays usable when a map with a later stamp arrives. *)
Definition survives_newer (Inv : cloud -> S -> Prop) : Prop :=
  forall c c' s, (cl_stamp c < cl_stamp c')%Z -> Inv c s -> Inv c' s.

(** The same event with at most [k] steps per ray *)
Definition with_fuel (k : nat) (e : menv) : menv :=
  {| e_lookup := e_lookup e; e_lookup5 := e_lookup5 e; e_stat_shuffle := e_stat_shuffle e; e_beam := e_beam e; e_like := e_like e; e_search := e_search e;
     e_fuel := k; e_now := e_now e; e_shuffle := e_shuffle e; e_subs := e_subs e; e_sort := e_sort e; e_offset := e_offset e; e_noise := e_noise e;
     e_noise4 := e_noise4 e; e_expand := e_expand e; e_sort2 := e_sort2 e |}.
Definition with_fuel_ev (k : nat) (ev : event) : event :=
  match ev with ECloud m e => ECloud m (with_fuel k e) | _ => ev end.

(** Legal behaviour of the outside world, given the node [n]: searches answer from the loaded
    map, sorting sorts, the shuffles permute, the
    samplers return points of their input. *)
Definition legal_env (n : @node S) (e : menv) : Prop :=
  (forall q r, radiusSearch (kd (n_map n)) q r 1 (e_search e q r))
  /\ picks_members (e_beam e) /\ picks_members (e_like e)
  /\ (forall l, Permutation l (e_shuffle e l)) /\ (forall l, Permutation l (e_stat_shuffle e l))
  /\ sorts (e_sort e) /\ sorts (e_sort2 e).
(** A map with this stamp is newer than the current one. *)
Definition newer (n : @node S) (stamp : Z) : Prop :=
  forall c, get_obj (n_map n) (pc_map2 (n_map n)) = Ok c -> (cl_stamp c < stamp)%Z.
Definition legal (Inv : cloud -> S -> Prop) (n : @node S) (ev : event) : Prop :=
  match ev with
  | EMap (Some _) stamp now => newer n (if (stamp =? 0)%Z then now else stamp)
  | ELoadPcd (Some _) now => newer n now
  | ETimer now => pc_update (n_map n) <> None -> newer n now
  | ECloud _ e => legal_env n e /\ forall c, get_obj (n_map n) (pc_map2 (n_map n)) = Ok c -> castable Inv c
  | ELandmark m _ srt _ _ _ => 0 < det 6 (landmark_sigma (pm_cov m)) /\ sorts srt
  | EResize k srt _ => (1 <= k)%nat /\ sorts srt
  | EGlobal hits srt => sorts srt /\ forall c, get_obj (n_map n) (pc_map (n_map n)) = Ok c ->
      let cells := voxel (glob_grid p, glob_grid p, glob_grid p) (cl_pts c) in
      let kept := keep_floor p (hits (to_pts cells)) cells in
      kept <> [] /\ (Z.of_nat (length kept) * glob_div_yaw p < 2 ^ 64)%Z
  | _ => True
  end.
(** A history of legal events: each is legal at the node that receives it. *)
Fixpoint legal_run (Inv : cloud -> S -> Prop) (n : @node S) (evs : list event) : Prop :=
  match evs with
  | [] => True
  | ev :: t => legal Inv n ev /\ forall k n' o, step caster voxel p n (with_fuel_ev k ev) = Ok (n', o) -> legal_run Inv n' t
  end.
(** With enough steps per ray the computation ends with the same result [x], with fewer steps it
    does not fail either. *)
Definition settles {X} (F : nat -> outcome X) (Q : X -> Prop) : Prop :=
  exists x K, Q x /\ (forall k, F k = Fuel \/ F k = Ok x) /\ forall k, (K <= k)%nat -> F k = Ok x.
End Legal.
