(** Model of the node together with its samplers (in NodeModel.v the points a sampler returns
    are an input of the outside world): /repo/src/mcl_3dl.cpp:369-383 (statistics and filters),
    1302-1309 (choice of the sampler), with the samplers of SamplerModel.v.
    Simplifications: real arithmetic; the engine of the sampler is an arbitrary state [E] with
    arbitrary functions for one draw; PCL's normal estimation, Eigen's eigen solver and the
    iteration order of the unordered set are arbitrary functions. *)
From Coq Require Import String.
From Coq Require Import Reals ZArith NArith List Bool Arith.
From Verif Require PfModel FilterModel AccumModel.
From Verif Require Import Arith KdModel QuatModel StateModel StateSpec RayModel LidarModel NdModel SamplerModel ParamModel MatModel NodeModel.
Import ListNotations.
Open Scope R_scope.
Open Scope list_scope.

Section Samp.
Context {S E : Type} (caster : cloud -> (pt -> R -> search) -> raycaster S) (voxel : R * R * R -> list lpt -> list lpt) (p : params)
        (draw_int : nat -> E -> nat * E)               (* uniform_int_distribution(0, n) *)
        (draw_real : R -> E -> R * E)                  (* uniform_real_distribution(0, b) *)
        (normals : R -> list lpt -> list (option (R * R * R)))   (* NormalEstimation with a radius *)
        (eigen : mat3 -> vec3 * (vec3 * vec3 * vec3))  (* SelfAdjointEigenSolver: values, columns of vectors *)
        (order : list nat -> list nat).                (* unordered_set<size_t> *)
Notation node := (node (S := S)).
(** the members mean_, eigen_vectors_ and eigen_values_ of the sampler, as far as they are read
    (point_cloud_sampler_with_normal.h:62-64, 75-89) *)
Record stats := { s_mean : state; s_e1 : R; s_e2 : R; s_axis : vec3 }.
Definition set_statistics (mean : state) (cov : mat3) : stats :=
  let '(vals, (_, _, v2)) := eigen (abs_cov cov) in {| s_mean := mean; s_e1 := vy vals; s_e2 := vz vals; s_axis := v2 |}.
(** 369-375; [None]: the uniform sampler *)
Definition particle_statistics (n : node) (e : menv) : outcome (option stats) :=
  if use_sampler_normal p then
    do mean <- of_option (PfModel.expectation RA pose_mean (1 : RA) (n_pf n));
    do cov <- pf_cov p n (e_stat_shuffle e);
    Ok (Some (set_statistics mean cov))
  else Ok None.
(** parameters.cpp:204-213: perform_weighting_ratio, max_weight_ratio, max_weight *)
Definition normal_par : normal_params RA :=
  let '(a, b, c, _) := sampler_normal p in {| np_ratio := (a : RA); np_max_ratio := (b : RA); np_max_weight := (c : RA) |}.
Definition search_range : R := snd (sampler_normal p).
(** sampler_->sample *)
Definition sample (st : option stats) (fuel : nat) (pc : list lpt) (num : N) (g : E) : outcome (list lpt * E) :=
  match st with
  | None => of_option (uniform_sample draw_int pc (N.to_nat num) g)
  | Some s =>
      let d := fpc_local (rot (s_mean s)) (s_axis s) in
      of_run (weighted_sample (A := RA) sqrt acos Rabs (PI / 2) normal_par draw_real order (s_e1 s) (s_e2 s) (vx d, vy d, vz d)
                              (normals search_range) fuel pc (N.to_nat num) g)
  end.
(** 377-383: the map of the models is ordered by name, "beam" is first *)
Definition filters_s (n : node) (st : option stats) (fuel : nat) (full : list lpt) (g : E) : outcome (node * list lpt * list lpt * E) :=
  let b := beam_set_global (l_beam (n_lid n)) (Z.to_N (np p mod 2 ^ 64)) (N.of_nat (psize n)) in
  let l := like_set_global (l_like (n_lid n)) (Z.to_N (np p mod 2 ^ 64)) (N.of_nat (psize n)) in
  do (bp, g1) <- sample st fuel (clip (b_far_sq b) (b_near_sq b) (bp_zmin (b_par b)) (bp_zmax (b_par b)) full) (b_num b) g;
  do (lp, g2) <- sample st fuel (clip (l_far_sq l) (l_near_sq l) (lp_zmin (l_par l)) (lp_zmax (l_par l)) full) (l_num l) g1;
  Ok (set_lid n {| l_beam := b; l_like := l; l_rc := l_rc (n_lid n) |}, bp, lp, g2).
(** measure(), 304-898: as in NodeModel.v, with the samplers *)
Definition measure_s (n : node) (e : menv) (g : E) : outcome (node * list output * E) :=
  do (n0, go) <- gate p n;
  if negb go then Ok (n0, [], g)
  else
    do (n1, ready) <- prepare p n0 e;
    match ready with
    | None => Ok (n1, [], g)
    | Some (h, pc, os) =>
        let full := voxel (ds_x p, ds_y p, ds_z p) pc in
        do st <- particle_statistics n1 e;
        do (n2, bp, lp, g2) <- filters_s n1 st (e_fuel e) full g;
        match lp with
        | [] => let '(n3, o) := force_update (points_lost n2) in Ok (n3, [o], g2)
        | _ :: _ => do (n3, o) <- localize caster p n2 e h os full bp lp; Ok (n3, o, g2)
        end
    end.
(** the callbacks of the accumulation logic, 259-264 *)
Definition callback_s (e : menv) (n : node) (g : E) (c : AccumModel.call cloud_msg) : outcome (node * list output * E) :=
  match c with
  | AccumModel.Process => measure_s n e g
  | _ => do (n', o) <- callback caster voxel p e n c; Ok (n', o, g)
  end.
Fixpoint callbacks_s (e : menv) (n : node) (g : E) (cs : list (AccumModel.call cloud_msg)) : outcome (node * list output * E) :=
  match cs with
  | [] => Ok (n, [], g)
  | c :: t => do (n1, o1, g1) <- callback_s e n g c; do (n2, o2, g2) <- callbacks_s e n1 g1 t; Ok (n2, o1 ++ o2, g2)
  end.
(** cbCloud, 248-265 *)
Definition cbCloud_s (n : node) (g : E) (m : cloud_msg) (e : menv) : outcome (node * list output * E) :=
  let n0 := set_stat n status0 in
  if has_map (n_map n) then
    do (a, cs) <- push_calls p (ac (n_acc n0)) m;
    do (n1, o, g1) <- callbacks_s e n0 g cs;
    Ok (set_acc n1 {| ac := a; local := local (n_acc n1); headers := headers (n_acc n1) |}, o, g1)
  else Ok (n0, [], g).
(** one event; the engine of the sampler is used by clouds only *)
Definition step_s (n : node) (g : E) (ev : event) : outcome (node * list output * E) :=
  match ev with
  | ECloud m e => cbCloud_s n g m e
  | _ => do (n', o) <- step caster voxel p n ev; Ok (n', o, g)
  end.
Fixpoint steps_s (n : node) (g : E) (evs : list event) : outcome (node * list output * E) :=
  match evs with
  | [] => Ok (n, [], g)
  | ev :: t => do (n1, o1, g1) <- step_s n g ev; do (n2, o2, g2) <- steps_s n1 g1 t; Ok (n2, o1 ++ o2, g2)
  end.
End Samp.
