(** Model of the two lidar measurement models:
    /repo/src/lidar_measurement_model_beam.cpp:51-192,
    /repo/src/lidar_measurement_model_likelihood.cpp:49-139,
    /repo/include/mcl_3dl/lidar_measurement_model_base.h (LidarMeasurementResult).
    Simplifications: real arithmetic except where a definition takes an [arith]; labels are
    natural numbers (uint32_t; the conversion of a label to int in the beam model is the
    identity below 2^31).  Random samplers are parameters (see SamplerModel.v). *)
From Coq Require Import Reals ZArith NArith List Bool Arith.
From Verif Require Import Arith QuatModel StateModel KdModel RayModel.
Import ListNotations.
Open Scope R_scope.

(** What a loop of the program did within a bounded number of iterations. *)
Inductive run (X : Type) := Done (x : X) | Undefined | Running.
Arguments Done {X}. Arguments Undefined {X}. Arguments Running {X}.

(** parameters.h:86-134 (the parameters that the beam model uses) *)
Record beam_params := {
  bp_gx : R; bp_gy : R; bp_gz : R; bp_default : N; bp_global : N;
  bp_far : R; bp_near : R; bp_zmin : R; bp_zmax : R;
  bp_alpha : R; bp_ang_total_ref : R; bp_label_max : nat; bp_hit_range : R; bp_short_only : bool }.
(** parameters.h:55-84 *)
Record like_params := {
  lp_default : N; lp_global : N; lp_far : R; lp_near : R; lp_zmin : R; lp_zmax : R;
  lp_weight : R; lp_dist_min : R; lp_dist_flat : R }.

(** std::pow for a non-negative base *)
Definition rpow (x y : R) : R := if Req_EM_T x 0 then (if Req_EM_T y 0 then 1 else 0) else Rpower x y.

(** The members of the beam model: lidar_measurement_model_beam.h:53-61 *)
Record beam := {
  b_par : beam_params; b_num : N; b_far_sq : R; b_near_sq : R; b_beta : R;
  b_range : R; b_sin_ref : R; b_hit_sq : R }.
(** lidar_measurement_model_beam.cpp:58-67, also the constructor 51-56 (static_cast<float> of
    the number of points and the double division are exact here) *)
Definition beam_refresh (p : beam_params) : beam :=
  {| b_par := p; b_range := Rmax (bp_gx p) (Rmax (bp_gy p) (bp_gz p)) * 4; b_num := bp_default p;
     b_near_sq := bp_near p * bp_near p; b_far_sq := bp_far p * bp_far p;
     b_hit_sq := bp_hit_range p ^ 2; b_beta := rpow (bp_alpha p) (1 / IZR (Z.of_N (bp_default p)));
     b_sin_ref := sin (bp_ang_total_ref p) |}.
(** The members of the likelihood model, lidar_measurement_model_likelihood.cpp:56-61 *)
Record like := { l_par : like_params; l_num : N; l_far_sq : R; l_near_sq : R }.
Definition like_refresh (p : like_params) : like :=
  {| l_par := p; l_num := lp_default p; l_near_sq := lp_near p * lp_near p; l_far_sq := lp_far p * lp_far p |}.

(** size_t arithmetic *)
Definition size_max : N := 18446744073709551616.
(** lidar_measurement_model_beam.cpp:82-96 and lidar_measurement_model_likelihood.cpp:63-77:
    the same code twice (arguments: default, global minimum, configured and current number) *)
Definition budget (dflt glob np cur : N) : N :=
  (if cur <=? np then dflt
   else let num := ((dflt * np) mod size_max) / cur in if num <? glob then glob else num)%N.
Definition beam_set_global (b : beam) (np cur : N) : beam :=
  {| b_par := b_par b; b_num := budget (bp_default (b_par b)) (bp_global (b_par b)) np cur;
     b_far_sq := b_far_sq b; b_near_sq := b_near_sq b; b_beta := b_beta b; b_range := b_range b;
     b_sin_ref := b_sin_ref b; b_hit_sq := b_hit_sq b |}.
Definition like_set_global (l : like) (np cur : N) : like :=
  {| l_par := l_par l; l_num := budget (lp_default (l_par l)) (lp_global (l_par l)) np cur;
     l_far_sq := l_far_sq l; l_near_sq := l_near_sq l |}.

(** lidar_measurement_model_beam.cpp:103-112, lidar_measurement_model_likelihood.cpp:84-93:
    [true] = remove the point.  Over any arithmetic: the comparisons of a NaN are false. *)
Definition clip_removes {A : arith} (far_sq near_sq zmin zmax x y z : A) : bool :=
  if flt far_sq (fadd (fmul x x) (fmul y y)) then true
  else if flt (fadd (fmul x x) (fmul y y)) near_sq then true
  else flt z zmin || flt zmax z.
Definition clip (far_sq near_sq zmin zmax : R) (pc : list lpt) : list lpt :=
  filter (fun p => negb (clip_removes (A := RA) far_sq near_sq zmin zmax (vx (p3 p)) (vy (p3 p)) (vz (p3 p)))) pc.
(** lidar_measurement_model_beam.cpp:98-122; the sampler's engine state is threaded by [E] *)
Definition beam_filter {E} (b : beam) (sample : list lpt -> N -> E -> list lpt * E) (pc : list lpt) (e : E) :=
  sample (clip (b_far_sq b) (b_near_sq b) (bp_zmin (b_par b)) (bp_zmax (b_par b)) pc) (b_num b) e.
(** lidar_measurement_model_likelihood.cpp:79-103 *)
Definition like_filter {E} (l : like) (sample : list lpt -> N -> E -> list lpt * E) (pc : list lpt) (e : E) :=
  sample (clip (l_far_sq l) (l_near_sq l) (lp_zmin (l_par l)) (lp_zmax (l_par l)) pc) (l_num l) e.

(** raycast.h: the interface of a ray caster; [None] = undefined behaviour *)
Record raycaster (S : Type) := {
  rc_set : S -> vec3 -> vec3 -> option S;
  rc_next : S -> option (S * option cast_result) }.
Arguments rc_set {S}. Arguments rc_next {S}.
(** raycast_using_dda.h:66-159 with [cl] the cloud of the search structure *)
Definition dda_caster (c : dda_cfg) (cl : cloud) : raycaster (option (Z * grid) * ray) :=
  {| rc_set := fun s b e =>
       match updatePointCloud (fun x => x) (fun x => x) c (fst s) cl with
       | Some (z, g) => Some (Some (z, g), setRay (fun x => x) (fun x => x) c g (snd s) b e)
       | None => None
       end;
     rc_next := fun s =>
       match fst s with
       | Some (z, g) => match dda_next c g (snd s) with
                        | Some (r, a) => Some ((Some (z, g), r), a)
                        | None => None
                        end
       | None => None (* the code would read an empty grid; never happens after rc_set *)
       end |}.
(** raycast_using_kdtree.h:58-109 *)
Definition kd_caster (c : kray_cfg) (f : pt -> R -> search) (pts : list lpt) : raycaster kray :=
  {| rc_set := fun _ b e => Some (k_setRay c b e); rc_next := k_next c f pts |}.

(** lidar_measurement_model_beam.h:64-70 *)
Inductive beam_status := SHORT | HIT | LONG | TOTAL_REFLECTION.

(** lidar_measurement_model_beam.cpp:164-191; a collision without a point would be a null
    pointer dereference *)
Definition dist3_sq (a b : vec3) : R := (vx a - vx b) ^ 2 + (vy a - vy b) ^ 2 + (vz a - vz b) ^ 2.
Fixpoint beam_loop {S} (bm : beam) (rc : raycaster S) (scan : vec3) (n : nat) (s : S) : run (S * beam_status) :=
  match n with
  | O => Running
  | Datatypes.S n' =>
      match rc_next rc s with
      | None => Undefined
      | Some (s', None) => Done (s', LONG)
      | Some (s', Some y) =>
          if negb (c_coll y) then beam_loop bm rc scan n' s'
          else match c_point y with
               | None => Undefined
               | Some p =>
                   if (bp_label_max (b_par bm) <? lab p)%nat then beam_loop bm rc scan n' s'
                   else if Rltb (b_sin_ref bm) (c_sin y)
                        then Done (s', if Rltb (dist3_sq scan (p3 p)) (b_hit_sq bm) then HIT else SHORT)
                        else Done (s', TOTAL_REFLECTION)
               end
      end
  end.
(** lidar_measurement_model_beam.cpp:157-163 *)
Definition getBeamStatus {S} (bm : beam) (rc : raycaster S) (n : nat) (s : S) (lidar scan : vec3) : run (S * beam_status) :=
  match rc_set rc s lidar scan with
  | None => Undefined
  | Some s1 => beam_loop bm rc scan n s1
  end.
(** lidar_measurement_model_beam.cpp:146 *)
Definition penalised (bm : beam) (st : beam_status) : bool :=
  match st with SHORT => true | LONG => negb (bp_short_only (b_par bm)) | _ => false end.
(** lidar_measurement_model_beam.cpp:148 *)
Definition beam_mul {A : arith} (score beta : A) : A := fmul score beta.
(** lidar_measurement_model_beam.cpp:140-150: the rest of the loop from the points [pts]
    (already transformed), with the score so far; [n] bounds the casts of each ray;
    origins[label] outside the vector is undefined *)
Fixpoint beam_points {S} (bm : beam) (rc : raycaster S) (origins : list vec3) (st : state) (n : nat)
  (pts : list lpt) (s : S) (score : R) : run (S * R) :=
  match pts with
  | [] => Done (s, score)
  | p :: pts' =>
      match nth_error origins (lab p) with
      | None => Undefined
      | Some o =>
          match getBeamStatus bm rc n s (vadd (pos st) (qrot (rot st) o)) (p3 p) with
          | Done (s', b) =>
              beam_points bm rc origins st n pts' s' (if penalised bm b then beam_mul (A := RA) score (b_beta bm) else score)
          | Undefined => Undefined
          | Running => Running
          end
      end
  end.
(** lidar_measurement_model_beam.cpp:151-152 *)
Definition beam_clamp {A : arith} (alpha score : A) : A := if flt score alpha then alpha else score.
(** lidar_measurement_model_base.h: the pair (likelihood, quality) *)
Definition result : Type := R * R.
(** lidar_measurement_model_beam.cpp:124-155; [None] for the cloud is a null pointer *)
Definition beam_measure {S} (bm : beam) (rc : raycaster S) (n : nat) (s : S) (pc : option (list lpt)) (origins : list vec3) (st : state)
  : run (S * result) :=
  match pc with
  | None | Some [] => Done (s, (1, 0))
  | Some pts =>
      match beam_points bm rc origins st n (transform st pts) s 1 with
      | Done (s', score) => Done (s', (beam_clamp (A := RA) (bp_alpha (b_par bm)) score, 1))
      | Undefined => Undefined
      | Running => Running
      end
  end.

(** lidar_measurement_model_likelihood.cpp:124-135: score and number of matches; a search
    that throws is [None] *)
Fixpoint like_points (lp : like_params) (f : pt -> R -> search) (pts : list lpt) (score : R) (num : nat) : option (R * nat) :=
  match pts with
  | [] => Some (score, num)
  | p :: pts' =>
      match f (to_pt (p3 p)) (lp_dist_min lp) with
      | Throws => None
      | NoChunk | Found [] => like_points lp f pts' score num
      | Found ((_, sq) :: _) =>
          let dist := lp_dist_min lp - Rmax (sqrt sq) (lp_dist_flat lp) in
          if Rltb dist 0 then like_points lp f pts' score num
          else like_points lp f pts' (score + dist * lp_weight lp) (num + 1)
      end
  end.
(** lidar_measurement_model_likelihood.cpp:105-139 *)
Definition like_measure (l : like) (f : pt -> R -> search) (pc : option (list lpt)) (st : state) : option result :=
  match pc with
  | None | Some [] => Some (1, 0)
  | Some pts =>
      match like_points (l_par l) f (transform st pts) 0 0 with
      | Some (score, num) => Some (score, INR num / INR (length (transform st pts)))
      | None => None
      end
  end.
