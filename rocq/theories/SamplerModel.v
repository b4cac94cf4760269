(** Model of the point cloud samplers:
    /repo/include/mcl_3dl/point_cloud_random_samplers/point_cloud_uniform_sampler.h:56-73,
    /repo/include/mcl_3dl/point_cloud_random_samplers/point_cloud_sampler_with_normal.h:75-185.
    Simplifications: the random engine is an arbitrary state type [E] with an arbitrary
    function for one draw; the weighted sampler is written over an arbitrary arithmetic
    with arbitrary sqrt, acos and fabs (the normals are floats and the rest doubles in the
    code: one arithmetic here); the eigen decomposition and the estimated normals
    (pcl::NormalEstimation, one normal per point, [None] if it contains a NaN) are inputs;
    debug output is left out. *)
From Coq Require Import Reals List Bool Arith NArith.
From Verif Require Import Arith QuatModel StateModel LidarModel.
Import ListNotations.

Section Uniform.
Context {X E : Type} (draw : nat -> E -> nat * E).   (* uniform_int_distribution(0, n) *)
(** the loop of point_cloud_uniform_sampler.h:68-71; [None]: index outside the cloud *)
Fixpoint uniform_loop (pc : list X) (num : nat) (e : E) : option (list X * E) :=
  match num with
  | O => Some ([], e)
  | S num' =>
      let '(i, e1) := draw (length pc - 1) e in
      match nth_error pc i with
      | None => None
      | Some p => match uniform_loop pc num' e1 with Some (l, e2) => Some (p :: l, e2) | None => None end
      end
  end.
(** point_cloud_uniform_sampler.h:56-73 *)
Definition uniform_sample (pc : list X) (num : nat) (e : E) : option (list X * E) :=
  match pc with [] => Some ([], e) | _ => uniform_loop pc num e end.
End Uniform.

(** parameters.h:46-59 *)
Record normal_params (A : arith) := { np_ratio : A; np_max_ratio : A; np_max_weight : A }.
Arguments np_ratio {A}. Arguments np_max_ratio {A}. Arguments np_max_weight {A}.

Section Weighted.
Context {A : arith} (fsqrt facos fabs : A -> A) (half_pi : A) (P : normal_params A).
(** point_cloud_sampler_with_normal.h:110-127; [e1 e2] are eigen_values_[1] and [2] *)
Definition max_weight (e1 e2 : A) : A :=
  let r := fsqrt (fdiv e2 e1) in
  if flt r (np_ratio P) then f1
  else if flt (np_max_ratio P) r then np_max_weight P
  else let w := fdiv (fsub r (np_ratio P)) (fsub (np_max_ratio P) (np_ratio P)) in
       fadd f1 (fmul (fsub (np_max_weight P) f1) w).
(** point_cloud_sampler_with_normal.h:142-156; [d] is fpc_local *)
Definition weight (mw : A) (d : A * A * A) (n : option (A * A * A)) : A :=
  match n, d with
  | None, _ => f1
  | Some (nx, ny, nz), (dx, dy, dz) =>
      let a := fabs (fadd (fadd (fmul nx dx) (fmul ny dy)) (fmul nz dz)) in
      let a := if flt f1 a then f1 else a in
      fadd f1 (fmul (fsub mw f1) (fdiv (fsub half_pi (facos a)) half_pi))
  end.
(** point_cloud_sampler_with_normal.h:139-158: cumulative_weight[i] = weight + previous *)
Fixpoint cumulate (prev : A) (ws : list A) : list A :=
  match ws with [] => [] | w :: ws' => let c := fadd w prev in c :: cumulate c ws' end.
Definition cumulative (ws : list A) : list A := cumulate f0 ws.
(** std::lower_bound as a binary search (libstdc++): [first], [len], with comparison
    [cum[mid] < v]; [fuel] at least [len] *)
Fixpoint lower_bound_loop (cum : list A) (v : A) (fuel first len : nat) : nat :=
  match fuel with
  | O => first
  | S fuel' =>
      if (len =? 0)%nat then first
      else let half := Nat.div2 len in
           let mid := (first + half)%nat in
           if flt (nth mid cum f0) v
           then lower_bound_loop cum v fuel' (mid + 1) (len - half - 1)
           else lower_bound_loop cum v fuel' first half
  end.
Definition lower_bound (cum : list A) (v : A) : nat := lower_bound_loop cum v (length cum) 0 (length cum).

Context {E : Type} (draw : A -> E -> A * E).           (* uniform_real_distribution(0, b) *)
(** point_cloud_sampler_with_normal.h:159-172; the set is kept as a list *)
Definition insert_id (n : nat) (sel : list nat) : list nat := if existsb (Nat.eqb n) sel then sel else n :: sel.
Fixpoint select_loop (cum : list A) (num fuel : nat) (sel : list nat) (e : E) : run (list nat * E) :=
  match fuel with
  | O => Running
  | S fuel' =>
      let '(v, e1) := draw (last cum f0) e in
      let sel' := insert_id (lower_bound cum v) sel in
      if (num <=? length sel')%nat then Done (sel', e1) else select_loop cum num fuel' sel' e1
  end.
(** point_cloud_sampler_with_normal.h:91-185.  [order] is the iteration order of the
    unordered_set; a selected index outside the cloud is undefined. *)
Fixpoint all_points {X} (pc : list X) (ids : list nat) : option (list X) :=
  match ids with
  | [] => Some []
  | i :: ids' => match nth_error pc i, all_points pc ids' with Some p, Some l => Some (p :: l) | _, _ => None end
  end.
Definition weighted_sample {X} (order : list nat -> list nat) (e1 e2 : A) (d : A * A * A)
  (normals : list X -> list (option (A * A * A))) (fuel : nat) (pc : list X) (num : nat) (e : E) : run (list X * E) :=
  if (length pc =? 0)%nat || (num =? 0)%nat then Done ([], e)
  else if (length pc <=? num)%nat then Done (pc, e)
  else
    let cum := cumulative (map (weight (max_weight e1 e2) d) (normals pc)) in
    match select_loop cum num fuel [] e with
    | Done (sel, e') => match all_points pc (order sel) with Some l => Done (l, e') | None => Undefined end
    | Undefined => Undefined
    | Running => Running
    end.
End Weighted.

(** point_cloud_sampler_with_normal.h:75-89: the matrix whose eigenvectors are taken (rows
    and columns 0..2 of the position covariance) *)
Definition mat3 : Type := nat -> nat -> R.
Definition abs_cov (c : mat3) : mat3 := fun i j => Rabs (c i j).
(** point_cloud_sampler_with_normal.h:128-129 *)
Definition fpc_local (mean_rot : quat) (v2 : vec3) : vec3 := qrot (inv mean_rot) v2.
