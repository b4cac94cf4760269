(** Vocabulary for the lidar measurement model properties. *)
From Coq Require Import Reals ZArith NArith List Bool Arith.
From Verif Require Import Arith QuatModel StateModel KdModel RayModel RaySpec LidarModel.
Import ListNotations.
Open Scope R_scope.

(** A cast result that can stop a beam: a collision with a map point whose label is not
    filtered out. *)
Definition stops (label_max : nat) (y : cast_result) (p : lpt) : Prop :=
  c_coll y = true /\ c_point y = Some p /\ (lab p <= label_max)%nat.
Definition never_stops (label_max : nat) (l : list cast_result) : Prop := forall y p, In y l -> ~ stops label_max y p.
(** The documented meaning of the beam status for the results [l] of a ray ending at [scan]. *)
Definition beam_is (label_max : nat) (sin_ref hit_range : R) (scan : vec3) (l : list cast_result) (st : beam_status) : Prop :=
  match st with
  | LONG => never_stops label_max l
  | _ => exists l1 y l2 p, l = l1 ++ y :: l2 /\ never_stops label_max l1 /\ stops label_max y p /\
      match st with
      | TOTAL_REFLECTION => c_sin y <= sin_ref
      | HIT => sin_ref < c_sin y /\ vnorm (vsub scan (p3 p)) < hit_range
      | _ => sin_ref < c_sin y /\ hit_range <= vnorm (vsub scan (p3 p))
      end
  end.
(** From state [s] the ray caster returns exactly the results [l], then false. *)
Definition answers {S} (rc : raycaster S) (s : S) (l : list cast_result) : Prop :=
  exists n ans, calls (rc_next rc) n s = Some ans /\ In None ans /\ reported ans = l.
(** In the states [Inv] (which casting does not leave) a ray from [b] to [e] gives the
    results [L b e], whatever was cast before; every collision comes with its map point. *)
Definition caster_ok {S} (Inv : S -> Prop) (rc : raycaster S) (L : vec3 -> vec3 -> list cast_result) : Prop :=
  (forall s b e, Inv s -> exists s1, rc_set rc s b e = Some s1 /\ Inv s1 /\ answers rc s1 (L b e)) /\
  (forall s s' a, Inv s -> rc_next rc s = Some (s', a) -> Inv s') /\
  (forall b e y, In y (L b e) -> c_coll y = true -> c_point y <> None).
(** Whether a beam is penalised in the configured mode. *)
Definition counts (short_only : bool) (st : beam_status) : bool :=
  match st with SHORT => true | LONG => negb short_only | _ => false end.
Definition count_if {X} (f : X -> bool) (l : list X) : nat := length (filter f l).

(** [d] is the distance of [q] from the nearest point of the map (in the metric of the
    search structure: coordinates scaled by [s]). *)
Definition nearest_dist (s : scale) (map_pts : list pt) (q : pt) (d : R) : Prop :=
  0 <= d /\ (exists p, In p map_pts /\ d * d = dist_sq s p q) /\ forall p, In p map_pts -> d * d <= dist_sq s p q.
(** The documented contribution of a point at distance [d] from the map. *)
Definition contribution (lp : like_params) (d : R) : R :=
  lp_weight lp * Rmax 0 (lp_dist_min lp - Rmax d (lp_dist_flat lp)).
Definition sumR (l : list R) : R := fold_right Rplus 0 l.
(** A point that filter() keeps. *)
Definition in_range (near far zmin zmax : R) (p : lpt) : Prop :=
  let d2 := vx (p3 p) * vx (p3 p) + vy (p3 p) * vy (p3 p) in
  near * near <= d2 <= far * far /\ zmin <= vz (p3 p) <= zmax.
(** [u] is [v] without the elements that do not have the property, in order. *)
Inductive keeps {X} (P : X -> Prop) : list X -> list X -> Prop :=
| keeps_nil : keeps P [] []
| keeps_yes x u v : P x -> keeps P u v -> keeps P (x :: u) (x :: v)
| keeps_no x u v : ~ P x -> keeps P u v -> keeps P u (x :: v).
(** x to the power y for x >= 0 *)
Definition power (x y : R) : R := if Req_EM_T x 0 then (if Req_EM_T y 0 then 1 else 0) else exp (y * ln x).
