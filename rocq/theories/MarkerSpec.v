(** Vocabulary for the debug marker property. *)
From Coq Require Import Reals ZArith NArith List Bool Arith.
From Verif Require Import Arith QuatModel StateModel KdModel RayModel RaySpec LidarModel LidarSpec MarkerModel.
Import ListNotations.
Open Scope R_scope.

(** a marker without its id: what, where, which colours *)
Definition drawn (m : marker) : marker_ns * list vec3 * list color := (m_ns m, m_at m, m_col m).
(** red = short, green = hit, blue = long, faint green = total reflection *)
Definition rgb_of (st : beam_status) : R * R * R :=
  match st with SHORT => (1, 0, 0) | LONG => (0, 0, 1) | _ => (0, 1, 0) end.
Definition has_rgb (c : color) (x : R * R * R) : Prop := (c_r c, c_g c, c_b c) = x.
(** the alpha values distinguish a total reflection from a hit *)
Definition alphas (st : beam_status) : R * R * R :=
  match st with TOTAL_REFLECTION => (2 / 10, 2 / 10, 2 / 10) | _ => (8 / 10, 5 / 10, 8 / 10) end.
(** the first result of the ray that stops it *)
Definition first_stop (label_max : nat) (l : list cast_result) (y : cast_result) : Prop :=
  exists l1 l2 p, l = l1 ++ y :: l2 /\ never_stops label_max l1 /\ stops label_max y p.
(** what is drawn for one beam from [b] to [e] whose cast results are [l]: the line coloured by
    the status of the beam and, unless the beam is long, a cube where it was stopped *)
Definition draws_beam (label_max : nat) (sin_ref hit_range : R) (b e : vec3) (l : list cast_result)
  (ds : list (marker_ns * list vec3 * list color)) : Prop :=
  exists st c0 c1, beam_is label_max sin_ref hit_range e l st /\
    has_rgb c0 (rgb_of st) /\ has_rgb c1 (rgb_of st) /\ c_a c0 = snd (fst (alphas st)) /\ c_a c1 = snd (alphas st) /\
    match st with
    | LONG => ds = [(Ray, [b; e], [c0; c1])]
    | _ => exists y c, first_stop label_max l y /\ has_rgb c (rgb_of st) /\ c_a c = fst (fst (alphas st)) /\
             ds = [(Collision, [c_pos y], [c]); (Ray, [b; e], [c0; c1])]
    end.
(** the i-th marker has id i *)
Definition numbered (ms : list marker) : Prop := forall i m, nth_error ms i = Some m -> m_id m = i.
