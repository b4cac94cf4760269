(** What the clients of the map search (radiusSearch with limit 1) rely on. *)
From Coq Require Import Reals List.
From Verif Require Import Arith KdModel.
Import ListNotations.
Open Scope R_scope.

(** For radii up to [rmax]: a hit is a point of the cloud in range, with its distance, and
    no point is closer by more than the tolerance; a miss means that no point is in range
    (up to the tolerance). *)
Definition nn_spec (s : scale) (eps : R) (cloud : list pt) (rmax : R) (search : pt -> R -> search) : Prop :=
  forall q r, 0 <= r <= rmax ->
    match search q r with
    | Throws => False
    | NoChunk | Found [] => forall p, In p cloud -> r * r <= (1 + eps) * dist_sq s p q
    | Found ((i, d) :: _) =>
        exists p, nth_error cloud i = Some p /\ d = dist_sq s p q /\ d < r * r /\
          forall p', In p' cloud -> d <= (1 + eps) * dist_sq s p' q
    end.
