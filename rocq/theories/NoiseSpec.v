(** Vocabulary for C125: how far the odometry moved and turned. *)
From Coq Require Import Reals List Bool.
From Verif Require Import QuatModel QuatSpec StateModel StateSpec.
Import ListNotations.
Open Scope R_scope.

(** the rigid motion from one odometry pose to another, seen from the first *)
Definition motion_between (a b : state) : pose := comp_pose (inv_pose (pose_of a)) (pose_of b).
(** [th] is the angle the rotation [d] counts for: 0 if d turns by less than about 0.16 degrees
    (|w| of its quaternion at least 0.999999), otherwise the angle of the rotation (its half has the
    cosine |w|), counted positive if w >= 0 and negative if w < 0 *)
Definition turn (d : quat) (th : R) : Prop :=
  (1 - 1 / 1000000 <= Rabs (qw d) -> th = 0)
  /\ (Rabs (qw d) < 1 - 1 / 1000000 ->
      - PI < th <= PI /\ cos (th / 2) = Rabs (qw d) /\ (0 <= qw d -> 0 < th) /\ (qw d < 0 -> th < 0)).
(** length of a path of odometry poses *)
Fixpoint path_length (prev : state) (odoms : list (state * R)) : R :=
  match odoms with [] => 0 | (o, _) :: r => dist3 (pos o) (pos prev) + path_length o r end.
(** the pose of an odometry message with the rotation's quaternion negated (the same rotation) *)
Definition negated (s : state) : state := state_pr (pos s) (qopp (rot s)).
