(** Vocabulary for dead reckoning: what the node does when nothing is uncertain. *)
From Coq Require Import String Reals ZArith List Bool Arith.
From Verif Require PfModel PfSpec FilterModel AccumModel.
From Verif Require Import Arith KdModel QuatModel QuatSpec StateModel StateSpec RayModel LidarModel NdModel ParamModel NodeModel NodeSpec NodeMotionProps.
Import ListNotations.
Open Scope R_scope.
Open Scope list_scope.

(** no noise is configured for resampling, for the expansion reset and for the odometry *)
Definition no_noise (p : params) : Prop :=
  Forall (fun v => v = 0) (resample_var p) /\ Forall (fun v => v = 0) (expansion_var p)
  /\ odom_err_ll p = 0 /\ odom_err_la p = 0 /\ odom_err_al p = 0 /\ odom_err_aa p = 0.
(** the odometry messages of a history *)
Definition odom_msgs (evs : list event) : list stamped :=
  flat_map (fun ev => match ev with EOdom _ t o _ => [(t, o)] | _ => [] end) evs.
(** the motion that a list of applied displacements (C75) adds up to *)
Definition travelled (ds : list (state * state * R)) : pose :=
  fold_left (fun a d => let '(o0, o, _) := d in comp_pose a (comp_pose (inv_pose (pose_of o0)) (pose_of o))) ds (v0, q1).
(** nobody moves the particles: no accepted initial pose and no global localization; odometry
    orientations are rotations and std::sort sorts *)
Definition passive (p : params) (ev : event) : Prop :=
  match ev with
  | EPosition m lk _ _ _ => pose_accepted p m lk = false
  | EGlobal _ _ => False
  | EOdom _ _ o _ => unit_pose o
  | ECloud _ e => sorts (e_sort e) /\ sorts (e_sort2 e)
  | ELandmark _ _ srt _ _ _ | EResize _ srt _ => sorts srt
  | _ => True
  end.
(** a particle without odometry noise at the pose [P] ([diff]: it is not a difference of poses) *)
Definition at_pose (P : pose) (s : state) : Prop := pose_of s = P /\ noise_free s /\ diff s = false.
(** all particles stand there *)
Definition all_at {S} (n : @node S) (P : pose) : Prop := forall s, In s (PfSpec.poses RA (n_pf n)) -> at_pose P s.
