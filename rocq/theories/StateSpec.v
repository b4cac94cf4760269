(** Vocabulary for the pose properties: rigid motions as (translation, rotation). *)
From Coq Require Import Reals List Bool.
From Verif Require Import Arith PfModel PfSpec QuatModel QuatSpec StateModel.
Import ListNotations.
Open Scope R_scope.

Definition pose := (vec3 * quat)%type.
Definition pose_of (s : state) : pose := (pos s, rot s).
(** Composition and inverse of rigid motions. *)
Definition comp_pose (a b : pose) : pose := (vadd (fst a) (qrot (snd a) (fst b)), qmul (snd a) (snd b)).
Definition inv_pose (a : pose) : pose := (vopp (qrot (inv (snd a)) (fst a)), inv (snd a)).
Definition unit_pose (s : state) : Prop := unit_quat (rot s).
Definition dist3 (a b : vec3) : R := vnorm (vsub a b).

(** A particle without sampled odometry noise. *)
Definition noise_free (s : state) : Prop :=
  noise_ll s = 0 /\ noise_la s = 0 /\ noise_al s = 0 /\ noise_aa s = 0.
(** One prediction for an odometry step, and a chain of them. *)
Definition predict1 (tl ta : R) (prev cur : state) (dt : R) (s : state) : state :=
  motion_predict (setOdoms tl ta prev cur dt) s.
Fixpoint predict_chain (tl ta : R) (prev : state) (odoms : list (state * R)) (s : state) : state :=
  match odoms with
  | [] => s
  | (cur, dt) :: r => predict_chain tl ta cur r (predict1 tl ta prev cur dt s)
  end.

(** The generic weighted mean interface of the filter, for poses. *)
Definition pose_mean : mean_ops RA state :=
  {| mean_st := qmean : Type; mean_new := qmean0;
     mean_add := (qmean_add : qmean -> state -> RA -> qmean);
     mean_total := (m_sum : qmean -> RA); mean_get := qmean_get |}.

(** x and y are the same angle *)
Definition same_angle (x y : R) : Prop := exists k : Z, x = y + IZR k * (2 * PI).

(** Two particles have the same pose and the same integrated odometry error. *)
Definition same_pose (a b : state) : Prop :=
  pos a = pos b /\ rot a = rot b /\ err_lin a = err_lin b /\ err_ang a = err_ang b.

(** [e] has the rotation [r] (up to the sign of the quaternion) and the weighted mean
    position of the given (state, weight) pairs. *)
Definition agree (r : quat) (ps : list (state * R)) (e : state) : Prop :=
  (rot e = r \/ rot e = qopp r) /\
  vx (pos e) = Rsum (map (fun sw => snd sw * vx (pos (fst sw))) ps) / Rsum (map snd ps) /\
  vy (pos e) = Rsum (map (fun sw => snd sw * vy (pos (fst sw))) ps) / Rsum (map snd ps) /\
  vz (pos e) = Rsum (map (fun sw => snd sw * vz (pos (fst sw))) ps) / Rsum (map snd ps).
