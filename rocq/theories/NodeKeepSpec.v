(** Vocabulary for: the true pose is not lost. *)
From Coq Require Import String Reals ZArith List Bool Arith.
From Verif Require PfModel PfSpec FilterModel AccumModel.
From Verif Require Import Arith KdModel QuatModel QuatSpec StateModel StateSpec RayModel LidarModel NdModel ParamModel MatModel NodeModel NodeSpec NodeMotionProps NodePostSpec NodeTrackSpec.
Import ListNotations.
Open Scope R_scope.
Open Scope list_scope.

(** Some particle stands at the pose [P], has the largest weight and the smallest accumulated odometry
    error; the weights are a distribution and no particle carries odometry noise. *)
Definition tracked (P : pose) (f : PfModel.filter RA state) : Prop :=
  PfSpec.Rsum (PfSpec.weights RA f) = 1 /\ Forall (fun w => 0 <= w) (PfSpec.weights RA f) /\ Forall noise_free (PfSpec.poses RA f)
  /\ exists i s w, nth_error (PfSpec.poses RA f) i = Some s /\ nth_error (PfSpec.weights RA f) i = Some w /\ at_pose P s
       /\ (forall w', In w' (PfSpec.weights RA f) -> w' <= w)
       /\ (forall s', In s' (PfSpec.poses RA f) -> vnorm (err_lin s) <= vnorm (err_lin s')).

(** the settings: no noise in resampling and odometry, sane model parameters, a threshold of at
    most one for the expansion reset *)
Definition keep_settings (p : params) : Prop :=
  Forall (fun v => v = 0) (resample_var p) /\ odom_err_ll p = 0 /\ odom_err_la p = 0 /\ odom_err_al p = 0 /\ odom_err_aa p = 0
  /\ fake_odom p = false /\ fake_imu p = false /\ match_ratio_thresh p <= 1 /\ integ_lin_sigma p <> 0 /\ acc_var p <> 0
  /\ 0 <= bp_alpha (p_beam p) <= 1 /\ (0 < bp_default (p_beam p))%N
  /\ covers p (lp_dist_min (p_like p)) /\ 0 < lp_dist_min (p_like p) /\ 0 <= lp_dist_flat (p_like p) <= lp_dist_min (p_like p) /\ 0 <= lp_weight (p_like p).
(** a list that is ordered stays as it is (std::sort need not do that: C07) *)
Definition stable (srt : sorter) : Prop :=
  sorts srt /\ forall l, (forall i j a b, (i < j)%nat -> nth_error l i = Some a -> nth_error l j = Some b -> fst a <= fst b) -> srt l = l.
(** the random offset of the resampling *)
Definition good_offset {S} (n : @node S) (off : R) : Prop := 0 < off < / INR (psize n).
(** squared deviation, weighted with a matrix *)
Definition form6 (m : mat) (x : nat -> R) : R := rsum 6 (fun i => x i * rsum 6 (fun j => m i j * x j)).

Section Keep.
Context {S : Type} (caster : cloud -> (pt -> R -> search) -> raycaster S)
        (voxel : R * R * R -> list lpt -> list lpt) (p : params).
Notation node := (node (S := S)).
(** What the sensors have to deliver when the robot is at the pose [P]: in a cloud every point
    used by the likelihood model lies on a point of the map [cl], and no beam is penalised; the filtered
    acceleration points along the vertical; a landmark reports the pose itself, with a covariance
    of positive determinant whose inverse is positive semidefinite.  Nobody moves the particles. *)
Definition truthful (P : pose) (n : node) (ev : event) : Prop :=
  match ev with
  | ECloud m e =>
      (forall q r, radiusSearch (kd (n_map n)) q r 1 (e_search e q r)) /\ stable (e_sort e) /\ sorts (e_sort2 e) /\ good_offset n (e_offset e)
      /\ forall n1 h pc os n2 bp lp cl, measures_with voxel p caster n m e n1 h pc os ->
           filters p n1 e (voxel (ds_x p, ds_y p, ds_z p) pc) = (n2, bp, lp) -> map_cloud n = Ok cl ->
           (forall q, In q lp -> exists mp, In mp (cl_pts cl) /\ p3 mp = vadd (qrot (snd P) (p3 q)) (fst P))
           /\ (forall q o sa sb st, In q bp -> nth_error os (lab q) = Some o ->
                 getBeamStatus (l_beam (n_lid n2)) (caster cl (e_search e)) (e_fuel e) sa (vadd (fst P) (qrot (snd P) o)) (vadd (qrot (snd P) (p3 q)) (fst P)) = Done (sb, st) ->
                 match st with SHORT => False | LONG => bp_short_only (p_beam p) = true | _ => True end)
  | EImu frame stamp acc orient lk =>
      forall tfr, imu_tf p lk frame = Some tfr ->
        qrot tfr (vnormalized (v3 (FilterModel.v_out (FilterModel.input3 (f_acc (n_imu n)) (tup acc))))) = qrot (QuatModel.inv (snd P)) (V3 0 0 1)
  | EOdom _ _ o _ => unit_pose o
  | ELandmark m inverse srt offset _ _ =>
      (pm_pos m, pm_rot m) = P /\ 0 < det 6 (landmark_sigma (pm_cov m)) /\ (forall x, 0 <= form6 (inverse (landmark_sigma (pm_cov m))) x) /\ stable srt /\ good_offset n offset
  | EPosition m lk _ _ _ => pose_accepted p m lk = false
  | EResize _ _ _ | EExpansion _ _ | EGlobal _ _ => False
  | _ => True
  end.
(** the pose after an event: moved by the odometry that is applied (C75) *)
Definition moved (P : pose) (n : node) (ev : event) : pose := comp_pose P (travelled (applied (odom_ref n) (odom_msgs [ev]))).
(** a history in which every sensor message is truthful *)
Fixpoint truthful_run (P : pose) (n : node) (evs : list event) : Prop :=
  match evs with
  | [] => True
  | ev :: r => truthful P n ev /\ forall n' o, step caster voxel p n ev = Ok (n', o) -> truthful_run (moved P n ev) n' r
  end.
End Keep.
