(** Vocabulary for what one localization step does to the particles and what it reports. *)
From Coq Require Import String Reals ZArith List Bool Arith Permutation.
From Verif Require PfModel FilterModel AccumModel PfSpec.
From Verif Require Import Arith KdModel QuatModel StateModel StateSpec RayModel LidarModel NdModel ParamModel NodeModel NodeSpec.
Import ListNotations.
Open Scope R_scope.
Open Scope list_scope.

(** [f'] is [f] after Bayes' rule with the likelihood [lk i] for the i-th particle; without any
    likelihood the weights stay as they were *)
Definition reweighted (f f' : PfModel.filter RA state) (lk : nat -> R) : Prop :=
  length (PfModel.parts RA f') = length (PfModel.parts RA f)
  /\ let tot := PfSpec.Rsum (map (fun iq => PfModel.w RA (snd iq) * lk (fst iq)) (combine (seq 0 (length (PfModel.parts RA f))) (PfModel.parts RA f))) in
     forall i q, nth_error (PfModel.parts RA f) i = Some q ->
       exists q', nth_error (PfModel.parts RA f') i = Some q'
         /\ pos (PfModel.st RA q') = pos (PfModel.st RA q) /\ rot (PfModel.st RA q') = rot (PfModel.st RA q)
         /\ (0 < tot -> PfModel.w RA q' = PfModel.w RA q * lk i / tot)
         /\ (tot <= 0 -> PfModel.w RA q' = PfModel.w RA q).
(** the normal density with standard deviation [sg] *)
Definition gauss (sg x : R) : R := exp (- (x * x) / (2 * sg * sg)) / sqrt (2 * PI * sg * sg).

(** a particle with a freshly drawn odometry noise *)
Definition fresh_noise (p : params) (z : R * R * R * R) (s s' : state) : Prop :=
  let '(ll, la, aa, al) := z in
  pos s' = pos s /\ rot s' = rot s /\ err_lin s' = err_lin s /\ err_ang s' = err_ang s
  /\ noise_ll s' = ll * odom_err_ll p /\ noise_la s' = la * odom_err_la p
  /\ noise_aa s' = aa * odom_err_aa p /\ noise_al s' = al * odom_err_al p.

(** a pose drawn with the standard deviations [sg] (x, y, z, roll, pitch, yaw) around the origin from
    the standard normal numbers [z 0], [z 1], ...; a zero deviation takes no number *)
Definition draw (sg : list R) (z : nat -> R) (k : nat) : R :=
  nth k sg 0 * z (length (filter (fun s => if Req_EM_T s 0 then false else true) (firstn k sg))).
Definition drawn_pose (sg : list R) (z : nat -> R) (s : state) : Prop :=
  pos s = V3 (draw sg z 0) (draw sg z 1) (draw sg z 2)
  /\ rot s = setRPY (V3 (draw sg z 3) (draw sg z 4) (draw sg z 5))
  /\ err_lin s = pos s /\ err_ang s = V3 (draw sg z 3) (draw sg z 4) (draw sg z 5) /\ noise_free s.

(** the maximum of a list of non-negative numbers *)
Definition is_max (l : list R) (m : R) : Prop := (forall x, In x l -> x <= m) /\ (l <> [] -> In m l).

(** [u] are the elements of [l], in order, whose position is in the set [P] *)
Fixpoint select {X} (P : nat -> bool) (i : nat) (l : list X) : list X :=
  match l with [] => [] | x :: t => if P i then x :: select P (i + 1) t else select P (i + 1) t end.

(** the points of a cloud at a pose *)
Definition placed (pp : vec3) (pr : quat) (l : list lpt) : list vec3 :=
  map (fun q => vadd (qrot (qnormalized pr) (p3 q)) pp) l.
(** the distance weights of the search structure and its tolerance *)
Definition search_weights (p : params) : scale := let '(wx, wy, wz, _) := dist_weight p in (wx, wy, wz).
Definition search_tol (p : params) : R := map_grid_min p / 16.
(** squared distance of a point from a map point, with these weights *)
Definition map_dist_sq (p : params) (mp : lpt) (v : vec3) : R := dist_sq (search_weights p) (to_pt (p3 mp)) (to_pt v).
(** the search structure is configured for searches with radius [r] *)
Definition covers (p : params) (r : R) : Prop :=
  0 < map_chunk p /\ 0 <= r <= configured_radius p /\ configured_radius p <= map_chunk p / 2 /\ 0 <= search_tol p
  /\ let '(wx, wy, wz) := search_weights p in 1 <= wx /\ 1 <= wy /\ 1 <= wz.

(** ** Histories of reports *)
(** the stamp of the pose published by an event *)
Fixpoint pose_stamp (o : list output) : option R :=
  match o with [] => None | OPose t _ _ :: _ => Some t | _ :: r => pose_stamp r end.
Definition is_matched (x : output) : bool := match x with OMatched _ _ => true | _ => false end.
(** the stamp of the last report of matched points, [t0] if there was none *)
Fixpoint last_matched {S} (t0 : R) (tr : list (entry (S := S))) : R :=
  match tr with
  | [] => t0
  | x :: r => last_matched (match existsb is_matched (outs x), pose_stamp (outs x) with true, Some t => t | _, _ => t0 end) r
  end.
(** a map was loaded by this event *)
Definition loads_map (ev : event) : bool := match ev with EMap (Some _) _ _ | ELoadPcd (Some _) _ => true | _ => false end.
(** the points of a cloud at a pose, with their labels *)
Definition placed_pts (pp : vec3) (pr : quat) (l : list lpt) : list lpt :=
  map (fun q => {| p3 := vadd (qrot (qnormalized pr) (p3 q)) pp; lab := lab q |}) l.
(** what a history collects: nothing before the first map; a map load starts anew; every
    localization step appends the points it gave to the likelihood model, placed at the pose it
    published *)
Inductive collected {S} (caster : cloud -> (pt -> R -> search) -> raycaster S) (voxel : R * R * R -> list lpt -> list lpt) (p : params)
  : option (list lpt) -> list (entry (S := S)) -> option (list lpt) -> Prop :=
| co_nil c : collected caster voxel p c [] c
| co_load c x r c' : loads_map (what x) = true -> collected caster voxel p (Some []) r c' -> collected caster voxel p c (x :: r) c'
| co_loc l x r c' t pp pr cv m e n1 h pc os n2 bp lp : what x = ECloud m e -> In (OPose t (pp, pr) cv) (outs x) ->
    measures_with voxel p caster (before x) m e n1 h pc os -> filters p n1 e (voxel (ds_x p, ds_y p, ds_z p) pc) = (n2, bp, lp) ->
    collected caster voxel p (Some (l ++ placed_pts pp pr lp)) r c' -> collected caster voxel p (Some l) (x :: r) c'
| co_other c x r c' : loads_map (what x) = false -> localizes x = false -> collected caster voxel p c r c' -> collected caster voxel p c (x :: r) c'.

(** the difference of two poses as a landmark measurement sees it: the displacement of the
    positions and roll, pitch and yaw of the relative rotation *)
Definition pose_diff (measured s : state) : list R :=
  let a := getRPY (qmul (QuatModel.inv (rot measured)) (rot s)) in
  [vx (pos s) - vx (pos measured); vy (pos s) - vy (pos measured); vz (pos s) - vz (pos measured); vx a; vy a; vz a].

(** std::sort works in the event *)
Definition sorts_in {S} (x : entry (S := S)) : Prop :=
  match what x with
  | ELandmark _ _ srt _ _ _ | EResize _ srt _ => sorts srt
  | _ => True
  end.
