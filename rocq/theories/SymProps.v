(** C127: the choice of the map frame does not matter. *)
From Coq Require Import Reals ZArith NArith List Bool Arith Lra Lia Psatz.
From Verif Require Import Arith QuatModel QuatSpec QuatProofs QuatProofs2 StateModel StateSpec KdModel KdSpec KdProofs KdProps RayModel RaySpec RayProofs KRayProofs NnSpec NnProofs RayProps LidarModel LidarSpec LidarProofs LidarProofs2 LidarProps NdModel NdProps SymSpec SymProofs.
From Verif Require PfModel PfHist PfSpec StateProps.
From Coq Require FunctionalExtensionality.
Import ListNotations.
Open Scope R_scope.

(** ** The filter: poses are only ever handed to the functions of the caller, so the same operations in
    another description of the poses give the same filter in that description, for every arithmetic,
    every translation [phi] and every sequence of operations; undefined behaviour is the same too. *)
Theorem C127_filter : forall (A : arith) T U (phi : T -> U) (ops : list (PfHist.op A T)) ops' (f : PfModel.filter A T),
  Forall2 (same_op phi) ops ops' -> run_all ops' (carry phi f) = option_map (carry phi) (run_all ops f).
Proof. intros A T U phi ops ops' f H. apply run_all_carry, H. Qed.
(** what the sort may do in one description it may do in the other *)
Theorem C127_same_schedules : forall (A : arith) T U (phi : T -> U) (o : PfHist.op A T) o' (f : PfModel.filter A T),
  same_op phi o o' -> PfHist.possible A o f -> PfHist.possible A o' (carry phi f).
Proof. intros. eapply possible_carry; eassumption. Qed.
(** ** The operations of the node are the same operations in the other frame: motion with the same
    odometry model, noise and resampling with the same displacements, measurements that give each pose
    the likelihood it had. *)
Theorem C127_operations : forall g : frame_change,
  (forall m, same_op (move_pose g) (PfHist.OPredict RA (fun _ s => motion_predict m s)) (PfHist.OPredict RA (fun _ s => motion_predict m s))) /\
  (forall nz, same_op (move_pose g) (PfHist.ONoise RA splus nz) (PfHist.ONoise RA splus (fun i => move_noise g (nz i)))) /\
  (forall off nz d, same_op (move_pose g) (PfHist.OResample RA splus normalize off nz d)
     (PfHist.OResample RA splus normalize off (fun k => move_noise g (nz k)) (map (carry_pair (move_pose g)) d))) /\
  (forall x n d, same_op (move_pose g) (PfHist.OResize RA x n d) (PfHist.OResize RA (move_pose g x) n (map (carry_pair (move_pose g)) d))) /\
  (forall l l', (forall i s, l' i (move_pose g s) = l i s) -> same_op (move_pose g) (PfHist.OMeasure RA l) (PfHist.OMeasure RA l')).
Proof.
  intro g. repeat split; try (intros; constructor).
  - intros i s. apply predict_moved.
  - intros s i. apply splus_moved.
  - intros s k. rewrite splus_moved. apply normalize_moved.
  - assumption.
Qed.
(** a frame that is only shifted: the very same displacements *)
Theorem C127_shift_keeps_noise : forall t n, move_noise {| fc_ang := 0; fc_tr := t |} n = n.
Proof.
  intros t n. apply state_eq; try reflexivity; unfold move_noise; cbn [pos rot fc_ang]; assert (E : yaw 0 = q1) by (unfold yaw, q1; replace (0 / 2) with 0 by field; rewrite sin_0, cos_0; reflexivity); rewrite E.
  - apply qrot_1.
  - assert (I : QuatModel.inv q1 = q1) by (rewrite <- (qmul_1_r (QuatModel.inv q1)); apply inv_l, unit_nonzero; unfold unit_quat, q1; cbn [QuatModel.qx QuatModel.qy QuatModel.qz QuatModel.qw]; ring). rewrite I, qmul_1_l, qmul_1_r. reflexivity.
Qed.
(** ** Odometry: only the motion between two odometry poses matters, not the odometry frame *)
Theorem C127_odometry_frame : forall lt at_ prev cur dt r t prev' cur', unit_quat r -> nonzero_quat (rot prev) ->
  pos prev' = vadd (qrot r (pos prev)) t -> pos cur' = vadd (qrot r (pos cur)) t -> rot prev' = qmul r (rot prev) -> rot cur' = qmul r (rot cur) ->
  setOdoms lt at_ prev' cur' dt = setOdoms lt at_ prev cur dt.
Proof.
  intros lt at_ prev cur dt r t prev' cur' U N P1 P2 R1 R2.
  assert (E1 : qmul (QuatModel.inv (rot prev')) (rot cur') = qmul (QuatModel.inv (rot prev)) (rot cur)).
  { rewrite R1, R2, inv_mul by (first [assumption | apply unit_nonzero; assumption]). rewrite !qmul_assoc. rewrite <- (qmul_assoc (QuatModel.inv r) r), inv_l by (apply unit_nonzero; exact U). rewrite qmul_1_l. reflexivity. }
  assert (E2 : qrot (QuatModel.inv (rot prev')) (vsub (pos cur') (pos prev')) = qrot (QuatModel.inv (rot prev)) (vsub (pos cur) (pos prev))).
  { rewrite R1, P1, P2, inv_mul by (first [assumption | apply unit_nonzero; assumption]). rewrite qrot_mul. f_equal.
    replace (vsub (vadd (qrot r (pos cur)) t) (vadd (qrot r (pos prev)) t)) with (qrot r (vsub (pos cur) (pos prev))).
    - apply qrot_inv_l, U.
    - rewrite qrot_sub. generalize (qrot r (pos cur)), (qrot r (pos prev)). intros x y. destruct x as [x1 x2 x3], y as [y1 y2 y3], t as [t1 t2 t3]. unfold vsub, vadd. cbn [vx vy vz]. f_equal; ring. }
  unfold setOdoms. rewrite E1, E2. reflexivity.
Qed.
(** ** The estimate *)
Theorem C127_mean : forall g (f : PfModel.filter RA state), Forall (fun x => 0 <= x) (PfSpec.weights RA f) -> 0 < PfSpec.Rsum (PfSpec.weights RA f) <= 1 ->
  tidy (direction ex f) (direction ez f) -> tidy (direction ex (carry (move_pose g) f)) (direction ez (carry (move_pose g) f)) ->
  exists e e', PfModel.expectation RA pose_mean (1 : RA) f = Some e /\ PfModel.expectation RA pose_mean (1 : RA) (carry (move_pose g) f) = Some e' /\
    pos e' = move_vec g (pos e) /\ same_rotation (rot e') (qmul (yaw (fc_ang g)) (rot e)).
Proof. exact mean_moved. Qed.
(** ** A frame that is only shifted: the estimate is shifted and the covariance (with any pass ratio and
    sampling ratio) is the same matrix, for every filter, without any condition on the directions. *)
Definition shift (t : vec3) : frame_change := {| fc_ang := 0; fc_tr := t |}.
Lemma yaw0 : yaw 0 = q1.
Proof. unfold yaw, q1; replace (0 / 2) with 0 by field; rewrite sin_0, cos_0; reflexivity. Qed.
Lemma shift_pose t s : move_pose (shift t) s = {| pos := vadd (pos s) t; rot := rot s; diff := diff s; noise_ll := noise_ll s; noise_la := noise_la s; noise_al := noise_al s; noise_aa := noise_aa s; err_lin := err_lin s; err_ang := err_ang s; rpy := rpy s |}.
Proof. unfold move_pose, move_vec, shift. cbn [fc_ang fc_tr]. rewrite yaw0, qmul_1_l, qrot_1. reflexivity. Qed.
Lemma expect_loop_moved g pass ps : forall m m' : qmean, moved_mean g m m' ->
  moved_mean g (PfModel.expect_loop RA pose_mean pass m ps) (PfModel.expect_loop RA pose_mean pass m' (map (carry_particle (move_pose g)) ps)).
Proof.
  induction ps as [|p ps IH]; intros m m' H; [exact H|]. cbn [map PfModel.expect_loop]. cbv zeta.
  pose proof (mean_add_moved g m m' (PfModel.st RA p) (PfModel.w RA p) H) as H1.
  change (PfModel.mean_add RA pose_mean m (PfModel.st RA p) (PfModel.w RA p)) with (qmean_add m (PfModel.st RA p) (PfModel.w RA p)).
  change (PfModel.mean_add RA pose_mean m' (PfModel.st RA (carry_particle (move_pose g) p)) (PfModel.w RA (carry_particle (move_pose g) p))) with (qmean_add m' (move_pose g (PfModel.st RA p)) (PfModel.w RA p)).
  change (PfModel.mean_total RA pose_mean) with m_sum. rewrite (proj1 H1). destruct (@flt RA pass _); [exact H1|]. apply IH, H1.
Qed.
Theorem C127_shift_estimate : forall t pass (f : PfModel.filter RA state),
  PfModel.expectation RA pose_mean pass (carry (move_pose (shift t)) f) = option_map (move_pose (shift t)) (PfModel.expectation RA pose_mean pass f).
Proof.
  intros t pass f. unfold PfModel.expectation. cbn [carry PfModel.parts]. cbv zeta.
  pose proof (expect_loop_moved (shift t) pass (PfModel.parts RA f) qmean0 qmean0 (mean0_moved _)) as MM.
  change (PfModel.mean_new RA pose_mean) with qmean0.
  set (m := PfModel.expect_loop RA pose_mean pass qmean0 (PfModel.parts RA f)) in *. set (m' := PfModel.expect_loop RA pose_mean pass qmean0 (map _ _)) in *. clearbody m m'.
  destruct MM as (A & B & C & D). change (PfModel.mean_total RA pose_mean m') with (m_sum m'). change (PfModel.mean_total RA pose_mean m) with (m_sum m). rewrite A.
  destruct (@flt RA f0 (m_sum m)) eqn:L; [|reflexivity]. apply Rltb_true in L. change (0 < m_sum m) in L. cbn [option_map]. f_equal.
  rewrite shift_pose. cbn [PfModel.mean_get pose_mean]. unfold qmean_get. rewrite A, B, C, D. cbn [shift fc_ang fc_tr]. rewrite yaw0, !qrot_1. unfold state_pr. cbn. f_equal.
  destruct (m_pos m) as [u1 u2 u3], t as [t1 t2 t3]. unfold vadd, vscale, vdiv. cbn [vx vy vz]. f_equal; field; lra.
Qed.
Lemma pass_count_carry {T U} (phi : T -> U) (pass : RA) ps : forall a, PfModel.pass_count RA pass a (map (carry_particle phi) ps) = PfModel.pass_count RA pass a ps.
Proof. induction ps as [|p ps IH]; intro a; [reflexivity|]. cbn [map PfModel.pass_count]. cbv zeta. rewrite IH. reflexivity. Qed.
Lemma cov_loop_carry {T U} (phi : T -> U) ce ce' e e' dim ps : (forall s, ce' (phi s) e' = ce s e) ->
  forall idx m a, PfModel.cov_loop RA ce' e' dim (map (carry_particle phi) ps) idx m a = PfModel.cov_loop RA ce e dim ps idx m a.
Proof.
  intro H. induction idx as [|i idx IH]; intros m a; [reflexivity|]. cbn [PfModel.cov_loop]. rewrite nth_error_map. destruct (nth_error ps i) as [p|]; cbn [option_map]; [|reflexivity]. cbv zeta.
  change (PfModel.st RA (carry_particle phi p)) with (phi (PfModel.st RA p)). rewrite H. apply IH.
Qed.
Theorem C127_shift_covariance : forall t pass ratio shuffle (f : PfModel.filter RA state),
  PfModel.covariance RA pose_mean (StateProps.cov6 : state -> state -> nat -> nat -> RA) 6 pass ratio shuffle (carry (move_pose (shift t)) f)
  = PfModel.covariance RA pose_mean (StateProps.cov6 : state -> state -> nat -> nat -> RA) 6 pass ratio shuffle f.
Proof.
  intros t pass ratio shuffle f. unfold PfModel.covariance. rewrite C127_shift_estimate. destruct (PfModel.expectation RA pose_mean pass f) as [e|]; cbn [option_map]; [|reflexivity]. cbv zeta.
  cbn [carry PfModel.parts]. rewrite pass_count_carry. rewrite (cov_loop_carry (move_pose (shift t)) StateProps.cov6 StateProps.cov6 e); [reflexivity|].
  intro s. apply FunctionalExtensionality.functional_extensionality. intro j. apply FunctionalExtensionality.functional_extensionality. intro k. unfold StateProps.cov6, covElement.
  assert (Q : forall i, cov_diff 1 (move_pose (shift t) s) (move_pose (shift t) e) i = cov_diff 1 s e i).
  { intro i. unfold cov_diff. rewrite !shift_pose. unfold angles. cbn [pos rot diff rpy]. destruct (i <? 3)%nat; [|reflexivity]. f_equal. unfold vadd. unfold v_get. destruct i as [|[|[|i]]]; cbn [vx vy vz]; try ring. }
  rewrite !Q. reflexivity.
Qed.
(** ** The likelihood field *)
(** distances do not depend on the frame: same weights for x and y, or no turn *)
Definition turn_ok (g : frame_change) (s : scale) : Prop := fc_ang g = 0 \/ fst (fst s) = snd (fst s).
Lemma dist_moved g s p q : turn_ok g s -> dist_sq s (to_pt (move_vec g p)) (to_pt (move_vec g q)) = dist_sq s (to_pt p) (to_pt q).
Proof.
  destruct s as [[a b] c]. unfold turn_ok. cbn [fst snd]. unfold dist_sq, to_pt, move_vec, vadd. rewrite !yaw_rot. cbn [px py pz vx vy vz]. intros [E|E].
  - rewrite E, cos_0, sin_0. ring.
  - subst b. pose proof (sin2_cos2 (fc_ang g)) as S. unfold Rsqr in S. set (si := sin (fc_ang g)) in *. set (co := cos (fc_ang g)) in *.
    set (u := vx p - vx q). set (v := vy p - vy q). set (w := vz p - vz q).
    transitivity (a * a * ((si * si + co * co) * (u * u + v * v)) + c * c * (w * w)); [unfold u, v, w; ring|]. rewrite S. unfold u, v, w. ring.
Qed.
Lemma to_of p : to_pt (of_pt p) = p. Proof. destruct p. reflexivity. Qed.
Lemma nearest_moved g s m q d : turn_ok g s -> nearest_dist s m (to_pt q) d -> nearest_dist s (move_map g m) (to_pt (move_vec g q)) d.
Proof.
  intros T (H0 & (p & Hp & Ep) & Hall). split; [exact H0|]. split.
  - exists (to_pt (move_vec g (of_pt p))). split; [unfold move_map; apply in_map_iff; exists p; auto|]. rewrite dist_moved by exact T. rewrite to_of. exact Ep.
  - intros p' Hp'. unfold move_map in Hp'. apply in_map_iff in Hp'. destruct Hp' as (r & <- & Hr). rewrite dist_moved by exact T. rewrite to_of. apply Hall, Hr.
Qed.
Lemma transform_moved g st pts : transform (move_pose g st) pts = map (fun p => {| p3 := move_vec g (p3 p); lab := lab p |}) (transform st pts).
Proof.
  unfold transform. rewrite map_map. apply map_ext. intro p. f_equal. cbn [move_pose rot pos p3]. rewrite normalized_yaw, qrot_mul. unfold move_vec. rewrite qrot_add.
  generalize (qrot (yaw (fc_ang g)) (qrot (qnormalized (rot st)) (p3 p))), (qrot (yaw (fc_ang g)) (pos st)), (fc_tr g). intros u v t. destruct u as [u1 u2 u3], v as [v1 v2 v3], t as [t1 t2 t3]. unfold vadd. cbn [vx vy vz]. f_equal; ring.
Qed.
Lemma nearest_list_moved g s m l ds : turn_ok g s -> Forall2 (fun p d => nearest_dist s m (to_pt (p3 p)) d) l ds ->
  Forall2 (fun p d => nearest_dist s (move_map g m) (to_pt (p3 p)) d) (map (fun p => {| p3 := move_vec g (p3 p); lab := lab p |}) l) ds.
Proof. intros T F. induction F as [|p d l ds H F IH]; [constructor|]. cbn [map]. constructor; [|exact IH]. cbn [p3]. apply nearest_moved; assumption. Qed.
(** The score and the match ratio of a scan at a pose in the map are those at the moved pose in the moved
    map: exact search, any two histories of map loads and settings that end with these maps and the
    same weights, any chunk sizes. *)
Theorem C127_likelihood : forall g lp cs cs' Lc Lc' rmax rmax' keep keep' m f f' pts st,
  let s := scale_of (last_rep cs None) in
  0 < Lc -> rmax <= Lc / 2 -> 0 < Lc' -> rmax' <= Lc' / 2 -> at_least_one s -> turn_ok g s -> scale_of (last_rep cs' None) = s ->
  eps_of (last_eps cs None) = 0 -> eps_of (last_eps cs' None) = 0 ->
  m <> [] -> last_load cs None = Some m -> last_load cs' None = Some (move_map g m) ->
  (forall q r, radiusSearch (kd_after cs Lc rmax keep) q r 1 (f q r)) -> (forall q r, radiusSearch (kd_after cs' Lc' rmax' keep') q r 1 (f' q r)) ->
  0 <= lp_weight lp -> 0 <= lp_dist_min lp <= rmax -> lp_dist_min lp <= rmax' -> lp_dist_flat lp <= lp_dist_min lp ->
  exists res, like_measure (like_refresh lp) f (Some pts) st = Some res /\ like_measure (like_refresh lp) f' (Some pts) (move_pose g st) = Some res.
Proof.
  intros g lp cs cs' Lc Lc' rmax rmax' keep keep' m f f' pts st s HL Hr HL' Hr' Hw HT Hs' He He' Hm Hl Hl' Hf Hf' Hwt Hd Hd' Hfl.
  destruct pts as [|p0 pts0]; [exists (1, 0); split; reflexivity|]. set (pts := p0 :: pts0). assert (Hne : pts <> []) by discriminate. clearbody pts.
  destruct (nearest_list s m (transform st pts) Hm) as (ds & F). pose proof (nearest_list_moved g s m _ ds HT F) as F'. rewrite <- transform_moved in F'.
  assert (Hw' : at_least_one (scale_of (last_rep cs' None))) by (rewrite Hs'; exact Hw). rewrite <- Hs' in F'.
  destruct (C62_exact_score lp cs Lc rmax keep m f pts st ds HL Hr Hw He Hl Hf Hwt Hd Hne F) as (r1 & E1).
  destruct (C63_exact_ratio lp cs Lc rmax keep m f pts st ds HL Hr Hw He Hl Hf Hwt Hd Hfl Hne F) as (s1 & E2).
  assert (Hd2 : 0 <= lp_dist_min lp <= rmax') by lra.
  destruct (C62_exact_score lp cs' Lc' rmax' keep' _ f' pts (move_pose g st) ds HL' Hr' Hw' He' Hl' Hf' Hwt Hd2 Hne F') as (r3 & E3).
  destruct (C63_exact_ratio lp cs' Lc' rmax' keep' _ f' pts (move_pose g st) ds HL' Hr' Hw' He' Hl' Hf' Hwt Hd2 Hfl Hne F') as (s4 & E4).
  rewrite E1 in E2. injection E2 as <- ->. rewrite E3 in E4. injection E4 as <- ->. eexists. split; [exact E1|exact E3].
Qed.
(** With an approximate search both scores lie in one and the same band. *)
Theorem C127_likelihood_band : forall g lp cs cs' Lc Lc' rmax rmax' keep keep' m f f' pts st,
  let s := scale_of (last_rep cs None) in let eps := eps_of (last_eps cs None) in
  0 < Lc -> rmax <= Lc / 2 -> 0 < Lc' -> rmax' <= Lc' / 2 -> at_least_one s -> turn_ok g s -> scale_of (last_rep cs' None) = s ->
  0 <= eps -> eps_of (last_eps cs' None) = eps ->
  m <> [] -> pts <> [] -> last_load cs None = Some m -> last_load cs' None = Some (move_map g m) ->
  (forall q r, radiusSearch (kd_after cs Lc rmax keep) q r 1 (f q r)) -> (forall q r, radiusSearch (kd_after cs' Lc' rmax' keep') q r 1 (f' q r)) ->
  0 <= lp_weight lp -> 0 <= lp_dist_min lp <= rmax -> lp_dist_min lp <= rmax' ->
  exists ds a b ra rb, Forall2 (fun p d => nearest_dist s m (to_pt (p3 p)) d) (transform st pts) ds /\
    like_measure (like_refresh lp) f (Some pts) st = Some (a, ra) /\ like_measure (like_refresh lp) f' (Some pts) (move_pose g st) = Some (b, rb) /\
    sumR (map (fun d => contribution lp (sqrt (1 + eps) * d)) ds) <= a <= sumR (map (contribution lp) ds) /\
    sumR (map (fun d => contribution lp (sqrt (1 + eps) * d)) ds) <= b <= sumR (map (contribution lp) ds).
Proof.
  intros g lp cs cs' Lc Lc' rmax rmax' keep keep' m f f' pts st s eps HL Hr HL' Hr' Hw HT Hs' He He' Hm Hne Hl Hl' Hf Hf' Hwt Hd Hd'.
  destruct (nearest_list s m (transform st pts) Hm) as (ds & F). pose proof (nearest_list_moved g s m _ ds HT F) as F'. rewrite <- transform_moved in F'.
  assert (Hw' : at_least_one (scale_of (last_rep cs' None))) by (rewrite Hs'; exact Hw). rewrite <- Hs' in F'.
  assert (Hd2 : 0 <= lp_dist_min lp <= rmax') by lra. assert (He2 : 0 <= eps_of (last_eps cs' None)) by (rewrite He'; exact He).
  destruct (C62_score lp (like_refresh lp) 0%N 0%N cs Lc rmax keep m f pts st ds HL Hr Hw He Hl Hf Hwt Hd (or_introl eq_refl) Hne F) as (a & k & E & B & _).
  destruct (C62_score lp (like_refresh lp) 0%N 0%N cs' Lc' rmax' keep' _ f' pts (move_pose g st) ds HL' Hr' Hw' He2 Hl' Hf' Hwt Hd2 (or_introl eq_refl) Hne F') as (b & k' & E' & B' & _).
  rewrite He' in B'. exists ds, a, b. do 2 eexists. split; [exact F|]. split; [exact E|]. split; [exact E'|]. split; [exact B|exact B'].
Qed.
(** ** Gravity: the IMU likelihood is the same *)
Theorem C127_gravity : forall g acc_var acc s, unit_quat (rot s) ->
  gravity_measure (gravity_set (gravity_new acc_var) acc) (move_pose g s) = gravity_measure (gravity_set (gravity_new acc_var) acc) s.
Proof. intros g av acc s U. apply (C70_yaw_invariant av acc s (move_pose g s) (fc_ang g) U). reflexivity. Qed.

(** ** A map frame turned by a quarter turn and lifted by one metre: two particles, a motion, a measurement,
    a scan against a one-point map. *)
Definition quarter : frame_change := {| fc_ang := PI / 2; fc_tr := V3 0 0 1 |}.
Definition duo : PfModel.filter RA state :=
  {| PfModel.parts := [ {| PfModel.st := state_pr (V3 1 0 0) q1; PfModel.w := (1/2 : RA); PfModel.bias := (1 : RA); PfModel.acc := None |};
                        {| PfModel.st := state_pr (V3 3 0 0) q1; PfModel.w := (1/2 : RA); PfModel.bias := (1 : RA); PfModel.acc := None |} ]; PfModel.entropy := None |}.
Lemma duo_direction d : direction d duo = d.
Proof. unfold direction, duo. cbn [PfModel.parts fold_left PfModel.st PfModel.w state_pr rot]. rewrite !qrot_1. destruct d as [x y z]. unfold v0, vadd, vscale. cbn [vx vy vz]. f_equal; lra. Qed.
Lemma unit_norm v : vdot v v = 1 -> vnormalized v = v. Proof. apply vnormalized_unit. Qed.
Lemma tidy_frame x y z : vdot x x = 1 -> vcross z x = y -> vdot y y = 1 -> vcross x y = z -> vdot z z = 1 -> 0 < 1 + vx x + vy y + vz z -> tidy x z.
Proof.
  intros X Y YY Z ZZ T. unfold tidy. cbv zeta. rewrite (unit_norm x X), Y, (unit_norm y YY), Z, (unit_norm z ZZ).
  assert (N : forall v, vdot v v = 1 -> nonzero_vec v) by (intros [v1 v2 v3] H (A & B & C); unfold vdot in H; cbn [vx vy vz] in *; subst; lra). auto.
Qed.
Example C127_nonvacuous :
  Forall (fun x => 0 <= x) (PfSpec.weights RA duo) /\ 0 < PfSpec.Rsum (PfSpec.weights RA duo) <= 1 /\
  tidy (direction ex duo) (direction ez duo) /\ tidy (direction ex (carry (move_pose quarter) duo)) (direction ez (carry (move_pose quarter) duo)) /\
  map (fun p => pos (PfModel.st RA p)) (PfModel.parts RA (carry (move_pose quarter) duo)) = [V3 0 1 1; V3 0 3 1] /\
  turn_ok quarter (1, 1, 5) /\ move_map quarter [to_pt (V3 5 0 0)] = [to_pt (V3 0 5 1)] /\
  exists f f', (forall q r, radiusSearch (kd_after [CRep (1, 1, 5); CLoad [to_pt (V3 5 0 0)]] 20 1 false) q r 1 (f q r)) /\
    (forall q r, radiusSearch (kd_after [CRep (1, 1, 5); CLoad (move_map quarter [to_pt (V3 5 0 0)])] 20 1 false) q r 1 (f' q r)).
Proof.
  assert (Q : forall v, qrot (yaw (fc_ang quarter)) v = V3 (- vy v) (vx v) (vz v)).
  { intro v. rewrite yaw_rot. cbn [quarter fc_ang]. rewrite cos_PI2, sin_PI2. f_equal; ring. }
  split; [unfold PfSpec.weights, duo; cbn; repeat constructor; lra|]. split; [unfold PfSpec.weights, duo; cbn; lra|].
  rewrite !direction_moved, !duo_direction, !Q.
  split. { apply (tidy_frame ex ey ez); unfold vdot, vcross, ex, ey, ez; cbn [vx vy vz]; try lra; f_equal; lra. }
  split. { apply (tidy_frame _ (V3 (-1) 0 0)); unfold vdot, vcross, ex, ey, ez; cbn [vx vy vz]; try lra; f_equal; lra. }
  split. { unfold carry, duo. cbn [PfModel.parts map]. unfold carry_particle. cbn [PfModel.st move_pose pos state_pr]. unfold move_vec. rewrite !Q. unfold vadd. cbn [vx vy vz quarter fc_tr]. repeat f_equal; lra. }
  split; [right; reflexivity|].
  split. { unfold move_map. cbn [map]. f_equal. f_equal. unfold move_vec, of_pt, to_pt. cbn [px py pz vx vy vz]. rewrite Q. unfold vadd. cbn [vx vy vz quarter fc_tr]. f_equal; lra. }
  destruct (C58_search_exists [CRep (1, 1, 5); CLoad [to_pt (V3 5 0 0)]] 20 1 false [to_pt (V3 5 0 0)] eq_refl ltac:(cbn; lra)) as (f & Hf).
  destruct (C58_search_exists [CRep (1, 1, 5); CLoad (move_map quarter [to_pt (V3 5 0 0)])] 20 1 false (move_map quarter [to_pt (V3 5 0 0)]) eq_refl ltac:(cbn; lra)) as (f' & Hf').
  exists f, f'. auto.
Qed.
