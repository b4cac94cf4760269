(** Properties C105, C106: frames and times.  Where the points of accumulated clouds, the sensor
    origins, initial poses and accelerations end up when the transforms describe a real robot. *)
From Coq Require Import String Reals ZArith NArith List Bool Arith Lra Lia Psatz.
From Verif Require PfModel FilterModel FilterSpec FilterProofs AccumModel.
From Verif Require Import Arith KdModel QuatModel QuatSpec QuatProofs StateModel StateSpec StateProofs RayModel LidarModel NdModel NdSpec NdProps ParamModel MatModel NodeModel NodeSpec
  NodeFrame NodeLocProofs NodeStepProofs NodeMapProofs NodeAccProofs NodeAccProps NodeMotionProps.
Import ListNotations.
Open Scope nat_scope.
Open Scope R_scope.
Open Scope list_scope.

(** ** What transforms mean *)
(** where every frame is, relative to the (fixed) odometry frame, at every time *)
Definition world : Type := string -> R -> pose.
Definition rigid (odom : string) (W : world) : Prop := (forall t, W odom t = (v0, q1)) /\ forall f t, unit_quat (snd (W f t)).
(** the point that has the coordinates [v] in a frame at pose [a] *)
Definition place (a : pose) (v : vec3) : vec3 := vadd (fst a) (qrot (snd a) v).
(** the pose of [source] at time [ts], seen from [target] at time [tt] *)
Definition seen_from (W : world) (target : string) (tt : R) (source : string) (ts : R) : pose :=
  comp_pose (inv_pose (W target tt)) (W source ts).
(** the answers of a transform buffer (that are not about the latest time, 0) are true *)
Definition tells (W : world) (lk : tf_buffer) : Prop :=
  forall a b t tf, t <> 0 -> lk a b t = Some tf -> tf = seen_from W a t b t.
Definition tells5 (odom : string) (W : world) (lk : tf_buffer5) : Prop :=
  forall a ta b tb tf, ta <> 0 -> tb <> 0 -> lk a ta b tb odom = Some tf -> tf = seen_from W a ta b tb.

Lemma place_seen W a ta b tb v : unit_quat (snd (W a ta)) -> place (W a ta) (place (seen_from W a ta b tb) v) = place (W b tb) v.
Proof.
  intro U. unfold place, seen_from, comp_pose, inv_pose. cbn [fst snd]. destruct (W a ta) as [p q], (W b tb) as [p' q']. cbn [fst snd] in *.
  rewrite qrot_mul, !qrot_add, qrot_vopp, !qrot_inv_r by exact U. rewrite <- !vadd_assoc, vadd_opp_r, vadd_0_l. reflexivity.
Qed.
Lemma tf_point_place tf v : tf_point tf v = place tf v.
Proof. unfold tf_point, place. destruct (fst tf), (qrot (snd tf) v). unfold vadd. cbn. f_equal; ring. Qed.
Lemma place_inj a u v : unit_quat (snd a) -> place a u = place a v -> u = v.
Proof.
  intros U H. unfold place in H. assert (E : qrot (snd a) u = qrot (snd a) v) by (destruct (fst a), (qrot (snd a) u), (qrot (snd a) v); cbn in H; injection H as H1 H2 H3; f_equal; lra).
  rewrite <- (qrot_inv_l _ u U), <- (qrot_inv_l _ v U), E. reflexivity.
Qed.
Lemma place_dist a u v : unit_quat (snd a) -> vnorm (vsub (place a u) (place a v)) = vnorm (vsub u v).
Proof.
  intro U. rewrite <- (qrot_norm (snd a) (vsub u v) U), qrot_sub. f_equal. unfold place. unfold vsub, vadd. destruct (fst a), (qrot (snd a) u), (qrot (snd a) v). cbn. f_equal; ring.
Qed.
Lemma place_0 a : place a v0 = fst a.
Proof. unfold place. rewrite qrot_v0. apply vadd_0_r. Qed.

Section Frames.
Context {S : Type} (caster : cloud -> (pt -> R -> search) -> raycaster S)
        (voxel : R * R * R -> list lpt -> list lpt) (p : params).
Notation node := (node (S := S)).
Implicit Types n : node.

Lemma labelled_in ms : forall i q, In q (labelled p i ms) -> exists c v, nth_error ms (lab q - i) = Some c /\ (i <= lab q)%nat /\ In v (msg_points p c) /\ p3 q = v.
Proof.
  induction ms as [|m t IH]; intros i q H; [destruct H|]. cbn [labelled] in H. apply in_app_or in H. destruct H as [H|H].
  - apply in_map_iff in H. destruct H as (v & <- & Hv). exists m, v. cbn [lab p3]. rewrite Nat.sub_diag. auto.
  - destruct (IH _ _ H) as (c & v & H1 & H2 & H3 & H4). exists c, v. replace (lab q - i)%nat with (Datatypes.S (lab q - (i + 1))) by lia. repeat split; auto. lia.
Qed.

(** C105: every point that enters a measurement is the point its sensor saw, where the sensor was
    at the time of its cloud, and its origin is where the sensor was then; both in coordinates of
    where the robot is at the time of the newest cloud.  So the distance from the origin to the
    point is the measured range *)
Theorem C105_points_and_origins W evs gen rc0 n o m e n1 h pc os :
  steps caster voxel p (configure p gen rc0) evs = Ok (n, o) -> measures_with voxel p caster n m e n1 h pc os ->
  rigid (frame_odom p) W -> tells W (e_lookup e) -> tells5 (frame_odom p) W (e_lookup5 e) ->
  (forall c, In c (accepted voxel p expected0 evs ++ [m]) -> tells W (cm_lookup c) /\ cm_stamp c <> 0) ->
  exists buf, (if (accum_cloud p =? 0)%Z then buf = [m] else is_suffix buf (accepted voxel p expected0 evs))
    /\ (exists pre l, buf = pre ++ [l] /\ h = msg_header l)
    /\ forall q, In q pc -> exists c l v origin,
         nth_error buf (lab q) = Some c /\ cm_conv c = Some l /\ In v l /\ nth_error os (lab q) = Some origin
         /\ let robot := W (frame_base p) (h_stamp h) in let sensor := W (cm_frame c) (cm_stamp c) in
            place robot (p3 q) = place sensor v /\ place robot origin = fst sensor /\ vnorm (vsub (p3 q) origin) = vnorm v.
Proof.
  intros H Hw [Wo Wu] T T5 Tc.
  destruct (C92_latest_clouds_exactly_once caster voxel p _ _ _ _ _ _ _ _ _ _ _ H Hw) as (tf & buf & B1 & B2 & B3 & B4 & (pre & l0 & B5 & B6) & _ & B7).
  exists buf. split; [exact B3|]. split; [exists pre, l0; auto|].
  assert (Hin : forall c, In c buf -> In c (accepted voxel p expected0 evs ++ [m])).
  { intros c Hc. apply in_or_app. destruct (accum_cloud p =? 0)%Z; [right; rewrite <- B3; exact Hc|]. destruct B3 as (pr & ->). left. apply in_or_app. auto. }
  assert (Hs : h_stamp h <> 0).
  { rewrite B6. cbn. apply Tc, Hin. rewrite B5. apply in_or_app. right. left. reflexivity. }
  intros q Hq. rewrite B4 in Hq. apply in_map_iff in Hq. destruct Hq as (q0 & <- & Hq0). cbn [p3 lab].
  destruct (labelled_in _ _ _ Hq0) as (c & v & C1 & _ & C2 & C3). rewrite Nat.sub_0_r in C1. rewrite C3.
  destruct (Tc c (Hin c (nth_error_In _ _ C1))) as [Tl Tz].
  unfold msg_points, in_odom in C2. destruct (cm_lookup c (frame_odom p) (cm_frame c) (cm_stamp c)) as [[t r]|] eqn:El; [|destruct C2].
  destruct (cm_conv c) as [l|] eqn:Ecv; [|destruct C2]. apply in_map_iff in C2. destruct C2 as (u & C2 & Hu).
  destruct (B7 _ _ C1) as (tf5 & L5 & Eo). exists c, l, u, (fst tf5). repeat (split; [assumption || reflexivity|]).
  assert (E1 : v = place (W (cm_frame c) (cm_stamp c)) u).
  { apply Tl in El; [|exact Tz]. rewrite <- C2. change (vadd (qrot r u) t) with (tf_point (t, r) u). rewrite tf_point_place, El.
    rewrite <- (place_seen W (frame_odom p) (cm_stamp c)) by apply Wu. rewrite Wo at 1. unfold place at 2. cbn [fst snd]. rewrite qrot_1, vadd_0_l. reflexivity. }
  apply T in B1; [|exact Hs]. apply T5 in L5; [|exact Hs|exact Tz].
  assert (E2 : place (W (frame_base p) (h_stamp h)) (tf_point tf v) = v).
  { rewrite tf_point_place, B1, place_seen by apply Wu. rewrite Wo. unfold place. cbn [fst snd]. rewrite qrot_1, vadd_0_l. reflexivity. }
  assert (E3 : place (W (frame_base p) (h_stamp h)) (fst tf5) = fst (W (cm_frame c) (cm_stamp c))).
  { rewrite <- (place_0 tf5), L5, place_seen by apply Wu. apply place_0. }
  change (vadd (qrot (snd tf) v) (fst tf)) with (tf_point tf v). cbv zeta. split; [rewrite E2; exact E1|]. split; [exact E3|].
  rewrite <- (place_dist (W (frame_base p) (h_stamp h)) (tf_point tf v) (fst tf5)) by apply Wu. rewrite E2, E3, E1, <- place_0, place_dist by apply Wu.
  f_equal. unfold v0, vsub. destruct u. cbn. f_equal; ring.
Qed.
(** the hypotheses on the transforms can be met for every moving robot *)
Example C105_nonvacuous W : (forall t, W (frame_odom p) t = (v0, q1)) -> (forall f t, unit_quat (snd (W f t))) ->
  rigid (frame_odom p) W /\ tells W (fun a b t => Some (seen_from W a t b t)) /\ tells5 (frame_odom p) W (fun a ta b tb _ => Some (seen_from W a ta b tb)).
Proof. intros H1 H2. repeat split; auto; [intros a b t tf _ E|intros a ta b tb tf _ _ E]; congruence. Qed.

(** C105: the particles of an initial pose are generated around the pose the message describes,
    at the time of the message *)
Theorem C105_initial_pose W n m lk solver z now n' o :
  step caster voxel p n (EPosition m lk solver z now) = Ok (n', [o]) -> tells W lk -> pm_stamp m <> 0 -> unit_quat (pm_rot m) ->
  (forall f t, unit_quat (snd (W f t))) ->
  exists mean, (forall i s, nth_error (poses n') i = Some s -> s = reset_err (initial_state solver mean (pm_cov m) (z i)))
    /\ let here := W (frame_map p) (pm_stamp m) in let there := W (pm_frame m) (pm_stamp m) in
       place here (pos mean) = place there (pm_pos m) /\ qmul (snd here) (rot mean) = qmul (snd there) (pm_rot m).
Proof.
  intros H T Ht Um Wu.
  assert (Un : Rabs (qdot (pm_rot m) (pm_rot m) - 1) <= 1 / 10) by (rewrite (unit_dot1 _ Um); unfold Rminus; rewrite Rplus_opp_r, Rabs_R0; lra).
  destruct (lk (frame_map p) (pm_frame m) (pm_stamp m)) as [[tr tq]|] eqn:El.
  2:{ rewrite (C77_rejected caster voxel p n m lk solver z now) in H by (right; exact El). discriminate. }
  destruct (C77_accepted caster voxel p n m lk tr tq solver z now Un El) as (n2 & o2 & mean & H2 & A1 & A2 & _ & A4 & _).
  assert (n2 = n') by congruence. subst n2. exists mean. split; [exact A4|]. cbv zeta.
  apply T in El; [|exact Ht].
  assert (Ut : unit_quat tq).
  { apply (f_equal snd) in El. cbn [snd seen_from comp_pose inv_pose] in El. rewrite El. apply unit_mul; [apply unit_inv|]; apply Wu. }
  split.
  - rewrite A1. change (vadd (qrot tq (pm_pos m)) tr) with (tf_point (tr, tq) (pm_pos m)). rewrite tf_point_place, El. apply place_seen. apply Wu.
  - rewrite (A2 Ut Um). apply (f_equal snd) in El. cbn [snd seen_from comp_pose inv_pose] in El. rewrite El.
    rewrite <- !qmul_assoc, inv_r by apply unit_nonzero, Wu. rewrite qmul_1_l. reflexivity.
Qed.
End Frames.

(** ** C106: the IMU faked from odometry *)
(** the filter has only seen multiples of [c] *)
Definition along (T : R) (c : R * R * R) (f : FilterModel.filt3) : Prop :=
  exists u, 0 <= u <= 2 /\
    let '(a, b, d) := c in
    let ok g i := FilterProofs.coeffs T FilterModel.FILTER_LPF g /\ FilterModel.angle g = false /\ FilterModel.x_ g = - 2 * T * u * i in
    ok (FilterModel.fx f) a /\ ok (FilterModel.fy f) b /\ ok (FilterModel.fz f) d.
Lemma along_input T c f : 0 <= T -> along T c f ->
  along T c (FilterModel.input3 f c) /\ exists k, 0 < k /\ FilterModel.v_out (FilterModel.input3 f c) = tup (vscale (v3 c) k).
Proof.
  destruct c as [[a b] d]. intros HT (u & Hu & (X1 & X2 & X3) & (Y1 & Y2 & Y3) & (Z1 & Z2 & Z3)).
  set (g := FilterProofs.lp_gain T). set (u' := 1 - g * (1 - u)).
  assert (Hg : -1 <= g <= 1).
  { unfold g, FilterProofs.lp_gain. split; [apply Rmult_le_reg_r with (2 * T + 1)|apply Rmult_le_reg_r with (2 * T + 1)]; try lra; unfold Rdiv; rewrite Rmult_assoc, Rinv_l by lra; lra. }
  assert (Hu' : 0 <= u' <= 2) by (unfold u'; assert (-1 <= g * (1 - u) <= 1) by (split; nra); lra).
  assert (K : forall h i, FilterProofs.coeffs T FilterModel.FILTER_LPF h -> FilterModel.angle h = false -> FilterModel.x_ h = - 2 * T * u * i ->
     FilterModel.x_ (FilterModel.input h i) = - 2 * T * u' * i /\ FilterModel.out (FilterModel.input h i) = i * ((1 + 2 * T * u') / (1 + 2 * T))).
  { intros h i C A E. destruct (FilterProofs.lpf_step T h i HT C A) as [S1 S2]. fold g in S1. rewrite E in S1.
    assert (E1 : FilterModel.x_ (FilterModel.input h i) = - 2 * T * u' * i) by (unfold u'; nra).
    split; [exact E1|]. rewrite E1 in S2. replace (FilterModel.out (FilterModel.input h i)) with (i + - / (1 + 2 * T) * (-2 * T * u' * i + 2 * T * i)) by lra.
    field. lra. }
  destruct (K _ _ X1 X2 X3) as [KX1 KX2]. destruct (K _ _ Y1 Y2 Y3) as [KY1 KY2]. destruct (K _ _ Z1 Z2 Z3) as [KZ1 KZ2].
  split.
  - exists u'. split; [exact Hu'|]. cbn [FilterModel.input3 FilterModel.fx FilterModel.fy FilterModel.fz]. repeat split; auto; apply X1 || apply Y1 || apply Z1.
  - exists ((1 + 2 * T * u') / (1 + 2 * T)). split; [apply Rdiv_lt_0_compat; nra|].
    cbn [FilterModel.input3 FilterModel.v_out]. rewrite KX2, KY2, KZ2. reflexivity.
Qed.
Lemma along_set T c f : 0 <= T -> along T c f -> along T c (FilterModel.set3 f (0, 0, 0)).
Proof.
  destruct c as [[a b] d]. intros HT (u & Hu & (X1 & X2 & X3) & (Y1 & Y2 & Y3) & (Z1 & Z2 & Z3)). exists 0. split; [lra|].
  cbn [FilterModel.set3 FilterModel.fx FilterModel.fy FilterModel.fz].
  repeat split; try (apply X1 || apply Y1 || apply Z1); try assumption; (rewrite (FilterProofs.set_x T) by assumption); ring.
Qed.
Lemma along_new T c : 0 <= T -> along T c (FilterModel.new_filt3 FilterModel.FILTER_LPF (T, T, T) (0, 0, 0) false).
Proof.
  destruct c as [[a b] d]. intro HT. exists 0. split; [lra|]. cbn [FilterModel.new_filt3 FilterModel.fx FilterModel.fy FilterModel.fz].
  repeat split; rewrite FilterProofs.new_x by assumption; ring.
Qed.

Section Fake.
Context {S : Type} (caster : cloud -> (pt -> R -> search) -> raycaster S)
        (voxel : R * R * R -> list lpt -> list lpt) (p : params).
Notation node := (node (S := S)).
Implicit Types n : node.

(** an odometry message of a robot that stands with the orientation [r], which the transforms
    know, too *)
Definition stands (r : quat) (ev : event) : Prop :=
  match ev with
  | EOdom frame _ pose lk => rot pose = r /\ (lk (frame_base p) frame 0 = None \/ exists t, lk (frame_base p) frame 0 = Some (t, QuatModel.inv r))
  | _ => False
  end.
(** how a robot that measures the acceleration straight along its own z axis would be weighted *)
Definition weighs_level (s : state) (w : R) : Prop :=
  forall u t, qrot (rot s) u = V3 0 0 1 -> angle_between u (V3 0 0 1) t -> w = gauss (acc_var p) t.

Lemma fake_step r n ev n' o : fake_imu p = true -> 0 <= acc_lpf_step p -> unit_quat r ->
  along (acc_lpf_step p) (tup (qrot r (V3 0 0 1))) (f_acc (n_imu n)) -> stands r ev -> step caster voxel p n ev = Ok (n', o) ->
  along (acc_lpf_step p) (tup (qrot r (V3 0 0 1))) (f_acc (n_imu n'))
  /\ exists f1, map (PfModel.w RA) (PfModel.parts RA f1) = map (PfModel.w RA) (PfModel.parts RA (n_pf n))
     /\ (n_pf n' = f1 \/ n_pf n' = PfModel.measure RA (fun _ s => gravity_measure (gravity_set (gravity_new (acc_var p)) (V3 0 0 1)) s) f1).
Proof.
  intros Hf HT U Ha Hs H. destruct ev as [| | | | |fr t pose lk| | | | | |]; try contradiction. destruct Hs as [Hr Hk]. cbn [step] in H. unfold cbOdom in H.
  assert (Ho : n_imu (fst (odom_apply p n t pose)) = n_imu n /\ map (PfModel.w RA) (PfModel.parts RA (n_pf (fst (odom_apply p n t pose)))) = map (PfModel.w RA) (PfModel.parts RA (n_pf n))).
  { unfold odom_apply. repeat match goal with |- context [if ?c then _ else _] => destruct c end; cbn [fst n_imu set_odom set_pf n_pf]; auto.
    split; [reflexivity|]. unfold PfModel.predict. cbn [PfModel.parts]. unfold PfModel.mapi. generalize 0%nat. induction (PfModel.parts RA (n_pf n)) as [|q l IH]; intro k; cbn; [reflexivity|]. f_equal. apply IH. }
  destruct (odom_apply p n t pose) as [n1 go]. cbn [fst] in Ho. destruct Ho as [O1 O2]. rewrite Hf, andb_true_r in H.
  destruct go; [|injection H as <- <-; rewrite O1; split; [exact Ha|exists (n_pf n1); auto]].
  destruct (imu_apply p n1 t (qrot (rot pose) (V3 0 0 1)) (rot pose) (imu_tf p lk fr)) as [n2 go2] eqn:E. destruct (go2 && fake_odom p); [discriminate|]. injection H as <- <-.
  unfold imu_apply in E. rewrite Hr, O1 in E. destruct (along_input _ _ _ HT Ha) as [Ai (k & Hk0 & Ek)].
  destruct (negb (has_imu (n_imu n))).
  { injection E as <- <-. cbn [n_imu set_imu f_acc n_pf]. split; [apply along_set; assumption|]. exists (n_pf n1). auto. }
  destruct (Rltb (t - imu_last (n_imu n)) 0 || Rltb 5 (t - imu_last (n_imu n))).
  { injection E as <- <-. cbn [n_imu set_imu f_acc n_pf]. split; [assumption|]. exists (n_pf n1). auto. }
  destruct (Rltb (5 / 100) (t - imu_last (n_imu n))).
  2:{ injection E as <- <-. cbn [n_imu set_imu f_acc n_pf]. split; [assumption|]. exists (n_pf n1). auto. }
  unfold imu_tf in E. destruct Hk as [Hk|(tr & Hk)]; rewrite Hk in E; cbn [option_map snd] in E.
  { injection E as <- <-. cbn [n_imu set_imu f_acc n_pf]. split; [assumption|]. exists (n_pf n1). auto. }
  assert (Ez : vdot (qrot r (V3 0 0 1)) (qrot r (V3 0 0 1)) = 1) by (rewrite qrot_dot by exact U; unfold vdot; cbn [vx vy vz]; ring).
  assert (Ev : qrot (QuatModel.inv r) (vnormalized (v3 (FilterModel.v_out (FilterModel.input3 (f_acc (n_imu n)) (tup (qrot r (V3 0 0 1))))))) = V3 0 0 1).
  { rewrite Ek. assert (G : forall v, v3 (tup v) = v) by (intros []; reflexivity). rewrite !G. rewrite vnormalized_scale by assumption. apply qrot_inv_l. exact U. }
  rewrite Ev in E. injection E as <- <-. cbn [n_imu set_imu set_pf f_acc n_pf]. split; [assumption|]. exists (n_pf n1). split; [exact O2|]. right. reflexivity.
Qed.
(** C106: with a faked IMU the particles are weighted as if the robot stood upright, however the
    odometry says it is tilted: whenever an odometry message changes weights at all, every particle
    is weighted by the angle between the vertical in its own frame and the z axis *)
Theorem C106_fake_imu_ignores_tilt r evs gen rc0 tr x : fake_imu p = true -> 0 <= acc_lpf_step p -> acc_var p <> 0 -> unit_quat r ->
  Forall (stands r) evs -> trace voxel p caster (configure p gen rc0) evs = Ok tr -> In x tr ->
  exists f1 lk, map (PfModel.w RA) (PfModel.parts RA f1) = map (PfModel.w RA) (PfModel.parts RA (n_pf (before x)))
    /\ (n_pf (after x) = f1 \/ n_pf (after x) = PfModel.measure RA (fun _ s => lk s) f1)
    /\ forall s, unit_quat (rot s) -> weighs_level s (lk s).
Proof.
  intros Hf HT Hv U Fs Ht Hx.
  assert (G : forall evs n tr, along (acc_lpf_step p) (tup (qrot r (V3 0 0 1))) (f_acc (n_imu n)) -> Forall (stands r) evs -> trace voxel p caster n evs = Ok tr -> In x tr ->
    exists f1 lk, map (PfModel.w RA) (PfModel.parts RA f1) = map (PfModel.w RA) (PfModel.parts RA (n_pf (before x)))
    /\ (n_pf (after x) = f1 \/ n_pf (after x) = PfModel.measure RA (fun _ s => lk s) f1)
    /\ forall s, unit_quat (rot s) -> weighs_level s (lk s)).
  { clear Ht Hx Fs evs tr. induction evs as [|ev t IH]; intros n tr Ha Fs Ht Hx; cbn [trace] in Ht; [injection Ht as <-; destruct Hx|].
    bok Ht. destruct x0 as [n1 o1]. bok Ht. injection Ht as <-. inversion Fs as [|? ? F1 F2]; subst.
    destruct (fake_step r n ev n1 o1 Hf HT U Ha F1 E) as [A1 (f1 & B1 & B2)]. destruct Hx as [<-|Hx]; [|eapply IH; eassumption].
    cbn [before after]. exists f1, (gravity_measure (gravity_set (gravity_new (acc_var p)) (V3 0 0 1))). split; [exact B1|]. split; [exact B2|].
    intros s Us u a Hu Hang. apply (C70_depends_on_angle (acc_var p) (V3 0 0 1) s u a Hv Us); auto. intro K. injection K as K. lra. }
  eapply G; eauto. unfold configure. cbn [n_imu f_acc]. apply along_new. exact HT.
Qed.
(** so a particle that agrees with the odometry is weighted worse than an upright one, the more
    the robot is tilted *)
Theorem C106_agreeing_particle_loses r u t s s0 w w0 : acc_var p <> 0 -> unit_quat r ->
  qrot r u = V3 0 0 1 -> angle_between u (V3 0 0 1) t -> 0 < t ->
  rot s = r -> rot s0 = q1 -> weighs_level s w -> weighs_level s0 w0 -> w < w0.
Proof.
  intros Hv U Hu Ha Ht Hs Hs0 H1 H0.
  rewrite (H1 u t) by (try rewrite Hs; assumption).
  rewrite (H0 (V3 0 0 1) 0).
  - apply gauss_decreasing; auto. rewrite Rabs_R0. destruct Ha as [Ha _]. rewrite Rabs_pos_eq; lra.
  - rewrite Hs0. apply qrot_1.
  - split; [pose proof PI_RGT_0; lra|]. rewrite cos_0. unfold vnorm. replace (vdot (V3 0 0 1) (V3 0 0 1)) with 1 by (unfold vdot; cbn [vx vy vz]; ring). rewrite sqrt_1. ring.
Qed.
(** the hypotheses are met by a robot that stands on a slope: a rotation about x by the angle
    2 a, with 0 < 2 a < PI *)
Example C106_nonvacuous a frame stamp : 0 < a < PI / 2 ->
  let r := Q4 (sin a) 0 0 (cos a) in let u := qrot (QuatModel.inv r) (V3 0 0 1) in
  unit_quat r /\ qrot r u = V3 0 0 1 /\ angle_between u (V3 0 0 1) (2 * a)
  /\ stands r (EOdom frame stamp (state_pr v0 r) (fun _ _ _ => Some (v0, QuatModel.inv r))).
Proof.
  intros Ha r u. assert (U : unit_quat r) by (unfold r, unit_quat; cbn [qx qy qz qw]; pose proof (sin2_cos2 a) as Q; unfold Rsqr in Q; nra).
  split; [exact U|]. split; [apply qrot_inv_r; exact U|]. split.
  - split; [lra|]. unfold u. rewrite qrot_norm by (apply unit_inv; exact U). replace (vnorm (V3 0 0 1)) with 1 by (unfold vnorm; replace (vdot (V3 0 0 1) (V3 0 0 1)) with 1 by (unfold vdot; cbn [vx vy vz]; ring); rewrite sqrt_1; reflexivity).
    rewrite inv_unit by exact U. rewrite cos_2a. unfold r. cbn [QuatModel.conj]. unfold QuatModel.conj. cbn [qx qy qz qw]. rewrite qrot_closed. unfold vdot. cbn [vx vy vz].
    pose proof (sin2_cos2 a) as Q; unfold Rsqr in Q. nra.
  - cbn. split; [reflexivity|]. right. eexists. reflexivity.
Qed.
End Fake.
