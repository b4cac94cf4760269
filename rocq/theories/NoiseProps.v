(** Property theorems C125: what the four odometry noise parameters do. *)
From Coq Require Import String Reals ZArith List Bool Arith Lia Lra Psatz.
From Verif Require PfModel FilterModel AccumModel.
From Verif Require Import Arith Ieee KdModel QuatModel QuatSpec QuatProofs QuatProofs2 StateModel StateSpec StateProofs StateProps KRayProofs RayModel LidarModel NdModel ParamModel MatModel
  NodeModel NodeSpec NodeFrame NodeMotionProps NoiseSpec.
Import ListNotations.
Open Scope nat_scope.
Open Scope R_scope.
Open Scope list_scope.

(** ** the angle *)
Lemma turn_exists d : unit_quat d -> turn d (snd (getAxisAng d)).
Proof.
  intro U. unfold turn, getAxisAng. destruct (Rleb axis_cut (Rabs (qw d))) eqn:E; [apply Rleb_true in E|apply Rleb_false in E]; unfold axis_cut in E; cbn [snd].
  { split; [reflexivity|]. intro H. exfalso. lra. }
  split; [intro H; exfalso; lra|]. intros _.
  assert (W : -1 < qw d < 1) by (apply axis_lt_one; unfold axis_cut; lra).
  assert (CA : cos (acos (qw d)) = qw d) by (apply cos_acos; lra). pose proof (acos_bound (qw d)) as B.
  assert (P0 := PI_RGT_0).
  assert (B0 : 0 < acos (qw d)). { destruct (Req_dec (acos (qw d)) 0) as [Z|Z]; [rewrite Z, cos_0 in CA; lra|lra]. }
  assert (B1 : acos (qw d) < PI). { destruct (Req_dec (acos (qw d)) PI) as [Z|Z]; [rewrite Z, cos_PI in CA; lra|lra]. }
  destruct (Rltb PI (acos (qw d) * 2)) eqn:E2; [apply Rltb_true in E2|apply Rltb_false in E2].
  - assert (N : qw d < 0). { rewrite <- CA. apply cos_lt_0; lra. }
    split; [lra|]. split; [|split; intro; lra].
    replace ((acos (qw d) * 2 - 2 * PI) / 2) with (acos (qw d) - PI) by field. rewrite cos_minus, cos_PI, sin_PI, CA.
    rewrite Rabs_left by exact N. ring.
  - assert (N : 0 <= qw d). { rewrite <- CA. apply cos_ge_0; lra. }
    split; [lra|]. split; [|split; intro; lra].
    replace (acos (qw d) * 2 / 2) with (acos (qw d)) by field. rewrite CA, Rabs_pos_eq by exact N. reflexivity.
Qed.
Lemma turn_unique d a b : turn d a -> turn d b -> a = b.
Proof.
  intros [A1 A2] [B1 B2]. destruct (Rle_dec (1 - 1 / 1000000) (Rabs (qw d))) as [H|H]; [rewrite A1, B1 by exact H; reflexivity|].
  assert (H' : Rabs (qw d) < 1 - 1 / 1000000) by lra. destruct (A2 H') as (A3 & A4 & A5 & A6), (B2 H') as (B3 & B4 & B5 & B6).
  rewrite <- B4 in A4. assert (P0 := PI_RGT_0). destruct (Rle_dec 0 (qw d)) as [W|W].
  - specialize (A5 W). specialize (B5 W). assert (a / 2 = b / 2); [|lra]. apply cos_inj; lra.
  - assert (W' : qw d < 0) by lra. specialize (A6 W'). specialize (B6 W').
    assert (- (a / 2) = - (b / 2)); [|lra]. apply cos_inj; [lra|lra|]. rewrite !cos_neg. exact A4.
Qed.
Lemma turn_negated d th : qw d <> 0 -> turn d th -> turn (qopp d) (- th).
Proof.
  intros W [A B]. unfold turn. cbn [qopp qw]. rewrite Rabs_Ropp. split; [intro H; rewrite (A H); ring|].
  intro H. destruct (B H) as (B1 & B2 & B3 & B4). replace (- th / 2) with (- (th / 2)) by field. rewrite cos_neg.
  assert (th <> PI).
  { intros ->. rewrite cos_PI2 in B2. symmetry in B2. apply (Rabs_no_R0 _ W). exact B2. }
  split; [lra|]. split; [exact B2|]. split; intro K.
  - assert (K' : qw d < 0) by lra. specialize (B4 K'). lra.
  - assert (K' : 0 <= qw d) by lra. specialize (B3 K'). lra.
Qed.

(** ** one prediction *)
Lemma moved prev cur : fst (motion_between prev cur) = qrot (inv (rot prev)) (vsub (pos cur) (pos prev)).
Proof. unfold motion_between, comp_pose, inv_pose, pose_of. cbn [fst snd]. rewrite qrot_sub, vsub_opp. reflexivity. Qed.
Lemma turned prev cur : snd (motion_between prev cur) = qmul (inv (rot prev)) (rot cur).
Proof. reflexivity. Qed.
Lemma turned_unit prev cur : unit_pose prev -> unit_pose cur -> unit_quat (snd (motion_between prev cur)).
Proof. intros. rewrite turned. apply unit_mul; [apply unit_inv|]; assumption. Qed.
Lemma predict_any tl ta prev cur dt s : unit_pose prev -> unit_pose cur -> unit_pose s ->
  let d := fst (motion_between prev cur) in let r := snd (motion_between prev cur) in let th := snd (getAxisAng r) in
  let s' := predict1 tl ta prev cur dt s in
  pos s' = vadd (pos s) (qrot (rot s) (vadd (vscale d (1 + noise_ll s)) (V3 (noise_al s * th) 0 0)))
  /\ rot s' = qmul (qmul (yaw (noise_la s * vnorm d + noise_aa s * th)) (rot s)) r.
Proof.
  intros U0 U1 U. cbv zeta. rewrite moved, turned. split; [reflexivity|]. cbn [predict1 motion_predict rot setOdoms rel_norm rel_ang rel_quat rel_tr].
  rewrite setAxisAng_ez. apply normalized_unit. repeat apply unit_mul; try assumption; [apply unit_yaw|apply unit_inv; assumption].
Qed.
(** C125: one odometry step, a particle with any noise factors: with (d, r) the motion between the two
    odometry poses and th the angle r counts for, the particle moves by d lengthened by the factor
    noise_ll, plus noise_al * th along its own x axis, and turns by r and, about the vertical axis of the
    map, by noise_la * |d| + noise_aa * th. *)
Theorem C125_effect tl ta prev cur dt s th : unit_pose prev -> unit_pose cur -> unit_pose s ->
  let d := fst (motion_between prev cur) in let r := snd (motion_between prev cur) in
  let s' := predict1 tl ta prev cur dt s in
  turn r th ->
  pos s' = vadd (pos s) (qrot (rot s) (vadd (vscale d (1 + noise_ll s)) (vscale ex (noise_al s * th))))
  /\ rot s' = qmul (yaw (noise_la s * vnorm d + noise_aa s * th)) (qmul (rot s) r).
Proof.
  intros U0 U1 U d r s' T. assert (E : th = snd (getAxisAng r)) by (eapply turn_unique; [exact T|apply turn_exists, turned_unit; assumption]).
  destruct (predict_any tl ta prev cur dt s U0 U1 U) as [A B]. subst th s'. rewrite A, B. split; [|rewrite qmul_assoc; reflexivity].
  unfold d, r. do 3 f_equal. unfold vscale, ex. cbn. f_equal; ring.
Qed.
(** ... so compared with the exact odometry the particle is off by at most |noise_ll| of the distance and
    |noise_al| of the angle *)
Theorem C125_bounded_deviation tl ta prev cur dt s th : unit_pose prev -> unit_pose cur -> unit_pose s ->
  let m := motion_between prev cur in turn (snd m) th ->
  dist3 (pos (predict1 tl ta prev cur dt s)) (fst (comp_pose (pose_of s) m)) <= Rabs (noise_ll s) * vnorm (fst m) + Rabs (noise_al s) * Rabs th.
Proof.
  intros U0 U1 U m T. destruct (C125_effect tl ta prev cur dt s th U0 U1 U T) as [A _]. rewrite A. fold m. unfold dist3, comp_pose, pose_of. cbn [fst snd].
  set (d := fst m). replace (vsub _ _) with (qrot (rot s) (vadd (vscale d (noise_ll s)) (vscale ex (noise_al s * th)))).
  2:{ rewrite !qrot_add, !qrot_scale. generalize (qrot (rot s) d), (qrot (rot s) ex), (pos s), (noise_ll s), (noise_al s * th). intros. qdes; qunf; f_equal; ring. }
  rewrite qrot_norm by exact U. eapply Rle_trans; [apply vnorm_triangle|]. rewrite !StateProofs.vnorm_scale. apply Rplus_le_compat_l. rewrite Rabs_mult.
  replace (vnorm ex) with 1; [lra|]. unfold vnorm, vdot, ex. cbn. replace (1 * 1 + 0 * 0 + 0 * 0) with 1 by ring. rewrite sqrt_1. reflexivity.
Qed.

(** ** standing still *)
Lemma still_step tl ta prev cur dt s : unit_pose prev -> unit_pose s -> pose_of cur = pose_of prev ->
  pose_of (predict1 tl ta prev cur dt s) = pose_of s.
Proof.
  intros U0 U E. assert (U1 : unit_pose cur) by (unfold unit_pose; injection E as _ ->; exact U0).
  assert (M : motion_between prev cur = (v0, q1)). { unfold motion_between. rewrite E. apply comp_inv_l. exact U0. }
  assert (T : turn (snd (motion_between prev cur)) 0).
  { rewrite M. cbn [snd]. split; [reflexivity|]. intro H. exfalso. cbn [qw q1] in H. rewrite Rabs_R1 in H. lra. }
  destruct (C125_effect tl ta prev cur dt s 0 U0 U1 U T) as [A B]. unfold pose_of at 1. rewrite A, B, M. cbn [fst snd].
  replace (noise_la s * vnorm v0 + noise_aa s * 0) with 0.
  2:{ replace (vnorm v0) with 0; [ring|]. unfold vnorm, vdot, v0. cbn. replace (0 * 0 + 0 * 0 + 0 * 0) with 0 by ring. rewrite sqrt_0. reflexivity. }
  rewrite <- setAxisAng_ez, setAxisAng_0 by apply ez_nonzero. rewrite qmul_1_l, qmul_1_r. unfold pose_of. f_equal.
  replace (vadd (vscale v0 (1 + noise_ll s)) (vscale ex (noise_al s * 0))) with v0; [rewrite qrot_v0; apply vadd_0_r|].
  unfold vadd, vscale, ex, v0. cbn. f_equal; ring.
Qed.
Section Node.
Context {S : Type} (caster : cloud -> (pt -> R -> search) -> raycaster S)
        (voxel : R * R * R -> list lpt -> list lpt) (p : params).
Notation node := (node (S := S)).
Lemma apply_cons a b dt ds s : apply_all p ((a, b, dt) :: ds) s = apply_all p ds (predict1 (integ_lin_tc p) (integ_ang_tc p) a b dt s).
Proof. reflexivity. Qed.
(** C125: odometry messages that all report the same pose move no particle, whatever the noise parameters
    (and whatever the stamps, gaps and time jumps). *)
Theorem C125_standing_still msgs src (n : node) n' out P : unit_quat (snd P) ->
  steps caster voxel p n (odom_events msgs src) = Ok (n', out) ->
  (forall t o, odom_ref n = Some (t, o) -> pose_of o = P) -> Forall (fun m => pose_of (snd m) = P) msgs ->
  Forall unit_pose (poses n) ->
  map pose_of (poses n') = map pose_of (poses n).
Proof.
  intros UP H Hr Hm Hs. apply C75_applied_displacements in H. destruct H as [A _]. rewrite A, map_map.
  assert (G : forall msgs ref s, (forall t o, ref = Some (t, o) -> pose_of o = P) -> Forall (fun m => pose_of (snd m) = P) msgs -> unit_pose s ->
    pose_of (apply_all p (applied ref msgs) s) = pose_of s).
  { clear - UP. induction msgs as [|[t o] r IH]; intros ref s Hr Hm Us; [reflexivity|]. pose proof (Forall_inv Hm) as Hm1. pose proof (Forall_inv_tail Hm) as Hm2. cbn [snd] in Hm1.
    assert (Some1 : forall t0 o0, Some (t, o) = Some (t0, o0) -> pose_of o0 = P) by (intros t0 o0 E; injection E as <- <-; exact Hm1).
    assert (None1 : forall t0 o0, @None stamped = Some (t0, o0) -> pose_of o0 = P) by (intros; discriminate).
    cbn [applied]. destruct ref as [[t0 o0]|]; [|apply IH; assumption].
    pose proof (Hr _ _ eq_refl) as H0.
    destruct (Rlt_dec (t - t0) 0); [apply IH; assumption|]. destruct (Rlt_dec 5 (t - t0)); [apply IH; assumption|].
    destruct (Rlt_dec (5 / 100) (t - t0)); [|apply IH; assumption].
    rewrite apply_cons.
    assert (E : pose_of (predict1 (integ_lin_tc p) (integ_ang_tc p) o0 o (t - t0) s) = pose_of s).
    { apply still_step; [rewrite <- H0 in UP; exact UP|exact Us|congruence]. }
    rewrite IH; [exact E|exact Some1|exact Hm2|]. unfold unit_pose. change (rot ?x) with (snd (pose_of x)). rewrite E. exact Us. }
  apply map_ext_in. intros s Hin. apply G; [exact Hr|exact Hm|]. rewrite Forall_forall in Hs. apply Hs. exact Hin.
Qed.

(** ** turning slowly *)
Lemma yaw_mul a b : qmul (yaw a) (yaw b) = yaw (a + b).
Proof.
  unfold yaw. replace ((a + b) / 2) with (a / 2 + b / 2) by field. rewrite sin_plus, cos_plus. unfold qmul. cbn [qx qy qz qw]. f_equal; ring.
Qed.
Lemma yaw0 : yaw 0 = q1.
Proof. rewrite <- setAxisAng_ez. apply setAxisAng_0, ez_nonzero. Qed.
Lemma sin_sq x : Rabs x <= 1 -> sin x * sin x <= x * x.
Proof.
  assert (P : forall y, 0 < y <= 1 -> sin y * sin y <= y * y).
  { intros y Hy. pose proof (sin_lt_x y (proj1 Hy)). assert (0 < sin y) by (apply sin_gt_0; [lra|]; pose proof PI2_1; lra). nra. }
  intro H. destruct (Rtotal_order x 0) as [L|[E|G]].
  - rewrite Rabs_left in H by exact L. specialize (P (- x)). rewrite sin_neg in P. assert (K : 0 < - x <= 1) by lra. specialize (P K). lra.
  - subst x. rewrite sin_0. lra.
  - rewrite Rabs_pos_eq in H by lra. apply P. lra.
Qed.
Lemma small_turn a : Rabs a <= 1 / 500 -> turn (yaw a) 0.
Proof.
  intro H. split; [reflexivity|]. intro K. exfalso. cbn [yaw qw] in K. revert K. apply Rle_not_lt.
  assert (B : - (1/500) <= a <= 1/500) by (unfold Rabs in H; destruct (Rcase_abs a); lra).
  eapply Rle_trans; [|apply Rle_abs]. replace (a / 2) with (2 * (a / 4)) by field. rewrite cos_2a_sin.
  assert (C : sin (a / 4) * sin (a / 4) <= a / 4 * (a / 4)) by (apply sin_sq; apply Rabs_le; lra). nra.
Qed.
Lemma turn_step tl ta prev cur dt s a : unit_pose prev -> unit_pose s -> Rabs a <= 1 / 500 ->
  pos cur = pos prev -> rot cur = qmul (rot prev) (yaw a) ->
  pose_of (predict1 tl ta prev cur dt s) = comp_pose (pose_of s) (v0, yaw a).
Proof.
  intros U0 U Ha Ep Er. assert (U1 : unit_pose cur) by (unfold unit_pose; rewrite Er; apply unit_mul; [exact U0|apply unit_yaw]).
  assert (M : motion_between prev cur = (v0, yaw a)).
  { rewrite (surjective_pairing (motion_between prev cur)), moved, turned, Ep, Er. f_equal.
    - replace (vsub (pos prev) (pos prev)) with v0 by (generalize (pos prev); intro w; unfold vsub, v0; f_equal; ring). apply qrot_v0.
    - rewrite <- qmul_assoc, inv_l by (apply unit_nonzero; exact U0). apply qmul_1_l. }
  assert (T : turn (snd (motion_between prev cur)) 0) by (rewrite M; apply small_turn; exact Ha).
  destruct (C125_effect tl ta prev cur dt s 0 U0 U1 U T) as [A B]. unfold pose_of at 1. rewrite A, B, M. unfold comp_pose, pose_of. cbn [fst snd].
  replace (noise_la s * vnorm v0 + noise_aa s * 0) with 0.
  2:{ replace (vnorm v0) with 0; [ring|]. unfold vnorm, vdot, v0. cbn. replace (0 * 0 + 0 * 0 + 0 * 0) with 0 by ring. rewrite sqrt_0. reflexivity. }
  rewrite yaw0, qmul_1_l. f_equal. do 2 f_equal. unfold vadd, vscale, ex, v0. cbn. f_equal; ring.
Qed.
(** k-th message of a slow turn: 0.1 s apart, turning by [a] each time *)
Definition turning (t0 : R) (o0 : state) (a : R) (k : nat) : stamped :=
  match k with O => (t0, o0) | _ => (t0 + INR k / 10, state_pr (pos o0) (qmul (rot o0) (yaw (INR k * a)))) end.
Lemma turning_time t0 o0 a k : fst (turning t0 o0 a k) = t0 + INR k / 10.
Proof. destruct k; [cbn [turning fst INR]; field|reflexivity]. Qed.
Lemma turning_pose t0 o0 a k : pose_of (snd (turning t0 o0 a k)) = (pos o0, qmul (rot o0) (yaw (INR k * a))).
Proof. destruct k; [|reflexivity]. cbn [turning snd INR]. rewrite Rmult_0_l, yaw0, qmul_1_r. reflexivity. Qed.
Lemma turning_pos t0 o0 a k : pos (snd (turning t0 o0 a k)) = pos o0.
Proof. change (pos ?x) with (fst (pose_of x)) at 1. rewrite turning_pose. reflexivity. Qed.
Lemma turning_rot t0 o0 a k : rot (snd (turning t0 o0 a k)) = qmul (rot o0) (yaw (INR k * a)).
Proof. change (rot ?x) with (snd (pose_of x)) at 1. rewrite turning_pose. reflexivity. Qed.
Lemma turning_run t0 o0 a : unit_pose o0 -> Rabs a <= 1 / 500 -> forall m k s, unit_pose s ->
  pose_of (apply_all p (applied (Some (turning t0 o0 a k)) (map (turning t0 o0 a) (seq (Datatypes.S k) m))) s) = comp_pose (pose_of s) (v0, yaw (INR m * a))
  /\ continuous (turning t0 o0 a k) (map (turning t0 o0 a) (seq (Datatypes.S k) m))
  /\ reference (Some (turning t0 o0 a k)) (map (turning t0 o0 a) (seq (Datatypes.S k) m)) = Some (turning t0 o0 a (k + m)).
Proof.
  intros U0 Ha. induction m as [|m IH]; intros k s Us.
  { cbn [seq map applied continuous reference]. rewrite Nat.add_0_r. split; [|split; reflexivity]. cbn [INR]. rewrite Rmult_0_l, yaw0, comp_id_r. reflexivity. }
  assert (D : fst (turning t0 o0 a (Datatypes.S k)) - fst (turning t0 o0 a k) = 1 / 10) by (rewrite !turning_time, S_INR; field).
  cbn [seq map]. cbn [applied continuous reference].
  rewrite (surjective_pairing (turning t0 o0 a (Datatypes.S k))), (surjective_pairing (turning t0 o0 a k)). cbn [fst]. rewrite D.
  destruct (Rlt_dec (1 / 10) 0); [lra|]. destruct (Rlt_dec 5 (1 / 10)); [lra|]. destruct (Rlt_dec (5 / 100) (1 / 10)); [|lra].
  rewrite <- !surjective_pairing. rewrite apply_cons.
  set (s1 := predict1 (integ_lin_tc p) (integ_ang_tc p) (snd (turning t0 o0 a k)) (snd (turning t0 o0 a (Datatypes.S k))) (1 / 10) s).
  assert (E : pose_of s1 = comp_pose (pose_of s) (v0, yaw a)).
  { apply turn_step; try assumption; [unfold unit_pose; rewrite turning_rot; apply unit_mul; [exact U0|apply unit_yaw]|rewrite !turning_pos; reflexivity|].
    rewrite !turning_rot, qmul_assoc, yaw_mul. do 2 f_equal. rewrite S_INR. ring. }
  assert (U1 : unit_pose s1) by (unfold unit_pose; change (rot s1) with (snd (pose_of s1)); rewrite E; apply unit_mul; [exact Us|apply unit_yaw]).
  destruct (IH (Datatypes.S k) s1 U1) as (I1 & I2 & I3). split; [|split].
  - refine (eq_trans I1 _). rewrite E, comp_assoc. f_equal. unfold comp_pose. cbn [fst snd]. rewrite qrot_v0, vadd_0_r, yaw_mul, S_INR. do 2 f_equal. ring.
  - split; [lra|exact I2].
  - refine (eq_trans I3 _). do 2 f_equal. lia.
Qed.
(** C125 (refuted: turning adds noise in proportion to the angle turned): the robot may turn on the spot by
    any total angle A, reported in messages 0.1 s apart, so that no particle gets any noise from it,
    whatever odom_err_ang_ang and odom_err_ang_lin are. *)
Theorem C125_slow_turn_refuted (A : R) (n : node) t0 o0 : odom_ref n = Some (t0, o0) -> unit_pose o0 -> Forall unit_pose (poses n) ->
  exists msgs tl ol, continuous (t0, o0) msgs
    /\ (forall i t o t' o', nth_error ((t0, o0) :: msgs) i = Some (t, o) -> nth_error msgs i = Some (t', o') -> t' - t = 1 / 10)
    /\ last msgs (t0, o0) = (tl, ol) /\ pose_of ol = (pos o0, qmul (rot o0) (yaw A))
    /\ forall src n' out, steps caster voxel p n (odom_events msgs src) = Ok (n', out) ->
         map pose_of (poses n') = map (fun s => comp_pose (pose_of s) (motion_between o0 ol)) (poses n).
Proof.
  intros Hr U0 Us. destruct (archimed (500 * Rabs A)) as [Hu _]. set (N := Datatypes.S (Z.to_nat (up (500 * Rabs A)))).
  assert (HN : 500 * Rabs A <= INR N).
  { unfold N. rewrite S_INR, INR_IZR_INZ. assert (B := Rabs_pos A).
    assert (C : (0 <= up (500 * Rabs A))%Z) by (apply le_IZR; lra). rewrite Z2Nat.id by exact C. lra. }
  assert (PN : 0 < INR N) by (unfold N; apply lt_0_INR; lia).
  set (a := A / INR N).
  assert (Ha : Rabs a <= 1 / 500).
  { unfold a. unfold Rdiv at 1. rewrite Rabs_mult, Rabs_inv, (Rabs_pos_eq (INR N)) by lra. apply Rmult_le_reg_r with (INR N); [exact PN|].
    rewrite Rmult_assoc, Rinv_l by lra. lra. }
  assert (Na : INR N * a = A) by (unfold a; field; lra).
  assert (R0 : turning t0 o0 a 0 = (t0, o0)) by reflexivity.
  exists (map (turning t0 o0 a) (seq 1 N)), (fst (turning t0 o0 a N)), (snd (turning t0 o0 a N)).
  assert (I := turning_run t0 o0 a U0 Ha N 0). rewrite R0 in I.
  split. { destruct (I state0 unit_1) as (_ & I2 & _). exact I2. }
  split.
  { intros i t o t' o' H1 H2.
    assert (K : (t0, o0) :: map (turning t0 o0 a) (seq 1 N) = map (turning t0 o0 a) (seq 0 (Datatypes.S N))) by reflexivity.
    rewrite K in H1. rewrite nth_error_map in H1, H2.
    destruct (nth_error (seq 0 (Datatypes.S N)) i) as [j|] eqn:E1; [|discriminate]. destruct (nth_error (seq 1 N) i) as [j'|] eqn:E2; [|discriminate].
    assert (L1 : (i < N)%nat) by (rewrite <- (seq_length N 1); apply nth_error_Some; congruence).
    apply nth_error_nth with (d := 0%nat) in E1. apply nth_error_nth with (d := 0%nat) in E2. rewrite seq_nth in E1, E2 by lia. subst j j'.
    apply (f_equal (fun x => match x with Some y => fst y | None => 0 end)) in H1. apply (f_equal (fun x => match x with Some y => fst y | None => 0 end)) in H2. cbn [option_map fst] in H1, H2. rewrite turning_time in H1, H2. cbn [fst] in H1, H2. rewrite <- H1, <- H2.
    rewrite !plus_INR. cbn [INR]. field. }
  split.
  { rewrite <- surjective_pairing. unfold N. rewrite seq_S, map_app. cbn [map]. rewrite last_last. reflexivity. }
  split. { rewrite turning_pose, Na. reflexivity. }
  intros src n' out H. apply C75_applied_displacements in H. destruct H as [B _]. rewrite B, Hr, map_map. apply map_ext_in. intros s Hin.
  rewrite Forall_forall in Us. destruct (I s (Us s Hin)) as (I1 & _). refine (eq_trans I1 _). f_equal. rewrite Na. unfold motion_between. rewrite turning_pose, Na. unfold comp_pose, inv_pose, pose_of. cbn [fst snd].
  rewrite <- qmul_assoc, inv_l, qmul_1_l by (apply unit_nonzero; exact U0). f_equal. symmetry. apply vadd_opp_l.
Qed.
End Node.

(** C125: along a straight line (all odometry poses have the same heading) the deviation depends on the path
    only, not on how many messages report it: the particle's heading drifts by noise_la times the length of
    the path, and without heading noise its displacement is that of the odometry lengthened by noise_ll. *)
Theorem C125_straight_line tl ta odoms : forall o0 s, unit_pose o0 -> unit_pose s ->
  Forall (fun o => rot (fst o) = rot o0) odoms ->
  let s' := predict_chain tl ta o0 odoms s in
  rot s' = qmul (yaw (noise_la s * path_length o0 odoms)) (rot s)
  /\ (noise_la s = 0 -> pos s' = vadd (pos s) (vscale (qrot (rot s) (fst (motion_between o0 (last (map fst odoms) o0)))) (1 + noise_ll s))).
Proof.
  induction odoms as [|[o dt] r IH]; intros o0 s U0 Us Ho; cbv zeta.
  - cbn [predict_chain path_length map last]. split; [rewrite Rmult_0_r, yaw0, qmul_1_l; reflexivity|]. intros _. unfold motion_between. rewrite comp_inv_l by exact U0. cbn [fst].
    rewrite qrot_v0. replace (vscale v0 (1 + noise_ll s)) with v0 by (unfold vscale, v0; cbn; f_equal; ring). symmetry. apply vadd_0_r.
  - pose proof (Forall_inv Ho) as H1. pose proof (Forall_inv_tail Ho) as H2. cbn [fst] in H1.
    assert (U1 : unit_pose o) by (unfold unit_pose; rewrite H1; exact U0).
    cbn [predict_chain path_length map fst]. rewrite last_cons.
    set (s1 := predict1 tl ta o0 o dt s).
    assert (T : turn (snd (motion_between o0 o)) 0).
    { rewrite turned, H1, inv_l by (apply unit_nonzero; exact U0). split; [reflexivity|]. intro K. exfalso. cbn [qw q1] in K. rewrite Rabs_R1 in K. lra. }
    destruct (C125_effect tl ta o0 o dt s 0 U0 U1 Us T) as [A B]. fold s1 in A, B.
    rewrite turned, H1, inv_l, qmul_1_r in B by (apply unit_nonzero; exact U0).
    assert (Us1 : unit_pose s1) by (apply predict_unit; assumption).
    assert (Hr : Forall (fun o' => rot (fst o') = rot o) r) by (rewrite H1; exact H2).
    destruct (IH o s1 U1 Us1 Hr) as [I1 I2]. change (noise_la s1) with (noise_la s) in *. change (noise_ll s1) with (noise_ll s) in *. split.
    + rewrite I1, B, <- qmul_assoc, yaw_mul. do 2 f_equal. rewrite moved, qrot_norm by (apply unit_inv; exact U0). unfold dist3. ring.
    + intro L. rewrite (I2 L), A, B. rewrite L, Rmult_0_l, !Rmult_0_r, Rplus_0_l, yaw0, qmul_1_l.
      rewrite !moved, H1. set (P := pos (last (map fst r) o)). clearbody P.
      rewrite !qrot_add, !qrot_sub, !qrot_scale, !qrot_sub. generalize (qrot (rot s) (qrot (inv (rot o0)) P)), (qrot (rot s) (qrot (inv (rot o0)) (pos o))), (qrot (rot s) (qrot (inv (rot o0)) (pos o0))), (qrot (rot s) ex), (pos s).
      intros [x1 y1 z1] [x2 y2 z2] [x3 y3 z3] [x4 y4 z4] [x5 y5 z5]. unfold vadd, vscale, vsub. cbn [vx vy vz]. f_equal; ring.
Qed.
(** C125 (refuted: the same rotation gives the same noise): the sign of the angle depends on which of the
    two quaternions of the rotation the odometry happens to report: reporting the negated quaternion turns
    the noise around. *)
Theorem C125_sign_of_quaternion_refuted tl ta prev cur dt s th : unit_pose prev -> unit_pose cur -> unit_pose s ->
  let m := motion_between prev cur in turn (snd m) th -> qw (snd m) <> 0 ->
  same_rotation (rot (negated cur)) (rot cur) /\ pos (negated cur) = pos cur
  /\ pos (predict1 tl ta prev (negated cur) dt s) = vadd (pos s) (qrot (rot s) (vadd (vscale (fst m) (1 + noise_ll s)) (vscale ex (- (noise_al s * th)))))
  /\ same_rotation (rot (predict1 tl ta prev (negated cur) dt s)) (qmul (yaw (noise_la s * vnorm (fst m) - noise_aa s * th)) (qmul (rot s) (snd m))).
Proof.
  intros U0 U1 U m T W. assert (Q : rot (negated cur) = qopp (rot cur)) by reflexivity.
  assert (U2 : unit_pose (negated cur)).
  { unfold unit_pose in *. rewrite Q. apply unit_dot. apply unit_dot in U1. rewrite <- U1. generalize (rot cur). intro q. unfold QuatModel.qdot, qopp. cbn [QuatModel.qx QuatModel.qy QuatModel.qz QuatModel.qw]. ring. }
  assert (M1 : fst (motion_between prev (negated cur)) = fst m) by (unfold m; rewrite !moved; reflexivity).
  assert (M2 : snd (motion_between prev (negated cur)) = qopp (snd m)) by (unfold m; rewrite !turned, Q, qmul_opp_r; reflexivity).
  assert (T2 : turn (snd (motion_between prev (negated cur))) (- th)) by (rewrite M2; apply turn_negated; assumption).
  destruct (C125_effect tl ta prev (negated cur) dt s (- th) U0 U2 U T2) as [A B]. rewrite M1 in A, B. rewrite M2 in B.
  split; [intro v; rewrite Q; apply qrot_opp|]. split; [reflexivity|]. split.
  - rewrite A. do 4 f_equal. ring.
  - intro v. rewrite B, !qmul_opp_r, qrot_opp. do 3 f_equal. ring.
Qed.
(** a particle with all four factors: 1 m forward gives 1.1 m and turns it by 0.2 rad; turning on the spot by
    a quarter turn moves it and turns it further; a straight path of two messages; a quarter turn has an angle
    that counts (the hypotheses of the node theorems are met by the runs of C75_nonvacuous) *)
Definition noisy : state :=
  {| pos := v0; rot := q1; diff := false; noise_ll := 1 / 10; noise_la := 2 / 10; noise_al := 3 / 10; noise_aa := 4 / 10; err_lin := v0; err_ang := v0; rpy := v0 |}.
Example C125_nonvacuous tl ta dt :
  unit_pose state0 /\ unit_pose noisy /\ turn (yaw (PI / 2)) (PI / 2) /\ qw (yaw (PI / 2)) <> 0
  /\ pose_of (predict1 tl ta state0 (state_pr (V3 1 0 0) q1) dt noisy) = (V3 (11 / 10) 0 0, yaw (2 / 10))
  /\ pose_of (predict1 tl ta state0 (state_pr v0 (yaw (PI / 2))) dt noisy) = (V3 (3 / 10 * (PI / 2)) 0 0, yaw (4 / 10 * (PI / 2) + PI / 2))
  /\ path_length state0 [(state_pr (V3 1 0 0) q1, 1); (state_pr (V3 3 0 0) q1, 1)] = 3.
Proof.
  assert (U0 : unit_pose state0) by apply unit_1. assert (U : unit_pose noisy) by apply unit_1.
  assert (P0 := PI_RGT_0).
  assert (C4 : cos (PI / 2 / 2) = 1 / sqrt 2) by (replace (PI / 2 / 2) with (PI / 4) by field; apply cos_PI4).
  assert (S2 : 0 < sqrt 2) by (apply sqrt_lt_R0; lra). assert (SS : sqrt 2 * sqrt 2 = 2) by (apply sqrt_sqrt; lra).
  assert (W : 0 < 1 / sqrt 2 < 1 - 1 / 1000000).
  { split; [apply Rdiv_lt_0_compat; lra|]. apply Rmult_lt_reg_r with (sqrt 2); [exact S2|]. unfold Rdiv at 1. rewrite Rmult_assoc, Rinv_l by lra.
    assert (1.4 < sqrt 2) by nra. lra. }
  assert (T : turn (yaw (PI / 2)) (PI / 2)).
  { unfold turn, yaw. cbn [QuatModel.qw]. rewrite C4, Rabs_pos_eq by lra. split; [intro; lra|]. intros _. repeat split; lra. }
  assert (V : forall x, vnorm (V3 x 0 0) = Rabs x).
  { intro x. unfold vnorm, vdot. cbn [vx vy vz]. replace (x * x + 0 * 0 + 0 * 0) with (Rsqr x) by (unfold Rsqr; ring). apply sqrt_Rsqr_abs. }
  assert (I1 : inv q1 = q1) by (rewrite <- (qmul_1_r (inv q1)); apply inv_l, unit_nonzero, unit_1).
  split; [exact U0|]. split; [exact U|]. split; [exact T|]. split; [unfold yaw; cbn [QuatModel.qw]; rewrite C4; lra|].
  split; [|split].
  - assert (U1 : unit_pose (state_pr (V3 1 0 0) q1)) by apply unit_1.
    assert (T1 : turn (snd (motion_between state0 (state_pr (V3 1 0 0) q1))) 0).
    { rewrite turned. cbn [rot state0 state_pr]. rewrite I1, qmul_1_r. split; [reflexivity|]. intro K. exfalso. cbn [QuatModel.qw q1] in K. rewrite Rabs_R1 in K. lra. }
    destruct (C125_effect tl ta state0 (state_pr (V3 1 0 0) q1) dt noisy 0 U0 U1 U T1) as [A B]. unfold pose_of. rewrite A, B, moved, turned. cbn [rot pos state0 state_pr noisy noise_ll noise_al noise_la noise_aa].
    rewrite I1, !qrot_1, !qmul_1_l, qmul_1_r. replace (vsub (V3 1 0 0) v0) with (V3 1 0 0) by (unfold vsub, v0; cbn [vx vy vz]; f_equal; ring). rewrite V, Rabs_R1. f_equal.
    + unfold vadd, vscale, v0, ex. cbn [vx vy vz]. f_equal; field.
    + f_equal. ring.
  - assert (U1 : unit_pose (state_pr v0 (yaw (PI / 2)))) by apply unit_yaw.
    assert (T1 : turn (snd (motion_between state0 (state_pr v0 (yaw (PI / 2))))) (PI / 2)).
    { rewrite turned. cbn [rot state0 state_pr]. rewrite I1, qmul_1_l. exact T. }
    destruct (C125_effect tl ta state0 (state_pr v0 (yaw (PI / 2))) dt noisy (PI / 2) U0 U1 U T1) as [A B]. unfold pose_of. rewrite A, B, moved, turned. cbn [rot pos state0 state_pr noisy noise_ll noise_al noise_la noise_aa].
    rewrite I1, !qrot_1, !qmul_1_l, yaw_mul. replace (vsub v0 v0) with (V3 0 0 0) by (unfold vsub, v0; cbn [vx vy vz]; f_equal; ring). rewrite V, Rabs_R0. f_equal.
    + unfold vadd, vscale, v0, ex. cbn [vx vy vz]. f_equal; field.
    + f_equal. ring.
  - cbn [path_length pos state_pr state0]. unfold dist3.
    replace (vsub (V3 1 0 0) v0) with (V3 1 0 0) by (unfold vsub, v0; cbn [vx vy vz]; f_equal; ring).
    replace (vsub (V3 3 0 0) (V3 1 0 0)) with (V3 2 0 0) by (unfold vsub; cbn [vx vy vz]; f_equal; ring).
    rewrite !V, !Rabs_pos_eq by lra. ring.
Qed.
