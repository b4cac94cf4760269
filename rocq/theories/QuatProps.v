(** C39-C43: quaternions as rotations (real arithmetic).  Vocabulary: QuatSpec.v. *)
From Coq Require Import Reals List Bool Lra Psatz.
From Verif Require Import Arith QuatModel QuatSpec QuatProofs QuatProofs2.
Open Scope R_scope.

(** ** C39: algebra *)
Theorem C39_algebra :
  (forall a b c, qmul (qmul a b) c = qmul a (qmul b c)) /\
  (forall a, qmul q1 a = a /\ qmul a q1 = a) /\
  (forall a b, qnorm (qmul a b) = qnorm a * qnorm b) /\
  (forall a, nonzero_quat a -> qmul a (inv a) = q1 /\ qmul (inv a) a = q1) /\
  (forall a, nonzero_quat a -> qnorm (qnormalized a) = 1 /\ exists s, 0 < s /\ qnormalized a = qscale a s).
Proof.
  split; [exact qmul_assoc|]. split; [intros; split; [apply qmul_1_l|apply qmul_1_r]|].
  split; [|split].
  - intros. unfold qnorm. rewrite qdot_mul. apply sqrt_mult; apply qdot_nonneg.
  - intros a H. split; [apply inv_r|apply inv_l]; auto.
  - intros a H. split.
    + unfold qnorm. rewrite (unit_dot1 _ (unit_normalized a H)). apply sqrt_1.
    + exists (1 / qnorm a). split; [|reflexivity]. apply nonzero_dot in H.
      apply Rdiv_lt_0_compat; [lra|]. apply sqrt_lt_R0; auto.
Qed.
(** Not commutative: the order of the factors matters. *)
Theorem C39_not_commutative : qmul (Q4 1 0 0 0) (Q4 0 1 0 0) <> qmul (Q4 0 1 0 0) (Q4 1 0 0 0).
Proof. unfold qmul; cbn. intros H. injection H as _ _ H _. lra. Qed.

(** ** C40: rigid rotations *)
Theorem C40_rigid : forall q, unit_quat q ->
  (forall u v s, qrot q (vadd u v) = vadd (qrot q u) (qrot q v) /\ qrot q (vscale u s) = vscale (qrot q u) s) /\
  (forall u v, vdot (qrot q u) (qrot q v) = vdot u v) /\
  (forall v, vnorm (qrot q v) = vnorm v) /\
  (forall u v, qrot q (vcross u v) = vcross (qrot q u) (qrot q v)) /\
  (forall v, qrot (inv q) (qrot q v) = v /\ qrot q (qrot (inv q) v) = v).
Proof.
  intros q U. split; [intros; split; [apply qrot_add|apply qrot_scale]|].
  split; [intros; apply qrot_dot; auto|]. split; [intros; apply qrot_norm; auto|].
  split; [intros; symmetry; apply qrot_cross; auto|].
  intros; split; [apply qrot_inv_l|apply qrot_inv_r]; auto.
Qed.
Theorem C40_composition : forall a b v, qrot (qmul a b) v = qrot a (qrot b v).
Proof. exact qrot_mul. Qed.
Theorem C40_non_unit_scales : forall q v, vnorm (qrot q v) = (qnorm q * qnorm q) * vnorm v.
Proof.
  intros q v. unfold vnorm, qnorm. rewrite qrot_dot_gen. pose proof (qdot_nonneg q).
  rewrite sqrt_sqrt by auto. rewrite sqrt_mult; [|nra|apply vdot_nonneg]. rewrite sqrt_square; auto.
Qed.
(** The representation is unique up to sign. *)
Theorem C40_double_cover : forall a b, unit_quat a -> unit_quat b -> (same_rotation a b <-> a = b \/ a = qopp b).
Proof. intros a b Ua Ub. split; [apply same_rotation_sign; auto|apply up_to_sign_same]. Qed.
Example C40_unit : unit_quat (Q4 (1/2) (1/2) (-1/2) (1/2)) /\
  qrot (Q4 (1/2) (1/2) (-1/2) (1/2)) (V3 1 2 3) <> V3 1 2 3.
Proof. split; [unfold unit_quat; cbn; lra|]. rewrite qrot_closed. intros H. injection H. lra. Qed.

(** ** C41: roll, pitch and yaw *)
Theorem C41_set_is_yaw_pitch_roll : forall r p y,
  setRPY (V3 r p y) = qmul (yaw y) (qmul (pitch p) (roll r)) /\ unit_quat (setRPY (V3 r p y)).
Proof. intros; split; [apply setRPY_factors|apply setRPY_unit]. Qed.
(** ... where the three factors are the usual rotations about the z, y and x axis. *)
Theorem C41_elementary : forall a v,
  qrot (yaw a) v = V3 (vx v * cos a - vy v * sin a) (vx v * sin a + vy v * cos a) (vz v) /\
  qrot (pitch a) v = V3 (vx v * cos a + vz v * sin a) (vy v) (- vx v * sin a + vz v * cos a) /\
  qrot (roll a) v = V3 (vx v) (vy v * cos a - vz v * sin a) (vy v * sin a + vz v * cos a).
Proof. intros. split; [apply yaw_rot|split; [apply pitch_rot|apply roll_rot]]. Qed.
Theorem C41_get_after_set : forall r p y,
  - (PI / 2) < p < PI / 2 -> - PI < r <= PI -> - PI < y <= PI ->
  getRPY (setRPY (V3 r p y)) = V3 r p y.
Proof.
  intros r p y Hp Hr Hy. rewrite getRPY_spec by apply setRPY_unit.
  rewrite setRPY_ex, setRPY_inv_ez. cbn [vx vy vz].
  assert (0 < cos p) by (apply cos_gt_0; lra).
  f_equal.
  - apply atan2_polar; auto.
  - rewrite Ropp_involutive. apply asin_sin. lra.
  - apply atan2_polar; auto.
Qed.
(** The third component of the rotated x axis is -sin(pitch). *)
Theorem C41_set_after_get : forall q, unit_quat q -> Rabs (vz (qrot q ex)) <> 1 ->
  (setRPY (getRPY q) = q \/ setRPY (getRPY q) = qopp q) /\ same_rotation (setRPY (getRPY q)) q.
Proof. intros q U H. pose proof (rpy_restore q U H) as S. split; [exact S|]. apply up_to_sign_same; auto. Qed.
Theorem C41_ranges : forall q, let v := getRPY q in
  - PI < vx v <= PI /\ - (PI / 2) <= vy v <= PI / 2 /\ - PI < vz v <= PI.
Proof.
  intros q v. split; [apply atan2_range|]. split; [apply asin_bound|apply atan2_range].
Qed.
(** At pitch +90 degrees roll and yaw are read as 0 whatever they were. *)
Theorem C41_gimbal_lock_loses_heading : forall r y,
  getRPY (setRPY (V3 r (PI / 2) y)) = V3 0 (PI / 2) 0 /\
  getRPY (setRPY (V3 r (- (PI / 2)) y)) = V3 0 (- (PI / 2)) 0.
Proof.
  intros r y.
  assert (Z : atan2 0 0 = 0).
  { unfold atan2. assert (Rltb 0 0 = false) as -> by (apply Rltb_false; lra). reflexivity. }
  assert (C2 : cos (- (PI/2)) = 0) by (rewrite cos_neg; apply cos_PI2).
  assert (S2 : sin (- (PI/2)) = -1) by (rewrite sin_neg, sin_PI2; reflexivity).
  pose proof PI_RGT_0.
  split; rewrite getRPY_spec by apply setRPY_unit; rewrite setRPY_ex, setRPY_inv_ez; cbn [vx vy vz].
  - rewrite cos_PI2, sin_PI2, !Rmult_0_l, Z. f_equal. replace (- - (1)) with (sin (PI/2)) by (rewrite sin_PI2; lra). apply asin_sin. lra.
  - rewrite C2, S2, !Rmult_0_l, Z. f_equal. replace (- - -1) with (sin (-(PI/2))) by (rewrite S2; lra). apply asin_sin. lra.
Qed.
Example C41_hyp : unit_quat (Q4 (1/2) (1/2) (-1/2) (1/2)) /\ Rabs (vz (qrot (Q4 (3/5) 0 0 (4/5)) ex)) <> 1.
Proof. split; [unfold unit_quat; cbn; lra|]. unfold ex. rewrite qrot_closed. cbn. rewrite Rabs_pos_eq; lra. Qed.

(** ** C42: axis and angle *)
Theorem C42_set_is_rotation : forall axis ang, nonzero_vec axis ->
  unit_quat (setAxisAng axis ang) /\
  forall v, qrot (setAxisAng axis ang) v = rodrigues (vnormalized axis) ang v.
Proof.
  intros axis ang H. split; [apply setAxisAng_unit; auto|]. intros v.
  rewrite setAxisAng_eq by auto. pose proof (vdot_normalized axis H) as N.
  unfold rodrigues. pose proof (half_one ang) as O. rewrite (half_cos ang), (half_sin ang).
  destruct (vnormalized axis) as [a b c], v as [u v w].
  set (s := sin (ang/2)) in *. set (k := cos (ang/2)) in *. clearbody s k.
  unfold vdot in N. cbn in N. cbn [vx vy vz]. rewrite qrot_closed. unfold vadd, vscale, vcross, vdot; cbn [vx vy vz].
  assert (E1 : 1 - (k*k - s*s) = 2 * (s*s)) by lra. rewrite E1.
  assert (E2 : s * s = s * s * (a*a+b*b+c*c)) by (rewrite N; ring).
  f_equal.
  - transitivity ((k*k - s*s*(a*a+b*b+c*c))*u + 2*s*k*(b*w-c*v) + 2*s*s*a*(a*u+b*v+c*w)); [ring|].
    rewrite <- E2. ring.
  - transitivity ((k*k - s*s*(a*a+b*b+c*c))*v + 2*s*k*(c*u-a*w) + 2*s*s*b*(a*u+b*v+c*w)); [ring|].
    rewrite <- E2. ring.
  - transitivity ((k*k - s*s*(a*a+b*b+c*c))*w + 2*s*k*(a*v-b*u) + 2*s*s*c*(a*u+b*v+c*w)); [ring|].
    rewrite <- E2. ring.
Qed.
(** Away from the cut-off the round trip is exact. *)
Theorem C42_round_trip : forall q axis ang, unit_quat q -> getAxisAng q = (axis, ang) ->
  Rabs (qw q) < 1 - 1 / 1000000 ->
  vnorm axis = 1 /\ - PI <= ang <= PI /\
  (setAxisAng axis ang = q \/ setAxisAng axis ang = qopp q).
Proof.
  intros q axis ang U H Hw. destruct (axis_ang_rebuild q axis ang U H) as (A & B & C).
  - unfold axis_cut. lra.
  - split; [|auto]. unfold vnorm. rewrite A. apply sqrt_1.
Qed.
(** Inside it the identity is returned; the rotation that is dropped has an angle
    below 0.003 rad. *)
Theorem C42_cut_off : forall q, unit_quat q -> 1 - 1 / 1000000 <= Rabs (qw q) ->
  getAxisAng q = (V3 0 0 1, 0) /\ setAxisAng (V3 0 0 1) 0 = q1 /\
  2 * acos (Rabs (qw q)) < 3 / 1000 /\
  forall v, vnorm (vsub (qrot q v) v) <= 3 / 1000 * vnorm v.
Proof.
  intros q U Hw. split; [|split; [|split]].
  - unfold getAxisAng. destruct (Rleb axis_cut (Rabs (qw q))) eqn:E; [reflexivity|].
    apply Rleb_false in E. unfold axis_cut in E. lra.
  - apply setAxisAng_0, ez_nonzero.
  - apply Rnot_le_lt. intros X.
    pose proof (unit_w_bound q U) as B.
    assert (B' : -1 <= Rabs (qw q) <= 1) by (unfold Rabs; destruct (Rcase_abs _); lra).
    assert (C : cos (acos (Rabs (qw q))) <= cos (3/2000)).
    { destruct (Req_dec (acos (Rabs (qw q))) (3/2000)) as [->|N]; [lra|]. apply Rlt_le, cos_decreasing_1; pose proof (acos_bound (Rabs (qw q))); pose proof PI_RGT_0; pose proof PI2_3_2; unfold PI2 in *; lra. }
    rewrite cos_acos in C by auto.
    destruct (pre_cos_bound (3/2000) 0) as [_ D]; [lra|lra|].
    assert (D' : cos (3/2000) <= 1 - (3/2000)^2/2 + (3/2000)^4/24).
    { eapply Rle_trans; [exact D|]. unfold cos_approx, cos_term, sum_f_R0. simpl. lra. }
    lra.
  - intros v.
    assert (S : vdot (vsub (qrot q v) v) (vsub (qrot q v) v) <= (3/1000)*(3/1000) * vdot v v).
    { assert (E : vdot (vsub (qrot q v) v) (vsub (qrot q v) v) =
        4 * (1 - qw q * qw q) * vdot v v - 4 * (vdot (V3 (qx q) (qy q) (qz q)) v) * (vdot (V3 (qx q) (qy q) (qz q)) v)).
      { replace (vdot (vsub (qrot q v) v) (vsub (qrot q v) v)) with
          (vdot (qrot q v) (qrot q v) + vdot v v - 2 * vdot (qrot q v) v) by (generalize (qrot q v); clear; intros; qdes; qunf; ring).
        rewrite qrot_dot by auto. clear Hw. destruct q as [a b c d], v as [u v w]. rewrite qrot_closed. unfold unit_quat in U. unfold vdot. cbn in *.
        assert (E : d * d = 1 - (a*a+b*b+c*c)) by lra. rewrite E. ring. }
      assert (W : 1 - qw q * qw q <= 2 / 1000000).
      { assert (Rabs (qw q) * Rabs (qw q) = qw q * qw q) by (rewrite <- Rabs_mult; apply Rabs_pos_eq; nra). nra. }
      pose proof (vdot_nonneg v). rewrite E.
      set (m := vdot (V3 _ _ _) v). assert (0 <= m * m) by nra. nra. }
    unfold vnorm. rewrite <- (sqrt_square (3/1000)) by lra. rewrite <- sqrt_mult; [|lra|apply vdot_nonneg].
    apply sqrt_le_1_alt. exact S.
Qed.
Example C42_both_cases : unit_quat (Q4 (3/5) 0 0 (4/5)) /\ Rabs (4/5) < 1 - 1/1000000 /\ nonzero_vec (V3 1 2 3) /\
  unit_quat q1 /\ 1 - 1/1000000 <= Rabs (qw q1).
Proof.
  split; [unfold unit_quat; cbn; lra|]. split; [rewrite Rabs_pos_eq; lra|]. split; [intros (H&_); cbn in H; lra|].
  split; [apply unit_1|]. cbn. rewrite Rabs_R1. lra.
Qed.
(** weighted(s) scales the angle: weighted(0) is the identity, weighted(1) the rotation itself *)
Theorem C42_weighted : forall q, unit_quat q ->
  weighted q 0 = q1 /\ (Rabs (qw q) < 1 - 1 / 1000000 -> same_rotation (weighted q 1) q).
Proof.
  intros q U. unfold weighted. destruct (getAxisAng q) as [axis ang] eqn:E. split.
  - rewrite Rmult_0_r. apply setAxisAng_0.
    destruct (Rlt_dec (Rabs (qw q)) (1 - 1/1000000)) as [L|L].
    + destruct (axis_ang_rebuild q axis ang U E) as (A & _); [unfold axis_cut; lra|]. apply vnonzero_dot. rewrite A. lra.
    + destruct (C42_cut_off q U ltac:(lra)) as [X _]. rewrite X in E. injection E as <- <-. apply ez_nonzero.
  - intros L. rewrite Rmult_1_r. apply up_to_sign_same. apply (axis_ang_rebuild q axis ang U E). unfold axis_cut; lra.
Qed.

(** ** C43: orientation from a front and an up vector *)
Theorem C43_restores : forall q s t, unit_quat q -> qw q <> 0 -> 0 < s -> 0 < t ->
  let r := fromFrontUp (vscale (qrot q ex) s) (vscale (qrot q ez) t) in r = q \/ r = qopp q.
Proof. intros. apply frontup_restore; auto. Qed.
(** For any two independent vectors whose frame is not a half turn, the result is the
    rotation whose x axis points to [front] and whose z axis is the direction closest
    to [up] (it lies in their plane, on the side of up). *)
Theorem C43_general : forall front up, nonzero_vec front -> nonzero_vec (vcross up front) ->
  let xv := vnormalized front in
  let yv := vnormalized (vcross up xv) in
  let zv := vcross xv yv in
  vx xv + vy yv + vz zv <> -1 ->
  let q := fromFrontUp front up in
  unit_quat q /\ qrot q ex = xv /\ vdot (qrot q ez) front = 0 /\ 0 < vdot (qrot q ez) up /\
  vdot (vcross front up) (qrot q ez) = 0.
Proof.
  intros f u Hf Hu xv yv zv HT q.
  destruct (frame_of f u Hf Hu) as [(XX & YY & XY & Z) Pos].
  fold xv in XX, YY, XY, Z, Pos. fold yv in YY, XY, Z, Pos. fold zv in Z, Pos.
  rewrite Z in Pos.
  assert (T : 0 < 1 + vx xv + vy yv + vz zv).
  { assert (N : 0 <= 1 + vx xv + vy yv + vz zv).
    { destruct (frame_diag xv yv zv) as (D & D2 & D3); [repeat split; auto|].
      set (T := 1 + vx xv + vy yv + vz zv) in *.
      apply Rnot_lt_le. intros L.
      assert (NP : forall t a s, t < 0 -> t * a = s * s -> a <= 0) by (intros; nra).
      pose proof (NP _ _ _ L D).
      pose proof (NP _ _ _ L D2).
      pose proof (NP _ _ _ L D3). unfold T in L. lra. }
    destruct N as [N|N]; auto. exfalso. apply HT. lra. }
  pose proof (frontup_frame f u Hf Hu) as F. cbn zeta in F. fold xv in F. fold yv in F. fold zv in F. rewrite Z in F.
  destruct (F T) as (Uq & _ & F1 & F2 & F3). fold q in Uq, F1, F2, F3.
  pose proof (vnorm_pos f Hf) as Pf.
  assert (EF : f = vscale xv (vnorm f)).
  { unfold xv, vnormalized. generalize (vnorm f) Pf. clear. intros; qdes; qunf; f_equal; field; lra. }
  split; auto. split; auto. split; [|split].
  - rewrite F3, EF. unfold zv. clear. generalize (vnorm f). intros; qdes; qunf; ring.
  - rewrite F3. exact Pos.
  - rewrite F3. assert (N : nonzero_vec (vcross u xv)).
    { apply vnonzero_dot. unfold yv in YY. destruct (Req_dec (vdot (vcross u xv) (vcross u xv)) 0) as [E0|E0].
      - exfalso. assert (V : vcross u xv = v0).
        { destruct (vcross u xv) as [a b c]. unfold vdot in E0; cbn in E0. unfold v0. f_equal; nra. }
        rewrite V in YY. unfold vnormalized, vdiv, vdot, v0 in YY. cbn in YY. unfold Rdiv in YY. lra.
      - pose proof (vdot_nonneg (vcross u xv)). lra. }
    pose proof (vnorm_pos _ N) as Pn.
    rewrite EF. unfold zv, yv, vnormalized. generalize (vnorm (vcross u xv)) Pn. generalize (vnorm f) xv. clear.
    intros; qdes; qunf; field; lra.
Qed.
(** Half turns about a skew axis come back as a different rotation. *)
Theorem C43_half_turn_refuted : forall a b, a * a + b * b = 1 -> a * b < 0 ->
  let q := Q4 a b 0 0 in
  unit_quat q /\ ~ same_rotation (fromFrontUp (qrot q ex) (qrot q ez)) q.
Proof.
  intros a b H N q. assert (U : unit_quat q) by (unfold unit_quat; cbn; lra). split; auto.
  assert (E : fromFrontUp (qrot q ex) (qrot q ez) = Q4 (Rabs a) (Rabs b) 0 0).
  { unfold q, ex, ez. rewrite !qrot_closed. unfold fromFrontUp.
    match goal with |- context [vnormalized (V3 ?x ?y ?z)] =>
      replace (vnormalized (V3 x y z)) with (V3 (a*a-b*b) (2*(a*b)) 0) end.
    2:{ symmetry. rewrite vnormalized_unit.
        - f_equal; ring.
        - unfold vdot. cbn. transitivity ((a*a+b*b)*(a*a+b*b)); [ring|rewrite H; ring]. }
    assert (EZ : V3 ((0*0+a*a-b*b-0*0)*0 + 2*(a*b-0*0)*0 + 2*(a*0+0*b)*1)
       (2*(a*b+0*0)*0 + (0*0-a*a+b*b-0*0)*0 + 2*(b*0-0*a)*1)
       (2*(a*0-0*b)*0 + 2*(b*0+0*a)*0 + (0*0-a*a-b*b+0*0)*1) = V3 0 0 (-1)) by (f_equal; nra).
    rewrite EZ.
    assert (EY : vnormalized (vcross (V3 0 0 (-1)) (V3 (a*a-b*b) (2*(a*b)) 0)) = V3 (2*(a*b)) (b*b-a*a) 0).
    { rewrite vnormalized_unit.
      - unfold vcross; cbn. f_equal; ring.
      - unfold vcross, vdot; cbn. transitivity ((a*a+b*b)*(a*a+b*b)); [ring|rewrite H; ring]. }
    rewrite EY.
    assert (EZ2 : vnormalized (vcross (V3 (a*a-b*b) (2*(a*b)) 0) (V3 (2*(a*b)) (b*b-a*a) 0)) = V3 0 0 (-1)).
    { assert (C : vcross (V3 (a*a-b*b) (2*(a*b)) 0) (V3 (2*(a*b)) (b*b-a*a) 0) = V3 0 0 (-1)).
      { unfold vcross; cbn. f_equal; try ring. transitivity (- ((a*a+b*b)*(a*a+b*b))); [ring|rewrite H; ring]. }
      rewrite C. apply vnormalized_unit. unfold vdot; cbn; ring. }
    rewrite EZ2. cbn [vx vy vz].
    assert (R0 : Rltb 0 (0 - 0) = false) by (apply Rltb_false; lra). rewrite R0.
    assert (R1 : Rltb 0 (2 * (a * b) - 2 * (a * b)) = false) by (apply Rltb_false; lra). rewrite R1.
    assert (SQ : forall x, sqrt (Rmax 0 (4 * (x * x))) / 2 = Rabs x).
    { intros x. rewrite Rmax_right by nra. replace (4 * (x*x)) with (Rsqr (2 * x)) by (unfold Rsqr; ring).
      rewrite sqrt_Rsqr_abs, Rabs_mult, Rabs_pos_eq by lra. field. }
    replace (1 + (a*a-b*b) - (b*b-a*a) - -1) with (4 * (a*a)) by nra.
    replace (1 - (a*a-b*b) + (b*b-a*a) - -1) with (4 * (b*b)) by nra.
    replace (1 - (a*a-b*b) - (b*b-a*a) + -1) with (4 * (0*0)) by ring.
    replace (1 + (a*a-b*b) + (b*b-a*a) + -1) with (4 * (0*0)) by ring.
    rewrite !SQ, Rabs_R0. reflexivity. }
  rewrite E. intros S. specialize (S ex). unfold q, ex in S. rewrite !qrot_closed in S. injection S as _ S _.
  assert (Rabs a * Rabs b = - (a * b)) by (rewrite <- Rabs_mult, Rabs_left; lra). lra.
Qed.
Example C43_hyps : (3/5) * (3/5) + (-4/5) * (-4/5) = 1 /\ (3/5) * (-4/5) < 0 /\
  unit_quat (Q4 (3/5) 0 0 (4/5)) /\ nonzero_vec (V3 1 0 0) /\ nonzero_vec (vcross (V3 1 0 1) (V3 1 0 0)).
Proof.
  split; [lra|]. split; [lra|]. split; [unfold unit_quat; cbn; lra|].
  split; [intros (X&_); cbn in X; lra|]. intros (_&X&_); unfold vcross in X; cbn in X; lra.
Qed.
