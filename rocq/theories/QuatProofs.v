From Coq Require Import Reals List Bool Lra Psatz Nsatz.
From Verif Require Import Arith QuatModel QuatSpec.
Open Scope R_scope.

Ltac qunf := repeat unfold unit_quat, nonzero_quat, nonzero_vec, inv, qdiv, qmul, conj, qscale,
  qdot, qadd, qsub, qopp, vadd, vsub, vopp, vscale, vdiv, vdot, vcross, vtimes, ex, ey, ez, v0, q1, roll, pitch, yaw in *;
  cbn [qx qy qz qw vx vy vz] in *.
Ltac qdes := repeat match goal with q : quat |- _ => let a := fresh "a" in let b := fresh "b" in let c := fresh "c" in let d := fresh "d" in destruct q as [a b c d] | v : vec3 |- _ => let a := fresh "u" in let b := fresh "v" in let c := fresh "w" in destruct v as [a b c] end.
Ltac qring := qdes; qunf; f_equal; ring.

Lemma qmul_assoc a b c : qmul (qmul a b) c = qmul a (qmul b c).
Proof. qring. Qed.
Lemma qmul_1_l a : qmul q1 a = a. Proof. qring. Qed.
Lemma qmul_1_r a : qmul a q1 = a. Proof. qring. Qed.
Lemma qdot_mul a b : qdot (qmul a b) (qmul a b) = qdot a a * qdot b b.
Proof. qdes; qunf; ring. Qed.
Lemma qdot_nonneg a : 0 <= qdot a a.
Proof. qdes; qunf. nra. Qed.
Lemma nonzero_dot a : nonzero_quat a <-> 0 < qdot a a.
Proof.
  split; intros H.
  - destruct (qdot_nonneg a) as [L|L]; auto. exfalso. apply H. qdes; qunf.
    repeat split; nra.
  - intros (A & B & C & D). qdes; qunf. subst. lra.
Qed.
Lemma unit_dot a : unit_quat a <-> qdot a a = 1.
Proof. qdes; qunf. reflexivity. Qed.
Lemma unit_dot1 a : unit_quat a -> qdot a a = 1.
Proof. apply unit_dot. Qed.
Lemma unit_nonzero a : unit_quat a -> nonzero_quat a.
Proof. rewrite unit_dot, nonzero_dot. lra. Qed.
Lemma inv_l a : nonzero_quat a -> qmul (inv a) a = q1.
Proof.
  rewrite nonzero_dot. intros H. qdes. qunf. f_equal; field; lra.
Qed.
Lemma inv_r a : nonzero_quat a -> qmul a (inv a) = q1.
Proof.
  rewrite nonzero_dot. intros H. qdes. qunf. f_equal; field; lra.
Qed.
Lemma inv_unit a : unit_quat a -> inv a = conj a.
Proof. intros H. unfold inv. apply unit_dot1 in H. rewrite H. qdes; qunf; f_equal; field. Qed.
Lemma unit_conj a : unit_quat a -> unit_quat (conj a).
Proof. qdes; qunf. intros; lra. Qed.
Lemma unit_inv a : unit_quat a -> unit_quat (inv a).
Proof. intros H. rewrite inv_unit by auto. apply unit_conj; auto. Qed.
Lemma unit_mul a b : unit_quat a -> unit_quat b -> unit_quat (qmul a b).
Proof. rewrite !unit_dot, qdot_mul. intros -> ->. ring. Qed.
Lemma qdot_scale a s : qdot (qscale a s) (qscale a s) = s * s * qdot a a.
Proof. qdes; qunf; ring. Qed.
Lemma unit_normalized a : nonzero_quat a -> unit_quat (qnormalized a).
Proof.
  rewrite nonzero_dot, unit_dot. intros H. unfold qnormalized, qdiv. rewrite qdot_scale. unfold qnorm.
  pose proof (sqrt_lt_R0 _ H). pose proof (sqrt_sqrt (qdot a a) ltac:(lra)).
  set (s := sqrt _) in *. rewrite <- H1. field. lra.
Qed.
Lemma normalized_unit a : unit_quat a -> qnormalized a = a.
Proof.
  rewrite unit_dot. intros H. unfold qnormalized, qnorm. rewrite H, sqrt_1. qdes; qunf; f_equal; field.
Qed.
Lemma unit_1 : unit_quat q1. Proof. qunf. ring. Qed.
Lemma inv_mul a b : nonzero_quat a -> nonzero_quat b -> inv (qmul a b) = qmul (inv b) (inv a).
Proof.
  rewrite !nonzero_dot. intros Ha Hb. unfold inv. rewrite qdot_mul.
  unfold qdiv. set (m := qdot a a) in *. set (n := qdot b b) in *.
  replace (1 / (m * n)) with ((1/n) * (1/m)) by (field; lra).
  generalize (1/n) (1/m). clear. intros. qring.
Qed.

(** ** action on vectors *)
Definition emb (v : vec3) : quat := Q4 (vx v) (vy v) (vz v) 0.
Lemma qrot_emb a v : qmul (qmul a (emb v)) (conj a) = emb (qrot a v).
Proof.
  unfold qrot. fold (emb v). unfold emb at 2. cbn [vx vy vz].
  assert (W : qw (qmul (qmul a (emb v)) (conj a)) = 0) by (destruct a, v; unfold emb, qmul, conj; cbn; ring).
  destruct (qmul _ _); cbn in *. f_equal; exact W.
Qed.
Lemma emb_inj u v : emb u = emb v -> u = v.
Proof. destruct u, v. unfold emb. cbn. congruence. Qed.
Lemma conj_mul a b : conj (qmul a b) = qmul (conj b) (conj a).
Proof. destruct a, b. unfold conj, qmul; cbn. f_equal; ring. Qed.
Lemma qrot_mul a b v : qrot (qmul a b) v = qrot a (qrot b v).
Proof.
  apply emb_inj. rewrite <- !qrot_emb, conj_mul. rewrite !qmul_assoc. reflexivity.
Qed.
(** closed form *)
Lemma qrot_closed a b c d u v w : qrot (Q4 a b c d) (V3 u v w) =
  V3 ((d*d+a*a-b*b-c*c)*u + 2*(a*b-d*c)*v + 2*(a*c+d*b)*w)
     (2*(a*b+d*c)*u + (d*d-a*a+b*b-c*c)*v + 2*(b*c-d*a)*w)
     (2*(a*c-d*b)*u + 2*(b*c+d*a)*v + (d*d-a*a-b*b+c*c)*w).
Proof. unfold qrot, qmul, conj; cbn. f_equal; ring. Qed.
(** for goals about rotated vectors *)
Ltac qunf2 := qunf; rewrite ?qrot_closed in *; cbn [qx qy qz qw vx vy vz] in *.
Ltac rring := qdes; qunf2; f_equal; ring.
Lemma qrot_1 v : qrot q1 v = v. Proof. rring. Qed.
Lemma qrot_add a u v : qrot a (vadd u v) = vadd (qrot a u) (qrot a v).
Proof. rring. Qed.
Lemma qrot_sub a u v : qrot a (vsub u v) = vsub (qrot a u) (qrot a v).
Proof. rring. Qed.
Lemma qrot_scale a v s : qrot a (vscale v s) = vscale (qrot a v) s.
Proof. rring. Qed.
Lemma qrot_opp a v : qrot (qopp a) v = qrot a v.
Proof. rring. Qed.
Lemma qrot_dot_gen a u v : vdot (qrot a u) (qrot a v) = qdot a a * qdot a a * vdot u v.
Proof. qdes; qunf2; ring. Qed.
Lemma qrot_dot a u v : unit_quat a -> vdot (qrot a u) (qrot a v) = vdot u v.
Proof. intros H. apply unit_dot1 in H. rewrite qrot_dot_gen, H. ring. Qed.
Lemma qrot_cross_gen a u v : vcross (qrot a u) (qrot a v) = vscale (qrot a (vcross u v)) (qdot a a).
Proof. rring. Qed.
Lemma vscale_1 v : vscale v 1 = v. Proof. qring. Qed.
Lemma qrot_cross a u v : unit_quat a -> vcross (qrot a u) (qrot a v) = qrot a (vcross u v).
Proof. intros H. apply unit_dot1 in H. rewrite qrot_cross_gen, H. apply vscale_1. Qed.
Lemma qrot_norm a v : unit_quat a -> vnorm (qrot a v) = vnorm v.
Proof. intros H. unfold vnorm. rewrite qrot_dot; auto. Qed.
Lemma qrot_inv_l a v : unit_quat a -> qrot (inv a) (qrot a v) = v.
Proof. intros H. rewrite <- qrot_mul, inv_l by (apply unit_nonzero; auto). apply qrot_1. Qed.
Lemma qrot_inv_r a v : unit_quat a -> qrot a (qrot (inv a) v) = v.
Proof. intros H. rewrite <- qrot_mul, inv_r by (apply unit_nonzero; auto). apply qrot_1. Qed.

(** ** vectors *)
Lemma vdot_nonneg v : 0 <= vdot v v. Proof. qdes; qunf; nra. Qed.
Lemma vnonzero_dot v : nonzero_vec v <-> 0 < vdot v v.
Proof.
  split; intros H.
  - destruct (vdot_nonneg v) as [L|L]; auto. exfalso. apply H. qdes; qunf. repeat split; nra.
  - intros (A & B & C). qdes; qunf. subst. lra.
Qed.
Lemma vnorm_pos v : nonzero_vec v -> 0 < vnorm v.
Proof. rewrite vnonzero_dot. apply sqrt_lt_R0. Qed.
Lemma vnorm_sq v : vnorm v * vnorm v = vdot v v.
Proof. apply sqrt_sqrt, vdot_nonneg. Qed.
Lemma vdot_div u v s : s <> 0 -> vdot (vdiv u s) (vdiv v s) = vdot u v / (s * s).
Proof. intros. qdes; qunf. field; auto. Qed.
Lemma vdot_normalized v : nonzero_vec v -> vdot (vnormalized v) (vnormalized v) = 1.
Proof.
  intros H. pose proof (vnorm_pos v H). unfold vnormalized. rewrite vdot_div by lra.
  rewrite <- vnorm_sq. field. lra.
Qed.
Lemma vnormalized_unit v : vdot v v = 1 -> vnormalized v = v.
Proof. intros H. unfold vnormalized, vnorm. rewrite H, sqrt_1. qdes; qunf; f_equal; field. Qed.
Lemma vnormalized_scale v s : 0 < s -> vdot v v = 1 -> vnormalized (vscale v s) = v.
Proof.
  intros Hs H. unfold vnormalized, vnorm.
  replace (vdot (vscale v s) (vscale v s)) with (s * s * vdot v v) by (qdes; qunf; ring).
  rewrite H, Rmult_1_r, sqrt_square by lra. qdes; qunf; f_equal; field; lra.
Qed.

(** ** axis and angle *)
Lemma unit_axis_ang_raw a t : vdot a a = 1 -> unit_quat (Q4 (vx a * sin t) (vy a * sin t) (vz a * sin t) (cos t)).
Proof.
  intros H. qdes; qunf. pose proof (sin2_cos2 t) as S. unfold Rsqr in S. nra.
Qed.
Lemma setAxisAng_eq axis ang : nonzero_vec axis ->
  setAxisAng axis ang = Q4 (vx (vnormalized axis) * sin (ang/2)) (vy (vnormalized axis) * sin (ang/2))
                           (vz (vnormalized axis) * sin (ang/2)) (cos (ang/2)).
Proof.
  intros H. unfold setAxisAng. fold (vnormalized axis). apply normalized_unit, unit_axis_ang_raw.
  apply vdot_normalized; auto.
Qed.
Lemma setAxisAng_unit axis ang : nonzero_vec axis -> unit_quat (setAxisAng axis ang).
Proof. intros H. rewrite setAxisAng_eq by auto. apply unit_axis_ang_raw, vdot_normalized; auto. Qed.
Lemma setAxisAng_0 axis : nonzero_vec axis -> setAxisAng axis 0 = q1.
Proof. intros H. rewrite setAxisAng_eq by auto. replace (0/2) with 0 by field. rewrite sin_0, cos_0. unfold q1. f_equal; ring. Qed.
Lemma ez_nonzero : nonzero_vec (V3 0 0 1). Proof. intros (_&_&H). cbn in H. lra. Qed.
Lemma setAxisAng_ez ang : setAxisAng (V3 0 0 1) ang = yaw ang.
Proof.
  rewrite setAxisAng_eq by apply ez_nonzero. rewrite vnormalized_unit by (qunf; ring). unfold yaw. cbn. f_equal; ring.
Qed.

Lemma unit_w_bound q : unit_quat q -> -1 <= qw q <= 1.
Proof. qdes; qunf. intros. split; nra. Qed.

Lemma axis_lt_one q : ~ (axis_cut <= Rabs (qw q)) -> -1 < qw q < 1.
Proof. unfold axis_cut. intros H. unfold Rabs in H. destruct (Rcase_abs _); lra. Qed.

Lemma axis_ang_rebuild q axis ang : unit_quat q -> getAxisAng q = (axis, ang) ->
  ~ (axis_cut <= Rabs (qw q)) ->
  vdot axis axis = 1 /\ - PI <= ang <= PI /\ up_to_sign (setAxisAng axis ang) q.
Proof.
  intros Hq H Hw. unfold getAxisAng in H.
  destruct (Rleb axis_cut (Rabs (qw q))) eqn:E; [apply Rleb_true in E; contradiction|].
  pose proof (axis_lt_one q Hw) as W. injection H as <- Ha.
  assert (P : 0 < 1 - qw q * qw q) by nra.
  pose proof (sqrt_lt_R0 _ P) as SP. pose proof (sqrt_sqrt _ (Rlt_le _ _ P)) as SS.
  set (s := sqrt (1 - qw q * qw q)) in *.
  assert (A : vdot (vdiv (V3 (qx q) (qy q) (qz q)) s) (vdiv (V3 (qx q) (qy q) (qz q)) s) = 1).
  { rewrite vdot_div by lra. rewrite SS. unfold unit_quat in Hq. unfold vdot; cbn.
    replace (qx q * qx q + qy q * qy q + qz q * qz q) with (1 - qw q * qw q) by lra. field. lra. }
  split; [exact A|].
  assert (CA : cos (acos (qw q)) = qw q) by (apply cos_acos; lra).
  assert (SA : sin (acos (qw q)) = s) by (rewrite sin_acos by lra; unfold s, Rsqr; reflexivity).
  pose proof (acos_bound (qw q)) as B.
  assert (NZ : nonzero_vec (vdiv (V3 (qx q) (qy q) (qz q)) s)) by (apply vnonzero_dot; rewrite A; lra).
  destruct (Rltb PI (acos (qw q) * 2)) eqn:E2; [apply Rltb_true in E2|apply Rltb_false in E2]; subst ang.
  - split; [lra|]. right. rewrite setAxisAng_eq by auto. rewrite vnormalized_unit by auto.
    replace ((acos (qw q) * 2 - 2 * PI) / 2) with (acos (qw q) - PI) by field.
    rewrite sin_minus, cos_minus, cos_PI, sin_PI, CA, SA. unfold qopp, vdiv; cbn. f_equal; field; lra.
  - split; [lra|]. left. rewrite setAxisAng_eq by auto. rewrite vnormalized_unit by auto.
    replace ((acos (qw q) * 2) / 2) with (acos (qw q)) by field.
    rewrite CA, SA. destruct q; unfold vdiv; cbn. f_equal; field; lra.
Qed.

Lemma up_to_sign_same a b : up_to_sign a b -> same_rotation a b.
Proof. intros [->| ->] v; auto. apply qrot_opp. Qed.

(** ** angles of rotation matrices *)
Lemma atan2_polar k a : 0 < k -> - PI < a <= PI -> atan2 (k * sin a) (k * cos a) = a.
Proof.
  intros Hk Ha. pose proof PI_RGT_0.
  assert (D : cos a <> 0 -> k * sin a / (k * cos a) = tan a) by (intros; unfold tan; field; lra).
  unfold atan2.
  destruct (Rltb 0 (k * cos a)) eqn:E1; [apply Rltb_true in E1|apply Rltb_false in E1].
  - assert (C : 0 < cos a) by nra. rewrite D by lra.
    assert (- PI/2 < a < PI/2).
    { split; apply Rnot_le_lt; intros X.
      - assert (cos a <= 0); [|lra]. rewrite <- cos_neg. apply cos_le_0; lra.
      - assert (cos a <= 0); [|lra]. apply cos_le_0; lra. }
    apply atan_tan. lra.
  - destruct (Rltb (k * cos a) 0) eqn:E2; [apply Rltb_true in E2|apply Rltb_false in E2].
    + assert (C : cos a < 0) by nra. rewrite D by lra.
      destruct (Rltb (k * sin a) 0) eqn:E3; [apply Rltb_true in E3|apply Rltb_false in E3].
      * assert (S : sin a < 0) by nra.
        assert (- PI < a < - (PI/2)).
        { split; [lra|]. apply Rnot_le_lt; intros X. destruct (Rle_lt_dec a (PI/2)).
          - assert (0 <= cos a) by (apply cos_ge_0; lra). lra.
          - assert (0 <= sin a) by (apply sin_ge_0; lra). lra. }
        assert (T : tan a = tan (a + PI)).
        { unfold tan. rewrite neg_sin, neg_cos. field. lra. }
        rewrite T, atan_tan by lra. lra.
      * assert (S : 0 <= sin a) by nra.
        assert (PI/2 < a <= PI).
        { split; [|lra]. apply Rnot_le_lt; intros X. destruct (Rle_lt_dec (-(PI/2)) a).
          - assert (0 <= cos a) by (apply cos_ge_0; lra). lra.
          - assert (sin a < 0); [|lra]. apply sin_lt_0_var; lra. }
        assert (T : tan a = tan (a - PI)).
        { unfold tan. rewrite sin_minus, cos_minus, cos_PI, sin_PI. field. lra. }
        rewrite T, atan_tan by lra. lra.
    + assert (C : cos a = 0) by nra.
      pose proof (sin2_cos2 a) as S2. unfold Rsqr in S2.
      destruct (Rltb 0 (k * sin a)) eqn:E3; [apply Rltb_true in E3|apply Rltb_false in E3].
      * assert (S : 0 < sin a) by nra.
        assert (0 < a < PI).
        { split.
          - apply Rnot_le_lt; intros X. destruct X as [X|X]; [|subst; rewrite sin_0 in S; lra].
            assert (sin a < 0) by (apply sin_lt_0_var; lra). lra.
          - destruct Ha as [_ [Ha| ->]]; auto. rewrite sin_PI in S. lra. }
        destruct (Rtotal_order a (PI/2)) as [L|[L|L]]; auto.
        -- assert (0 < cos a) by (apply cos_gt_0; lra). lra.
        -- assert (cos a < 0) by (apply cos_lt_0; lra). lra.
      * destruct (Rltb (k * sin a) 0) eqn:E4; [apply Rltb_true in E4|apply Rltb_false in E4].
        -- assert (S : sin a < 0) by nra.
           assert (- PI < a < 0).
           { split; [lra|]. apply Rnot_le_lt; intros X. assert (0 <= sin a) by (apply sin_ge_0; lra). lra. }
           destruct (Rtotal_order a (-(PI/2))) as [L|[L|L]]; auto.
           ++ assert (cos a < 0); [|lra]. rewrite <- cos_neg. apply cos_lt_0; lra.
           ++ assert (0 < cos a) by (apply cos_gt_0; lra). lra.
        -- assert (k * sin a = 0) by lra. assert (sin a = 0) by nra. nra.
Qed.
(** atan2 gives polar coordinates *)
Lemma polar_exists y x : ~ (x = 0 /\ y = 0) -> exists a, - PI < a <= PI /\
  y = sqrt (x*x+y*y) * sin a /\ x = sqrt (x*x+y*y) * cos a.
Proof.
  intros H. assert (P : 0 < x*x+y*y).
  { destruct (Req_dec x 0), (Req_dec y 0); try (exfalso; tauto); nra. }
  pose proof (sqrt_lt_R0 _ P) as S. pose proof (sqrt_sqrt _ (Rlt_le _ _ P)) as SS.
  set (r := sqrt _) in *.
  assert (B : -1 <= x / r <= 1).
  { assert (-r <= x <= r) by (split; nra). split; apply Rmult_le_reg_r with r; auto; unfold Rdiv; rewrite Rmult_assoc, Rinv_l; lra. }
  pose proof (acos_bound (x / r)) as AB. pose proof PI_RGT_0.
  assert (C : cos (acos (x/r)) = x / r) by (apply cos_acos; auto).
  assert (Sn : sin (acos (x/r)) = Rabs y / r).
  { rewrite sin_acos by auto. unfold Rsqr. 
    replace (1 - x / r * (x / r)) with ((Rabs y / r) * (Rabs y / r)).
    - apply sqrt_square. apply Rmult_le_pos; [apply Rabs_pos|]. apply Rlt_le, Rinv_0_lt_compat; auto.
    - replace (Rabs y / r * (Rabs y / r)) with (Rabs y * Rabs y / (r*r)) by (field; lra).
      rewrite <- Rabs_mult, (Rabs_pos_eq (y*y)) by nra. replace (1 - x / r * (x/r)) with ((r*r - x*x)/(r*r)) by (field; lra).
      rewrite SS. f_equal. ring. }
  destruct (Rle_lt_dec 0 y).
  - exists (acos (x / r)). rewrite C, Sn, Rabs_pos_eq by auto. repeat split; try lra; field; lra.
  - exists (- acos (x / r)). rewrite sin_neg, cos_neg, C, Sn, Rabs_left by auto.
    assert (acos (x/r) <> PI).
    { intros E. rewrite E, sin_PI in Sn. rewrite Rabs_left in Sn by auto.
      assert (- y = 0 * r) by (rewrite Sn; field; lra). lra. }
    repeat split; try lra; field; lra.
Qed.
Lemma atan2_range y x : - PI < atan2 y x <= PI.
Proof.
  destruct (Req_dec x 0) as [Ex|Ex].
  - unfold atan2. pose proof PI_RGT_0. subst. destruct (Rltb 0 0) eqn:E; [apply Rltb_true in E; lra|].
    destruct (Rltb 0 y), (Rltb y 0); lra.
  - destruct (polar_exists y x) as (a & A & B & C); [tauto|].
    assert (0 < sqrt (x*x+y*y)) by (apply sqrt_lt_R0; nra).
    set (r := sqrt (x*x+y*y)) in *. clearbody r.
    rewrite B, C. rewrite atan2_polar; auto.
Qed.
Lemma atan2_spec y x : ~ (x = 0 /\ y = 0) ->
  y = sqrt (x*x+y*y) * sin (atan2 y x) /\ x = sqrt (x*x+y*y) * cos (atan2 y x).
Proof.
  intros H. destruct (polar_exists y x H) as (a & A & B & C).
  assert (S : 0 < sqrt (x*x+y*y)).
  { apply sqrt_lt_R0. destruct (Req_dec x 0), (Req_dec y 0); try (exfalso; tauto); nra. }
  set (r := sqrt (x*x+y*y)) in *. clearbody r.
  assert (E : atan2 y x = a) by (rewrite B, C; apply atan2_polar; auto).
  rewrite E. split; auto.
Qed.
