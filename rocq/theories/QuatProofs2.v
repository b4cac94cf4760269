From Coq Require Import Reals List Bool Lra Psatz Nsatz.
From Verif Require Import Arith QuatModel QuatSpec QuatProofs.
Open Scope R_scope.

(** ** a rotation is determined by two independent images *)
Lemma sq0 x : x * x = 0 -> x = 0. Proof. intros; nra. Qed.
Lemma sum_sq0 x y : x * x + y * y = 0 -> x = 0 /\ y = 0. Proof. intros; split; nra. Qed.

Lemma fixes_x p : unit_quat p -> qrot p ex = ex -> qy p = 0 /\ qz p = 0.
Proof.
  intros U H. destruct p as [a b c d]. qunf2. injection H as H1 _ _.
  apply sum_sq0. nra.
Qed.
Lemma fixes_two p u : unit_quat p -> qrot p ex = ex -> qrot p u = u ->
  ~ (vy u = 0 /\ vz u = 0) -> p = q1 \/ p = qopp q1.
Proof.
  intros U H1 H2 N. destruct (fixes_x p U H1) as [Hy Hz].
  destruct p as [a b c d], u as [u v w]. qunf2. subst b c. injection H2 as _ E2 E3.
  assert (V : v * (a*a+d*d) = v * 1) by (f_equal; lra).
  assert (W : w * (a*a+d*d) = w * 1) by (f_equal; lra).
  assert (P1 : a * (a * v + d * w) = 0) by lra.
  assert (P2 : a * (a * w - d * v) = 0) by lra.
  assert (A : a = 0).
  { destruct (Req_dec a 0) as [|Na]; auto. exfalso. apply N.
    assert (Q1 : a * v + d * w = 0) by (apply Rmult_eq_reg_l with a; lra).
    assert (Q2 : a * w - d * v = 0) by (apply Rmult_eq_reg_l with a; lra).
    assert (P : 0 < a * a + d * d) by nra.
    assert (X : (a*a+d*d) * v = 0) by (transitivity (a * (a*v+d*w) - d * (a*w-d*v)); [ring|rewrite Q1, Q2; ring]).
    assert (Y : (a*a+d*d) * w = 0) by (transitivity (d * (a*v+d*w) + a * (a*w-d*v)); [ring|rewrite Q1, Q2; ring]).
    split; apply Rmult_eq_reg_l with (a*a+d*d); lra. }
  subst a. assert (D : (d - 1) * (d + 1) = 0) by nra. apply Rmult_integral in D. destruct D.
  - left. f_equal; lra.
  - right. f_equal; lra.
Qed.
Lemma qmul_opp_r a b : qmul a (qopp b) = qopp (qmul a b). Proof. qring. Qed.
(** q and r agree on ex, and their inverses agree on a vector not sent to the x axis *)
Lemma two_images q r u : unit_quat q -> unit_quat r -> qrot q ex = qrot r ex ->
  qrot q u = qrot r u -> ~ (vy u = 0 /\ vz u = 0) -> up_to_sign r q.
Proof.
  intros Uq Ur H1 H2 N. set (p := qmul (inv q) r).
  assert (Up : unit_quat p) by (apply unit_mul; auto; apply unit_inv; auto).
  assert (P : p = q1 \/ p = qopp q1).
  { apply (fixes_two p u); auto; unfold p; rewrite qrot_mul.
    - rewrite <- H1. apply qrot_inv_l; auto.
    - rewrite <- H2. apply qrot_inv_l; auto. }
  assert (E : r = qmul q p).
  { unfold p. rewrite <- qmul_assoc, inv_r by (apply unit_nonzero; auto). symmetry; apply qmul_1_l. }
  rewrite E. destruct P as [-> | ->].
  - left. apply qmul_1_r.
  - right. rewrite qmul_opp_r, qmul_1_r. reflexivity.
Qed.
Lemma two_images_inv q r : unit_quat q -> unit_quat r -> qrot q ex = qrot r ex ->
  qrot (inv q) ez = qrot (inv r) ez -> ~ (vy (qrot (inv q) ez) = 0 /\ vz (qrot (inv q) ez) = 0) -> up_to_sign r q.
Proof.
  intros Uq Ur H1 H2 N. apply (two_images q r (qrot (inv q) ez)); auto.
  rewrite qrot_inv_r by auto. rewrite H2, qrot_inv_r by auto. reflexivity.
Qed.
Lemma same_rotation_sign a b : unit_quat a -> unit_quat b -> same_rotation a b -> up_to_sign a b.
Proof.
  intros Ua Ub H. apply (two_images b a ez); auto.
  - cbn. intros [_ X]; lra.
Qed.

(** ** elementary rotations *)
Lemma half_cos a : cos a = cos (a/2) * cos (a/2) - sin (a/2) * sin (a/2).
Proof. replace a with (a/2 + a/2) at 1 by field. apply cos_plus. Qed.
Lemma half_sin a : sin a = 2 * (sin (a/2) * cos (a/2)).
Proof. replace a with (a/2 + a/2) at 1 by field. rewrite sin_plus. ring. Qed.
Lemma half_one a : sin (a/2) * sin (a/2) + cos (a/2) * cos (a/2) = 1.
Proof. pose proof (sin2_cos2 (a/2)) as S. unfold Rsqr in S. exact S. Qed.
Lemma yaw_rot a v : qrot (yaw a) v = V3 (vx v * cos a - vy v * sin a) (vx v * sin a + vy v * cos a) (vz v).
Proof.
  rewrite (half_cos a), (half_sin a). pose proof (half_one a) as H. destruct v as [u v w].
  unfold yaw. set (s := sin (a/2)) in *. set (c := cos (a/2)) in *. qunf2. f_equal; try ring.
  transitivity (w * (s*s+c*c)); [ring|]. rewrite H. ring.
Qed.
Lemma pitch_rot a v : qrot (pitch a) v = V3 (vx v * cos a + vz v * sin a) (vy v) (- vx v * sin a + vz v * cos a).
Proof.
  rewrite (half_cos a), (half_sin a). pose proof (half_one a) as H. destruct v as [u v w].
  unfold pitch. set (s := sin (a/2)) in *. set (c := cos (a/2)) in *. qunf2. f_equal; try ring.
  transitivity (v * (s*s+c*c)); [ring|]. rewrite H. ring.
Qed.
Lemma roll_rot a v : qrot (roll a) v = V3 (vx v) (vy v * cos a - vz v * sin a) (vy v * sin a + vz v * cos a).
Proof.
  rewrite (half_cos a), (half_sin a). pose proof (half_one a) as H. destruct v as [u v w].
  unfold roll. set (s := sin (a/2)) in *. set (c := cos (a/2)) in *. qunf2. f_equal; try ring.
  transitivity (u * (s*s+c*c)); [ring|]. rewrite H. ring.
Qed.
Lemma unit_yaw a : unit_quat (yaw a). Proof. pose proof (half_one a). unfold yaw. qunf2. lra. Qed.
Lemma unit_pitch a : unit_quat (pitch a). Proof. pose proof (half_one a). unfold pitch. qunf2. lra. Qed.
Lemma unit_roll a : unit_quat (roll a). Proof. pose proof (half_one a). unfold roll. qunf2. lra. Qed.
Lemma setRPY_factors r p y : setRPY (V3 r p y) = qmul (yaw y) (qmul (pitch p) (roll r)).
Proof. unfold setRPY, yaw, pitch, roll, qmul; cbn. f_equal; ring. Qed.
Lemma setRPY_unit v : unit_quat (setRPY v).
Proof. destruct v. rewrite setRPY_factors. repeat apply unit_mul; [apply unit_yaw|apply unit_pitch|apply unit_roll]. Qed.
Lemma yaw_inv a : inv (yaw a) = yaw (- a).
Proof.
  rewrite inv_unit by apply unit_yaw. unfold yaw, conj; cbn. replace (- a / 2) with (- (a/2)) by field.
  rewrite sin_neg, cos_neg. f_equal; ring.
Qed.
Lemma pitch_inv a : inv (pitch a) = pitch (- a).
Proof.
  rewrite inv_unit by apply unit_pitch. unfold pitch, conj; cbn. replace (- a / 2) with (- (a/2)) by field.
  rewrite sin_neg, cos_neg. f_equal; ring.
Qed.
Lemma roll_inv a : inv (roll a) = roll (- a).
Proof.
  rewrite inv_unit by apply unit_roll. unfold roll, conj; cbn. replace (- a / 2) with (- (a/2)) by field.
  rewrite sin_neg, cos_neg. f_equal; ring.
Qed.
Lemma setRPY_ex r p y : qrot (setRPY (V3 r p y)) ex = V3 (cos p * cos y) (cos p * sin y) (- sin p).
Proof.
  rewrite setRPY_factors, !qrot_mul, roll_rot, pitch_rot, yaw_rot. cbn. f_equal; ring.
Qed.
Lemma setRPY_inv_ez r p y : qrot (inv (setRPY (V3 r p y))) ez = V3 (- sin p) (cos p * sin r) (cos p * cos r).
Proof.
  pose proof (unit_yaw y). pose proof (unit_pitch p). pose proof (unit_roll r).
  rewrite setRPY_factors. rewrite !inv_mul by (apply unit_nonzero; auto using unit_mul).
  rewrite yaw_inv, pitch_inv, roll_inv, !qrot_mul, yaw_rot, pitch_rot, roll_rot.
  rewrite !sin_neg, !cos_neg. cbn. f_equal; ring.
Qed.

(** what getRPY reads *)
Lemma rpy_col q : unit_quat q -> qrot q ex =
  V3 (- 2 * (qy q * qy q + qz q * qz q) + 1) (2 * (qx q * qy q + qw q * qz q)) (2 * (qx q * qz q - qw q * qy q)).
Proof. intros U. destruct q as [a b c d]. qunf2. f_equal; nra. Qed.
Lemma rpy_row q : unit_quat q -> qrot (inv q) ez =
  V3 (2 * (qx q * qz q - qw q * qy q)) (2 * (qy q * qz q + qw q * qx q)) (- 2 * (qx q * qx q + qy q * qy q) + 1).
Proof. intros U. rewrite inv_unit by auto. destruct q as [a b c d]. qunf2. f_equal; nra. Qed.

Lemma asin_cos t : -1 <= t <= 1 -> cos (asin t) = sqrt (1 - t * t).
Proof. intros H. rewrite cos_asin by auto. unfold Rsqr. reflexivity. Qed.

Lemma unit_rows q : unit_quat q -> let v := qrot q ex in let u := qrot (inv q) ez in
  vx v * vx v + vy v * vy v + vz v * vz v = 1 /\ vx u * vx u + vy u * vy u + vz u * vz u = 1 /\ vx u = vz v.
Proof.
  intros U v u. assert (A : vdot v v = 1) by (unfold v; rewrite qrot_dot by auto; qunf2; ring).
  assert (B : vdot u u = 1) by (unfold u; rewrite qrot_dot by (apply unit_inv; auto); qunf2; ring).
  unfold vdot in A, B. repeat split; auto. unfold u, v. rewrite rpy_col, rpy_row by auto. reflexivity.
Qed.

Lemma getRPY_spec q : unit_quat q ->
  getRPY q = V3 (atan2 (vy (qrot (inv q) ez)) (vz (qrot (inv q) ez)))
                (asin (- vz (qrot q ex)))
                (atan2 (vy (qrot q ex)) (vx (qrot q ex))).
Proof.
  intros U. destruct (unit_rows q U) as (A & _ & _). cbn zeta in A.
  rewrite rpy_col, rpy_row in * by auto. cbn [vx vy vz] in *. unfold getRPY. f_equal.
  - f_equal. 
    set (t := qx q * qz q - qw q * qy q) in *.
    replace (- (2 * t)) with (-2 * t) by ring.
    assert (-1 <= -2 * t <= 1).
    { revert A. generalize (-2 * (qy q * qy q + qz q * qz q) + 1) (2 * (qx q * qy q + qw q * qz q)).
      generalize t. clear. intros t a b A. split; nra. }
    rewrite Rmin_right, Rmax_right; lra.
Qed.

Lemma rpy_restore q : unit_quat q -> Rabs (vz (qrot q ex)) <> 1 -> up_to_sign (setRPY (getRPY q)) q.
Proof.
  intros U G. rewrite getRPY_spec by auto. destruct (unit_rows q U) as (A & B & C). cbn zeta in A, B, C.
  set (v := qrot q ex) in *. set (u := qrot (inv q) ez) in *.
  assert (Z : -1 <= - vz v <= 1) by (split; nra).
  assert (Z1 : 0 < 1 - vz v * vz v).
  { assert (vz v <> 1) by (intros X; apply G; rewrite X; apply Rabs_R1).
    assert (vz v <> -1) by (intros X; apply G; rewrite X, Rabs_left; lra). nra. }
  assert (S1 : vx v * vx v + vy v * vy v = 1 - vz v * vz v) by lra.
  assert (S2 : vz u * vz u + vy u * vy u = 1 - vz v * vz v) by (rewrite <- C; lra).
  destruct (atan2_spec (vy v) (vx v)) as [E1 E2]; [intros [X Y]; rewrite X, Y in S1; lra|].
  destruct (atan2_spec (vy u) (vz u)) as [E3 E4]; [intros [X Y]; rewrite X, Y in S2; lra|].
  rewrite S1 in E1, E2. rewrite S2 in E3, E4.
  assert (Cp : cos (asin (- vz v)) = sqrt (1 - vz v * vz v)) by (rewrite asin_cos by auto; f_equal; ring).
  assert (Sp : sin (asin (- vz v)) = - vz v) by (apply sin_asin; auto).
  apply two_images_inv; auto.
  - apply setRPY_unit.
  - rewrite setRPY_ex, Cp, Sp. fold v. rewrite <- E1, <- E2. destruct v; cbn. f_equal; ring.
  - rewrite setRPY_inv_ez, Cp, Sp. fold u. rewrite <- E3, <- E4. destruct u; cbn in *. f_equal; lra.
  - fold u. intros [X Y]. rewrite X, Y in S2. lra.
Qed.

(** ** orientation from two vectors *)
Lemma lagrange u v : vdot (vcross u v) (vcross u v) = vdot u u * vdot v v - vdot u v * vdot u v.
Proof. qdes; qunf2; ring. Qed.

Definition frame (x y z : vec3) : Prop := vdot x x = 1 /\ vdot y y = 1 /\ vdot x y = 0 /\ z = vcross x y.

Lemma frame_of f u : nonzero_vec f -> nonzero_vec (vcross u f) ->
  let xv := vnormalized f in let yv := vnormalized (vcross u xv) in let zv := vnormalized (vcross xv yv) in
  frame xv yv zv /\ 0 < vdot zv u.
Proof.
  intros Hf Hu xv yv zv.
  pose proof (vnorm_pos f Hf) as Pf.
  assert (X : vdot xv xv = 1) by (apply vdot_normalized; auto).
  assert (E : vcross u xv = vdiv (vcross u f) (vnorm f)).
  { unfold xv, vnormalized. generalize (vnorm f) Pf. intros n Hn. clear - Hn. qdes; qunf2; f_equal; field; lra. }
  assert (N : nonzero_vec (vcross u xv)).
  { rewrite E. apply vnonzero_dot. rewrite vdot_div by lra. apply vnonzero_dot in Hu.
    apply Rdiv_lt_0_compat; auto. nra. }
  pose proof (vnorm_pos _ N) as Pn.
  assert (Y : vdot yv yv = 1) by (apply vdot_normalized; auto).
  assert (XY : vdot xv yv = 0).
  { unfold yv. unfold vnormalized at 1. generalize (vnorm (vcross u xv)) Pn. generalize xv. clear.
    intros xv n Hn. qdes; qunf. field. lra. }
  assert (Z : zv = vcross xv yv).
  { apply vnormalized_unit. rewrite lagrange, X, Y, XY. ring. }
  split; [repeat split; auto|].
  rewrite Z.
  assert (D : vdot (vcross xv yv) u = vdot yv (vcross u xv)) by (clear; qdes; qunf2; ring).
  rewrite D. unfold yv at 1, vnormalized.
  assert (D2 : vdot (vdiv (vcross u xv) (vnorm (vcross u xv))) (vcross u xv) = vdot (vcross u xv) (vcross u xv) / vnorm (vcross u xv)).
  { generalize (vcross u xv) (vnorm (vcross u xv)) Pn. clear. intros; qdes; qunf2; field; lra. }
  rewrite D2, <- vnorm_sq. apply Rdiv_lt_0_compat; auto. nra.
Qed.

Lemma fr_xx x1 x2 x3 y1 y2 y3 z1 z2 z3 : x1*x1+x2*x2+x3*x3 = 1 -> y1*y1+y2*y2+y3*y3 = 1 -> x1*y1+x2*y2+x3*y3 = 0 ->
  z1 = x2*y3-x3*y2 -> z2 = x3*y1-x1*y3 -> z3 = x1*y2-x2*y1 ->
  (y3 - z2) * (y3 - z2) = (1 + x1 + y2 + z3) * (1 + x1 - y2 - z3).
Proof. intros XX YY XY -> -> ->. nsatz. Qed.
Lemma fr_yy x1 x2 x3 y1 y2 y3 z1 z2 z3 : x1*x1+x2*x2+x3*x3 = 1 -> y1*y1+y2*y2+y3*y3 = 1 -> x1*y1+x2*y2+x3*y3 = 0 ->
  z1 = x2*y3-x3*y2 -> z2 = x3*y1-x1*y3 -> z3 = x1*y2-x2*y1 ->
  (z1 - x3) * (z1 - x3) = (1 + x1 + y2 + z3) * (1 - x1 + y2 - z3).
Proof. intros XX YY XY -> -> ->. nsatz. Qed.
Lemma fr_zz x1 x2 x3 y1 y2 y3 z1 z2 z3 : x1*x1+x2*x2+x3*x3 = 1 -> y1*y1+y2*y2+y3*y3 = 1 -> x1*y1+x2*y2+x3*y3 = 0 ->
  z1 = x2*y3-x3*y2 -> z2 = x3*y1-x1*y3 -> z3 = x1*y2-x2*y1 ->
  (x2 - y1) * (x2 - y1) = (1 + x1 + y2 + z3) * (1 - x1 - y2 + z3).
Proof. intros XX YY XY -> -> ->. nsatz. Qed.
Lemma fr_xy x1 x2 x3 y1 y2 y3 z1 z2 z3 : x1*x1+x2*x2+x3*x3 = 1 -> y1*y1+y2*y2+y3*y3 = 1 -> x1*y1+x2*y2+x3*y3 = 0 ->
  z1 = x2*y3-x3*y2 -> z2 = x3*y1-x1*y3 -> z3 = x1*y2-x2*y1 ->
  (y3 - z2) * (z1 - x3) = (1 + x1 + y2 + z3) * (y1 + x2).
Proof. intros XX YY XY -> -> ->. nsatz. Qed.
Lemma fr_xz x1 x2 x3 y1 y2 y3 z1 z2 z3 : x1*x1+x2*x2+x3*x3 = 1 -> y1*y1+y2*y2+y3*y3 = 1 -> x1*y1+x2*y2+x3*y3 = 0 ->
  z1 = x2*y3-x3*y2 -> z2 = x3*y1-x1*y3 -> z3 = x1*y2-x2*y1 ->
  (y3 - z2) * (x2 - y1) = (1 + x1 + y2 + z3) * (x3 + z1).
Proof. intros XX YY XY -> -> ->. nsatz. Qed.
Lemma fr_yz x1 x2 x3 y1 y2 y3 z1 z2 z3 : x1*x1+x2*x2+x3*x3 = 1 -> y1*y1+y2*y2+y3*y3 = 1 -> x1*y1+x2*y2+x3*y3 = 0 ->
  z1 = x2*y3-x3*y2 -> z2 = x3*y1-x1*y3 -> z3 = x1*y2-x2*y1 ->
  (z1 - x3) * (x2 - y1) = (1 + x1 + y2 + z3) * (y3 + z2).
Proof. intros XX YY XY -> -> ->. nsatz. Qed.

Lemma signed_sqrt s t T : 0 < T -> s * s = T * t ->
  (if Rltb 0 (- s) then - (sqrt (Rmax 0 t) / 2) else sqrt (Rmax 0 t) / 2) = s / (2 * sqrt T).
Proof.
  intros HT H. pose proof (sqrt_lt_R0 _ HT) as P. pose proof (sqrt_sqrt _ (Rlt_le _ _ HT)) as PP.
  assert (Ht : 0 <= t) by nra. rewrite Rmax_right by auto.
  assert (E : sqrt t = Rabs s / sqrt T).
  { apply Rmult_eq_reg_r with (sqrt T); [|lra]. rewrite <- sqrt_mult by lra.
    replace (Rabs s / sqrt T * sqrt T) with (Rabs s) by (field; lra).
    rewrite Rmult_comm, <- H. apply sqrt_Rsqr_abs. }
  rewrite E. destruct (Rltb 0 (- s)) eqn:C; [apply Rltb_true in C|apply Rltb_false in C].
  - rewrite Rabs_left by lra. field. lra.
  - rewrite Rabs_pos_eq by lra. field. lra.
Qed.

Lemma frontup_frame f u : nonzero_vec f -> nonzero_vec (vcross u f) ->
  let xv := vnormalized f in let yv := vnormalized (vcross u xv) in let zv := vnormalized (vcross xv yv) in
  0 < 1 + vx xv + vy yv + vz zv ->
  let q := fromFrontUp f u in
  unit_quat q /\ 0 < qw q /\ qrot q ex = xv /\ qrot q ey = yv /\ qrot q ez = zv.
Proof.
  intros Hf Hu xv yv zv HT q. destruct (frame_of f u Hf Hu) as [(XX & YY & XY & Z) _].
  fold xv in XX, YY, XY, Z. fold yv in XX, YY, XY, Z. fold zv in Z.
  unfold q, fromFrontUp. fold xv. fold yv. fold zv. clearbody zv. clearbody yv. clearbody xv.
  destruct xv as [x1 x2 x3], yv as [y1 y2 y3], zv as [z1 z2 z3]. unfold vdot, vcross in *. cbn [vx vy vz] in *.
  injection Z as Z1 Z2 Z3.
  set (T := 1 + x1 + y2 + z3) in *.
  pose proof (fr_xx x1 x2 x3 y1 y2 y3 z1 z2 z3 XX YY XY Z1 Z2 Z3) as Fxx.
  pose proof (fr_yy x1 x2 x3 y1 y2 y3 z1 z2 z3 XX YY XY Z1 Z2 Z3) as Fyy.
  pose proof (fr_zz x1 x2 x3 y1 y2 y3 z1 z2 z3 XX YY XY Z1 Z2 Z3) as Fzz.
  pose proof (fr_xy x1 x2 x3 y1 y2 y3 z1 z2 z3 XX YY XY Z1 Z2 Z3) as Fxy.
  pose proof (fr_xz x1 x2 x3 y1 y2 y3 z1 z2 z3 XX YY XY Z1 Z2 Z3) as Fxz.
  pose proof (fr_yz x1 x2 x3 y1 y2 y3 z1 z2 z3 XX YY XY Z1 Z2 Z3) as Fyz.
  fold T in Fxx, Fyy, Fzz, Fxy, Fxz, Fyz.
  replace (z2 - y3) with (- (y3 - z2)) by ring. replace (x3 - z1) with (- (z1 - x3)) by ring.
  replace (y1 - x2) with (- (x2 - y1)) by ring.
  rewrite (signed_sqrt _ _ T HT Fxx), (signed_sqrt _ _ T HT Fyy), (signed_sqrt _ _ T HT Fzz).
  rewrite Rmax_right by lra.
  pose proof (sqrt_lt_R0 _ HT) as P. pose proof (sqrt_sqrt _ (Rlt_le _ _ HT)) as PP.
  set (s := sqrt T) in *.
  set (A := (y3 - z2) / (2 * s)). set (B := (z1 - x3) / (2 * s)). set (C := (x2 - y1) / (2 * s)).
  assert (Hs : s <> 0) by lra.
  assert (AA : A * A = (1 + x1 - y2 - z3) / 4).
  { unfold A. transitivity ((y3 - z2) * (y3 - z2) / (4 * (s * s))); [field; auto|]. rewrite Fxx, PP. field. lra. }
  assert (BB : B * B = (1 - x1 + y2 - z3) / 4).
  { unfold B. transitivity ((z1 - x3) * (z1 - x3) / (4 * (s * s))); [field; auto|]. rewrite Fyy, PP. field. lra. }
  assert (CC : C * C = (1 - x1 - y2 + z3) / 4).
  { unfold C. transitivity ((x2 - y1) * (x2 - y1) / (4 * (s * s))); [field; auto|]. rewrite Fzz, PP. field. lra. }
  assert (AB : A * B = (y1 + x2) / 4).
  { unfold A, B. transitivity ((y3 - z2) * (z1 - x3) / (4 * (s * s))); [field; auto|]. rewrite Fxy, PP. field. lra. }
  assert (AC : A * C = (x3 + z1) / 4).
  { unfold A, C. transitivity ((y3 - z2) * (x2 - y1) / (4 * (s * s))); [field; auto|]. rewrite Fxz, PP. field. lra. }
  assert (BC : B * C = (y3 + z2) / 4).
  { unfold B, C. transitivity ((z1 - x3) * (x2 - y1) / (4 * (s * s))); [field; auto|]. rewrite Fyz, PP. field. lra. }
  assert (WW : s / 2 * (s / 2) = T / 4) by (rewrite <- PP; field).
  assert (WA : s / 2 * A = (y3 - z2) / 4) by (unfold A; field; auto).
  assert (WB : s / 2 * B = (z1 - x3) / 4) by (unfold B; field; auto).
  assert (WC : s / 2 * C = (x2 - y1) / 4) by (unfold C; field; auto).
  assert (ET : T = 1 + x1 + y2 + z3) by reflexivity.
  clearbody A B C T. set (W := s / 2) in *. 
  assert (0 < W) by (unfold W; lra). clearbody W.
  unfold ex, ey, ez. rewrite !qrot_closed. unfold unit_quat. cbn [qx qy qz qw].
  split; [rewrite AA, BB, CC, WW; lra|]. split; [auto|].
  split; [|split]; f_equal; rewrite ?AA, ?BB, ?CC, ?WW, ?AB, ?AC, ?BC, ?WA, ?WB, ?WC; lra.
Qed.

Lemma frontup_restore q s t : unit_quat q -> qw q <> 0 -> 0 < s -> 0 < t ->
  up_to_sign (fromFrontUp (vscale (qrot q ex) s) (vscale (qrot q ez) t)) q.
Proof.
  intros U Hw Hs Ht.
  assert (Xn : vdot (qrot q ex) (qrot q ex) = 1) by (rewrite qrot_dot by auto; qunf; ring).
  assert (Zn : vdot (qrot q ez) (qrot q ez) = 1) by (rewrite qrot_dot by auto; qunf; ring).
  assert (Yn : vdot (qrot q ey) (qrot q ey) = 1) by (rewrite qrot_dot by auto; qunf; ring).
  assert (Ex : vnormalized (vscale (qrot q ex) s) = qrot q ex) by (apply vnormalized_scale; auto).
  assert (Cr : forall a b k, vcross (vscale a k) b = vscale (vcross a b) k) by (intros; qring).
  assert (Cr2 : forall a b k, vcross a (vscale b k) = vscale (vcross a b) k) by (intros; qring).
  assert (Eyx : vcross (qrot q ez) (qrot q ex) = qrot q ey).
  { rewrite qrot_cross by auto. f_equal. qunf. f_equal; ring. }
  assert (Ezx : vcross (qrot q ex) (qrot q ey) = qrot q ez).
  { rewrite qrot_cross by auto. f_equal. qunf. f_equal; ring. }
  assert (Ey : vnormalized (vcross (vscale (qrot q ez) t) (qrot q ex)) = qrot q ey).
  { rewrite Cr, Eyx. apply vnormalized_scale; auto. }
  assert (Ez : vnormalized (vcross (qrot q ex) (qrot q ey)) = qrot q ez).
  { rewrite Ezx. apply vnormalized_unit; auto. }
  assert (NZ : forall v k, 0 < k -> vdot v v = 1 -> nonzero_vec (vscale v k)).
  { intros v k Hk H. apply vnonzero_dot. replace (vdot (vscale v k) (vscale v k)) with (k * k * vdot v v) by (clear; qdes; qunf; ring). rewrite H. nra. }
  assert (N1 : nonzero_vec (vscale (qrot q ex) s)) by (apply NZ; auto).
  assert (N2 : nonzero_vec (vcross (vscale (qrot q ez) t) (vscale (qrot q ex) s))).
  { rewrite Cr, Cr2, Eyx. replace (vscale (vscale (qrot q ey) s) t) with (vscale (qrot q ey) (s * t)).
    - apply NZ; auto. apply Rmult_lt_0_compat; auto.
    - generalize (qrot q ey). clear. intros v. qring. }
  pose proof (frontup_frame _ _ N1 N2) as F. cbn zeta in F. rewrite Ex, Ey, Ez in F.
  destruct F as (Ur & _ & F1 & F2 & F3).
  { assert (E : 1 + vx (qrot q ex) + vy (qrot q ey) + vz (qrot q ez) = 4 * (qw q * qw q)).
    { clear - U. destruct q as [a b c d]. qunf2. nra. }
    rewrite E. assert (0 < qw q * qw q) by nra. lra. }
  apply (two_images q _ ez); auto. cbn. intros [_ X]; lra.
Qed.

Lemma frame_diag x y z : frame x y z ->
  let T := 1 + vx x + vy y + vz z in
  T * (1 + vx x - vy y - vz z) = (vz y - vy z) * (vz y - vy z) /\
  T * (1 - vx x + vy y - vz z) = (vx z - vz x) * (vx z - vz x) /\
  T * (1 - vx x - vy y + vz z) = (vy x - vx y) * (vy x - vx y).
Proof.
  intros (XX & YY & XY & Z). destruct x as [x1 x2 x3], y as [y1 y2 y3], z as [z1 z2 z3].
  unfold vdot, vcross in *. cbn [vx vy vz] in *. injection Z as Z1 Z2 Z3. cbn zeta.
  pose proof (fr_xx x1 x2 x3 y1 y2 y3 z1 z2 z3 XX YY XY Z1 Z2 Z3).
  pose proof (fr_yy x1 x2 x3 y1 y2 y3 z1 z2 z3 XX YY XY Z1 Z2 Z3).
  pose proof (fr_zz x1 x2 x3 y1 y2 y3 z1 z2 z3 XX YY XY Z1 Z2 Z3).
  split; [|split]; symmetry; assumption.
Qed.
