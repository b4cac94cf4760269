(** C70 in single precision: how far the computed cosine can be from the true one. *)
From Coq Require Import Reals ZArith List Bool Lra Lia Psatz.
From Flocq Require Import Core.Core IEEE754.BinarySingleNaN.
From Verif Require Import Arith Ieee QuatModel QuatSpec QuatProofs StateModel NdModel NdSpec NdProps LikeFloatProofs LikeFloatErr KdFloatProofs IeeeErr QuatFloatModel QuatFloatSpec QuatFloatProofs QuatFloatAcc QuatFloatProps GravFloatProofs.
From Verif Require PfModel.
Import ListNotations.
Local Open Scope R_scope.

Definition cosine (v a : vec3) : R := vdot v a / (vnorm a * vnorm v).
Lemma cosine_scale v a k : 0 < k -> 0 < vnorm v -> 0 < vnorm a -> cosine (vscale v k) a = cosine v a.
Proof.
  intros K V A. unfold cosine. assert (E : vnorm (vscale v k) = k * vnorm v).
  { rewrite <- !pure_norm. replace (pure (vscale v k)) with (qscale (pure v) k) by (unfold pure, qscale, vscale; cbn [vx vy vz QuatModel.qx QuatModel.qy QuatModel.qz QuatModel.qw]; f_equal; ring). rewrite qnorm_scale, Rabs_pos_eq by lra. reflexivity. }
  rewrite E. replace (vdot (vscale v k) a) with (k * vdot v a) by (unfold vdot, vscale; cbn [vx vy vz]; ring). field. repeat split; lra.
Qed.
Lemma cosine_lip e t a : 0 < vnorm e -> 0 < vnorm t -> 0 < vnorm a -> Rabs (cosine e a - cosine t a) * vnorm t <= 2 * qdist (pure e) (pure t).
Proof.
  intros He Ht Ha. rewrite <- pure_norm in He, Ht. pose proof (normalized_lip (pure e) (pure t) He Ht) as L.
  assert (C : forall v, 0 < qnorm (pure v) -> cosine v a = qdot (qnormalized (pure v)) (pure a) / vnorm a).
  { intros v Hv. unfold cosine, qnormalized, qdiv. rewrite <- (pure_norm v). unfold qdot, qscale, pure, vdot. cbn [vx vy vz QuatModel.qx QuatModel.qy QuatModel.qz QuatModel.qw]. fold (pure v). field. split; lra. }
  rewrite (C e He), (C t Ht). rewrite <- (pure_norm t).
  set (p := qnormalized (pure e)) in *. set (q := qnormalized (pure t)) in *.
  assert (D : Rabs (qdot p (pure a) / vnorm a - qdot q (pure a) / vnorm a) <= qdist p q).
  { replace (qdot p (pure a) / vnorm a - qdot q (pure a) / vnorm a) with (qdot (qsub p q) (pure a) / vnorm a) by (unfold qdot, qsub; cbn [QuatModel.qx QuatModel.qy QuatModel.qz QuatModel.qw]; field; lra).
    assert (B : Rabs (qdot (qsub p q) (pure a)) <= qdist p q * vnorm a).
    { apply Rabs_le. pose proof (cauchy4 (qsub p q) (pure a)) as C1. pose proof (cauchy4 (qscale (qsub p q) (-1)) (pure a)) as C2. rewrite qnorm_scale in C2. rewrite pure_norm in C1, C2.
      replace (qdot (qscale (qsub p q) (-1)) (pure a)) with (- qdot (qsub p q) (pure a)) in C2 by (unfold qdot, qscale; cbn [QuatModel.qx QuatModel.qy QuatModel.qz QuatModel.qw]; ring).
      replace (Rabs (-1)) with 1 in C2 by (rewrite Rabs_left; lra). rewrite Rmult_1_l in C2. change (qnorm (qsub p q)) with (qdist p q) in C1, C2. lra. }
    unfold Rdiv. rewrite Rabs_mult, (Rabs_pos_eq (/ vnorm a)) by (left; apply Rinv_0_lt_compat; exact Ha). apply Rmult_le_reg_r with (vnorm a); [exact Ha|]. rewrite Rmult_assoc, Rinv_l by lra. rewrite Rmult_1_r. exact B. }
  eapply Rle_trans; [apply Rmult_le_compat_r; [lra|exact D]|exact L].
Qed.
(** For every rotation of nearly unit length and every acceleration between 0.1 and 27 m/s^2 the cosine
    handed to acosf is finite and within 1/80000 of the true cosine of the angle between the particle's up
    direction and the measured acceleration. *)
Theorem C70_float_cosine : forall av acc r s, finite3 acc -> / 10 <= vnorm (vvalue acc) <= 27 -> nearly_unit (/ 100) r -> rot s = value r ->
  is_finite (gravity_arg32 acc r) = true /\
  Rabs (f2r (gravity_arg32 acc r) - gravity_arg (gravity_set (gravity_new av) (vvalue acc)) s) <= / 80000.
Proof.
  intros av acc r s Fa Ha Hr Es. destruct (est_acc r Hr) as (k & K & Fe & D). pose proof (nearly_qnorm (/ 100) r ltac:(lra) Hr) as Nr.
  set (Q := value r) in *. set (E := qrot (QuatModel.conj Q) (V3 0 0 1)). set (e := vvalue (est32 r)) in *.
  assert (HN : 99 / 100 <= length2 Q <= 101 / 100) by (destruct Hr as [_ H]; fold Q in H; ab; lra).
  assert (NE : vnorm E = length2 Q).
  { unfold E. rewrite <- pure_norm, <- up_pure. unfold up_of. rewrite !qnorm_mul, norm_k, Rmult_1_r. rewrite !qnorm_conj. apply qnorm_sq. }
  rewrite up_pure in D. fold E in D. set (T := vscale E (k * k)).
  replace (qscale (pure E) (k * k)) with (pure T) in D by (unfold T, pure, qscale, vscale; cbn [vx vy vz QuatModel.qx QuatModel.qy QuatModel.qz QuatModel.qw]; f_equal; ring).
  assert (K2 : 96 / 100 <= k * k <= 1041 / 1000) by (split; nra).
  assert (NT : vnorm T = k * k * vnorm E).
  { rewrite <- !pure_norm. replace (pure T) with (qscale (pure E) (k * k)) by (unfold T, pure, qscale, vscale; cbn [vx vy vz QuatModel.qx QuatModel.qy QuatModel.qz QuatModel.qw]; f_equal; ring). rewrite qnorm_scale, Rabs_pos_eq by lra. reflexivity. }
  assert (BT : 95 / 100 <= vnorm T <= 106 / 100) by (rewrite NT, NE; split; nra).
  assert (Be : 94 / 100 <= vnorm e <= 107 / 100).
  { pose proof (qnorm_dist (pure e) (pure T)) as A1. pose proof (qnorm_dist (pure T) (pure e)) as A2. rewrite (qdist_sym (pure T)) in A2. rewrite !pure_norm in A1, A2. lra. }
  destruct (cosine_err (est32 r) acc Fe Fa) as [F1 F2]; [fold e; lra|lra|]. fold e in F2. fold (cosine e (vvalue acc)) in F2.
  split; [exact F1|]. change (gravity_arg32 acc r) with (fdiv32 (dot32 (est32 r) acc) (fmult32 (norm32 acc) (norm32 (est32 r)))).
  assert (G : gravity_arg (gravity_set (gravity_new av) (vvalue acc)) s = cosine T (vvalue acc)).
  { unfold gravity_arg. cbn [gr_acc gr_norm gravity_set]. rewrite Es. fold Q.
    fold (cosine (qrot (QuatModel.inv Q) (V3 0 0 1)) (vvalue acc)).
    assert (I : qrot (QuatModel.inv Q) (V3 0 0 1) = vscale E (/ length2 Q * / length2 Q)).
    { unfold E, QuatModel.inv, qdiv. change (qdot Q Q) with (length2 Q). replace (1 / length2 Q) with (/ length2 Q) by (unfold Rdiv; ring).
      generalize (/ length2 Q). intro t. generalize (QuatModel.conj Q). intro c. clear. destruct c as [a b c d]. qunf2. f_equal; ring. }
    assert (P : 0 < / length2 Q) by (apply Rinv_0_lt_compat; lra).
    rewrite I, cosine_scale; [|nra|rewrite NE; lra|lra]. unfold T. rewrite cosine_scale; [reflexivity|lra|rewrite NE; lra|lra]. }
  rewrite G. pose proof (cosine_lip e T (vvalue acc) ltac:(lra) ltac:(lra) ltac:(lra)) as L.
  assert (L2 : Rabs (cosine e (vvalue acc) - cosine T (vvalue acc)) <= 99 / 10000000).
  { apply Rmult_le_reg_r with (vnorm T); [lra|]. eapply Rle_trans; [exact L|]. eapply Rle_trans; [apply Rmult_le_compat_l; [lra|exact D]|]. nra. }
  revert F2 L2. generalize (f2r (fdiv32 (dot32 (est32 r) acc) (fmult32 (norm32 acc) (norm32 (est32 r))))), (cosine e (vvalue acc)), (cosine T (vvalue acc)). intros x y z F2 L2. unfold ulp32 in F2. apply abs2 in F2. apply abs2 in L2. apply abs2. lra.
Qed.
(** cos t <= 1 - t^2/2 + t^4/24 *)
Lemma cos_small t : 0 <= t <= 1 -> cos t <= 1 - t * t / 2 + t * t * (t * t) / 24.
Proof.
  intro H. pose proof PI2_1 as P. destruct (cos_bound t 0) as [_ C]; [lra|lra|]. eapply Rle_trans; [exact C|]. unfold cos_approx, cos_term. cbn [sum_f_R0 Nat.mul Nat.add fact pow]. right. cbn. field.
Qed.
(** The rounding can only push the cosine above one (and so, by C70_nan_drops_update, cost the whole IMU
    update) through a particle whose up direction is within 5.1 milliradians - 0.3 degrees - of the
    measured acceleration: only the best particles can do it. *)
Theorem C70_float_above_one_only_aligned : forall acc r t, finite3 acc -> / 10 <= vnorm (vvalue acc) <= 27 -> nearly_unit (/ 100) r ->
  angle_between (qrot (QuatModel.inv (value r)) (V3 0 0 1)) (vvalue acc) t -> Bltb (f32_of_Z 1) (gravity_arg32 acc r) = true -> t < 51 / 10000.
Proof.
  intros acc r t Fa Ha Hr [Ht1 Ht2] L. set (s := state_pr v0 (value r)). destruct (C70_float_cosine 1 acc r s Fa Ha Hr eq_refl) as [F1 F2].
  destruct one_fin as [O1 O2]. apply (ltb_fin _ _ O1 F1) in L. rewrite O2 in L.
  unfold gravity_arg in F2. cbn [gr_acc gr_norm gravity_set s state_pr rot] in F2. rewrite Ht2 in F2.
  assert (P : 0 < vnorm (qrot (QuatModel.inv (value r)) (V3 0 0 1))).
  { rewrite <- pure_norm, <- up_pure. unfold up_of. rewrite !qnorm_mul, norm_k, qnorm_conj. pose proof (nearly_nonzero (/ 100) r ltac:(lra) Hr) as NZ. pose proof (inv_norm _ NZ) as I. pose proof (nearly_qnorm (/ 100) r ltac:(lra) Hr) as Nr. pose proof (qnorm_nonneg (QuatModel.inv (value r))). nra. }
  set (n := vnorm (qrot _ _)) in *. set (k := vnorm (vvalue acc)) in *. replace (n * k * cos t / (k * n)) with (cos t) in F2 by (field; lra).
  apply abs2 in F2. assert (C : 1 - / 80000 < cos t) by lra.
  destruct (Rlt_le_dec t (51 / 10000)) as [|G]; [assumption|]. exfalso.
  assert (C2 : cos t <= cos (51 / 10000)) by (destruct (Req_dec t (51 / 10000)) as [->|N]; [lra|left; apply cos_decreasing_1; pose proof PI2_1; lra]).
  pose proof (cos_small (51 / 10000) ltac:(lra)). lra.
Qed.
(** in the other direction: no particle further off than that is rounded to a NaN, and a cosine that is not
    above one gives a finite angle *)
Theorem C70_float_far_particles_are_safe : forall acc r t, finite3 acc -> / 10 <= vnorm (vvalue acc) <= 27 -> nearly_unit (/ 100) r ->
  angle_between (qrot (QuatModel.inv (value r)) (V3 0 0 1)) (vvalue acc) t -> 51 / 10000 <= t <= PI - 51 / 10000 -> -1 <= f2r (gravity_arg32 acc r) <= 1 /\ Rabs (f2r (gravity_arg32 acc r) - cos t) <= / 80000.
Proof.
  intros acc r t Fa Ha Hr A Ht. pose proof A as [Ht1 Ht2]. set (s := state_pr v0 (value r)). destruct (C70_float_cosine 1 acc r s Fa Ha Hr eq_refl) as [F1 F2].
  unfold gravity_arg in F2. cbn [gr_acc gr_norm gravity_set s state_pr rot] in F2. rewrite Ht2 in F2.
  assert (P : 0 < vnorm (qrot (QuatModel.inv (value r)) (V3 0 0 1))).
  { rewrite <- pure_norm, <- up_pure. unfold up_of. rewrite !qnorm_mul, norm_k, qnorm_conj. pose proof (nearly_nonzero (/ 100) r ltac:(lra) Hr) as NZ. pose proof (inv_norm _ NZ) as I. pose proof (nearly_qnorm (/ 100) r ltac:(lra) Hr) as Nr. pose proof (qnorm_nonneg (QuatModel.inv (value r))). nra. }
  set (n := vnorm (qrot _ _)) in *. set (k := vnorm (vvalue acc)) in *. replace (n * k * cos t / (k * n)) with (cos t) in F2 by (field; lra).
  split; [|exact F2]. apply abs2 in F2. pose proof (cos_small (51 / 10000) ltac:(lra)) as CS. pose proof PI2_1 as PI1.
  assert (U : cos t <= cos (51 / 10000)) by (destruct (Req_dec t (51 / 10000)) as [->|N]; [lra|left; apply cos_decreasing_1; lra]).
  assert (D : - cos (51 / 10000) <= cos t).
  { replace (- cos (51 / 10000)) with (cos (PI - 51 / 10000)) by (rewrite Rtrigo_facts.cos_pi_minus; reflexivity). destruct (Req_dec t (PI - 51 / 10000)) as [->|N]; [lra|left; apply cos_decreasing_1; lra]. }
  lra.
Qed.
(** the hypotheses are met by the case of C70_argument_above_one_refuted *)
Example C70_float_nonvacuous : finite3 acc29 /\ / 10 <= vnorm (vvalue acc29) <= 27 /\ nearly_unit (/ 100) roll29 /\ Bltb (f32_of_Z 1) (gravity_arg32 acc29 roll29) = true /\
  exists t, angle_between (qrot (QuatModel.inv (value roll29)) (V3 0 0 1)) (vvalue acc29) t.
Proof.
  assert (V1 : f2r (f32m 1 (-2)) = / 4) by (erewrite val32f by (vm_compute; reflexivity); unfold SF2R, F2R; cbn; lra).
  assert (V2 : f2r (f32m 16244470 (-24)) = 16244470 / 16777216) by (erewrite val32f by (vm_compute; reflexivity); unfold SF2R, F2R; cbn; lra).
  assert (V3' : f2r (f32m 16244470 (-25)) = 16244470 / 33554432) by (erewrite val32f by (vm_compute; reflexivity); unfold SF2R, F2R; cbn; lra).
  assert (V4 : f2r (f32m 7 (-3)) = 7 / 8) by (erewrite val32f by (vm_compute; reflexivity); unfold SF2R, F2R; cbn; lra).
  assert (A : vnorm (vvalue acc29) <= 2 /\ / 10 <= vnorm (vvalue acc29)).
  { unfold vnorm, vvalue, acc29, vdot. cbn [vx vy vz]. rewrite V3', V4, f2r_zero. split.
    - rewrite <- (sqrt_square 2) by lra. apply sqrt_le_1_alt. lra.
    - rewrite <- (sqrt_square (/ 10)) by lra. apply sqrt_le_1_alt. lra. }
  assert (N : nearly_unit (/ 100) roll29).
  { split; [cbn; auto|]. unfold length2, value, roll29. cbn [QuatModel.qx QuatModel.qy QuatModel.qz QuatModel.qw]. rewrite V1, V2, f2r_zero. apply abs2. lra. }
  split; [cbn; auto|]. split; [lra|]. split; [exact N|]. split; [vm_compute; reflexivity|].
  assert (P : 0 < vnorm (qrot (QuatModel.inv (value roll29)) (V3 0 0 1))).
  { rewrite <- pure_norm, <- up_pure. unfold up_of. rewrite !qnorm_mul, norm_k, qnorm_conj. pose proof (nearly_nonzero (/ 100) roll29 ltac:(lra) N) as NZ. pose proof (inv_norm _ NZ) as I. pose proof (nearly_qnorm (/ 100) roll29 ltac:(lra) N) as Nr. pose proof (qnorm_nonneg (QuatModel.inv (value roll29))). nra. }
  set (u := qrot _ _) in *. set (a := vvalue acc29) in *. pose proof (cos_bounds u a P ltac:(lra)) as B. apply Rabs_le_inv in B.
  exists (acos (vdot u a / (vnorm a * vnorm u))). split; [apply acos_bound|]. rewrite cos_acos by exact B. field. lra.
Qed.
