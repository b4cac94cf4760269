(** Proofs for C126: distance between the computed and the exact rotation. *)
From Coq Require Import Reals ZArith List Bool Lra Lia Psatz.
From Flocq Require Import Core.Core IEEE754.BinarySingleNaN.
Require Import Flocq.Prop.Mult_error.
From Verif Require Import Arith Ieee QuatModel QuatSpec QuatProofs NdModel LikeFloatProofs LikeFloatErr KdFloatProofs IeeeErr QuatFloatModel QuatFloatSpec QuatFloatProofs.
Import ListNotations.
Local Open Scope R_scope.
Notation qnorm := QuatModel.qnorm.

(** ** the norm of R^4 *)
Lemma length2_dot q : length2 q = qdot q q. Proof. reflexivity. Qed.
Lemma qnorm_nonneg q : 0 <= qnorm q. Proof. apply sqrt_pos. Qed.
Lemma qnorm_sq q : qnorm q * qnorm q = length2 q. Proof. apply sqrt_sqrt. apply qdot_nonneg. Qed.
Lemma qnorm_le q k : 0 <= k -> length2 q <= k * k -> qnorm q <= k.
Proof. intros K H. unfold qnorm. rewrite <- (sqrt_square k) by exact K. apply sqrt_le_1_alt. exact H. Qed.
Lemma cauchy4 a b : qdot a b <= qnorm a * qnorm b.
Proof.
  assert (H : qdot a b * qdot a b <= qdot a a * qdot b b).
  { destruct a as [a1 a2 a3 a4], b as [b1 b2 b3 b4]. unfold qdot. cbn [QuatModel.qx QuatModel.qy QuatModel.qz QuatModel.qw].
    assert (E : (a1*a1+a2*a2+a3*a3+a4*a4)*(b1*b1+b2*b2+b3*b3+b4*b4) - (a1*b1+a2*b2+a3*b3+a4*b4)*(a1*b1+a2*b2+a3*b3+a4*b4)
      = (a1*b2-a2*b1)*(a1*b2-a2*b1) + (a1*b3-a3*b1)*(a1*b3-a3*b1) + (a1*b4-a4*b1)*(a1*b4-a4*b1) + (a2*b3-a3*b2)*(a2*b3-a3*b2) + (a2*b4-a4*b2)*(a2*b4-a4*b2) + (a3*b4-a4*b3)*(a3*b4-a4*b3)) by ring.
    pose proof (Rle_0_sqr (a1*b2-a2*b1)). pose proof (Rle_0_sqr (a1*b3-a3*b1)). pose proof (Rle_0_sqr (a1*b4-a4*b1)). pose proof (Rle_0_sqr (a2*b3-a3*b2)). pose proof (Rle_0_sqr (a2*b4-a4*b2)). pose proof (Rle_0_sqr (a3*b4-a4*b3)).
    unfold Rsqr in *. lra. }
  pose proof (qnorm_sq a) as A. pose proof (qnorm_sq b) as B. rewrite length2_dot in A, B. rewrite <- A, <- B in H.
  pose proof (qnorm_nonneg a). pose proof (qnorm_nonneg b). assert (0 <= qnorm a * qnorm b) by (apply Rmult_le_pos; assumption). nra.
Qed.
Lemma qnorm_add a b : qnorm (qadd a b) <= qnorm a + qnorm b.
Proof.
  pose proof (qnorm_nonneg a). pose proof (qnorm_nonneg b). apply qnorm_le; [lra|].
  replace (length2 (qadd a b)) with (length2 a + length2 b + 2 * qdot a b) by (destruct a, b; unfold length2, qadd, qdot; cbn [QuatModel.qx QuatModel.qy QuatModel.qz QuatModel.qw]; ring).
  rewrite <- (qnorm_sq a), <- (qnorm_sq b). pose proof (cauchy4 a b). nra.
Qed.
Lemma qnorm_scale a s : qnorm (qscale a s) = Rabs s * qnorm a.
Proof. unfold qnorm. rewrite qdot_scale. rewrite sqrt_mult_alt by nra. f_equal. apply (sqrt_Rsqr_abs s). Qed.
Lemma qnorm_mul a b : qnorm (qmul a b) = qnorm a * qnorm b.
Proof. unfold qnorm. rewrite qdot_mul. apply sqrt_mult_alt. apply qdot_nonneg. Qed.
Lemma qdist_tri a b c : qdist a c <= qdist a b + qdist b c.
Proof.
  unfold qdist. rewrite !length2_dot. replace (qsub a c) with (qadd (qsub a b) (qsub b c)) by (destruct a, b, c; unfold qadd, qsub; cbn [QuatModel.qx QuatModel.qy QuatModel.qz QuatModel.qw]; f_equal; ring).
  apply qnorm_add.
Qed.
Lemma qdist_sym a b : qdist a b = qdist b a.
Proof. unfold qdist. f_equal. destruct a, b. unfold length2, qsub. cbn [QuatModel.qx QuatModel.qy QuatModel.qz QuatModel.qw]. ring. Qed.
Lemma qdist_mul_l a b c : qdist (qmul a b) (qmul a c) = qnorm a * qdist b c.
Proof.
  unfold qdist. rewrite !length2_dot. replace (qsub (qmul a b) (qmul a c)) with (qmul a (qsub b c)) by (destruct a, b, c; unfold qmul, qsub; cbn [QuatModel.qx QuatModel.qy QuatModel.qz QuatModel.qw]; f_equal; ring).
  apply qnorm_mul.
Qed.
Lemma qdist_mul_r a b c : qdist (qmul b a) (qmul c a) = qdist b c * qnorm a.
Proof.
  unfold qdist. rewrite !length2_dot. replace (qsub (qmul b a) (qmul c a)) with (qmul (qsub b c) a) by (destruct a, b, c; unfold qmul, qsub; cbn [QuatModel.qx QuatModel.qy QuatModel.qz QuatModel.qw]; f_equal; ring).
  apply qnorm_mul.
Qed.
Lemma qdist_nonneg a b : 0 <= qdist a b. Proof. apply sqrt_pos. Qed.
Lemma sq_le x k : Rabs x <= k -> x * x <= k * k.
Proof. intro H. pose proof (Rabs_pos x). rewrite <- (Rabs_pos_eq (x * x)) by nra. rewrite Rabs_mult. apply Rmult_le_compat; assumption. Qed.
Lemma within_dist a b k : 0 <= k -> within4 k a b -> qdist a b <= 2 * k.
Proof.
  intros K (H1 & H2 & H3 & H4). apply qnorm_le; [lra|]. unfold length2, qsub. cbn [QuatModel.qx QuatModel.qy QuatModel.qz QuatModel.qw].
  apply sq_le in H1, H2, H3, H4. lra.
Qed.
Lemma within_dist' a b k : within4 k a b -> 0 <= k -> qdist a b <= 2 * k.
Proof. intros W K. exact (within_dist a b k K W). Qed.
Lemma qnorm_dist a b : qnorm a <= qnorm b + qdist a b.
Proof.
  replace a with (qadd b (qsub a b)) at 1 by (destruct a, b; unfold qadd, qsub; cbn [QuatModel.qx QuatModel.qy QuatModel.qz QuatModel.qw]; f_equal; ring). apply qnorm_add.
Qed.
Lemma qdist_scale a b t : qdist (qscale a t) (qscale b t) = Rabs t * qdist a b.
Proof.
  unfold qdist. rewrite !length2_dot. replace (qsub (qscale a t) (qscale b t)) with (qscale (qsub a b) t) by (destruct a, b; unfold qscale, qsub; cbn [QuatModel.qx QuatModel.qy QuatModel.qz QuatModel.qw]; f_equal; ring).
  apply qnorm_scale.
Qed.
(** normalizing moves a quaternion by the defect of its norm *)
Lemma normalized_dist a : 0 < qnorm a -> qdist (qnormalized a) a = Rabs (1 - qnorm a).
Proof.
  intro P. assert (E : qsub (qnormalized a) a = qscale a (1 / qnorm a - 1)).
  { unfold qnormalized, qdiv. generalize (1 / qnorm a). intro t. destruct a. unfold qsub, qscale. cbn [QuatModel.qx QuatModel.qy QuatModel.qz QuatModel.qw]. f_equal; ring. }
  unfold qdist. rewrite length2_dot, E. change (qnorm (qscale a (1 / qnorm a - 1)) = Rabs (1 - qnorm a)). rewrite qnorm_scale.
  rewrite <- (Rabs_pos_eq (qnorm a)) at 2 by lra. rewrite <- Rabs_mult. f_equal. field. lra.
Qed.
(** and normalizing two of them at most doubles their distance, relative to the norm of one *)
Lemma normalized_lip a b : 0 < qnorm a -> 0 < qnorm b -> qdist (qnormalized a) (qnormalized b) * qnorm b <= 2 * qdist a b.
Proof.
  intros A B.
  assert (E : qdist (qscale (qnormalized a) (qnorm b)) b = qdist (qnormalized a) (qnormalized b) * qnorm b).
  { replace b with (qscale (qnormalized b) (qnorm b)) at 2.
    2:{ unfold qnormalized, qdiv. generalize dependent (qnorm b). intros t Ht. destruct b. unfold qscale. cbn [QuatModel.qx QuatModel.qy QuatModel.qz QuatModel.qw]. f_equal; field; lra. }
    rewrite qdist_scale, (Rabs_pos_eq (qnorm b)) by lra. ring. }
  rewrite <- E. eapply Rle_trans; [apply (qdist_tri _ a _)|].
  assert (F : qdist (qscale (qnormalized a) (qnorm b)) a = Rabs (qnorm b - qnorm a)).
  { assert (G : qsub (qscale (qnormalized a) (qnorm b)) a = qscale a (qnorm b / qnorm a - 1)).
    { unfold qnormalized, qdiv, Rdiv. rewrite Rmult_1_l. generalize (qnorm b), (/ qnorm a). intros t u. destruct a. unfold qsub, qscale. cbn [QuatModel.qx QuatModel.qy QuatModel.qz QuatModel.qw]. f_equal; ring. }
    unfold qdist. rewrite length2_dot, G. change (qnorm (qscale a (qnorm b / qnorm a - 1)) = Rabs (qnorm b - qnorm a)). rewrite qnorm_scale. rewrite <- (Rabs_pos_eq (qnorm a)) at 2 by lra. rewrite <- Rabs_mult. f_equal. field. lra. }
  rewrite F. pose proof (qnorm_dist a b). pose proof (qnorm_dist b a). rewrite (qdist_sym b a) in H0.
  assert (Rabs (qnorm b - qnorm a) <= qdist a b) by (apply abs2; lra). lra.
Qed.
Lemma normalized_mul a b : 0 < qnorm a -> 0 < qnorm b -> qnormalized (qmul a b) = qmul (qnormalized a) (qnormalized b).
Proof.
  intros A B. unfold qnormalized, qdiv. rewrite qnorm_mul.
  replace (1 / (qnorm a * qnorm b)) with ((1 / qnorm a) * (1 / qnorm b)) by (field; lra). generalize (1 / qnorm a), (1 / qnorm b). intros s t.
  destruct a, b. unfold qmul, qscale. cbn [QuatModel.qx QuatModel.qy QuatModel.qz QuatModel.qw]. f_equal; ring.
Qed.
Lemma unit_norm a : unit_quat a -> qnorm a = 1.
Proof. intro U. unfold qnorm. rewrite (unit_dot1 a U). apply sqrt_1. Qed.
Lemma norm_range q a b : 0 <= a -> 0 <= b -> a * a <= length2 q <= b * b -> a <= qnorm q <= b.
Proof.
  intros A B [L U]. split; [|apply qnorm_le; assumption]. rewrite <- (sqrt_square a) by exact A. apply sqrt_le_1_alt. exact L.
Qed.
(** a nearly unit quaternion is near its normalization *)
Lemma nearly_norm k q : 0 <= k <= / 2 -> Rabs (length2 q - 1) <= k -> Rabs (1 - qnorm q) <= k.
Proof.
  intros K H. apply abs2 in H. pose proof (qnorm_nonneg q). pose proof (qnorm_sq q). apply abs2. nra.
Qed.
(** ** halving *)
Lemma fmt_f2r (x : f32) : generic_format radix2 (FLT_exp (-149) 24) (f2r x).
Proof. exact (generic_format_B2R 24 128 x). Qed.
Lemma half_ok x : is_finite x = true -> is_finite (fdiv32 x (f32_of_Z 2)) = true /\ Rabs (f2r (fdiv32 x (f32_of_Z 2)) - f2r x / 2) <= e0.
Proof.
  intro F.
  assert (T2 : f2r (f32_of_Z 2) = 2) by (erewrite val32f by (vm_compute; reflexivity); unfold SF2R, F2R; cbn; lra).
  pose proof (Bdiv_correct 24 128 _ _ mode_NE x (f32_of_Z 2)) as C. fold (f2r x) (f2r (f32_of_Z 2)) in C. rewrite T2 in C. specialize (C ltac:(lra)).
  assert (L : Rabs (f2r x / 2) <= Rabs (f2r x)).
  { unfold Rdiv. rewrite Rabs_mult, (Rabs_pos_eq (/ 2)) by lra. pose proof (Rabs_pos (f2r x)). lra. }
  pose proof (abs_B2R_lt_emax 24 128 x) as M. fold (f2r x) in M.
  rewrite Rlt_bool_true in C.
  2:{ eapply Rle_lt_trans; [|exact M]. eapply Rle_trans; [|apply Req_le, (round_generic radix2 (SpecFloat.fexp 24 128) (round_mode mode_NE) (Rabs (f2r x)))].
      - rewrite <- round_NE_abs by typeclasses eauto. apply round_le; [typeclasses eauto|typeclasses eauto|exact L].
      - apply generic_format_abs. exact (generic_format_B2R 24 128 x). }
  destruct C as (C1 & C2 & _). split; [rewrite <- F; exact C2|]. unfold fdiv32. change (B2R (Bdiv mode_NE x (f32_of_Z 2))) with (f2r (fdiv32 x (f32_of_Z 2))) in C1. fold (fdiv32 x (f32_of_Z 2)). rewrite C1.
  destruct (Req_dec (f2r x) 0) as [Z|NZ].
  { rewrite Z. replace (0 / 2) with 0 by lra. rewrite round_0 by typeclasses eauto. rewrite Rminus_0_r, Rabs_R0. unfold e0. lra. }
  destruct (Z_le_gt_dec (-149 + 24 + 1) (mag radix2 (f2r x))) as [B|S].
  - rewrite round_generic; [rewrite Rminus_eq_0, Rabs_R0; unfold e0; lra|typeclasses eauto|].
    replace (f2r x / 2) with (f2r x * bpow radix2 (-1)) by (cbn; lra).
    apply (mult_bpow_exact_FLT radix2 (-149) 24); [apply fmt_f2r|]. lia.
  - assert (K : Rabs (f2r x) <= bpow radix2 (-125)).
    { apply Rlt_le. eapply Rlt_le_trans; [apply bpow_mag_gt|]. apply bpow_le. lia. }
    eapply Rle_trans; [apply (rnd_err (f2r x / 2))|]. rewrite u_ulp. eapply Rle_trans; [apply Rplus_le_compat; [apply Rmult_le_compat_l; [unfold ulp32; lra|eapply Rle_trans; [exact L|exact K]]|apply Rle_refl]|].
    unfold ulp32, e0. cbn. lra.
Qed.
(** ** sine and cosine *)
Lemma sin_abs_pos x : 0 < x -> Rabs (sin x) <= x.
Proof.
  intro H. destruct (Rle_dec 1 x) as [L|L].
  - pose proof (SIN_bound x). eapply Rle_trans; [apply Rabs_le|exact L]. lra.
  - pose proof (sin_lt_x _ H). pose proof PI2_1. pose proof (sin_ge_0 x ltac:(lra) ltac:(lra)). rewrite Rabs_pos_eq by lra. lra.
Qed.
Lemma sin_abs x : Rabs (sin x) <= Rabs x.
Proof.
  destruct (Rtotal_order x 0) as [H|[->|H]].
  - pose proof (sin_abs_pos (- x) ltac:(lra)) as K. rewrite sin_neg, Rabs_Ropp in K. rewrite (Rabs_left x) by lra. exact K.
  - rewrite sin_0. lra.
  - pose proof (sin_abs_pos x H) as K. rewrite (Rabs_pos_eq x) by lra. exact K.
Qed.
Lemma trig_abs1 x : Rabs (sin x) <= 1 /\ Rabs (cos x) <= 1.
Proof. pose proof (SIN_bound x). pose proof (COS_bound x). split; apply Rabs_le; lra. Qed.
Lemma sin_lip a b : Rabs (sin a - sin b) <= Rabs (a - b).
Proof.
  rewrite form4, !Rabs_mult, (Rabs_pos_eq 2) by lra. pose proof (sin_abs ((a - b) / 2)) as H. pose proof (proj2 (trig_abs1 ((a + b) / 2))) as C.
  unfold Rdiv in H at 2. rewrite Rabs_mult, (Rabs_pos_eq (/ 2)) in H by lra. pose proof (Rabs_pos (sin ((a - b) / 2))). pose proof (Rabs_pos (cos ((a + b) / 2))). nra.
Qed.
Lemma cos_lip a b : Rabs (cos a - cos b) <= Rabs (a - b).
Proof.
  rewrite form2, !Rabs_mult. replace (Rabs (-2)) with 2 by (unfold Rabs; destruct (Rcase_abs _); lra). pose proof (sin_abs ((a - b) / 2)) as H. pose proof (proj1 (trig_abs1 ((a + b) / 2))) as C.
  unfold Rdiv in H at 2. rewrite Rabs_mult, (Rabs_pos_eq (/ 2)) in H by lra. pose proof (Rabs_pos (sin ((a - b) / 2))). pose proof (Rabs_pos (sin ((a + b) / 2))). nra.
Qed.
Section T.
Context (sinf cosf : f32 -> f32) (G : trig_good sinf cosf).
Lemma good_ok : trig_ok sinf cosf.
Proof.
  intros x F. destruct (G x F) as (F1 & F2 & S & C). split; [exact F1|]. split; [exact F2|].
  pose proof (sin2_cos2 (f2r x)) as E. unfold Rsqr in E. destruct (trig_abs1 (f2r x)) as [A B].
  pose proof (comp_len _ _ (/ 8000000) ltac:(lra) S) as K1. pose proof (comp_len _ _ (/ 8000000) ltac:(lra) C) as K2.
  assert (sin (f2r x) * sin (f2r x) <= 9 / 4) by nra. assert (cos (f2r x) * cos (f2r x) <= 9 / 4) by nra. specialize (K1 H). specialize (K2 H0).
  apply abs2 in K1. apply abs2 in K2. apply abs2. lra.
Qed.
Definition e1 : R := 13 / 100000000.
Lemma half_trig x : is_finite x = true ->
  is_finite (sinf (fdiv32 x (f32_of_Z 2))) = true /\ is_finite (cosf (fdiv32 x (f32_of_Z 2))) = true
  /\ Rabs (f2r (sinf (fdiv32 x (f32_of_Z 2))) - sin (f2r x / 2)) <= e1 /\ Rabs (f2r (cosf (fdiv32 x (f32_of_Z 2))) - cos (f2r x / 2)) <= e1.
Proof.
  intro F. destruct (half_ok x F) as [H1 H2]. destruct (G _ H1) as (F1 & F2 & S & C). split; [exact F1|]. split; [exact F2|].
  pose proof (sin_lip (f2r (fdiv32 x (f32_of_Z 2))) (f2r x / 2)) as LS. pose proof (cos_lip (f2r (fdiv32 x (f32_of_Z 2))) (f2r x / 2)) as LC.
  assert (E : / 8000000 + e0 <= e1) by (unfold e0, e1; lra).
  split; eapply Rle_trans; try exact E.
  - replace (f2r (sinf (fdiv32 x (f32_of_Z 2))) - sin (f2r x / 2)) with ((f2r (sinf (fdiv32 x (f32_of_Z 2))) - sin (f2r (fdiv32 x (f32_of_Z 2)))) + (sin (f2r (fdiv32 x (f32_of_Z 2))) - sin (f2r x / 2))) by ring.
    eapply Rle_trans; [apply Rabs_triang|]. lra.
  - replace (f2r (cosf (fdiv32 x (f32_of_Z 2))) - cos (f2r x / 2)) with ((f2r (cosf (fdiv32 x (f32_of_Z 2))) - cos (f2r (fdiv32 x (f32_of_Z 2)))) + (cos (f2r (fdiv32 x (f32_of_Z 2))) - cos (f2r x / 2))) by ring.
    eapply Rle_trans; [apply Rabs_triang|]. lra.
Qed.
(** ** the vertical turn *)
Lemma axis_acc a : is_finite a = true -> qdist (value (setAxisAng32 sinf cosf ez32 a)) (setAxisAng (V3 0 0 1) (f2r a)) <= / 100000.
Proof.
  intro Fa. destruct (half_trig a Fa) as (Fs & Fc & S & C). unfold setAxisAng32, ez32 at 1. cbv zeta.
  destruct ez_unit as [E0 E1]. fold ez32. rewrite E0, E1. rewrite setAxisAng_ez.
  revert Fs Fc S C. generalize (sinf (fdiv32 a (f32_of_Z 2))), (cosf (fdiv32 a (f32_of_Z 2))). intros s c Fs Fc S C.
  destruct zero_fin as [Z1 Z2], one_fin as [O1 O2]. destruct (trig_abs1 (f2r a / 2)) as [Ts Tc].
  destruct (mul_e (f32_of_Z 0) s 0 Z1 Fs) as [M1 M2]; [rewrite Z2, Rmult_0_l, Rabs_R0; lra|lra|]. rewrite Z2, Rmult_0_l in M2.
  assert (Bs : Rabs (f2r s) <= 2) by (clear - S Ts; unfold e1 in S; ab; lra).
  destruct (mul_e (f32_of_Z 1) s 2 O1 Fs) as [N1 N2]; [rewrite O2, Rmult_1_l; lra|lra|]. rewrite O2, Rmult_1_l in N2.
  revert M1 M2 N1 N2. generalize (fmult32 (f32_of_Z 0) s), (fmult32 (f32_of_Z 1) s). intros o t M1 M2 N1 N2.
  set (p := (o, o, t, c) : quat32). assert (Fp : finite4 p) by exact (Logic.conj M1 (Logic.conj M1 (Logic.conj N1 Fc))).
  assert (W : within4 (/ 3000000) (value p) (yaw (f2r a))).
  { unfold within4, p, yaw. cbn [value QuatModel.qx QuatModel.qy QuatModel.qz QuatModel.qw]. clear - S C M2 N2. unfold e1 in *. rewrite Rmult_0_r, Rplus_0_l in M2. unfold ulp32, e0 in *.
    repeat match goal with H : Rabs _ <= _ |- _ => apply abs2 in H end. repeat split; apply abs2; lra. }
  pose proof (within_dist' _ _ _ W ltac:(lra)) as D.
  assert (U : unit_quat (yaw (f2r a))) by (rewrite <- setAxisAng_ez; apply setAxisAng_unit, ez_nonzero).
  assert (L : / 4 <= length2 (value p) <= 4).
  { pose proof ((fun e => within_len _ _ _ e W) ltac:(lra)) as K. assert (E : length2 (yaw (f2r a)) = 1) by exact (unit_dot1 _ U). rewrite E in K. specialize (K ltac:(lra)). apply abs2 in K. lra. }
  destruct (qnormalized32_ok p Fp L) as [_ Wn]. pose proof (within_dist' _ _ _ Wn ltac:(lra)) as Dn.
  pose proof (norm_range (value p) (/ 2) 2 ltac:(lra) ltac:(lra) ltac:(lra)) as NR.
  pose proof (normalized_lip (value p) (yaw (f2r a)) ltac:(lra)) as LP. rewrite (unit_norm _ U), (normalized_unit _ U) in LP. specialize (LP ltac:(lra)).
  eapply Rle_trans; [apply (qdist_tri _ (qnormalized (value p)) _)|]. lra.
Qed.
(** ** the relative rotation *)
Lemma inv_acc q : nearly_unit (/ 100) q -> qdist (value (qinv32 q)) (QuatModel.inv (value q)) <= / 300000.
Proof.
  intros [F H]. assert (HN : 99 / 100 <= length2 (value q) <= 101 / 100) by (ab; lra). set (N := length2 (value q)) in *.
  destruct (qdot32_ok q F) as [D1 D2]; [fold N; lra|]. fold N in D2.
  destruct (recip_ok (qdot32 q q) N D1) as [R1 R2]; [lra|eapply close_weak; [exact D2|unfold ulp32; lra]|].
  pose proof (inv_range N (99 / 100) (101 / 100) ltac:(lra) HN) as IR.
  assert (L : length2 (value (qconj32 q)) = N) by (rewrite value_conj, length2_conj; reflexivity).
  destruct (qscale32_ok (qconj32 q) (recip32 (qdot32 q q)) N (/ N) (finite_conj q F) R1 L) as (_ & _ & A3); [lra|exact R2|split; lra|].
  assert (E : qinv32 q = qscale32 (qconj32 q) (recip32 (qdot32 q q))) by (destruct q as [[[x y] z] w]; reflexivity).
  rewrite E. assert (E2 : QuatModel.inv (value q) = qscale (value (qconj32 q)) (/ N)).
  { unfold QuatModel.inv, qdiv. rewrite value_conj. f_equal. unfold Rdiv. rewrite Rmult_1_l. reflexivity. }
  rewrite E2. eapply Rle_trans; [apply (within_dist _ _ (25 * ulp32 * / N)); [unfold ulp32; nra|exact A3]|]. unfold ulp32. lra.
Qed.
Lemma mul_acc a b A B da db : finite4 a -> finite4 b -> length2 (value a) <= 9 / 4 -> length2 (value b) <= 9 / 4 ->
  qdist (value a) A <= da -> qdist (value b) B <= db ->
  qdist (value (qmul32 a b)) (qmul A B) <= 43 / 10000000 + da * qnorm (value b) + qnorm A * db.
Proof.
  intros Fa Fb La Lb Da Db. destruct (qmul32_ok a b Fa Fb (len_small a La) (len_small b Lb)) as [_ W].
  pose proof (within_dist' _ _ _ W ltac:(unfold ulp32; lra)) as D.
  eapply Rle_trans; [apply (qdist_tri _ (qmul (value a) (value b)) _)|].
  pose proof (qdist_tri (qmul (value a) (value b)) (qmul A (value b)) (qmul A B)) as T2. rewrite qdist_mul_r, qdist_mul_l in T2.
  pose proof (Rmult_le_compat_r (qnorm (value b)) _ _ (qnorm_nonneg _) Da). pose proof (Rmult_le_compat_l (qnorm A) _ _ (qnorm_nonneg _) Db). unfold ulp32 in D. lra.
Qed.
Lemma nearly_qnorm k q : 0 <= k <= / 2 -> nearly_unit k q -> 1 - k <= qnorm (value q) <= 1 + k.
Proof. intros K [_ H]. apply (nearly_norm k _ K) in H. apply abs2 in H. lra. Qed.
Lemma inv_norm q : nonzero_quat q -> qnorm (QuatModel.inv q) * qnorm q = 1.
Proof. intro H. rewrite <- qnorm_mul, inv_l by exact H. unfold qnorm. rewrite (unit_dot1 _ unit_1). apply sqrt_1. Qed.
Lemma nearly_nonzero k q : k < 1 -> nearly_unit k q -> nonzero_quat (value q).
Proof. intros K [_ H]. apply nonzero_dot. apply abs2 in H. rewrite length2_dot in H. lra. Qed.
Lemma rel_norm prev cur : nearly_unit (/ 100) prev -> nearly_unit (/ 100) cur -> 97 / 100 <= qnorm (qmul (QuatModel.inv (value prev)) (value cur)) <= 105 / 100.
Proof.
  intros P C. rewrite qnorm_mul. pose proof (nearly_qnorm (/ 100) _ ltac:(lra) P) as NP. pose proof (nearly_qnorm (/ 100) _ ltac:(lra) C) as NC.
  pose proof (inv_norm _ (nearly_nonzero (/ 100) _ ltac:(lra) P)) as I. revert NP NC I. generalize (qnorm (value prev)), (qnorm (value cur)), (qnorm (QuatModel.inv (value prev))). intros u v w NP NC I.
  assert (W : 98 / 100 <= w <= 102 / 100) by nra. nra.
Qed.
Lemma rel_acc prev cur : nearly_unit (/ 100) prev -> nearly_unit (/ 100) cur ->
  qdist (value (relative32 prev cur)) (qmul (QuatModel.inv (value prev)) (value cur)) <= / 100000.
Proof.
  intros P C. pose proof (inv_acc prev P) as D. destruct (qinv32_ok prev P) as [Fi Hi]. destruct C as [Fc Hc].
  pose proof (nearly_qnorm (/ 100) cur ltac:(lra) (Logic.conj Fc Hc)) as NC.
  assert (Z : qdist (value cur) (value cur) <= 0).
  { unfold qdist. replace (length2 (qsub (value cur) (value cur))) with 0; [rewrite sqrt_0; lra|]. destruct (value cur). unfold length2, qsub. cbn [QuatModel.qx QuatModel.qy QuatModel.qz QuatModel.qw]. ring. }
  pose proof (mul_acc (qinv32 prev) cur _ _ _ _ Fi Fc ltac:(apply abs2 in Hi; lra) ltac:(apply abs2 in Hc; lra) D Z) as M. rewrite Rmult_0_r in M.
  unfold relative32. eapply Rle_trans; [exact M|]. nra.
Qed.
(** ** roll, pitch, yaw *)
Lemma prod3 a b c A B C : Rabs (a - A) <= e1 -> Rabs (b - B) <= e1 -> Rabs (c - C) <= e1 -> Rabs A <= 1 -> Rabs B <= 1 -> Rabs C <= 1 ->
  Rabs (a * b * c - A * B * C) <= / 1000000.
Proof.
  intros Ha Hb Hc HA HB HC.
  replace (a * b * c - A * B * C) with ((a - A) * b * c + A * (b - B) * c + A * B * (c - C)) by ring.
  assert (Kb : Rabs b <= 101 / 100) by (replace b with ((b - B) + B) by ring; eapply Rle_trans; [apply Rabs_triang|]; unfold e1 in *; lra).
  assert (Kc : Rabs c <= 101 / 100) by (replace c with ((c - C) + C) by ring; eapply Rle_trans; [apply Rabs_triang|]; unfold e1 in *; lra).
  eapply Rle_trans; [apply Rabs_triang|]. eapply Rle_trans; [apply Rplus_le_compat_r, Rabs_triang|].
  pose proof (prod_bound _ _ _ _ (prod_bound _ _ _ _ Ha Kb) Kc). pose proof (prod_bound _ _ _ _ (prod_bound _ _ _ _ HA Hb) Kc). pose proof (prod_bound _ _ _ _ (prod_bound _ _ _ _ HA HB) Hc).
  unfold e1 in *. lra.
Qed.
Lemma term_acc a b c A B C : is_finite a = true -> is_finite b = true -> is_finite c = true ->
  Rabs (f2r a - A) <= e1 -> Rabs (f2r b - B) <= e1 -> Rabs (f2r c - C) <= e1 -> Rabs A <= 1 -> Rabs B <= 1 -> Rabs C <= 1 ->
  is_finite (fmult32 (fmult32 a b) c) = true /\ Rabs (f2r (fmult32 (fmult32 a b) c) - A * B * C) <= 2 / 1000000 /\ Rabs (A * B * C) <= 1.
Proof.
  intros Fa Fb Fc Ha Hb Hc HA HB HC.
  assert (K : forall v V, Rabs (v - V) <= e1 -> Rabs V <= 1 -> Rabs v <= 101 / 100) by (intros v V E1 E2; replace v with ((v - V) + V) by ring; eapply Rle_trans; [apply Rabs_triang|]; unfold e1 in *; lra).
  destruct (mul3_e a b c Fa Fb Fc (K _ _ Ha HA) (K _ _ Hb HB) (K _ _ Hc HC)) as (M1 & M2 & _). split; [exact M1|]. split.
  - pose proof (prod3 _ _ _ _ _ _ Ha Hb Hc HA HB HC) as P. revert M2 P. generalize (f2r (fmult32 (fmult32 a b) c)), (f2r a * f2r b * f2r c), (A * B * C). intros u v w M2 P. apply abs2 in M2. apply abs2 in P. apply abs2. lra.
  - pose proof (prod_bound _ _ _ _ (prod_bound _ _ _ _ HA HB) HC). lra.
Qed.
Lemma pm_acc p q P Q : is_finite p = true -> is_finite q = true -> Rabs (f2r p - P) <= 2 / 1000000 -> Rabs (f2r q - Q) <= 2 / 1000000 -> Rabs P <= 1 -> Rabs Q <= 1 ->
  Rabs (f2r (fplus32 p q) - (P + Q)) <= 5 / 1000000 /\ Rabs (f2r (fminus32 p q) - (P - Q)) <= 5 / 1000000.
Proof.
  intros Fp Fq. intros. split.
  - destruct (add_e p q 3 Fp Fq) as [A B]; [ab; lra|lra|]. ab. lra.
  - destruct (sub_e p q 3 Fp Fq) as [A B]; [ab; lra|lra|]. ab. lra.
Qed.
Lemma rpy_acc r p y : is_finite r = true -> is_finite p = true -> is_finite y = true ->
  qdist (value (setRPY32 sinf cosf (r, p, y))) (setRPY (V3 (f2r r) (f2r p) (f2r y))) <= / 100000.
Proof.
  intros Fr Fp Fy. destruct (half_trig r Fr) as (F3 & F2 & H3 & H2), (half_trig p Fp) as (F5 & F4 & H5 & H4), (half_trig y Fy) as (F1 & F0 & H1 & H0).
  unfold setRPY32, setRPY. cbv zeta. cbn [vx vy vz].
  destruct (trig_abs1 (f2r r / 2)) as [B3 B2], (trig_abs1 (f2r p / 2)) as [B5 B4], (trig_abs1 (f2r y / 2)) as [B1 B0].
  revert F3 F2 H3 H2 F5 F4 H5 H4 F1 F0 H1 H0 B3 B2 B5 B4 B1 B0.
  generalize (sinf (fdiv32 r (f32_of_Z 2))), (cosf (fdiv32 r (f32_of_Z 2))), (sinf (fdiv32 p (f32_of_Z 2))), (cosf (fdiv32 p (f32_of_Z 2))), (sinf (fdiv32 y (f32_of_Z 2))), (cosf (fdiv32 y (f32_of_Z 2))).
  generalize (sin (f2r r / 2)), (cos (f2r r / 2)), (sin (f2r p / 2)), (cos (f2r p / 2)), (sin (f2r y / 2)), (cos (f2r y / 2)).
  intros T3 T2 T5 T4 T1 T0 t3 t2 t5 t4 t1 t0 F3 F2 H3 H2 F5 F4 H5 H4 F1 F0 H1 H0 B3 B2 B5 B4 B1 B0.
  destruct (term_acc t0 t3 t4 _ _ _ F0 F3 F4 H0 H3 H4 B0 B3 B4) as (a1 & a2 & a3), (term_acc t1 t2 t5 _ _ _ F1 F2 F5 H1 H2 H5 B1 B2 B5) as (b1 & b2 & b3).
  destruct (term_acc t0 t2 t5 _ _ _ F0 F2 F5 H0 H2 H5 B0 B2 B5) as (c1 & c2 & c3), (term_acc t1 t3 t4 _ _ _ F1 F3 F4 H1 H3 H4 B1 B3 B4) as (d1 & d2 & d3).
  destruct (term_acc t1 t2 t4 _ _ _ F1 F2 F4 H1 H2 H4 B1 B2 B4) as (g1 & g2 & g3), (term_acc t0 t3 t5 _ _ _ F0 F3 F5 H0 H3 H5 B0 B3 B5) as (f1 & f2 & f3).
  destruct (term_acc t0 t2 t4 _ _ _ F0 F2 F4 H0 H2 H4 B0 B2 B4) as (h1 & h2 & h3), (term_acc t1 t3 t5 _ _ _ F1 F3 F5 H1 H3 H5 B1 B3 B5) as (i1 & i2 & i3).
  eapply Rle_trans; [apply (within_dist _ _ (5 / 1000000)); [lra|]|lra].
  unfold within4. cbn [value QuatModel.qx QuatModel.qy QuatModel.qz QuatModel.qw].
  split; [|split; [|split]].
  - exact (proj2 (pm_acc _ _ _ _ a1 b1 a2 b2 a3 b3)).
  - exact (proj1 (pm_acc _ _ _ _ c1 d1 c2 d2 c3 d3)).
  - exact (proj2 (pm_acc _ _ _ _ g1 f1 g2 f2 g3 f3)).
  - exact (proj1 (pm_acc _ _ _ _ h1 i1 h2 i2 h3 i3)).
Qed.
Lemma rpy_unit v : unit_quat (setRPY v).
Proof.
  apply unit_dot. destruct v as [r p y]. unfold setRPY, qdot. cbv zeta. cbn [vx vy vz QuatModel.qx QuatModel.qy QuatModel.qz QuatModel.qw].
  pose proof (sin2_cos2 (r / 2)) as A. pose proof (sin2_cos2 (p / 2)) as B. pose proof (sin2_cos2 (y / 2)) as C. unfold Rsqr in *.
  transitivity ((sin (r / 2) * sin (r / 2) + cos (r / 2) * cos (r / 2)) * (sin (p / 2) * sin (p / 2) + cos (p / 2) * cos (p / 2)) * (sin (y / 2) * sin (y / 2) + cos (y / 2) * cos (y / 2))); [ring|]. rewrite A, B, C. ring.
Qed.
(** ** one step *)
Lemma finish p A x r q : finite4 p -> unit_quat A -> Rabs (length2 x - 1) <= / 500000 -> 97 / 100 <= qnorm r <= 105 / 100 ->
  qdist (value p) (qmul (qmul A x) r) <= 3 / 100000 -> unit_quat q ->
  qdist (value (qnormalized32 p)) (qnormalized (qmul (qmul A q) r)) <= qdist x q + / 12000.
Proof.
  intros F UA Hx Hr D Uq. apply (nearly_norm (/ 500000)) in Hx; [|lra]. pose proof Hx as Hx'. apply abs2 in Hx'.
  pose proof (unit_norm _ UA) as NA. pose proof (unit_norm _ Uq) as Nq.
  set (Y := qmul (qmul A x) r) in *. assert (NY : qnorm Y = qnorm x * qnorm r) by (unfold Y; rewrite !qnorm_mul, NA; ring).
  assert (RY : 969 / 1000 <= qnorm Y <= 106 / 100) by (rewrite NY; nra).
  pose proof (qnorm_dist (value p) Y) as K1. pose proof (qnorm_dist Y (value p)) as K2. rewrite (qdist_sym Y) in K2.
  assert (Rp : 968 / 1000 <= qnorm (value p) <= 107 / 100) by lra. pose proof (qnorm_sq (value p)) as Sp.
  assert (L : / 4 <= length2 (value p) <= 4) by nra.
  destruct (qnormalized32_ok p F L) as [_ W]. pose proof (within_dist' _ _ _ W ltac:(lra)) as D1.
  pose proof (normalized_lip (value p) Y ltac:(lra) ltac:(lra)) as D2.
  assert (D2' : qdist (qnormalized (value p)) (qnormalized Y) <= 62 / 1000000) by (pose proof (qdist_nonneg (qnormalized (value p)) (qnormalized Y)); nra).
  assert (EY : qnormalized Y = qmul (qmul A (qnormalized x)) (qnormalized r)).
  { unfold Y. rewrite normalized_mul, normalized_mul; rewrite ?qnorm_mul, ?NA; try lra. rewrite (normalized_unit A UA). reflexivity. }
  assert (EQ : qnormalized (qmul (qmul A q) r) = qmul (qmul A q) (qnormalized r)).
  { rewrite normalized_mul, normalized_mul; rewrite ?qnorm_mul, ?NA, ?Nq; try lra. rewrite (normalized_unit A UA), (normalized_unit q Uq). reflexivity. }
  rewrite EQ. rewrite EY in D2'.
  assert (Nr : qnorm (qnormalized r) = 1).
  { apply unit_norm, unit_normalized, nonzero_dot. rewrite <- length2_dot, <- qnorm_sq. nra. }
  assert (D3 : qdist (qmul (qmul A (qnormalized x)) (qnormalized r)) (qmul (qmul A q) (qnormalized r)) = qdist (qnormalized x) q).
  { rewrite qdist_mul_r, qdist_mul_l, NA, Nr. ring. }
  pose proof (qdist_tri (qnormalized x) x q) as D4. rewrite (normalized_dist x) in D4 by lra.
  pose proof (qdist_tri (value (qnormalized32 p)) (qnormalized (value p)) (qmul (qmul A q) (qnormalized r))) as D5.
  pose proof (qdist_tri (qnormalized (value p)) (qmul (qmul A (qnormalized x)) (qnormalized r)) (qmul (qmul A q) (qnormalized r))) as D6. rewrite D3 in D6. lra.
Qed.
Lemma self_dist q : qdist q q = 0.
Proof. unfold qdist. replace (length2 (qsub q q)) with 0; [apply sqrt_0|]. destruct q. unfold length2, qsub. cbn [QuatModel.qx QuatModel.qy QuatModel.qz QuatModel.qw]. ring. Qed.
Lemma usable_usable s : usable_in s -> usable s.
Proof.
  destruct s as [yd prev cur|[[r p] y]]; cbn [usable_in usable].
  - intros (A & B & C). split; [apply half_ok, A|]. split; assumption.
  - intros (A & B & C). repeat split; apply half_ok; assumption.
Qed.
Lemma exact_unit s q : usable_in s -> unit_quat q -> unit_quat (exact_step q s).
Proof.
  intros U Uq. destruct s as [yd prev cur|[[r p] y]]; cbn [usable_in exact_step] in *; apply unit_normalized, nonzero_dot; rewrite !qdot_mul.
  - destruct U as (_ & P & C). pose proof (rel_norm prev cur P C) as RN. pose proof (qnorm_sq (qmul (QuatModel.inv (value prev)) (value cur))) as S. rewrite length2_dot, qdot_mul in S.
    rewrite (unit_dot1 _ (setAxisAng_unit (V3 0 0 1) (f2r yd) ez_nonzero)), (unit_dot1 _ Uq). nra.
  - rewrite (unit_dot1 _ (rpy_unit _)), (unit_dot1 _ Uq). lra.
Qed.
Lemma step_acc rot s q : usable_in s -> nearly_unit (/ 500000) rot -> unit_quat q ->
  qdist (value (rot_step32 sinf cosf rot s)) (exact_step q s) <= qdist (value rot) q + / 12000.
Proof.
  intros U [Fr Nr] Uq. pose proof (nearly_qnorm (/ 500000) rot ltac:(lra) (Logic.conj Fr Nr)) as RN. pose proof Nr as Nr'. apply abs2 in Nr'.
  assert (Z : qdist (value rot) (value rot) <= 0) by (rewrite self_dist; lra).
  destruct s as [yd prev cur|[[r p] y]]; cbn [usable_in rot_step32 exact_step] in *.
  - destruct U as (Fy & P & C). pose proof (rel_acc prev cur P C) as DE. pose proof (rel_norm prev cur P C) as NE. destruct (relative32_ok prev cur P C) as [Fe E].
    pose proof (axis_acc yd Fy) as DA. destruct (setAxisAng32_ok sinf cosf good_ok yd (proj1 (half_ok yd Fy))) as [Fa A].
    pose proof (setAxisAng_unit (V3 0 0 1) (f2r yd) ez_nonzero) as UA. unfold predict_rot32.
    pose proof (nearly_qnorm (/ 20) _ ltac:(lra) (Logic.conj Fe E)) as EN. apply abs2 in E. apply abs2 in A.
    generalize dependent (relative32 prev cur). generalize dependent (setAxisAng32 sinf cosf ez32 yd). generalize dependent (setAxisAng (V3 0 0 1) (f2r yd)). generalize dependent (qmul (QuatModel.inv (value prev)) (value cur)).
    intros R0 NE A0 UA a DA Fa A e DE Fe E EN.
    pose proof (mul_acc a rot A0 (value rot) _ _ Fa Fr ltac:(lra) ltac:(lra) DA Z) as M1. rewrite Rmult_0_r in M1.
    assert (M1' : qdist (value (qmul32 a rot)) (qmul A0 (value rot)) <= 144 / 10000000) by lra.
    assert (P1 : length2 (value a) * length2 (value rot) <= 2) by nra.
    destruct (qmul32_len a rot Fa Fr) as [F1 L1]; [lra|lra|lra|]. apply abs2 in L1.
    pose proof (mul_acc (qmul32 a rot) e (qmul A0 (value rot)) R0 _ _ F1 Fe ltac:(nra) ltac:(lra) M1' DE) as M2. rewrite qnorm_mul, (unit_norm _ UA), Rmult_1_l in M2.
    assert (P2 : length2 (value (qmul32 a rot)) * length2 (value e) <= 9 / 4) by nra.
    destruct (qmul32_len (qmul32 a rot) e F1 Fe) as [F2 _]; [nra|lra|exact P2|].
    apply (finish (qmul32 (qmul32 a rot) e) A0 (value rot) R0 q); auto. lra.
  - destruct U as (U1 & U2 & U3). pose proof (rpy_acc r p y U1 U2 U3) as DA. destruct (setRPY32_ok sinf cosf good_ok r p y) as [Fa A]; try (apply half_ok; assumption). apply abs2 in A. unfold resample_rot32.
    pose proof (rpy_unit (V3 (f2r r) (f2r p) (f2r y))) as UA.
    pose (a := setRPY32 sinf cosf (r, p, y)). pose (A0 := setRPY (V3 (f2r r) (f2r p) (f2r y))). change (finite4 a) in Fa. change (- / 10 <= length2 (value a) - 1 <= / 10) in A. change (qdist (value a) A0 <= / 100000) in DA. change (unit_quat A0) in UA.
    change (qdist (value (qnormalized32 (qmul32 a rot))) (qnormalized (qmul A0 q)) <= qdist (value rot) q + / 12000). clearbody a A0.
    pose proof (mul_acc a rot A0 (value rot) _ _ Fa Fr ltac:(lra) ltac:(lra) DA Z) as M1. rewrite Rmult_0_r in M1.
    destruct (qmul32_len a rot Fa Fr) as [F1 L1]; [lra|lra|nra|].
    pose proof (finish (qmul32 a rot) A0 (value rot) q1 q F1 UA Nr) as K. rewrite (unit_norm _ unit_1), !qmul_1_r in K. apply K; [lra|lra|exact Uq].
Qed.
Lemma steps_acc l : forall rot q, Forall usable_in l -> nearly_unit (/ 500000) rot -> unit_quat q ->
  qdist (value (fold_left (rot_step32 sinf cosf) l rot)) (fold_left exact_step l q) <= qdist (value rot) q + INR (length l) / 12000.
Proof.
  induction l as [|s l IH]; intros rot q H N U; [cbn; lra|]. cbn [fold_left length]. rewrite S_INR.
  pose proof (Forall_inv H) as Hs. pose proof (step_acc rot s q Hs N U) as A.
  specialize (IH (rot_step32 sinf cosf rot s) (exact_step q s) (Forall_inv_tail H)
    (rot_step32_ok sinf cosf good_ok rot s (usable_usable s Hs) (nearly_weak (/ 500000) (/ 10) rot ltac:(lra) N)) (exact_unit s q Hs U)). lra.
Qed.
End T.
