(** C126: the rotation of a particle as the program computes it, in single precision. *)
From Coq Require Import Reals ZArith List Bool Lra Lia Psatz Floats.SpecFloat.
From Flocq Require Import Core.Core IEEE754.BinarySingleNaN.
From Verif Require Import Arith Ieee QuatModel QuatSpec QuatProofs NdModel LikeFloatProofs KdFloatProofs IeeeErr QuatFloatModel QuatFloatSpec QuatFloatProofs.
Import ListNotations.
Local Open Scope R_scope.

(** Quat::normalized: unit length up to 2e-6 and next to the exact answer. *)
Theorem C126_normalize : forall q, finite4 q -> / 4 <= length2 (value q) <= 4 ->
  nearly_unit (/ 500000) (qnormalized32 q) /\ within4 (/ 300000) (value (qnormalized32 q)) (qnormalized (value q)).
Proof. exact qnormalized32_ok. Qed.

(** Quat::operator*: 35 units of 2^-24 per component. *)
Theorem C126_product : forall a b, finite4 a -> finite4 b -> length2 (value a) <= 9 / 4 -> length2 (value b) <= 9 / 4 ->
  finite4 (qmul32 a b) /\ within4 (35 / 16777216) (value (qmul32 a b)) (qmul (value a) (value b)).
Proof.
  intros a b Fa Fb A B. destruct (qmul32_ok a b Fa Fb (len_small a A) (len_small b B)) as [F W]. split; [exact F|].
  replace (35 / 16777216) with (35 * ulp32) by (unfold ulp32; lra). exact W.
Qed.

(** Any history of odometry steps and resamplings: the error does not accumulate. *)
Theorem C126_never_drifts : forall sinf cosf, trig_ok sinf cosf -> forall history rot,
  Forall usable history -> history <> [] -> nearly_unit (/ 10) rot ->
  nearly_unit (/ 500000) (fold_left (rot_step32 sinf cosf) history rot).
Proof. intros s c T l rot U N R0. exact (rot_steps32_ok s c T l rot U R0 N). Qed.

(** ** not a number *)
Definition nan4 (q : quat32) : Prop := q = (B754_nan, B754_nan, B754_nan, B754_nan).
Lemma mul_nan_l x : fmult32 B754_nan x = B754_nan. Proof. destruct x; reflexivity. Qed.
Lemma mul_nan_r x : fmult32 x B754_nan = B754_nan. Proof. destruct x; reflexivity. Qed.
Lemma add_nan_l x : fplus32 B754_nan x = B754_nan. Proof. destruct x; reflexivity. Qed.
Lemma sub_nan_l x : fminus32 B754_nan x = B754_nan. Proof. destruct x; reflexivity. Qed.
Lemma qmul_nan_l b : nan4 (qmul32 (B754_nan, B754_nan, B754_nan, B754_nan) b).
Proof. destruct b as [[[x y] z] w]. unfold nan4, qmul32. cbv zeta. rewrite !mul_nan_l, !add_nan_l, !sub_nan_l. reflexivity. Qed.
Lemma qmul_nan_r b : nan4 (qmul32 b (B754_nan, B754_nan, B754_nan, B754_nan)).
Proof. destruct b as [[[x y] z] w]. unfold nan4, qmul32. cbv zeta. rewrite !mul_nan_r, !add_nan_l, !sub_nan_l. reflexivity. Qed.
Lemma norm_nan q : nan4 q -> nan4 (qnormalized32 q).
Proof. intros ->. unfold nan4, qnormalized32, qdiv32, qscale32. rewrite !mul_nan_l. reflexivity. Qed.
Lemma step_nan s c rot st : nan4 rot -> nan4 (rot_step32 s c rot st).
Proof.
  intros ->. destruct st as [yd prev cur|v]; cbn [rot_step32].
  - unfold predict_rot32. apply norm_nan. rewrite (qmul_nan_r (setAxisAng32 s c ez32 yd)). apply qmul_nan_l.
  - unfold resample_rot32. apply norm_nan, qmul_nan_r.
Qed.
Lemma steps_nan s c l : forall rot, nan4 rot -> nan4 (fold_left (rot_step32 s c) l rot).
Proof. induction l as [|x l IH]; intros rot H; [exact H|]. cbn [fold_left]. apply IH, step_nan, H. Qed.

(** the orientation of a message nobody filled in *)
Definition zero4 : quat32 := (f32_of_Z 0, f32_of_Z 0, f32_of_Z 0, f32_of_Z 0).
Lemma inv_zero : nan4 (qinv32 zero4).
Proof. unfold nan4. vm_compute. reflexivity. Qed.

(** One odometry message with an all-zero orientation, and the rotation of the particle is not a number from the
    following odometry step on, whatever happens afterwards (including resampling). *)
Theorem C126_zero_orientation_poisons : forall sinf cosf history yaw_diff cur rot before,
  nan4 (fold_left (rot_step32 sinf cosf) (before ++ Odometry yaw_diff zero4 cur :: history) rot).
Proof.
  intros s c l yd cur rot before. rewrite fold_left_app. cbn [fold_left]. apply steps_nan. cbn [rot_step32]. unfold predict_rot32, relative32. rewrite inv_zero.
  rewrite (qmul_nan_l cur). apply norm_nan, qmul_nan_r.
Qed.

Lemma pos_val (x : f32) m e : B2SF x = SpecFloat.S754_finite false m e -> 0 < f2r x.
Proof. intro H. rewrite (val32f _ _ H). cbn [SF2R]. apply F2R_gt_0. reflexivity. Qed.
(** Outside the range the intermediate squares underflow or overflow: a tiny rotation quaternion normalizes to
    infinity and not-a-number, a huge one to zero, although both have an exact unit normalization. *)
Theorem C126_normalize_everywhere_refuted :
  exists tiny huge, finite4 tiny /\ finite4 huge /\ 0 < length2 (value tiny) /\ 0 < length2 (value huge)
  /\ qnormalized (value tiny) = Q4 1 0 0 0 /\ qnormalized (value huge) = Q4 1 0 0 0
  /\ ~ finite4 (qnormalized32 tiny) /\ value (qnormalized32 huge) = Q4 0 0 0 0.
Proof.
  set (z := f32_of_Z 0).
  set (t := @B754_finite 24 128 false 8388608 (-103) eq_refl : f32). set (h := @B754_finite 24 128 false 8388608 47 eq_refl : f32).   (* 2^-80 and 2^70 *)
  assert (Zv : f2r z = 0) by apply zero_fin.
  assert (Tv : 0 < f2r t) by (eapply pos_val; reflexivity).
  assert (Hv : 0 < f2r h) by (eapply pos_val; reflexivity).
  assert (N : forall x, 0 < x -> qnormalized (Q4 x 0 0 0) = Q4 1 0 0 0).
  { intros x P. unfold qnormalized, qdiv, QuatModel.qnorm, qdot, qscale. cbn [QuatModel.qx QuatModel.qy QuatModel.qz QuatModel.qw].
    replace (x * x + 0 * 0 + 0 * 0 + 0 * 0) with (x * x) by ring. rewrite sqrt_square by lra. f_equal; field; lra. }
  exists (t, z, z, z), (h, z, z, z). cbn [value finite4]. rewrite Zv. unfold length2. cbn [QuatModel.qx QuatModel.qy QuatModel.qz QuatModel.qw].
  split; [repeat split; reflexivity|]. split; [repeat split; reflexivity|]. split; [nra|]. split; [nra|]. split; [apply N; assumption|]. split; [apply N; assumption|]. split.
  - intro K. assert (E : match qnormalized32 (t, z, z, z) with (x, _, _, _) => is_finite x end = false) by (vm_compute; reflexivity).
    destruct (qnormalized32 (t, z, z, z)) as [[[x y] w] v]. cbn [finite4] in K. destruct K as [K _]. rewrite K in E. discriminate E.
  - assert (E : qnormalized32 (h, z, z, z) = (z, z, z, z)) by (vm_compute; reflexivity).
    rewrite E. cbn [value]. rewrite Zv. reflexivity.
Qed.

(** a history with both kinds of step, and a library that meets the requirement *)
Definition sin0 (x : f32) : f32 := f32_of_Z 0.
Definition cos0 (x : f32) : f32 := f32_of_Z 1.
Definition one4 : quat32 := (f32_of_Z 0, f32_of_Z 0, f32_of_Z 0, f32_of_Z 1).
Definition f32_ratio (n d : Z) : f32 := fdiv32 (f32_of_Z n) (f32_of_Z d).
Definition turned4 : quat32 := (f32_of_Z 0, f32_of_Z 0, f32_ratio 3 5, f32_ratio 4 5).
Definition after4 : quat32 := predict_rot32 sin0 cos0 (f32_of_Z 1) (relative32 one4 turned4) one4.
Example C126_nonvacuous : trig_ok sin0 cos0 /\ nearly_unit (/ 100) one4 /\ nearly_unit (/ 100) turned4
  /\ Forall usable [Odometry (f32_of_Z 1) one4 turned4; Resampled (f32_of_Z 1, f32_of_Z 0, f32_of_Z 1); Odometry (f32_of_Z 0) turned4 one4]
  /\ nearly_unit (/ 500000) (fold_left (rot_step32 sin0 cos0) [Odometry (f32_of_Z 1) one4 turned4] one4)
  /\ within4 (/ 100000) (value (fold_left (rot_step32 sin0 cos0) [Odometry (f32_of_Z 1) one4 turned4] one4)) (Q4 0 0 (3 / 5) (4 / 5)).
Proof.
  assert (N1 : nearly_unit (/ 100) one4).
  { split; [repeat split|]. unfold length2. cbn [value one4 QuatModel.qx QuatModel.qy QuatModel.qz QuatModel.qw]. rewrite (proj2 zero_fin), (proj2 one_fin). apply abs2. lra. }
  assert (V3 : Rabs (f2r (f32_ratio 3 5) - 3 / 5) <= / 1000000) by (erewrite val32f by (vm_compute; reflexivity); unfold SF2R, F2R; cbn; apply abs2; lra).
  assert (V4 : Rabs (f2r (f32_ratio 4 5) - 4 / 5) <= / 1000000) by (erewrite val32f by (vm_compute; reflexivity); unfold SF2R, F2R; cbn; apply abs2; lra).
  assert (N2 : nearly_unit (/ 100) turned4).
  { split; [repeat split|]. unfold length2. cbn [value turned4 QuatModel.qx QuatModel.qy QuatModel.qz QuatModel.qw]. rewrite (proj2 zero_fin).
    apply abs2 in V3. apply abs2 in V4. apply abs2. nra. }
  assert (T : trig_ok sin0 cos0).
  { intros x _. split; [reflexivity|]. split; [reflexivity|]. unfold sin0, cos0. rewrite (proj2 zero_fin), (proj2 one_fin). apply abs2. lra. }
  assert (U : Forall usable [Odometry (f32_of_Z 1) one4 turned4; Resampled (f32_of_Z 1, f32_of_Z 0, f32_of_Z 1); Odometry (f32_of_Z 0) turned4 one4]).
  { repeat apply Forall_cons; [split; [reflexivity|split; assumption]|repeat split; reflexivity|split; [reflexivity|split; assumption]|constructor]. }
  split; [exact T|]. split; [exact N1|]. split; [exact N2|]. split; [exact U|]. split.
  - apply (C126_never_drifts sin0 cos0 T); [constructor; [exact (Forall_inv U)|constructor]|discriminate|]. eapply nearly_weak; [|exact N1]. lra.
  - cbn [fold_left rot_step32].
    change (predict_rot32 sin0 cos0 (f32_of_Z 1) (relative32 one4 turned4) one4) with after4.
    assert (E : exists a b c d, after4 = (a, b, c, d) /\ f2r a = 0 /\ f2r b = 0 /\ Rabs (f2r c - 3 / 5) <= / 1000000 /\ Rabs (f2r d - 4 / 5) <= / 1000000).
    { exists (fst (fst (fst after4))), (snd (fst (fst after4))), (snd (fst after4)), (snd after4). split; [destruct after4 as [[[? ?] ?] ?]; reflexivity|].
      clear. split; [|split; [|split]]; (erewrite val32f by (vm_compute; reflexivity)); [reflexivity|reflexivity| | ]; unfold SF2R, F2R; cbn; apply abs2; lra. }
    destruct E as (a & b & c & d & -> & A & B & C & D). unfold within4. cbn [value QuatModel.qx QuatModel.qy QuatModel.qz QuatModel.qw]. rewrite A, B. apply abs2 in C. apply abs2 in D. repeat split; apply abs2; lra.
Qed.
