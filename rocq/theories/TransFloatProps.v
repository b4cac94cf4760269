(** C132: transforming a scan by a particle's pose in single precision.  Vocabulary: TransFloatSpec.v. *)
From Coq Require Import Reals ZArith List Bool Lra Lia Psatz.
From Flocq Require Import Core.Core IEEE754.BinarySingleNaN.
From Verif Require Import Arith Ieee QuatModel QuatSpec QuatProofs StateModel NdModel LikeFloatProofs LikeFloatErr KdFloatProofs IeeeErr QuatFloatModel QuatFloatSpec QuatFloatProofs QuatFloatAcc FiltFloatProofs TransFloatModel TransFloatSpec TransFloatProofs.
Import ListNotations.
Local Open Scope R_scope.

Lemma qsub_small a b e : within4 e a b -> 0 <= e -> length2 (qsub a b) <= 4 * (e * e).
Proof.
  intros (H1 & H2 & H3 & H4) He. unfold length2, qsub. cbn [QuatModel.qx QuatModel.qy QuatModel.qz QuatModel.qw].
  assert (P : forall x, Rabs x <= e -> x * x <= e * e) by (intros x Hx; apply abs2 in Hx; nra).
  pose proof (P _ H1). pose proof (P _ H2). pose proof (P _ H3). pose proof (P _ H4). lra.
Qed.
(** rotating by r instead of by the unit quaternion s *)
Lemma rotate_near r s v M : Rabs (length2 r - 1) <= / 500000 -> length2 s = 1 -> within4 (/ 300000) r s -> 0 <= M ->
  Rabs (vx v) <= M -> Rabs (vy v) <= M -> Rabs (vz v) <= M ->
  Rabs (vx (qrot r v) - vx (qrot s v)) <= M / 43000 /\ Rabs (vy (qrot r v) - vy (qrot s v)) <= M / 43000 /\ Rabs (vz (qrot r v) - vz (qrot s v)) <= M / 43000.
Proof.
  intros Lr Ls W HM Bx By Bz. apply abs2 in Lr. pose proof (len_pure v M Bx By Bz) as LP. pose proof (qsub_small _ _ _ W ltac:(lra)) as LD.
  set (d := qsub r s) in *. set (p := pureq v) in *.
  assert (M2 : 0 <= M * M) by nra.
  assert (L1 : length2 (qmul (qmul d p) (conj r)) <= 3465 / 1000 * (/ 300000) * M * (3465 / 1000 * (/ 300000) * M)).
  { eapply Rle_trans; [apply (length2_le_prod _ _ (4 * (/ 300000 * / 300000) * (3 * (M * M))) (500001 / 500000)); [lra|apply length2_le_prod; [lra|exact LD|exact LP]|rewrite length2_conj; lra]|lra]. }
  assert (L2 : length2 (qmul (qmul s p) (conj d)) <= 3465 / 1000 * (/ 300000) * M * (3465 / 1000 * (/ 300000) * M)).
  { eapply Rle_trans; [apply (length2_le_prod _ _ (1 * (3 * (M * M))) (4 * (/ 300000 * / 300000))); [lra|apply length2_le_prod; [lra|lra|exact LP]|rewrite length2_conj; lra]|lra]. }
  destruct (comps_le _ (3465 / 1000 * (/ 300000) * M) ltac:(lra) L1) as (X1 & Y1 & Z1 & _). destruct (comps_le _ (3465 / 1000 * (/ 300000) * M) ltac:(lra) L2) as (X2 & Y2 & Z2 & _).
  pose proof (rot_diff r s p) as E. fold d in E. unfold qrot. fold (pureq v). fold p. cbn [vx vy vz].
  set (a := qmul (qmul d p) (conj r)) in *. set (b := qmul (qmul s p) (conj d)) in *. set (A := qmul (qmul r p) (conj r)) in *. set (B := qmul (qmul s p) (conj s)) in *. clearbody a b A B.
  assert (EX := f_equal QuatModel.qx E). assert (EY := f_equal QuatModel.qy E). assert (EZ := f_equal QuatModel.qz E). unfold qsub, qadd in EX, EY, EZ. cbn [QuatModel.qx QuatModel.qy QuatModel.qz] in EX, EY, EZ.
  rewrite EX, EY, EZ. apply abs2 in X1, Y1, Z1, X2, Y2, Z2. repeat split; apply abs2; lra.
Qed.
Lemma point_ok rot pos p M P : finite_quat rot -> fair_length (real_quat rot) -> coords M p -> coords P pos ->
  / 100000 <= M <= 1000000000 -> 0 <= P <= 1000000000 ->
  near_vec (M / 30000 + P / 8000000) (vadd32 (qrot32 (qnormalized32 rot) p) pos) (vadd (qrot (qnormalized (real_quat rot)) (real_vec p)) (real_vec pos)).
Proof.
  intros FQ FL HC HP HM HPb. assert (Fr : finite4 rot) by (destruct rot as [[[? ?] ?] ?]; exact FQ).
  change (real_quat rot) with (value rot) in *. unfold fair_length in FL. fold (length2 (value rot)) in FL.
  destruct (qnormalized32_ok rot Fr FL) as [NU W]. destruct (rotate_ok _ p M NU HC HM) as (F3 & N3 & T1 & T2 & T3).
  assert (US : length2 (qnormalized (value rot)) = 1). { apply unit_normalized. intros (Z1 & Z2 & Z3 & Z4). unfold length2 in FL. rewrite Z1, Z2, Z3, Z4 in FL. lra. }
  destruct NU as [_ LR]. assert (BP : Rabs (vx (real_vec p)) <= M /\ Rabs (vy (real_vec p)) <= M /\ Rabs (vz (real_vec p)) <= M) by (destruct p as [[? ?] ?]; cbn; apply HC).
  destruct (rotate_near _ _ (real_vec p) M LR US W ltac:(lra)) as (D1 & D2 & D3); [apply BP|apply BP|apply BP|].
  set (t := qrot (value (qnormalized32 rot)) (real_vec p)) in *. set (t' := qrot (qnormalized (value rot)) (real_vec p)) in *. clearbody t t'.
  destruct (qrot32 (qnormalized32 rot) p) as [[x y] z]. destruct pos as [[px py] pz]. destruct F3 as (Fx & Fy & Fz). destruct N3 as (_ & Nx & Ny & Nz). destruct HP as ((Gx & Gy & Gz) & Px & Py & Pz).
  assert (ADD : forall (a b : f32) X, is_finite a = true -> is_finite b = true -> Rabs (B2R a - X) <= 83 * ulp32 * M -> Rabs X <= 7 / 4 * M -> Rabs (B2R b) <= P ->
     is_finite (fplus32 a b) = true /\ Rabs (B2R (fplus32 a b) - (X + B2R b)) <= 85 * ulp32 * M + P / 8000000).
  { intros a b X Fa Fb Ea BX Bb. destruct (add_r a b X (f2r b) (83 * ulp32 * M) 0 (176 / 100 * M + P) Fa Fb Ea) as [A1 A2].
    - rewrite Rminus_diag_eq by reflexivity. rewrite Rabs_R0. lra.
    - eapply Rle_trans; [apply Rplus_le_compat_r, Rabs_triang|]. unfold f2r, ulp32. lra.
    - lra.
    - split; [exact A1|]. unfold f2r in A2. eapply Rle_trans; [exact A2|]. unfold ulp32, e0. lra. }
  destruct (ADD x px (vx t) Fx Gx Nx T1 Px) as [Ax Ex]. destruct (ADD y py (vy t) Fy Gy Ny T2 Py) as [Ay Ey]. destruct (ADD z pz (vz t) Fz Gz Nz T3 Pz) as [Az Ez].
  unfold near_vec, vadd32, vadd. cbn [vx vy vz real_vec]. split; [repeat split; assumption|].
  apply abs2 in Ex, Ey, Ez, D1, D2, D3. unfold ulp32 in *. repeat split; apply abs2; lra.
Qed.
(** Every point of a scan with coordinates up to M, moved by a particle at a position with coordinates
    up to P, is finite and within M/30000 + P/8000000 per coordinate of the exact rigid motion (the
    rotation normalized exactly): 3.5 mm for 100 m, plus 0.13 mm per kilometre of map.  The order and
    number of points are kept. *)
Theorem C132_transform : forall rot32 pos32 pc M P s, finite_quat rot32 -> fair_length (real_quat rot32) -> coords P pos32 -> Forall (coords M) pc ->
  / 100000 <= M <= 1000000000 -> 0 <= P <= 1000000000 ->
  StateModel.rot s = real_quat rot32 -> StateModel.pos s = real_vec pos32 ->
  Forall2 (fun out exact => near_vec (M / 30000 + P / 8000000) out (p3 exact)) (transform32 rot32 pos32 pc)
    (transform s (map (fun p => {| p3 := real_vec p; lab := 0 |}) pc)).
Proof.
  intros q t pc M P s FQ FL HP F HM HPb Er Ep. unfold transform32, transform. rewrite Er, Ep. induction F as [|p pc Hp F IH]; [constructor|].
  cbn [map]. constructor; [|exact IH]. cbn [p3]. apply (point_ok q t p M P); assumption.
Qed.
(** The rotation alone, for a quaternion that is already normalized in single precision (lidar
    origins): 83 units of 2^-24 of the largest coordinate. *)
Theorem C132_rotation : forall q p M, finite_quat q -> Rabs (length2 (value q) - 1) <= / 500000 -> coords M p -> / 100000 <= M <= 1000000000 ->
  near_vec (83 / 16777216 * M) (qrot32 q p) (qrot (value q) (real_vec p)).
Proof.
  intros q p M F L HC HM. destruct (rotate_ok q p M) as (_ & N & _); [split; [destruct q as [[[? ?] ?] ?]; exact F|exact L]|exact HC|exact HM|].
  replace (83 / 16777216 * M) with (83 * ulp32 * M) by (unfold ulp32; field). exact N.
Qed.
(** The scan stays rigid: the distance of any two of its points changes by at most four times that. *)
Lemma near_qdist e f v : 0 <= e -> near_vec e f v -> qdist (pureq (real_vec f)) (pureq v) <= 2 * e.
Proof.
  intros He H. destruct f as [[x y] z]. destruct H as (_ & Hx & Hy & Hz). apply within_dist; [exact He|]. unfold within4, pureq. cbn [real_vec vx vy vz QuatModel.qx QuatModel.qy QuatModel.qz QuatModel.qw].
  repeat split; try assumption. rewrite Rminus_diag_eq by reflexivity. rewrite Rabs_R0. exact He.
Qed.
Lemma pure_dist a b : qdist (pureq a) (pureq b) = vnorm (vsub a b).
Proof. unfold qdist, vnorm, length2, qsub, pureq, vsub, vdot. cbn [vx vy vz QuatModel.qx QuatModel.qy QuatModel.qz QuatModel.qw]. f_equal. ring. Qed.
Theorem C132_stays_rigid : forall rot32 pos32 p1 p2 M P, finite_quat rot32 -> fair_length (real_quat rot32) -> coords P pos32 -> coords M p1 -> coords M p2 ->
  / 100000 <= M <= 1000000000 -> 0 <= P <= 1000000000 ->
  exists o1 o2, transform32 rot32 pos32 [p1; p2] = [o1; o2] /\
  Rabs (vnorm (vsub (real_vec o1) (real_vec o2)) - vnorm (vsub (real_vec p1) (real_vec p2))) <= 4 * (M / 30000 + P / 8000000).
Proof.
  intros q t p1 p2 M P FQ FL HP H1 H2 HM HPb. eexists. eexists. split; [reflexivity|].
  pose proof (point_ok q t p1 M P FQ FL H1 HP HM HPb) as N1. pose proof (point_ok q t p2 M P FQ FL H2 HP HM HPb) as N2.
  set (o1 := vadd32 (qrot32 (qnormalized32 q) p1) t) in *. set (o2 := vadd32 (qrot32 (qnormalized32 q) p2) t) in *. clearbody o1 o2.
  set (e := M / 30000 + P / 8000000) in *. assert (He : 0 <= e) by (unfold e; lra).
  apply near_qdist in N1, N2; try exact He. set (s := qnormalized (real_quat q)) in *.
  assert (US : unit_quat s). { apply unit_normalized. intros (Z1 & Z2 & Z3 & Z4). unfold fair_length in FL. rewrite Z1, Z2, Z3, Z4 in FL. lra. }
  set (x1 := vadd (qrot s (real_vec p1)) (real_vec t)) in *. set (x2 := vadd (qrot s (real_vec p2)) (real_vec t)) in *.
  assert (E : vnorm (vsub x1 x2) = vnorm (vsub (real_vec p1) (real_vec p2))).
  { rewrite <- (qrot_norm s (vsub (real_vec p1) (real_vec p2)) US). f_equal. unfold x1, x2. clear. destruct s as [s1 s2 s3 s4], (real_vec p1) as [a1 a2 a3], (real_vec p2) as [b1 b2 b3], (real_vec t) as [c1 c2 c3].
    unfold vsub, vadd, qrot, qmul, conj. cbn [vx vy vz QuatModel.qx QuatModel.qy QuatModel.qz QuatModel.qw]. f_equal; ring. }
  rewrite <- E, <- !pure_dist. clearbody x1 x2.
  pose proof (qdist_tri (pureq (real_vec o1)) (pureq x1) (pureq (real_vec o2))) as T1. pose proof (qdist_tri (pureq x1) (pureq x2) (pureq (real_vec o2))) as T2.
  pose proof (qdist_tri (pureq x1) (pureq (real_vec o1)) (pureq x2)) as T3. pose proof (qdist_tri (pureq (real_vec o1)) (pureq (real_vec o2)) (pureq x2)) as T4.
  rewrite (qdist_sym (pureq x2) (pureq (real_vec o2))) in T2. rewrite (qdist_sym (pureq x1) (pureq (real_vec o1))) in T3. apply abs2. lra.
Qed.
Lemma ones : is_finite (f32_of_Z 1) = true /\ B2R (f32_of_Z 1) = 1 /\ is_finite (f32_of_Z 30) = true /\ B2R (f32_of_Z 30) = 30.
Proof. destruct (of_Z_exact 1 ltac:(lia)) as [A B]. destruct (of_Z_exact 30 ltac:(lia)) as [C D]. unfold f2r in *. repeat split; assumption. Qed.
(** a particle that is not even normalized, 30 m from the origin, and a point 30 m away *)
Example C132_nonvacuous :
  finite_quat (f32_of_Z 1, f32_of_Z 1, f32_of_Z 1, f32_of_Z 1) /\ fair_length (real_quat (f32_of_Z 1, f32_of_Z 1, f32_of_Z 1, f32_of_Z 1)) /\
  coords 30 (f32_of_Z 30, f32_of_Z 1, f32_of_Z 30) /\
  vx (vadd (qrot (qnormalized (real_quat (f32_of_Z 1, f32_of_Z 1, f32_of_Z 1, f32_of_Z 1))) (real_vec (f32_of_Z 30, f32_of_Z 1, f32_of_Z 30))) (real_vec (f32_of_Z 1, f32_of_Z 1, f32_of_Z 1))) = 31.
Proof.
  destruct ones as (F1 & V1 & F30 & V30). split; [repeat split; assumption|]. split; [|split].
  - unfold fair_length. cbn [real_quat QuatModel.qx QuatModel.qy QuatModel.qz QuatModel.qw]. rewrite V1. lra.
  - unfold coords. rewrite V1, V30, Rabs_R1, Rabs_pos_eq by lra. repeat split; try assumption; lra.
  - cbn [real_quat real_vec]. rewrite V1, V30. unfold qnormalized, qdiv, qscale, qnorm, qdot. cbn [QuatModel.qx QuatModel.qy QuatModel.qz QuatModel.qw].
    replace (sqrt (1 * 1 + 1 * 1 + 1 * 1 + 1 * 1)) with 2 by (symmetry; replace (1 * 1 + 1 * 1 + 1 * 1 + 1 * 1) with (2 * 2) by ring; apply sqrt_square; lra).
    unfold qrot, qmul, conj, vadd. cbn [QuatModel.qx QuatModel.qy QuatModel.qz QuatModel.qw vx vy vz]. lra.
Qed.
