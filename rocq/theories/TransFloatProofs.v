(** Proofs about State6DOF::transform in binary32. *)
From Coq Require Import Reals ZArith List Bool Lra Lia Psatz.
From Flocq Require Import Core.Core IEEE754.BinarySingleNaN.
From Verif Require Import Arith Ieee QuatModel QuatSpec QuatProofs StateModel NdModel LikeFloatProofs LikeFloatErr KdFloatProofs IeeeErr QuatFloatModel QuatFloatSpec QuatFloatProofs FiltFloatProofs TransFloatModel TransFloatSpec.
Import ListNotations.
Local Open Scope R_scope.

Lemma sub_r a b X Y dx dy N : is_finite a = true -> is_finite b = true ->
  Rabs (f2r a - X) <= dx -> Rabs (f2r b - Y) <= dy -> Rabs (X - Y) + (dx + dy) <= N -> N <= 10000000000000000000 ->
  is_finite (fminus32 a b) = true /\ Rabs (f2r (fminus32 a b) - (X - Y)) <= dx + dy + (ulp32 * N + e0).
Proof.
  intros Fa Fb H1 H2 HN HB.
  assert (P : Rabs ((f2r a - f2r b) - (X - Y)) <= dx + dy) by (apply abs2; apply abs2 in H1, H2; lra).
  assert (K : Rabs (f2r a - f2r b) <= N). { replace (f2r a - f2r b) with ((X - Y) + ((f2r a - f2r b) - (X - Y))) by ring. eapply Rle_trans; [apply Rabs_triang|]. lra. }
  destruct (sub_fin a b Fa Fb) as [A B]; [apply big100'; lra|]. split; [exact A|]. pose proof (rnd_e _ _ K) as E. rewrite <- B in E.
  apply abs2. apply abs2 in E, P. lra.
Qed.

Section Scaled.
Context (V : R) (HV : / 1000000 <= V <= 1000000000000000).
Let e : R := 101 / 100 * ulp32 * V.
Definition okp (p : f32) (P : R) : Prop := is_finite p = true /\ Rabs (f2r p - P) <= e /\ Rabs P <= V.
Lemma sum3_s p q r w P Q T W : okp p P -> okp q Q -> okp r T -> okp w W ->
  is_finite (fminus32 (fplus32 (fplus32 p q) r) w) = true /\ Rabs (f2r (fminus32 (fplus32 (fplus32 p q) r) w) - (P + Q + T - W)) <= 14 * ulp32 * V.
Proof.
  unfold okp, e. intros (Fp & Ep & Bp) (Fq & Eq & Bq) (Fr & Er & Br) (Fw & Ew & Bw).
  destruct (add_r p q P Q _ _ (201 / 100 * V) Fp Fq Ep Eq) as [A1 A2]; [eapply Rle_trans; [apply Rplus_le_compat_r, Rabs_triang|]; unfold ulp32; lra|lra|].
  destruct (add_r _ r (P + Q) T _ _ (302 / 100 * V) A1 Fr A2 Er) as [B1 B2]; [|lra|].
  { assert (Rabs (P + Q + T) <= 3 * V) by (apply abs2; apply abs2 in Bp, Bq, Br; lra). unfold ulp32, e0; lra. }
  destruct (sub_r _ w (P + Q + T) W _ _ (403 / 100 * V) B1 Fw B2 Ew) as [C1 C2]; [|lra|].
  { assert (Rabs (P + Q + T - W) <= 4 * V) by (apply abs2; apply abs2 in Bp, Bq, Br, Bw; lra). unfold ulp32, e0; lra. }
  split; [exact C1|]. eapply Rle_trans; [exact C2|]. unfold ulp32, e0. lra.
Qed.
Lemma diff3_s p q r w P Q T W : okp p P -> okp q Q -> okp r T -> okp w W ->
  is_finite (fminus32 (fminus32 (fminus32 p q) r) w) = true /\ Rabs (f2r (fminus32 (fminus32 (fminus32 p q) r) w) - (P - Q - T - W)) <= 14 * ulp32 * V.
Proof.
  unfold okp, e. intros (Fp & Ep & Bp) (Fq & Eq & Bq) (Fr & Er & Br) (Fw & Ew & Bw).
  destruct (sub_r p q P Q _ _ (201 / 100 * V) Fp Fq Ep Eq) as [A1 A2]; [|lra|].
  { assert (Rabs (P - Q) <= 2 * V) by (apply abs2; apply abs2 in Bp, Bq; lra). unfold ulp32; lra. }
  destruct (sub_r _ r (P - Q) T _ _ (302 / 100 * V) A1 Fr A2 Er) as [B1 B2]; [|lra|].
  { assert (Rabs (P - Q - T) <= 3 * V) by (apply abs2; apply abs2 in Bp, Bq, Br; lra). unfold ulp32, e0; lra. }
  destruct (sub_r _ w (P - Q - T) W _ _ (403 / 100 * V) B1 Fw B2 Ew) as [C1 C2]; [|lra|].
  { assert (Rabs (P - Q - T - W) <= 4 * V) by (apply abs2; apply abs2 in Bp, Bq, Br, Bw; lra). unfold ulp32, e0; lra. }
  split; [exact C1|]. eapply Rle_trans; [exact C2|]. unfold ulp32, e0. lra.
Qed.
Lemma mul_s x y A B : is_finite x = true -> is_finite y = true -> Rabs (f2r x) <= A -> Rabs (f2r y) <= B -> A * B = V -> okp (fmult32 x y) (f2r x * f2r y).
Proof.
  intros Fx Fy Hx Hy E. assert (K : Rabs (f2r x * f2r y) <= V) by (rewrite Rabs_mult, <- E; apply Rmult_le_compat; try apply Rabs_pos; assumption).
  destruct (mul_fin x y Fx Fy) as [F M]; [apply big100'; lra|]. split; [exact F|]. split; [|exact K]. rewrite M. pose proof (rnd_e _ _ K) as R. unfold e. eapply Rle_trans; [exact R|]. unfold ulp32, e0. lra.
Qed.
End Scaled.
Definition below4 (A : R) (q : quat32) : Prop := let '(x, y, z, w) := q in Rabs (f2r x) <= A /\ Rabs (f2r y) <= A /\ Rabs (f2r z) <= A /\ Rabs (f2r w) <= A.
Lemma qmul32_s a b A B : finite4 a -> finite4 b -> below4 A a -> below4 B b -> / 1000000 <= A * B <= 1000000000000000 ->
  finite4 (qmul32 a b) /\ within4 (14 * ulp32 * (A * B)) (value (qmul32 a b)) (qmul (value a) (value b)).
Proof.
  destruct a as [[[x y] z] w], b as [[[x' y'] z'] w']. intros (Fx & Fy & Fz & Fw) (Gx & Gy & Gz & Gw) (Sx & Sy & Sz & Sw) (Tx & Ty & Tz & Tw) HV.
  assert (P : forall p q : f32, is_finite p = true -> is_finite q = true -> Rabs (f2r p) <= A -> Rabs (f2r q) <= B -> okp (A * B) (fmult32 p q) (f2r p * f2r q)) by (intros; apply (mul_s _ HV p q A B); auto).
  destruct (sum3_s _ HV _ _ _ _ _ _ _ _ (P w x' Fw Gx Sw Tx) (P x w' Fx Gw Sx Tw) (P y z' Fy Gz Sy Tz) (P z y' Fz Gy Sz Ty)) as [X1 X2].
  destruct (sum3_s _ HV _ _ _ _ _ _ _ _ (P w y' Fw Gy Sw Ty) (P y w' Fy Gw Sy Tw) (P z x' Fz Gx Sz Tx) (P x z' Fx Gz Sx Tz)) as [Y1 Y2].
  destruct (sum3_s _ HV _ _ _ _ _ _ _ _ (P w z' Fw Gz Sw Tz) (P z w' Fz Gw Sz Tw) (P x y' Fx Gy Sx Ty) (P y x' Fy Gx Sy Tx)) as [Z1 Z2].
  destruct (diff3_s _ HV _ _ _ _ _ _ _ _ (P w w' Fw Gw Sw Tw) (P x x' Fx Gx Sx Tx) (P y y' Fy Gy Sy Ty) (P z z' Fz Gz Sz Tz)) as [W1 W2].
  split; [repeat split; assumption|]. unfold within4. cbn [qmul32 value qmul QuatModel.qx QuatModel.qy QuatModel.qz QuatModel.qw]. repeat split; assumption.
Qed.
Lemma comp_le x K : 0 <= K -> x * x <= K * K -> Rabs x <= K.
Proof. intros HK H. apply abs2. split; nra. Qed.
Lemma comps_le q K : 0 <= K -> length2 q <= K * K -> Rabs (qx q) <= K /\ Rabs (qy q) <= K /\ Rabs (qz q) <= K /\ Rabs (qw q) <= K.
Proof. unfold length2. intros HK H. repeat split; apply comp_le; try exact HK; nra. Qed.
Lemma qmul_lip a b c d C : within4 d a b -> Rabs (qx c) <= C -> Rabs (qy c) <= C -> Rabs (qz c) <= C -> Rabs (qw c) <= C ->
  within4 (4 * (d * C)) (qmul a c) (qmul b c).
Proof.
  intros (H1 & H2 & H3 & H4) C1 C2 C3 C4. destruct a as [a1 a2 a3 a4], b as [b1 b2 b3 b4], c as [c1 c2 c3 c4]. unfold within4. cbn [qmul QuatModel.qx QuatModel.qy QuatModel.qz QuatModel.qw] in *.
  assert (P : forall x y, Rabs x <= d -> Rabs y <= C -> - (d * C) <= x * y <= d * C) by (intros x y Hx Hy; apply abs2, prod_bound; assumption).
  assert (Q : forall k, - (d * C) <= k <= d * C -> - (d * C) <= - k <= d * C) by (intros; lra).
  pose proof (P _ _ H1 C1). pose proof (P _ _ H1 C2). pose proof (P _ _ H1 C3). pose proof (P _ _ H1 C4).
  pose proof (P _ _ H2 C1). pose proof (P _ _ H2 C2). pose proof (P _ _ H2 C3). pose proof (P _ _ H2 C4).
  pose proof (P _ _ H3 C1). pose proof (P _ _ H3 C2). pose proof (P _ _ H3 C3). pose proof (P _ _ H3 C4).
  pose proof (P _ _ H4 C1). pose proof (P _ _ H4 C2). pose proof (P _ _ H4 C3). pose proof (P _ _ H4 C4).
  repeat split; apply abs2; lra.
Qed.
Lemma rot_diff r s p : qsub (qmul (qmul r p) (conj r)) (qmul (qmul s p) (conj s)) =
  qadd (qmul (qmul (qsub r s) p) (conj r)) (qmul (qmul s p) (conj (qsub r s))).
Proof. destruct r, s, p. unfold qsub, qadd, qmul, conj. cbn [QuatModel.qx QuatModel.qy QuatModel.qz QuatModel.qw]. f_equal; ring. Qed.
Lemma length2_le_prod a b A B : 0 <= A -> length2 a <= A -> length2 b <= B -> length2 (qmul a b) <= A * B.
Proof. intros HA H1 H2. rewrite length2_mul. assert (0 <= length2 a) by (unfold length2; nra). assert (0 <= length2 b) by (unfold length2; nra). apply Rmult_le_compat; assumption. Qed.
Definition pureq (v : vec3) : quat := Q4 (vx v) (vy v) (vz v) 0.
Lemma len_pure v M : Rabs (vx v) <= M -> Rabs (vy v) <= M -> Rabs (vz v) <= M -> length2 (pureq v) <= 3 * (M * M).
Proof. intros A B C. unfold length2, pureq. cbn [QuatModel.qx QuatModel.qy QuatModel.qz QuatModel.qw]. apply abs2 in A, B, C. nra. Qed.
Lemma rotate_ok r p M : nearly_unit (/ 500000) r -> coords M p -> / 100000 <= M <= 1000000000 ->
  finite3 (qrot32 r p) /\ near_vec (83 * ulp32 * M) (qrot32 r p) (qrot (value r) (real_vec p)) /\
  Rabs (vx (qrot (value r) (real_vec p))) <= 7 / 4 * M /\ Rabs (vy (qrot (value r) (real_vec p))) <= 7 / 4 * M /\ Rabs (vz (qrot (value r) (real_vec p))) <= 7 / 4 * M.
Proof.
  intros [Fr Lr] HC HM. destruct p as [[a b] c]. destruct HC as ((Fa & Fb & Fc) & Ba & Bb & Bc). apply abs2 in Lr.
  destruct (comps_le (value r) (101 / 100)) as (Rx & Ry & Rz & Rw); [lra|lra|].
  assert (Br : below4 (101 / 100) r) by (destruct r as [[[x y] z] w]; cbn in *; tauto).
  assert (Fp : finite4 (a, b, c, B754_zero false)) by (repeat split; assumption || reflexivity).
  assert (Bp : below4 M (a, b, c, B754_zero false)) by (cbn; repeat split; try assumption; rewrite Rabs_R0; lra).
  destruct (qmul32_s _ _ _ _ Fr Fp Br Bp) as [F1 W1]; [lra|].
  change (value (a, b, c, B754_zero false)) with (pureq (real_vec (a, b, c))) in W1. set (v := real_vec (a, b, c)) in *.
  set (Qf := qmul32 r (a, b, c, B754_zero false)) in *. set (Q := qmul (value r) (pureq v)) in *.
  assert (LP : length2 (pureq v) <= 3 * (M * M)) by (apply len_pure; assumption).
  assert (LQ : length2 Q <= 7 / 4 * M * (7 / 4 * M)) by (eapply Rle_trans; [apply (length2_le_prod _ _ (500001 / 500000) (3 * (M * M))); [lra|lra|exact LP]|nra]).
  destruct (comps_le Q (7 / 4 * M) ltac:(lra) LQ) as (Qx & Qy & Qz & Qw).
  assert (BQ : below4 (176 / 100 * M) Qf).
  { destruct W1 as (w1 & w2 & w3 & w4). clearbody Q. destruct Qf as [[[x y] z] w]. cbn [value QuatModel.qx QuatModel.qy QuatModel.qz QuatModel.qw] in w1, w2, w3, w4. unfold below4. apply abs2 in w1, w2, w3, w4, Qx, Qy, Qz, Qw. unfold ulp32 in *. repeat split; apply abs2; lra. }
  assert (Bc' : below4 (101 / 100) (qconj32 r)).
  { destruct r as [[[x y] z] w]. cbn in Br |- *. unfold f2r in *. rewrite !B2R_Bopp, !Rabs_Ropp. tauto. }
  destruct (qmul32_s _ _ _ _ F1 (finite_conj _ Fr) BQ Bc') as [F2 W2]; [lra|]. rewrite value_conj in W2.
  assert (W3 : within4 (4 * (14 * ulp32 * (101 / 100 * M) * (101 / 100))) (qmul (value Qf) (conj (value r))) (qmul Q (conj (value r)))).
  { apply qmul_lip; [exact W1|..]; unfold conj; cbn [QuatModel.qx QuatModel.qy QuatModel.qz QuatModel.qw]; rewrite ?Rabs_Ropp; assumption. }
  assert (LT : length2 (qmul Q (conj (value r))) <= 7 / 4 * M * (7 / 4 * M)).
  { unfold Q. eapply Rle_trans; [apply (length2_le_prod _ _ (500001 / 500000 * (3 * (M * M))) (500001 / 500000)); [nra|apply length2_le_prod; [lra|lra|exact LP]|rewrite length2_conj; lra]|nra]. }
  destruct (comps_le _ (7 / 4 * M) ltac:(lra) LT) as (Tx & Ty & Tz & _).
  unfold qrot. fold (pureq v). fold Q. cbn [vx vy vz]. split; [|split; [|repeat split; assumption]].
  - unfold qrot32. fold Qf. destruct (qmul32 Qf (qconj32 r)) as [[[x y] z] w]. destruct F2 as (? & ? & ? & ?). repeat split; assumption.
  - unfold qrot32. fold Qf. destruct (qmul32 Qf (qconj32 r)) as [[[x y] z] w]. destruct F2 as (? & ? & ? & ?). destruct W2 as (u1 & u2 & u3 & _). destruct W3 as (x1 & x2 & x3 & _).
    cbn [value QuatModel.qx QuatModel.qy QuatModel.qz QuatModel.qw] in u1, u2, u3. split; [repeat split; assumption|]. unfold f2r in u1, u2, u3. cbn [vx vy vz].
    apply abs2 in u1, u2, u3, x1, x2, x3. unfold ulp32 in *. repeat split; apply abs2; lra.
Qed.
