From Coq Require Import Reals ZArith List Bool Lra Lia Psatz.
From Flocq Require Import Core.Core IEEE754.BinarySingleNaN.
From Verif Require Import Arith Ieee QuatModel QuatSpec QuatProofs NdModel LikeFloatProofs LikeFloatErr KdFloatProofs IeeeErr QuatFloatModel QuatFloatSpec.
Import ListNotations.
Local Open Scope R_scope.

Definition e0 : R := / 1000000000000000000000000000000.   (* 1e-30, far above 2^-150 *)
Lemma eta_e0 : bpow radix2 (-150) <= e0.
Proof. unfold e0. cbn. lra. Qed.
Lemma u_ulp : bpow radix2 (-24) = ulp32. Proof. unfold ulp32. cbn. lra. Qed.
Lemma big100 : 1000 <= bpow radix2 100. Proof. cbn. lra. Qed.

Lemma rnd_e x M : Rabs x <= M -> Rabs (rnd x - x) <= ulp32 * M + e0.
Proof.
  intro H. eapply Rle_trans; [apply rnd_err|]. rewrite u_ulp. apply Rplus_le_compat; [|apply eta_e0].
  apply Rmult_le_compat_l; [unfold ulp32; lra|exact H].
Qed.
Lemma mul_e a b M : is_finite a = true -> is_finite b = true -> Rabs (f2r a * f2r b) <= M -> M <= 1000 ->
  is_finite (fmult32 a b) = true /\ Rabs (f2r (fmult32 a b) - f2r a * f2r b) <= ulp32 * M + e0.
Proof.
  intros Fa Fb H K. destruct (mul_fin a b Fa Fb) as [A B]; [pose proof big100; lra|]. split; [exact A|]. rewrite B. apply rnd_e, H.
Qed.
Lemma sub_e a b M : is_finite a = true -> is_finite b = true -> Rabs (f2r a - f2r b) <= M -> M <= 1000 ->
  is_finite (fminus32 a b) = true /\ Rabs (f2r (fminus32 a b) - (f2r a - f2r b)) <= ulp32 * M + e0.
Proof.
  intros Fa Fb H K. destruct (sub_fin a b Fa Fb) as [A B]; [pose proof big100; lra|]. split; [exact A|]. rewrite B. apply rnd_e, H.
Qed.
Lemma add_fin a b : is_finite a = true -> is_finite b = true -> Rabs (f2r a + f2r b) <= bpow radix2 100 ->
  is_finite (fplus32 a b) = true /\ f2r (fplus32 a b) = rnd (f2r a + f2r b).
Proof.
  intros Fa Fb H. pose proof (Bplus_correct 24 128 _ _ mode_NE a b Fa Fb) as E. fold (f2r a) (f2r b) in E. rewrite (fits _ H) in E.
  destruct E as (E1 & E2 & _). split; [exact E2|exact E1].
Qed.
Lemma add_e a b M : is_finite a = true -> is_finite b = true -> Rabs (f2r a + f2r b) <= M -> M <= 1000 ->
  is_finite (fplus32 a b) = true /\ Rabs (f2r (fplus32 a b) - (f2r a + f2r b)) <= ulp32 * M + e0.
Proof.
  intros Fa Fb H K. destruct (add_fin a b Fa Fb) as [A B]; [pose proof big100; lra|]. split; [exact A|]. rewrite B. apply rnd_e, H.
Qed.
Ltac ab := repeat match goal with H : Rabs _ <= _ |- _ => apply abs2 in H end; try match goal with |- Rabs _ <= _ => apply abs2 end; unfold ulp32, e0 in *.

Lemma prod_bound a b A B : Rabs a <= A -> Rabs b <= B -> Rabs (a * b) <= A * B.
Proof. intros. rewrite Rabs_mult. apply Rmult_le_compat; try apply Rabs_pos; assumption. Qed.

(** ** the product *)
Definition small4 (q : quat32) : Prop := let '(x, y, z, w) := q in Rabs (f2r x) <= 3 / 2 /\ Rabs (f2r y) <= 3 / 2 /\ Rabs (f2r z) <= 3 / 2 /\ Rabs (f2r w) <= 3 / 2.
Lemma mul32_e a b : is_finite a = true -> is_finite b = true -> Rabs (f2r a) <= 3 / 2 -> Rabs (f2r b) <= 3 / 2 ->
  is_finite (fmult32 a b) = true /\ Rabs (f2r (fmult32 a b) - f2r a * f2r b) <= 3 * ulp32 /\ Rabs (f2r a * f2r b) <= 9 / 4.
Proof.
  intros Fa Fb A B. pose proof (prod_bound _ _ _ _ A B) as P. destruct (mul_e a b _ Fa Fb P) as [M1 M2]; [lra|]. split; [exact M1|]. split; [|lra].
  eapply Rle_trans; [exact M2|]. unfold ulp32, e0. lra.
Qed.
Lemma sum3_e p q r w P Q T W : is_finite p = true -> is_finite q = true -> is_finite r = true -> is_finite w = true ->
  Rabs (f2r p - P) <= 3 * ulp32 -> Rabs (f2r q - Q) <= 3 * ulp32 -> Rabs (f2r r - T) <= 3 * ulp32 -> Rabs (f2r w - W) <= 3 * ulp32 ->
  Rabs P <= 9 / 4 -> Rabs Q <= 9 / 4 -> Rabs T <= 9 / 4 -> Rabs W <= 9 / 4 ->
  is_finite (fminus32 (fplus32 (fplus32 p q) r) w) = true /\ Rabs (f2r (fminus32 (fplus32 (fplus32 p q) r) w) - (P + Q + T - W)) <= 35 * ulp32.
Proof.
  intros Fp Fq Fr Fw. intros.
  destruct (add_e p q 5 Fp Fq) as [A1 A2]; [ab; lra|lra|].
  destruct (add_e (fplus32 p q) r 7 A1 Fr) as [B1 B2]; [ab; lra|lra|].
  destruct (sub_e (fplus32 (fplus32 p q) r) w 10 B1 Fw) as [C1 C2]; [ab; lra|lra|].
  split; [exact C1|]. ab; lra.
Qed.
Lemma diff3_e p q r w P Q T W : is_finite p = true -> is_finite q = true -> is_finite r = true -> is_finite w = true ->
  Rabs (f2r p - P) <= 3 * ulp32 -> Rabs (f2r q - Q) <= 3 * ulp32 -> Rabs (f2r r - T) <= 3 * ulp32 -> Rabs (f2r w - W) <= 3 * ulp32 ->
  Rabs P <= 9 / 4 -> Rabs Q <= 9 / 4 -> Rabs T <= 9 / 4 -> Rabs W <= 9 / 4 ->
  is_finite (fminus32 (fminus32 (fminus32 p q) r) w) = true /\ Rabs (f2r (fminus32 (fminus32 (fminus32 p q) r) w) - (P - Q - T - W)) <= 35 * ulp32.
Proof.
  intros Fp Fq Fr Fw. intros.
  destruct (sub_e p q 5 Fp Fq) as [A1 A2]; [ab; lra|lra|].
  destruct (sub_e (fminus32 p q) r 7 A1 Fr) as [B1 B2]; [ab; lra|lra|].
  destruct (sub_e (fminus32 (fminus32 p q) r) w 10 B1 Fw) as [C1 C2]; [ab; lra|lra|].
  split; [exact C1|]. ab; lra.
Qed.
Lemma qmul32_ok a b : finite4 a -> finite4 b -> small4 a -> small4 b ->
  finite4 (qmul32 a b) /\ within4 (35 * ulp32) (value (qmul32 a b)) (qmul (value a) (value b)).
Proof.
  destruct a as [[[x y] z] w], b as [[[x' y'] z'] w']. intros (Fx & Fy & Fz & Fw) (Gx & Gy & Gz & Gw) (Sx & Sy & Sz & Sw) (Tx & Ty & Tz & Tw).
  pose proof (mul32_e w x' Fw Gx Sw Tx) as (a1 & a2 & a3). pose proof (mul32_e x w' Fx Gw Sx Tw) as (b1 & b2 & b3).
  pose proof (mul32_e y z' Fy Gz Sy Tz) as (c1 & c2 & c3). pose proof (mul32_e z y' Fz Gy Sz Ty) as (d1 & d2 & d3).
  pose proof (mul32_e w y' Fw Gy Sw Ty) as (e1 & e2 & e3). pose proof (mul32_e y w' Fy Gw Sy Tw) as (f1 & f2 & f3).
  pose proof (mul32_e z x' Fz Gx Sz Tx) as (g1 & g2 & g3). pose proof (mul32_e x z' Fx Gz Sx Tz) as (h1 & h2 & h3).
  pose proof (mul32_e w z' Fw Gz Sw Tz) as (i1 & i2 & i3). pose proof (mul32_e z w' Fz Gw Sz Tw) as (j1 & j2 & j3).
  pose proof (mul32_e x y' Fx Gy Sx Ty) as (k1 & k2 & k3). pose proof (mul32_e y x' Fy Gx Sy Tx) as (l1 & l2 & l3).
  pose proof (mul32_e w w' Fw Gw Sw Tw) as (m1 & m2 & m3). pose proof (mul32_e x x' Fx Gx Sx Tx) as (n1 & n2 & n3).
  pose proof (mul32_e y y' Fy Gy Sy Ty) as (o1 & o2 & o3). pose proof (mul32_e z z' Fz Gz Sz Tz) as (p1 & p2 & p3).
  destruct (sum3_e _ _ _ _ _ _ _ _ a1 b1 c1 d1 a2 b2 c2 d2 a3 b3 c3 d3) as [X1 X2].
  destruct (sum3_e _ _ _ _ _ _ _ _ e1 f1 g1 h1 e2 f2 g2 h2 e3 f3 g3 h3) as [Y1 Y2].
  destruct (sum3_e _ _ _ _ _ _ _ _ i1 j1 k1 l1 i2 j2 k2 l2 i3 j3 k3 l3) as [Z1 Z2].
  destruct (diff3_e _ _ _ _ _ _ _ _ m1 n1 o1 p1 m2 n2 o2 p2 m3 n3 o3 p3) as [W1 W2].
  split; [repeat split; assumption|]. unfold within4. cbn [qmul32 value qmul QuatModel.qx QuatModel.qy QuatModel.qz QuatModel.qw]. repeat split; assumption.
Qed.

(** ** squared length *)
Lemma square_e a : is_finite a = true -> f2r a * f2r a <= 4 ->
  is_finite (fmult32 a a) = true /\ Rabs (f2r (fmult32 a a) - f2r a * f2r a) <= ulp32 * (f2r a * f2r a) + e0.
Proof.
  intros Fa H. assert (0 <= f2r a * f2r a) by nra. apply (mul_e a a (f2r a * f2r a)); auto; [rewrite Rabs_pos_eq by assumption; apply Rle_refl|lra].
Qed.
Lemma sum_rel a b : is_finite a = true -> is_finite b = true -> 0 <= f2r a + f2r b <= 100 ->
  is_finite (fplus32 a b) = true /\ Rabs (f2r (fplus32 a b) - (f2r a + f2r b)) <= ulp32 * (f2r a + f2r b) + e0.
Proof. intros Fa Fb H. apply add_e; auto; [rewrite Rabs_pos_eq by lra; lra|lra]. Qed.
Lemma square_nonneg a : is_finite a = true -> f2r a * f2r a <= 4 -> 0 <= f2r (fmult32 a a).
Proof.
  intros Fa H. assert (P : 0 <= f2r a * f2r a) by nra. destruct (mul_fin a a Fa Fa) as [_ B]; [rewrite Rabs_pos_eq by exact P; pose proof big100; lra|].
  rewrite B. apply rnd_ge; [apply fmt_0|exact P].
Qed.
Lemma qdot32_ok q : finite4 q -> / 4 <= length2 (value q) <= 4 ->
  is_finite (qdot32 q q) = true /\ close (5 * ulp32) (f2r (qdot32 q q)) (length2 (value q)).
Proof.
  destruct q as [[[x y] z] w]. intros (Fx & Fy & Fz & Fw) N. cbn [value length2 QuatModel.qx QuatModel.qy QuatModel.qz QuatModel.qw] in *. unfold length2 in *. cbn [QuatModel.qx QuatModel.qy QuatModel.qz QuatModel.qw] in *.
  assert (Px : 0 <= f2r x * f2r x) by nra. assert (Py : 0 <= f2r y * f2r y) by nra. assert (Pz : 0 <= f2r z * f2r z) by nra. assert (Pw : 0 <= f2r w * f2r w) by nra.
  destruct (square_e x Fx) as [A1 A2]; [lra|]. destruct (square_e y Fy) as [B1 B2]; [lra|]. destruct (square_e z Fz) as [C1 C2]; [lra|]. destruct (square_e w Fw) as [D1 D2]; [lra|].
  pose proof (square_nonneg x Fx ltac:(lra)) as Nx. pose proof (square_nonneg y Fy ltac:(lra)) as Ny. pose proof (square_nonneg z Fz ltac:(lra)) as Nz. pose proof (square_nonneg w Fw ltac:(lra)) as Nw.
  revert Px Py Pz Pw N A2 B2 C2 D2 Nx Ny Nz Nw. generalize (f2r x * f2r x), (f2r y * f2r y), (f2r z * f2r z), (f2r w * f2r w). intros X Y Z W Px Py Pz Pw N A2 B2 C2 D2 Nx Ny Nz Nw.
  destruct (sum_rel (fmult32 x x) (fmult32 y y) A1 B1) as [E1 E2]; [ab; lra|].
  assert (N1 : 0 <= f2r (fplus32 (fmult32 x x) (fmult32 y y))).
  { destruct (add_fin (fmult32 x x) (fmult32 y y) A1 B1) as [_ K]; [rewrite Rabs_pos_eq by lra; pose proof big100; ab; lra|]. rewrite K. apply rnd_ge; [apply fmt_0|lra]. }
  destruct (sum_rel _ (fmult32 z z) E1 C1) as [G1 G2]; [ab; lra|].
  assert (N2 : 0 <= f2r (fplus32 (fplus32 (fmult32 x x) (fmult32 y y)) (fmult32 z z))).
  { destruct (add_fin _ (fmult32 z z) E1 C1) as [_ K]; [rewrite Rabs_pos_eq by lra; pose proof big100; ab; lra|]. rewrite K. apply rnd_ge; [apply fmt_0|lra]. }
  destruct (sum_rel _ (fmult32 w w) G1 D1) as [H1 H2]; [ab; lra|].
  split; [exact H1|]. apply close_iff; [unfold ulp32; lra|]. rewrite (Rabs_pos_eq (X + Y + Z + W)) by lra. cbn [qdot32]. ab; lra.
Qed.
(** ** the reciprocal factor of operator/ *)
Lemma recip_ok s S : is_finite s = true -> / 5 <= S <= 5 -> close (8 * ulp32) (f2r s) S ->
  is_finite (recip32 s) = true /\ close (11 * ulp32) (f2r (recip32 s)) (/ S).
Proof.
  intros Fs HS C. destruct (close_pos _ _ _ C) as (C1 & C2); [unfold ulp32; lra|lra|].
  assert (Q : / 6 <= f2r s <= 6) by (unfold ulp32 in C1; nra).
  destruct (widen_exact s Fs) as [W1 W2]. unfold recip32.
  assert (One : is_finite (f64_of_Z 1) = true /\ B2R (f64_of_Z 1) = 1) by (split; [reflexivity|rewrite <- SF2R_B2SF; lazy -[SF2R IZR Rmult Rinv Rdiv]; unfold SF2R, F2R; cbn; lra]).
  destruct One as [O1 O2].
  assert (I : / 6 <= / f2r s <= 6).
  { split; [apply Rinv_le_contravar; lra|]. apply Rmult_le_reg_r with (f2r s); [lra|]. rewrite Rinv_l by lra. lra. }
  assert (E : B2R (f64_of_Z 1) / B2R (f64_of_f32 s) = / f2r s) by (rewrite O2, W2; unfold f2r; field; unfold f2r in C2; lra).
  destruct (div64_close (f64_of_Z 1) (f64_of_f32 s) O1) as [D1 D2].
  { rewrite W2. unfold f2r in C2. lra. }
  { rewrite E. apply mid_pos. lra. }
  rewrite E in D2. destruct (close_pos _ _ _ D2) as (D3 & D4); [unfold ulp64; lra|lra|].
  destruct (narrow_close (div64 (f64_of_Z 1) (f64_of_f32 s))) as [N1 N2].
  { apply mid_pos. unfold ulp64 in D3. nra. }
  split; [exact N1|].
  assert (C' : close (9 * ulp32) (/ f2r s) (/ S)).
  { apply close_inv with (k := 8 * ulp32); [exact C|lra|unfold ulp32; lra|unfold ulp32; lra]. }
  assert (D5 : close (ulp64 + 9 * ulp32 + ulp64 * (9 * ulp32)) (B2R (div64 (f64_of_Z 1) (f64_of_f32 s))) (/ S)).
  { eapply close_trans; [exact D2|exact C'|]. lra. }
  eapply close_trans; [exact N2|exact D5|]. unfold ulp32, ulp64. lra.
Qed.
(** ** scaling *)
Lemma scale_e a r : is_finite a = true -> is_finite r = true -> Rabs (f2r a * f2r r) <= 100 ->
  is_finite (fmult32 a r) = true /\ Rabs (f2r (fmult32 a r) * f2r (fmult32 a r) - (f2r a * f2r r) * (f2r a * f2r r)) <= 3 * ulp32 * ((f2r a * f2r r) * (f2r a * f2r r)) + / 1000000000000
   /\ Rabs (f2r (fmult32 a r) - f2r a * f2r r) <= ulp32 * Rabs (f2r a * f2r r) + e0.
Proof.
  intros Fa Fr H. destruct (mul_e a r (Rabs (f2r a * f2r r)) Fa Fr) as [A B]; [apply Rle_refl|lra|]. split; [exact A|]. split; [|exact B].
  revert B H. generalize (f2r (fmult32 a r)), (f2r a * f2r r). intros v X B H.
  replace (v * v - X * X) with ((v - X) * (v - X) + 2 * X * (v - X)) by ring. eapply Rle_trans; [apply Rabs_triang|]. rewrite !Rabs_mult, (Rabs_pos_eq 2) by lra.
  replace (X * X) with (Rabs X * Rabs X) by (rewrite <- Rabs_mult; apply Rabs_pos_eq; nra).
  pose proof (Rabs_pos X) as PX. pose proof (Rabs_pos (v - X)) as PV. revert PX PV B H. generalize (Rabs X), (Rabs (v - X)). intros x d PX PV B H.
  assert (T : d * d <= d * (ulp32 * x + e0)) by (apply Rmult_le_compat_l; lra).
  assert (T1 : d * (ulp32 * x + e0) <= (ulp32 * x + e0) * (ulp32 * x + e0)) by (apply Rmult_le_compat_r; [unfold ulp32, e0; nra|lra]).
  assert (T2 : 2 * x * d <= 2 * x * (ulp32 * x + e0)) by (apply Rmult_le_compat_l; lra).
  eapply Rle_trans; [apply Rplus_le_compat; [eapply Rle_trans; [exact T|exact T1]|exact T2]|].
  assert (X2 : 0 <= x * x) by nra. unfold ulp32, e0 in *.
  replace ((/ 16777216 * x + / 1000000000000000000000000000000) * (/ 16777216 * x + / 1000000000000000000000000000000)) with
    (/ 16777216 * / 16777216 * (x * x) + 2 * / 16777216 * / 1000000000000000000000000000000 * x + / 1000000000000000000000000000000 * / 1000000000000000000000000000000) by ring.
  replace (2 * x * (/ 16777216 * x + / 1000000000000000000000000000000)) with (2 * / 16777216 * (x * x) + 2 * / 1000000000000000000000000000000 * x) by ring.
  revert X2. generalize (x * x). intros y X2. lra.
Qed.
Lemma qscale32_ok q r N R0 : finite4 q -> is_finite r = true -> length2 (value q) = N -> / 4 <= N <= 4 -> close (11 * ulp32) (f2r r) R0 -> / 5 <= R0 <= 5 ->
  finite4 (qscale32 q r) /\ Rabs (length2 (value (qscale32 q r)) - N * (R0 * R0)) <= 27 * ulp32 * (N * (R0 * R0)) + / 100000000000
  /\ within4 (25 * ulp32 * R0) (value (qscale32 q r)) (qscale (value q) R0).
Proof.
  destruct q as [[[x y] z] w]. intros (Fx & Fy & Fz & Fw) Fr EN HN C HR. unfold length2 in *. cbn [value qscale32 QuatModel.qx QuatModel.qy QuatModel.qz QuatModel.qw] in *.
  destruct (close_pos _ _ _ C) as (C1 & C2); [unfold ulp32; lra|lra|].
  assert (Rb : 0 < f2r r <= 6) by (unfold ulp32 in C1; nra).
  assert (Cb : forall a, a * a <= 4 -> Rabs a <= 2) by (intros a Ha; apply Rabs_le; split; nra).
  assert (Px : 0 <= f2r x * f2r x) by nra. assert (Py : 0 <= f2r y * f2r y) by nra. assert (Pz : 0 <= f2r z * f2r z) by nra. assert (Pw : 0 <= f2r w * f2r w) by nra.
  pose proof (Cb (f2r x) ltac:(lra)) as Bx. pose proof (Cb (f2r y) ltac:(lra)) as By. pose proof (Cb (f2r z) ltac:(lra)) as Bz. pose proof (Cb (f2r w) ltac:(lra)) as Bw.
  assert (Br : Rabs (f2r r) <= 6) by (rewrite Rabs_pos_eq; lra).
  assert (L : forall a, Rabs a <= 2 -> Rabs (a * f2r r) <= 100) by (intros a Ha; pose proof (prod_bound _ _ _ _ Ha Br); lra).
  destruct (scale_e x r Fx Fr (L _ Bx)) as (X1 & X2 & X3). destruct (scale_e y r Fy Fr (L _ By)) as (Y1 & Y2 & Y3).
  destruct (scale_e z r Fz Fr (L _ Bz)) as (Z1 & Z2 & Z3). destruct (scale_e w r Fw Fr (L _ Bw)) as (W1 & W2 & W3).
  split; [repeat split; assumption|]. split.
  - set (s2 := f2r r * f2r r).
    assert (E : forall a, a * f2r r * (a * f2r r) = a * a * s2) by (intro; unfold s2; ring). rewrite E in X2, Y2, Z2, W2.
    assert (S : Rabs (s2 - R0 * R0) <= 23 * ulp32 * (R0 * R0)).
    { unfold s2. destruct C as (e & He & Ee). rewrite Ee. replace (R0 * (1 + e) * (R0 * (1 + e)) - R0 * R0) with (R0 * R0 * (2 * e + e * e)) by ring.
      rewrite Rabs_mult, (Rabs_pos_eq (R0 * R0)) by nra. rewrite Rmult_comm. apply Rmult_le_compat_r; [nra|]. ab. split; nra. }
    assert (EX : Rabs (N * s2 - N * (R0 * R0)) <= 23 * ulp32 * (N * (R0 * R0))).
    { replace (N * s2 - N * (R0 * R0)) with (N * (s2 - R0 * R0)) by ring. rewrite Rabs_mult, (Rabs_pos_eq N) by lra. replace (23 * ulp32 * (N * (R0 * R0))) with (N * (23 * ulp32 * (R0 * R0))) by ring. apply Rmult_le_compat_l; lra. }
    assert (ES : f2r x * f2r x * s2 + f2r y * f2r y * s2 + f2r z * f2r z * s2 + f2r w * f2r w * s2 = N * s2) by (rewrite <- EN; ring).
    assert (PN : 0 <= N * (R0 * R0)) by (apply Rmult_le_pos; nra).
    revert X2 Y2 Z2 W2 EX ES PN. generalize (f2r x * f2r x * s2), (f2r y * f2r y * s2), (f2r z * f2r z * s2), (f2r w * f2r w * s2), (N * s2), (N * (R0 * R0)).
    generalize (f2r (fmult32 x r) * f2r (fmult32 x r)), (f2r (fmult32 y r) * f2r (fmult32 y r)), (f2r (fmult32 z r) * f2r (fmult32 z r)), (f2r (fmult32 w r) * f2r (fmult32 w r)).
    intros. ab. lra.
  - assert (K : forall a v, Rabs a <= 2 -> Rabs (v - a * f2r r) <= ulp32 * Rabs (a * f2r r) + e0 -> Rabs (v - a * R0) <= 25 * ulp32 * R0).
    { intros a v Ha Hv. assert (He : e0 <= / 1000 * ulp32 * R0) by (unfold e0, ulp32; lra). destruct C as (e & Hee & Ee). replace (v - a * R0) with ((v - a * f2r r) + a * (f2r r - R0)) by ring. eapply Rle_trans; [apply Rabs_triang|].
      assert (T1 : Rabs (a * (f2r r - R0)) <= 2 * (11 * ulp32 * R0)).
      { apply prod_bound; [exact Ha|]. rewrite Ee. replace (R0 * (1 + e) - R0) with (e * R0) by ring. rewrite Rabs_mult, (Rabs_pos_eq R0) by lra. apply Rmult_le_compat_r; lra. }
      assert (T2 : Rabs (a * f2r r) <= 2 * (R0 * (1 + 11 * ulp32))).
      { apply prod_bound; [exact Ha|]. rewrite Rabs_pos_eq by lra. lra. }
      assert (T3 : ulp32 * Rabs (a * f2r r) <= ulp32 * (2 * (R0 * (1 + 11 * ulp32)))) by (apply Rmult_le_compat_l; [unfold ulp32; lra|exact T2]).
      unfold ulp32 in *. nra. }
    unfold within4. cbn [qscale QuatModel.qx QuatModel.qy QuatModel.qz QuatModel.qw]. split; [apply K; assumption|]. split; [apply K; assumption|]. split; apply K; assumption.
Qed.
(** ** normalization *)
Lemma sqrt_range N : / 4 <= N <= 4 -> / 2 <= sqrt N <= 2.
Proof.
  intro H. split.
  - replace (/ 2) with (sqrt (/ 4)); [apply sqrt_le_1; lra|]. replace (/ 4) with (/ 2 * / 2) by lra. apply sqrt_square. lra.
  - replace 2 with (sqrt 4); [apply sqrt_le_1; lra|]. replace 4 with (2 * 2) by lra. apply sqrt_square. lra.
Qed.
Lemma inv_range s a b : 0 < a -> a <= s <= b -> / b <= / s <= / a.
Proof. intros A [L U]. split; apply Rinv_le_contravar; lra. Qed.
Lemma qnormalized32_ok q : finite4 q -> / 4 <= length2 (value q) <= 4 ->
  nearly_unit (/ 500000) (qnormalized32 q) /\ within4 (/ 300000) (value (qnormalized32 q)) (qnormalized (value q)).
Proof.
  intros F HN. set (N := length2 (value q)) in *. destruct (qdot32_ok q F HN) as [D1 D2]. fold N in D2.
  destruct (close_pos _ _ _ D2) as (D3 & D4); [unfold ulp32; lra|lra|].
  pose proof (sqrt_range N HN) as SN.
  assert (Q : close (5 * ulp32) (sqrt (f2r (qdot32 q q))) (sqrt N)) by (apply close_sqrt; [exact D2|lra|unfold ulp32; lra]).
  destruct (close_pos _ _ _ Q) as (Q1 & Q2); [unfold ulp32; lra|lra|].
  destruct (sqrt32_close (qdot32 q q)) as [S1 S2]; [exact D4|apply mid_pos; fold (f2r (qdot32 q q)); unfold ulp32 in Q1; nra|].
  assert (S3 : close (8 * ulp32) (f2r (qnorm32 q)) (sqrt N)).
  { eapply close_trans; [exact S2|exact Q|]. unfold ulp32. lra. }
  destruct (recip_ok (qnorm32 q) (sqrt N) S1) as [R1 R2]; [lra|exact S3|].
  pose proof (inv_range (sqrt N) (/ 2) 2 ltac:(lra) SN) as IR. rewrite Rinv_inv in IR.
  destruct (qscale32_ok q (recip32 (qnorm32 q)) N (/ sqrt N) F R1 eq_refl HN R2) as (A1 & A2 & A3); [lra|].
  assert (E1 : N * (/ sqrt N * / sqrt N) = 1).
  { rewrite <- (sqrt_sqrt N) at 1 by lra. field. lra. }
  rewrite E1 in A2. split.
  - split; [exact A1|]. unfold qnormalized32, qdiv32. eapply Rle_trans; [exact A2|]. unfold ulp32. lra.
  - assert (E2 : qnormalized (value q) = qscale (value q) (/ sqrt N)).
    { unfold qnormalized, qdiv. f_equal. unfold Rdiv. rewrite Rmult_1_l. f_equal. }
    rewrite E2. unfold within4 in *. unfold qnormalized32, qdiv32. unfold ulp32 in A3. destruct A3 as (B1 & B2 & B3 & B4). repeat split; (eapply Rle_trans; [eassumption|lra]).
Qed.
(** ** the inverse *)
Lemma value_conj q : value (qconj32 q) = conj (value q).
Proof. destruct q as [[[x y] z] w]. cbn [qconj32 value]. unfold conj, f2r. cbn [QuatModel.qx QuatModel.qy QuatModel.qz QuatModel.qw]. rewrite !B2R_Bopp. reflexivity. Qed.
Lemma finite_conj q : finite4 q -> finite4 (qconj32 q).
Proof. destruct q as [[[x y] z] w]. cbn [qconj32 finite4]. rewrite !is_finite_Bopp. auto. Qed.
Lemma length2_conj q : length2 (conj q) = length2 q.
Proof. unfold length2, conj. cbn [QuatModel.qx QuatModel.qy QuatModel.qz QuatModel.qw]. ring. Qed.
Lemma qinv32_ok q : nearly_unit (/ 100) q -> nearly_unit (/ 50) (qinv32 q).
Proof.
  intros [F H]. assert (HN : 99 / 100 <= length2 (value q) <= 101 / 100) by (ab; lra). set (N := length2 (value q)) in *.
  destruct (qdot32_ok q F) as [D1 D2]; [fold N; lra|]. fold N in D2.
  destruct (recip_ok (qdot32 q q) N D1) as [R1 R2]; [lra|eapply close_weak; [exact D2|unfold ulp32; lra]|].
  pose proof (inv_range N (99 / 100) (101 / 100) ltac:(lra) HN) as IR.
  assert (L : length2 (value (qconj32 q)) = N) by (rewrite value_conj, length2_conj; reflexivity).
  destruct (qscale32_ok (qconj32 q) (recip32 (qdot32 q q)) N (/ N) (finite_conj q F) R1 L) as (A1 & A2 & _); [lra|exact R2|split; lra|].
  assert (E : qinv32 q = qscale32 (qconj32 q) (recip32 (qdot32 q q))) by (destruct q as [[[x y] z] w]; reflexivity).
  rewrite E. split; [exact A1|]. replace (N * (/ N * / N)) with (/ N) in A2 by (field; lra).
  unfold ulp32 in A2. apply abs2 in A2. apply abs2. lra.
Qed.
(** ** lengths of products *)
Lemma sq_abs x : x * x <= 9 / 4 -> Rabs x <= 3 / 2.
Proof. intro H. apply abs2. nra. Qed.
Lemma len_small q : length2 (value q) <= 9 / 4 -> small4 q.
Proof.
  destruct q as [[[x y] z] w]. unfold length2. cbn [value small4 QuatModel.qx QuatModel.qy QuatModel.qz QuatModel.qw]. intro H.
  assert (0 <= f2r x * f2r x) by nra. assert (0 <= f2r y * f2r y) by nra. assert (0 <= f2r z * f2r z) by nra. assert (0 <= f2r w * f2r w) by nra.
  repeat split; apply sq_abs; lra.
Qed.
Lemma comp_len a b e : 0 <= e <= 1 -> Rabs (a - b) <= e -> b * b <= 9 / 4 -> Rabs (a * a - b * b) <= 4 * e.
Proof.
  intros E H B. apply sq_abs in B. replace (a * a - b * b) with ((a - b) * (a - b) + 2 * (b * (a - b))) by ring.
  eapply Rle_trans; [apply Rabs_triang|]. rewrite !Rabs_mult, (Rabs_pos_eq 2) by lra.
  pose proof (Rabs_pos (a - b)). pose proof (Rabs_pos b). nra.
Qed.
Lemma within_len a b e : 0 <= e <= 1 -> within4 e a b -> length2 b <= 9 / 4 -> Rabs (length2 a - length2 b) <= 16 * e.
Proof.
  intros E (H1 & H2 & H3 & H4). unfold length2. intro L.
  destruct a as [ax ay az aw], b as [bx by_ bz bw]. cbn [QuatModel.qx QuatModel.qy QuatModel.qz QuatModel.qw] in *.
  assert (0 <= bx * bx) by nra. assert (0 <= by_ * by_) by nra. assert (0 <= bz * bz) by nra. assert (0 <= bw * bw) by nra.
  pose proof (comp_len _ _ _ E H1 ltac:(lra)) as K1. pose proof (comp_len _ _ _ E H2 ltac:(lra)) as K2.
  pose proof (comp_len _ _ _ E H3 ltac:(lra)) as K3. pose proof (comp_len _ _ _ E H4 ltac:(lra)) as K4.
  clear - K1 K2 K3 K4. ab. lra.
Qed.
Lemma length2_mul a b : length2 (qmul a b) = length2 a * length2 b.
Proof. exact (qdot_mul a b). Qed.
Lemma qmul32_len a b : finite4 a -> finite4 b -> length2 (value a) <= 9 / 4 -> length2 (value b) <= 9 / 4 ->
  length2 (value a) * length2 (value b) <= 9 / 4 ->
  finite4 (qmul32 a b) /\ Rabs (length2 (value (qmul32 a b)) - length2 (value a) * length2 (value b)) <= / 1000.
Proof.
  intros Fa Fb A B AB. destruct (qmul32_ok a b Fa Fb (len_small a A) (len_small b B)) as [F W]. split; [exact F|].
  rewrite <- length2_mul in *. eapply Rle_trans; [apply (within_len _ _ (35 * ulp32)); [unfold ulp32; lra|exact W|exact AB]|]. unfold ulp32. lra.
Qed.
Lemma nearly_weak k k' q : k <= k' -> nearly_unit k q -> nearly_unit k' q.
Proof. intros K [F H]. split; [exact F|lra]. Qed.
Lemma relative32_ok prev cur : nearly_unit (/ 100) prev -> nearly_unit (/ 100) cur -> nearly_unit (/ 20) (relative32 prev cur).
Proof.
  intros P [Fc C]. apply qinv32_ok in P. destruct P as [Fp P]. unfold relative32.
  assert (A : 49 / 50 <= length2 (value (qinv32 prev)) <= 51 / 50) by (ab; lra).
  assert (B : 99 / 100 <= length2 (value cur) <= 101 / 100) by (ab; lra).
  assert (AB : 97 / 100 <= length2 (value (qinv32 prev)) * length2 (value cur) <= 104 / 100) by nra.
  destruct (qmul32_len (qinv32 prev) cur Fp Fc) as [F L]; [lra|lra|lra|]. split; [exact F|].
  apply abs2 in L. apply abs2. lra.
Qed.
(** ** a turn about the vertical axis *)
Lemma val32f (x : f32) y : B2SF x = y -> f2r x = SF2R radix2 y.
Proof. intros <-. unfold f2r. symmetry. apply SF2R_B2SF. Qed.
Lemma ez_unit : fdiv32 (f32_of_Z 0) (norm32 ez32) = f32_of_Z 0 /\ fdiv32 (f32_of_Z 1) (norm32 ez32) = f32_of_Z 1.
Proof. split; apply (B2SF_inj 24 128); vm_compute; reflexivity. Qed.
Lemma zero_fin : is_finite (f32_of_Z 0) = true /\ f2r (f32_of_Z 0) = 0.
Proof. split; [reflexivity|]. erewrite val32f by (vm_compute; reflexivity). reflexivity. Qed.
Lemma one_fin : is_finite (f32_of_Z 1) = true /\ f2r (f32_of_Z 1) = 1.
Proof. split; [reflexivity|]. erewrite val32f by (vm_compute; reflexivity). unfold SF2R, F2R. cbn. lra. Qed.
Lemma trig_bounds s c : Rabs (s * s + c * c - 1) <= / 1000 -> Rabs s <= 101 / 100 /\ Rabs c <= 101 / 100.
Proof. intro H. ab. split; apply abs2; nra. Qed.
Section T.
Context (sinf cosf : f32 -> f32) (T : trig_ok sinf cosf).
Lemma setAxisAng32_ok a : is_finite (fdiv32 a (f32_of_Z 2)) = true -> nearly_unit (/ 500000) (setAxisAng32 sinf cosf ez32 a).
Proof.
  intro Fh. destruct (T _ Fh) as (Fs & Fc & E). unfold setAxisAng32, ez32 at 1. cbv zeta. 
  destruct ez_unit as [E0 E1]. fold ez32. rewrite E0, E1. revert Fs Fc E. generalize (sinf (fdiv32 a (f32_of_Z 2))), (cosf (fdiv32 a (f32_of_Z 2))). intros s c Fs Fc E.
  destruct zero_fin as [Z1 Z2], one_fin as [O1 O2]. destruct (trig_bounds _ _ E) as [Bs Bc].
  destruct (mul_e (f32_of_Z 0) s 0 Z1 Fs) as [M1 M2]; [rewrite Z2, Rmult_0_l, Rabs_R0; lra|lra|]. rewrite Z2, Rmult_0_l in M2.
  destruct (mul_e (f32_of_Z 1) s 2 O1 Fs) as [N1 N2]; [rewrite O2, Rmult_1_l; lra|lra|]. rewrite O2, Rmult_1_l in N2.
  revert M1 M2 N1 N2. generalize (fmult32 (f32_of_Z 0) s), (fmult32 (f32_of_Z 1) s). intros o t M1 M2 N1 N2.
  refine (proj1 (qnormalized32_ok (o, o, t, c) (Logic.conj M1 (Logic.conj M1 (Logic.conj N1 Fc))) _)).
  unfold length2. cbn [value QuatModel.qx QuatModel.qy QuatModel.qz QuatModel.qw].
  assert (0 <= f2r o * f2r o <= / 1000) by (ab; nra).
  pose proof (comp_len (f2r t) (f2r s) (/ 1000) ltac:(lra)) as K.
  assert (K1 : Rabs (f2r t * f2r t - f2r s * f2r s) <= 4 * / 1000) by (apply K; [ab; lra|ab; nra]).
  clear - H K1 E. ab. lra.
Qed.
(** ** roll, pitch and yaw *)
Lemma mul3_e a b c : is_finite a = true -> is_finite b = true -> is_finite c = true -> Rabs (f2r a) <= 101 / 100 -> Rabs (f2r b) <= 101 / 100 -> Rabs (f2r c) <= 101 / 100 ->
  is_finite (fmult32 (fmult32 a b) c) = true /\ Rabs (f2r (fmult32 (fmult32 a b) c) - f2r a * f2r b * f2r c) <= / 1000000 /\ Rabs (f2r a * f2r b * f2r c) <= 11 / 10.
Proof.
  intros Fa Fb Fc A B C. pose proof (prod_bound _ _ _ _ A B) as AB. pose proof (prod_bound _ _ _ _ AB C) as ABC.
  destruct (mul_e a b 2 Fa Fb) as [M1 M2]; [lra|lra|].
  assert (D : Rabs ((f2r (fmult32 a b) - f2r a * f2r b) * f2r c) <= (ulp32 * 2 + e0) * (101 / 100)) by (apply prod_bound; assumption).
  assert (E : Rabs (f2r (fmult32 a b) * f2r c) <= 2).
  { replace (f2r (fmult32 a b) * f2r c) with ((f2r (fmult32 a b) - f2r a * f2r b) * f2r c + f2r a * f2r b * f2r c) by ring. eapply Rle_trans; [apply Rabs_triang|]. unfold ulp32, e0 in D. lra. }
  destruct (mul_e (fmult32 a b) c 2 M1 Fc E) as [N1 N2]; [lra|]. split; [exact N1|]. split; [|lra].
  replace (f2r (fmult32 (fmult32 a b) c) - f2r a * f2r b * f2r c) with ((f2r (fmult32 (fmult32 a b) c) - f2r (fmult32 a b) * f2r c) + (f2r (fmult32 a b) - f2r a * f2r b) * f2r c) by ring.
  eapply Rle_trans; [apply Rabs_triang|]. unfold ulp32, e0 in *. lra.
Qed.
Lemma pm_e p q P Q : is_finite p = true -> is_finite q = true -> Rabs (f2r p - P) <= / 1000000 -> Rabs (f2r q - Q) <= / 1000000 -> Rabs P <= 11 / 10 -> Rabs Q <= 11 / 10 ->
  (is_finite (fplus32 p q) = true /\ Rabs (f2r (fplus32 p q) - (P + Q)) <= / 100000) /\ (is_finite (fminus32 p q) = true /\ Rabs (f2r (fminus32 p q) - (P - Q)) <= / 100000).
Proof.
  intros Fp Fq. intros. split.
  - destruct (add_e p q 3 Fp Fq) as [A B]; [ab; lra|lra|]. split; [exact A|]. ab. lra.
  - destruct (sub_e p q 3 Fp Fq) as [A B]; [ab; lra|lra|]. split; [exact A|]. ab. lra.
Qed.
Lemma setRPY32_ok r p y : is_finite (fdiv32 r (f32_of_Z 2)) = true -> is_finite (fdiv32 p (f32_of_Z 2)) = true -> is_finite (fdiv32 y (f32_of_Z 2)) = true ->
  nearly_unit (/ 10) (setRPY32 sinf cosf (r, p, y)).
Proof.
  intros Hr Hp Hy. destruct (T _ Hr) as (F3 & F2 & Er), (T _ Hp) as (F5 & F4 & Ep), (T _ Hy) as (F1 & F0 & Ey). unfold setRPY32. cbv zeta.
  revert F3 F2 Er F5 F4 Ep F1 F0 Ey.
  generalize (sinf (fdiv32 r (f32_of_Z 2))), (cosf (fdiv32 r (f32_of_Z 2))), (sinf (fdiv32 p (f32_of_Z 2))), (cosf (fdiv32 p (f32_of_Z 2))), (sinf (fdiv32 y (f32_of_Z 2))), (cosf (fdiv32 y (f32_of_Z 2))).
  intros t3 t2 t5 t4 t1 t0 F3 F2 Er F5 F4 Ep F1 F0 Ey.
  destruct (trig_bounds _ _ Er) as [B3 B2], (trig_bounds _ _ Ep) as [B5 B4], (trig_bounds _ _ Ey) as [B1 B0].
  destruct (mul3_e t0 t3 t4 F0 F3 F4 B0 B3 B4) as (a1 & a2 & a3), (mul3_e t1 t2 t5 F1 F2 F5 B1 B2 B5) as (b1 & b2 & b3).
  destruct (mul3_e t0 t2 t5 F0 F2 F5 B0 B2 B5) as (c1 & c2 & c3), (mul3_e t1 t3 t4 F1 F3 F4 B1 B3 B4) as (d1 & d2 & d3).
  destruct (mul3_e t1 t2 t4 F1 F2 F4 B1 B2 B4) as (e1 & e2 & e3), (mul3_e t0 t3 t5 F0 F3 F5 B0 B3 B5) as (f1 & f2 & f3).
  destruct (mul3_e t0 t2 t4 F0 F2 F4 B0 B2 B4) as (g1 & g2 & g3), (mul3_e t1 t3 t5 F1 F3 F5 B1 B3 B5) as (h1 & h2 & h3).
  destruct (pm_e _ _ _ _ a1 b1 a2 b2 a3 b3) as [_ [X1 X2]], (pm_e _ _ _ _ c1 d1 c2 d2 c3 d3) as [[Y1 Y2] _].
  destruct (pm_e _ _ _ _ e1 f1 e2 f2 e3 f3) as [_ [Z1 Z2]], (pm_e _ _ _ _ g1 h1 g2 h2 g3 h3) as [[W1 W2] _].
  split; [cbn [finite4]; auto|].
  match goal with |- Rabs (length2 ?v - 1) <= _ => set (V := v) end.
  pose (U := Q4 (f2r t0 * f2r t3 * f2r t4 - f2r t1 * f2r t2 * f2r t5) (f2r t0 * f2r t2 * f2r t5 + f2r t1 * f2r t3 * f2r t4)
                (f2r t1 * f2r t2 * f2r t4 - f2r t0 * f2r t3 * f2r t5) (f2r t0 * f2r t2 * f2r t4 + f2r t1 * f2r t3 * f2r t5)).
  assert (LU : length2 U = (f2r t3 * f2r t3 + f2r t2 * f2r t2) * ((f2r t5 * f2r t5 + f2r t4 * f2r t4) * (f2r t1 * f2r t1 + f2r t0 * f2r t0))).
  { unfold length2, U. cbn [QuatModel.qx QuatModel.qy QuatModel.qz QuatModel.qw]. ring. }
  assert (LB : 99 / 100 <= length2 U <= 101 / 100).
  { rewrite LU. clear - Er Ep Ey. apply abs2 in Er. apply abs2 in Ep. apply abs2 in Ey.
    revert Er Ep Ey. generalize (f2r t3 * f2r t3 + f2r t2 * f2r t2), (f2r t5 * f2r t5 + f2r t4 * f2r t4), (f2r t1 * f2r t1 + f2r t0 * f2r t0). intros u v w Hu Hv Hw.
    assert (998 / 1000 <= v * w <= 10021 / 10000) by nra. revert H. generalize (v * w). intros vw H. nra. }
  assert (K : Rabs (length2 V - length2 U) <= 16 * / 100000).
  { apply within_len; [lra| |lra]. unfold within4, V, U. cbn [value QuatModel.qx QuatModel.qy QuatModel.qz QuatModel.qw]. auto. }
  clearbody U V. clear - LB K. ab. lra.
Qed.
(** ** the steps *)
Lemma rot_step32_ok rot s : usable s -> nearly_unit (/ 10) rot -> nearly_unit (/ 500000) (rot_step32 sinf cosf rot s).
Proof.
  intros U [Fr Nr]. apply abs2 in Nr. assert (R0 : 9 / 10 <= length2 (value rot) <= 11 / 10) by lra.
  destruct s as [yd prev cur|[[r p] y]]; cbn [usable rot_step32] in *.
  - destruct U as (Fy & P & C). destruct (relative32_ok prev cur P C) as [Fe E]. destruct (setAxisAng32_ok yd Fy) as [Fa A]. unfold predict_rot32.
    apply abs2 in E. apply abs2 in A. generalize dependent (relative32 prev cur). generalize dependent (setAxisAng32 sinf cosf ez32 yd). intros a Fa A e Fe E.
    assert (P1 : 89 / 100 <= length2 (value a) * length2 (value rot) <= 111 / 100) by nra.
    destruct (qmul32_len a rot Fa Fr) as [F1 L1]; [lra|lra|lra|]. apply abs2 in L1.
    assert (P2 : 80 / 100 <= length2 (value (qmul32 a rot)) * length2 (value e) <= 120 / 100) by nra.
    destruct (qmul32_len (qmul32 a rot) e F1 Fe) as [F2 L2]; [lra|lra|lra|]. apply abs2 in L2.
    apply qnormalized32_ok; [exact F2|lra].
  - destruct U as (U1 & U2 & U3). destruct (setRPY32_ok r p y U1 U2 U3) as [Fa A]. apply abs2 in A. unfold resample_rot32.
    generalize dependent (setRPY32 sinf cosf (r, p, y)). intros a Fa A.
    assert (P1 : 80 / 100 <= length2 (value a) * length2 (value rot) <= 122 / 100) by nra.
    destruct (qmul32_len a rot Fa Fr) as [F1 L1]; [lra|lra|lra|]. apply abs2 in L1. apply qnormalized32_ok; [exact F1|lra].
Qed.
Lemma rot_steps32_ok l : forall rot, Forall usable l -> nearly_unit (/ 10) rot -> l <> [] -> nearly_unit (/ 500000) (fold_left (rot_step32 sinf cosf) l rot).
Proof.
  induction l as [|s l IH]; intros rot H N K; [contradiction|]. cbn [fold_left]. pose proof (rot_step32_ok rot s (Forall_inv H) N) as S1.
  destruct l as [|s' l]; [exact S1|]. apply IH; [exact (Forall_inv_tail H)|eapply nearly_weak; [|exact S1]; lra|discriminate].
Qed.
End T.
