(** Proofs for the gravity likelihood in single precision (C70). *)
From Coq Require Import Reals ZArith List Bool Lra Lia Psatz.
From Flocq Require Import Core.Core IEEE754.BinarySingleNaN.
From Verif Require Import Arith Ieee QuatModel QuatSpec QuatProofs NdModel LikeFloatProofs LikeFloatErr KdFloatProofs IeeeErr QuatFloatModel QuatFloatSpec QuatFloatProofs QuatFloatAcc.
Import ListNotations.
Local Open Scope R_scope.

(** the real vector a single precision vector stands for *)
Definition vvalue (v : vec32) : vec3 := let '(x, y, z) := v in V3 (f2r x) (f2r y) (f2r z).
Definition pure (v : vec3) : quat := Q4 (vx v) (vy v) (vz v) 0.
Lemma pure_dot a b : qdot (pure a) (pure b) = vdot a b.
Proof. unfold qdot, pure, vdot. cbn [QuatModel.qx QuatModel.qy QuatModel.qz QuatModel.qw]. ring. Qed.
Lemma pure_norm a : qnorm (pure a) = vnorm a.
Proof. unfold qnorm, vnorm. rewrite pure_dot. reflexivity. Qed.

(** ** dot product and norm *)
Lemma p_abs a b : is_finite a = true -> is_finite b = true -> Rabs (f2r a) * Rabs (f2r b) <= 900 ->
  is_finite (fmult32 a b) = true /\ Rabs (f2r (fmult32 a b) - f2r a * f2r b) <= ulp32 * (Rabs (f2r a) * Rabs (f2r b)) + e0.
Proof. intros Fa Fb H. apply mul_e; auto; rewrite ?Rabs_mult; lra. Qed.
Lemma dot_core a b : finite3 a -> finite3 b ->
  let '(x, y, z) := a in let '(x', y', z') := b in
  let m := Rabs (f2r x) * Rabs (f2r x') + Rabs (f2r y) * Rabs (f2r y') + Rabs (f2r z) * Rabs (f2r z') in
  m <= 900 -> is_finite (dot32 a b) = true /\ Rabs (f2r (dot32 a b) - vdot (vvalue a) (vvalue b)) <= 4 * ulp32 * m + 10 * e0.
Proof.
  destruct a as [[x y] z], b as [[x' y'] z']. intros (Fx & Fy & Fz) (Gx & Gy & Gz) m Hm.
  pose proof (Rmult_le_pos _ _ (Rabs_pos (f2r x)) (Rabs_pos (f2r x'))) as P1. pose proof (Rmult_le_pos _ _ (Rabs_pos (f2r y)) (Rabs_pos (f2r y'))) as P2.
  pose proof (Rmult_le_pos _ _ (Rabs_pos (f2r z)) (Rabs_pos (f2r z'))) as P3.
  destruct (p_abs x x' Fx Gx) as [A1 A2]; [unfold m in Hm; lra|]. destruct (p_abs y y' Fy Gy) as [B1 B2]; [unfold m in Hm; lra|]. destruct (p_abs z z' Fz Gz) as [C1 C2]; [unfold m in Hm; lra|].
  unfold vdot, vvalue. cbn [vx vy vz].
  assert (K1 : Rabs (f2r x * f2r x') <= Rabs (f2r x) * Rabs (f2r x')) by (rewrite Rabs_mult; lra). assert (K2 : Rabs (f2r y * f2r y') <= Rabs (f2r y) * Rabs (f2r y')) by (rewrite Rabs_mult; lra).
  assert (K3 : Rabs (f2r z * f2r z') <= Rabs (f2r z) * Rabs (f2r z')) by (rewrite Rabs_mult; lra).
  unfold m in *. clear m. revert Hm P1 P2 P3 A2 B2 C2 K1 K2 K3. generalize (Rabs (f2r x) * Rabs (f2r x')), (Rabs (f2r y) * Rabs (f2r y')), (Rabs (f2r z) * Rabs (f2r z')), (f2r x * f2r x'), (f2r y * f2r y'), (f2r z * f2r z').
  intros m1 m2 m3 t1 t2 t3 Hm P1 P2 P3 A2 B2 C2 K1 K2 K3.
  destruct (add_e (fmult32 x x') (fmult32 y y') (m1 + m2 + 2 * ulp32 * (m1 + m2) + 2 * e0) A1 B1) as [D1 D2]; [ab; lra|unfold ulp32, e0; lra|].
  destruct (add_e _ (fmult32 z z') (m1 + m2 + m3 + 4 * ulp32 * (m1 + m2 + m3) + 6 * e0) D1 C1) as [E1 E2]; [ab; lra|unfold ulp32, e0; lra|].
  split; [exact E1|]. cbn [dot32]. ab; lra.
Qed.
Lemma vnorm_sq v : vnorm v * vnorm v = vdot v v.
Proof. unfold vnorm. apply sqrt_sqrt. unfold vdot. nra. Qed.
Lemma abs_dot a b : Rabs (vx a) * Rabs (vx b) + Rabs (vy a) * Rabs (vy b) + Rabs (vz a) * Rabs (vz b) <= vnorm a * vnorm b.
Proof.
  assert (A : forall v, vnorm v = vnorm (V3 (Rabs (vx v)) (Rabs (vy v)) (Rabs (vz v)))).
  { intros v. unfold vnorm. f_equal. unfold vdot. cbn [vx vy vz]. rewrite <- !Rabs_mult, !Rabs_pos_eq by nra. reflexivity. }
  rewrite (A a), (A b), <- !pure_norm. eapply Rle_trans; [|apply cauchy4]. rewrite pure_dot. unfold vdot. cbn [vx vy vz]. lra.
Qed.
Lemma dot_err a b : finite3 a -> finite3 b -> / 100 <= vnorm (vvalue a) * vnorm (vvalue b) <= 900 ->
  is_finite (dot32 a b) = true /\ Rabs (f2r (dot32 a b) - vdot (vvalue a) (vvalue b)) <= 5 * ulp32 * (vnorm (vvalue a) * vnorm (vvalue b)).
Proof.
  intros Fa Fb [L H]. pose proof (dot_core a b Fa Fb) as K. pose proof (abs_dot (vvalue a) (vvalue b)) as Q. destruct a as [[x y] z], b as [[x' y'] z']. cbn [vvalue vx vy vz] in Q |- *.
  cbv zeta in K. destruct K as [K1 K2]; [cbn [vvalue] in H; lra|]. split; [exact K1|]. eapply Rle_trans; [exact K2|]. cbn [vvalue] in L. unfold ulp32, e0 in *. lra.
Qed.
Lemma norm_err a : finite3 a -> / 10 <= vnorm (vvalue a) <= 30 ->
  is_finite (norm32 a) = true /\ close (7 * ulp32) (f2r (norm32 a)) (vnorm (vvalue a)).
Proof.
  intros Fa H. destruct (dot_err a a Fa Fa) as [D1 D2]; [split; nra|]. rewrite vnorm_sq in D2. set (N := vdot (vvalue a) (vvalue a)) in *.
  assert (HN : / 100 <= N <= 900) by (unfold N; rewrite <- vnorm_sq; split; nra).
  assert (C : close (5 * ulp32) (f2r (dot32 a a)) N) by (apply close_iff; [unfold ulp32; lra|rewrite (Rabs_pos_eq N) by lra; exact D2]).
  destruct (close_pos _ _ _ C) as (C1 & C2); [unfold ulp32; lra|lra|].
  assert (R1 : / 200 <= f2r (dot32 a a) <= 1000) by (unfold ulp32 in C1; nra).
  assert (S1 : / 400 <= sqrt (f2r (dot32 a a)) <= 1000).
  { split; [rewrite <- (sqrt_square (/ 400)) by lra; apply sqrt_le_1; lra|]. rewrite <- (sqrt_square 1000) by lra. apply sqrt_le_1; lra. }
  destruct (sqrt32_close (dot32 a a) C2) as [F1 F2]; [apply mid_pos; unfold f2r in S1; lra|]. split; [exact F1|].
  eapply close_trans; [exact F2|refine (close_sqrt _ _ N C _ _); [lra|unfold ulp32; lra]|]. unfold ulp32. lra.
Qed.
(** ** the cosine of two single precision vectors *)
Lemma cos_bounds a b : 0 < vnorm a -> 0 < vnorm b -> Rabs (vdot a b / (vnorm b * vnorm a)) <= 1.
Proof.
  intros A B. assert (P : 0 < vnorm b * vnorm a) by nra. unfold Rdiv. rewrite Rabs_mult, (Rabs_pos_eq (/ _)) by (left; apply Rinv_0_lt_compat; exact P).
  apply Rmult_le_reg_r with (vnorm b * vnorm a); [exact P|]. rewrite Rmult_assoc, Rinv_l by lra. rewrite Rmult_1_r, Rmult_1_l.
  apply Rabs_le. pose proof (cauchy4 (pure a) (pure b)) as C1. pose proof (cauchy4 (pure (vscale a (-1))) (pure b)) as C2. rewrite !pure_dot, !pure_norm in C1, C2.
  assert (E : vdot (vscale a (-1)) b = - vdot a b) by (unfold vdot, vscale; cbn [vx vy vz]; ring). assert (E2 : vnorm (vscale a (-1)) = vnorm a) by (unfold vnorm; f_equal; unfold vdot, vscale; cbn [vx vy vz]; ring).
  rewrite E, E2 in C2. lra.
Qed.
Lemma quotient_err c e1 eta ep h : Rabs c <= 1 -> Rabs e1 <= 5 * ulp32 -> Rabs eta <= 17 * ulp32 -> Rabs ep <= ulp32 -> Rabs h <= e0 ->
  Rabs ((c + e1) / (1 + eta) * (1 + ep) + h - c) <= 25 * ulp32.
Proof.
  intros Hc H1 H2 H3 H4. assert (P : 0 < 1 + eta) by (ab; lra).
  assert (E : (c + e1) / (1 + eta) * (1 + ep) + h - c = ((c + e1) * (1 + ep) + (h - c) * (1 + eta)) / (1 + eta)) by (field; lra). rewrite E.
  unfold Rdiv. rewrite Rabs_mult, (Rabs_pos_eq (/ (1 + eta))) by (left; apply Rinv_0_lt_compat; exact P).
  apply Rmult_le_reg_r with (1 + eta); [exact P|]. rewrite Rmult_assoc, Rinv_l by lra. rewrite Rmult_1_r.
  replace ((c + e1) * (1 + ep) + (h - c) * (1 + eta)) with (c * ep + e1 * (1 + ep) + h * (1 + eta) - c * eta) by ring.
  pose proof (prod_bound c ep 1 ulp32 Hc H3) as B1. pose proof (prod_bound c eta 1 (17 * ulp32) Hc H2) as B2.
  assert (B3 : Rabs (e1 * (1 + ep)) <= 5 * ulp32 * (101 / 100)) by (apply prod_bound; [exact H1|ab; lra]).
  assert (B4 : Rabs (h * (1 + eta)) <= e0 * (101 / 100)) by (apply prod_bound; [exact H4|ab; lra]).
  revert B1 B2 B3 B4. generalize (c * ep), (c * eta), (e1 * (1 + ep)), (h * (1 + eta)). intros b1 b2 b3 b4 B1 B2 B3 B4. ab; lra.
Qed.
Lemma cosine_err e a : finite3 e -> finite3 a -> 9 / 10 <= vnorm (vvalue e) <= 11 / 10 -> / 10 <= vnorm (vvalue a) <= 27 ->
  let c := vdot (vvalue e) (vvalue a) / (vnorm (vvalue a) * vnorm (vvalue e)) in
  let r := fdiv32 (dot32 e a) (fmult32 (norm32 a) (norm32 e)) in
  is_finite r = true /\ Rabs (f2r r - c) <= 25 * ulp32.
Proof.
  intros Fe Fa He Ha c r. set (n := vnorm (vvalue e)) in *. set (k := vnorm (vvalue a)) in *.
  destruct (dot_err e a Fe Fa) as [D1 D2]; [fold n k; split; nra|]. fold n k in D2.
  destruct (norm_err e Fe) as [N1 N2]; [fold n; lra|]. destruct (norm_err a Fa) as [K1 K2]; [fold k; lra|]. fold n in N2. fold k in K2.
  assert (M : close (15 * ulp32) (f2r (norm32 a) * f2r (norm32 e)) (k * n)) by (eapply close_mul; [exact K2|exact N2|unfold ulp32; lra]).
  assert (Pk : 9 / 100 <= k * n <= 30) by (split; nra). destruct (close_pos _ _ _ M) as (M1 & M2); [unfold ulp32; lra|lra|].
  destruct (mul32_close (norm32 a) (norm32 e) K1 N1) as [F1 F2]; [apply mid_pos; unfold f2r in M1; unfold ulp32 in M1; nra|].
  assert (G : close (17 * ulp32) (f2r (fmult32 (norm32 a) (norm32 e))) (k * n)) by (eapply close_trans; [exact F2|exact M|unfold ulp32; lra]).
  destruct G as (eta & E1 & E2).
  assert (E1' : 0 < 1 + eta) by (ab; lra).
  assert (Dn : f2r (fmult32 (norm32 a) (norm32 e)) <> 0) by (rewrite E2; nra).
  set (x := (f2r (dot32 e a) - vdot (vvalue e) (vvalue a)) / (k * n)).
  assert (X : Rabs x <= 5 * ulp32).
  { unfold x, Rdiv. rewrite Rabs_mult, (Rabs_pos_eq (/ (k * n))) by (left; apply Rinv_0_lt_compat; lra). apply Rmult_le_reg_r with (k * n); [lra|]. rewrite Rmult_assoc, Rinv_l by lra. rewrite Rmult_1_r.
    eapply Rle_trans; [exact D2|]. right. ring. }
  assert (Q : f2r (dot32 e a) / f2r (fmult32 (norm32 a) (norm32 e)) = (c + x) / (1 + eta)).
  { rewrite E2. unfold c, x. field. repeat split; lra. }
  assert (Hc : Rabs c <= 1) by (apply cos_bounds; [fold n; lra|fold k; lra]).
  assert (B : Rabs ((c + x) / (1 + eta)) <= 2).
  { unfold Rdiv. rewrite Rabs_mult, (Rabs_pos_eq (/ (1 + eta))) by (left; apply Rinv_0_lt_compat; exact E1'). apply Rmult_le_reg_r with (1 + eta); [exact E1'|]. rewrite Rmult_assoc, Rinv_l by lra. rewrite Rmult_1_r. clear Q E2. ab. lra. }
  destruct (div_close_abs 24 128 (dot32 e a) (fmult32 (norm32 a) (norm32 e)) D1 Dn) as (V1 & ep & h & V2 & V3 & V4).
  { fold (f2r (dot32 e a)) (f2r (fmult32 (norm32 a) (norm32 e))). rewrite Q. eapply Rle_trans; [exact B|]. cbn. lra. }
  fold (f2r (dot32 e a)) (f2r (fmult32 (norm32 a) (norm32 e))) in V4. rewrite Q in V4. split; [exact V1|]. unfold f2r at 1. unfold r, fdiv32. rewrite V4.
  apply quotient_err; auto.
  - rewrite <- half_ulp32. exact V2.
  - eapply Rle_trans; [exact V3|]. pose proof eta_e0 as H0. eapply Rle_trans; [|exact H0]. cbn. lra.
Qed.
(** ** the estimated up direction *)
Notation zero := (B754_zero false : f32). Notation one := (f32_of_Z 1).
Lemma f2r_zero : f2r zero = 0. Proof. reflexivity. Qed.
Lemma z_mul a : is_finite a = true -> is_finite (fmult32 a zero) = true /\ f2r (fmult32 a zero) = 0.
Proof.
  intro Fa. destruct (mul_fin a zero Fa eq_refl) as [A B]; [rewrite f2r_zero, Rmult_0_r, Rabs_R0; pose proof big100; lra|]. split; [exact A|]. rewrite B, f2r_zero, Rmult_0_r. apply rnd_id, fmt_0.
Qed.
Lemma o_mul a : is_finite a = true -> Rabs (f2r a) <= 3 / 2 -> is_finite (fmult32 a one) = true /\ f2r (fmult32 a one) = f2r a.
Proof.
  intros Fa H. destruct one_fin as [O1 O2]. destruct (mul_fin a one Fa O1) as [A B]; [rewrite O2, Rmult_1_r; pose proof big100; lra|]. split; [exact A|]. rewrite B, O2, Rmult_1_r. apply rnd_id, fmt_f.
Qed.
Lemma add_zr a b : is_finite a = true -> is_finite b = true -> Rabs (f2r a) <= 3 / 2 -> f2r b = 0 -> is_finite (fplus32 a b) = true /\ f2r (fplus32 a b) = f2r a.
Proof. intros Fa Fb H Z. destruct (add_fin a b Fa Fb) as [A B]; [rewrite Z, Rplus_0_r; pose proof big100; lra|]. split; [exact A|]. rewrite B, Z, Rplus_0_r. apply rnd_id, fmt_f. Qed.
Lemma add_zl a b : is_finite a = true -> is_finite b = true -> Rabs (f2r b) <= 3 / 2 -> f2r a = 0 -> is_finite (fplus32 a b) = true /\ f2r (fplus32 a b) = f2r b.
Proof. intros Fa Fb H Z. destruct (add_fin a b Fa Fb) as [A B]; [rewrite Z, Rplus_0_l; pose proof big100; lra|]. split; [exact A|]. rewrite B, Z, Rplus_0_l. apply rnd_id, fmt_f. Qed.
Lemma sub_zr a b : is_finite a = true -> is_finite b = true -> Rabs (f2r a) <= 3 / 2 -> f2r b = 0 -> is_finite (fminus32 a b) = true /\ f2r (fminus32 a b) = f2r a.
Proof. intros Fa Fb H Z. destruct (sub_fin a b Fa Fb) as [A B]; [rewrite Z, Rminus_0_r; pose proof big100; lra|]. split; [exact A|]. rewrite B, Z, Rminus_0_r. apply rnd_id, fmt_f. Qed.
Lemma fmt_opp a : generic_format radix2 (FLT_exp (-149) 24) (- f2r a). Proof. apply generic_format_opp, fmt_f. Qed.
Lemma sub_zl a b : is_finite a = true -> is_finite b = true -> Rabs (f2r b) <= 3 / 2 -> f2r a = 0 -> is_finite (fminus32 a b) = true /\ f2r (fminus32 a b) = - f2r b.
Proof. intros Fa Fb H Z. destruct (sub_fin a b Fa Fb) as [A B]; [rewrite Z, Rminus_0_l, Rabs_Ropp; pose proof big100; lra|]. split; [exact A|]. rewrite B, Z, Rminus_0_l. apply rnd_id, fmt_opp. Qed.
Lemma abs0 : Rabs 0 <= 3 / 2. Proof. rewrite Rabs_R0. lra. Qed.
Lemma mul_ez i : finite4 i -> small4 i -> finite4 (qmul32 i (zero, zero, one, zero)) /\ value (qmul32 i (zero, zero, one, zero)) = qmul (value i) (Q4 0 0 1 0).
Proof.
  destruct i as [[[x y] z] w]. intros (Fx & Fy & Fz & Fw) (Sx & Sy & Sz & Sw). pose proof abs0 as Z0.
  destruct (z_mul x Fx) as [X1 X2]. destruct (z_mul y Fy) as [Y1 Y2]. destruct (z_mul z Fz) as [Z1 Z2]. destruct (z_mul w Fw) as [W1 W2].
  destruct (o_mul x Fx Sx) as [X3 X4]. destruct (o_mul y Fy Sy) as [Y3 Y4]. destruct (o_mul z Fz Sz) as [Z3 Z4]. destruct (o_mul w Fw Sw) as [W3 W4].
  (* x *)
  destruct (add_zr (fmult32 w zero) (fmult32 x zero) W1 X1) as [A1 A2]; [rewrite W2; exact Z0|exact X2|]. rewrite W2 in A2.
  destruct (add_zl _ (fmult32 y one) A1 Y3) as [A3 A4]; [rewrite Y4; exact Sy|exact A2|]. rewrite Y4 in A4.
  destruct (sub_zr _ (fmult32 z zero) A3 Z1) as [A5 A6]; [rewrite A4; exact Sy|exact Z2|]. rewrite A4 in A6.
  (* y *)
  destruct (add_zr (fmult32 w zero) (fmult32 y zero) W1 Y1) as [B1 B2]; [rewrite W2; exact Z0|exact Y2|]. rewrite W2 in B2.
  destruct (add_zr _ (fmult32 z zero) B1 Z1) as [B3 B4]; [rewrite B2; exact Z0|exact Z2|]. rewrite B2 in B4.
  destruct (sub_zl _ (fmult32 x one) B3 X3) as [B5 B6]; [rewrite X4; exact Sx|exact B4|]. rewrite X4 in B6.
  (* z *)
  destruct (add_zr (fmult32 w one) (fmult32 z zero) W3 Z1) as [C1 C2]; [rewrite W4; exact Sw|exact Z2|]. rewrite W4 in C2.
  destruct (add_zr _ (fmult32 x zero) C1 X1) as [C3 C4]; [rewrite C2; exact Sw|exact X2|]. rewrite C2 in C4.
  destruct (sub_zr _ (fmult32 y zero) C3 Y1) as [C5 C6]; [rewrite C4; exact Sw|exact Y2|]. rewrite C4 in C6.
  (* w *)
  destruct (sub_zr (fmult32 w zero) (fmult32 x zero) W1 X1) as [D1 D2]; [rewrite W2; exact Z0|exact X2|]. rewrite W2 in D2.
  destruct (sub_zr _ (fmult32 y zero) D1 Y1) as [D3 D4]; [rewrite D2; exact Z0|exact Y2|]. rewrite D2 in D4.
  destruct (sub_zl _ (fmult32 z one) D3 Z3) as [D5 D6]; [rewrite Z4; exact Sz|exact D4|]. rewrite Z4 in D6.
  cbn [qmul32]. split; [cbn [finite4]; auto|]. cbn [value]. rewrite A6, B6, C6, D6. unfold qmul. cbn [QuatModel.qx QuatModel.qy QuatModel.qz QuatModel.qw]. f_equal; ring.
Qed.
(** the computed inverse: the direction of the conjugate, up to the rounding of four products *)
Lemma inv_dir q : nearly_unit (/ 100) q -> exists s, 98 / 100 <= s <= 102 / 100 /\ qdist (value (qinv32 q)) (qscale (conj (value q)) s) <= 14 / 100000000.
Proof.
  intros [F H]. assert (HN : 99 / 100 <= length2 (value q) <= 101 / 100) by (ab; lra). set (N := length2 (value q)) in *.
  destruct (qdot32_ok q F) as [D1 D2]; [fold N; lra|]. fold N in D2.
  destruct (recip_ok (qdot32 q q) N D1) as [R1 R2]; [lra|eapply close_weak; [exact D2|unfold ulp32; lra]|].
  pose proof (inv_range N (99 / 100) (101 / 100) ltac:(lra) HN) as IR.
  assert (E : qinv32 q = qscale32 (qconj32 q) (recip32 (qdot32 q q))) by (destruct q as [[[x y] z] w]; reflexivity).
  destruct (close_pos _ _ _ R2) as (R3 & R4); [unfold ulp32; lra|lra|].
  set (s := recip32 (qdot32 q q)) in *. exists (f2r s). assert (S : 98 / 100 <= f2r s <= 102 / 100) by (unfold ulp32 in R3; nra). split; [exact S|].
  rewrite E, <- value_conj. pose proof (finite_conj q F) as FC. assert (L : length2 (value (qconj32 q)) = N) by (rewrite value_conj, length2_conj; reflexivity).
  rewrite <- L in HN. clearbody s. revert FC HN. clear - S R1. generalize (qconj32 q). intros [[[x y] z] w] (Fx & Fy & Fz & Fw) HN.
  assert (K : forall a, is_finite a = true -> f2r a * f2r a <= 101 / 100 -> Rabs (f2r (fmult32 a s) - f2r a * f2r s) <= 66 / 1000000000).
  { intros a Fa Ha. assert (A : Rabs (f2r a) <= 1006 / 1000) by (apply Rabs_le; split; nra). assert (B : Rabs (f2r s) <= 102 / 100) by (apply Rabs_le; lra).
    destruct (mul_e a s (11 / 10) Fa R1) as [_ M]; [eapply Rle_trans; [apply (prod_bound _ _ _ _ A B)|lra]|lra|]. eapply Rle_trans; [exact M|unfold ulp32, e0; lra]. }
  unfold length2 in HN. cbn [value QuatModel.qx QuatModel.qy QuatModel.qz QuatModel.qw] in HN.
  eapply Rle_trans; [apply (within_dist _ _ (66 / 1000000000)); [lra|]|lra].
  unfold within4. cbn [value qscale32 qscale QuatModel.qx QuatModel.qy QuatModel.qz QuatModel.qw]. repeat split; apply K; try assumption; nra.
Qed.

Lemma qscale_conj q s : conj (qscale q s) = qscale (conj q) s.
Proof. destruct q as [a b c d]. unfold conj, qscale. cbn [QuatModel.qx QuatModel.qy QuatModel.qz QuatModel.qw]. f_equal; ring. Qed.
Lemma qdist_conj a b : qdist (conj a) (conj b) = qdist a b.
Proof. unfold qdist. f_equal. destruct a as [a1 a2 a3 a4], b as [b1 b2 b3 b4]. unfold length2, qsub, conj. cbn [QuatModel.qx QuatModel.qy QuatModel.qz QuatModel.qw]. ring. Qed.
(** the exact rotated vertical, as a quaternion *)
Definition up_of (q : quat) : quat := qmul (qmul q (Q4 0 0 1 0)) (conj q).
Lemma up_pure q : up_of q = pure (qrot q (V3 0 0 1)).
Proof. destruct q as [a b c d]. unfold up_of, pure. qunf2. f_equal; ring. Qed.
Lemma up_scale q s : up_of (qscale q s) = qscale (up_of q) (s * s).
Proof. unfold up_of. rewrite qscale_conj. destruct q as [a b c d]. unfold qmul, qscale, conj. cbn [QuatModel.qx QuatModel.qy QuatModel.qz QuatModel.qw]. f_equal; ring. Qed.
Lemma norm_k : qnorm (Q4 0 0 1 0) = 1.
Proof. unfold qnorm. replace (qdot _ _) with 1 by (unfold qdot; cbn [QuatModel.qx QuatModel.qy QuatModel.qz QuatModel.qw]; ring). apply sqrt_1. Qed.
Lemma qnorm_conj q : qnorm (conj q) = qnorm q.
Proof. unfold qnorm. f_equal. destruct q as [a b c d]. unfold qdot, conj. cbn [QuatModel.qx QuatModel.qy QuatModel.qz QuatModel.qw]. ring. Qed.
Definition est32 (r : quat32) : vec32 := qrot32 (qinv32 r) (zero, zero, one).
Lemma est_acc r : nearly_unit (/ 100) r -> exists s, 98 / 100 <= s <= 102 / 100 /\ finite3 (est32 r) /\ qdist (pure (vvalue (est32 r))) (qscale (up_of (conj (value r))) (s * s)) <= 47 / 10000000.
Proof.
  intro H. destruct (inv_dir r H) as (s & S & D). exists s. split; [exact S|]. pose proof (qinv32_ok r H) as Hi. set (i := qinv32 r) in *.
  pose proof (nearly_qnorm (/ 50) i ltac:(lra) Hi) as Ni. pose proof (nearly_qnorm (/ 100) r ltac:(lra) H) as Nr.
  destruct Hi as [Fi Li]. assert (Li2 : length2 (value i) <= 9 / 4) by (ab; lra). pose proof (len_small i Li2) as Si.
  destruct (mul_ez i Fi Si) as [Fp Vp]. set (p := qmul32 i (zero, zero, one, zero)) in *.
  assert (Lp : length2 (value p) <= 9 / 4). { rewrite Vp, length2_mul. replace (length2 (Q4 0 0 1 0)) with 1 by (unfold length2; cbn [QuatModel.qx QuatModel.qy QuatModel.qz QuatModel.qw]; ring). lra. }
  set (J := qscale (conj (value r)) s) in *.
  assert (Dp : qdist (value p) (qmul J (Q4 0 0 1 0)) <= 14 / 100000000) by (rewrite Vp, qdist_mul_r, norm_k, Rmult_1_r; exact D).
  assert (Lc : length2 (value (qconj32 i)) <= 9 / 4) by (rewrite value_conj, length2_conj; exact Li2).
  assert (Dc : qdist (value (qconj32 i)) (conj J) <= 14 / 100000000) by (rewrite value_conj, qdist_conj; exact D).
  pose proof (mul_acc p (qconj32 i) _ _ _ _ Fp (finite_conj i Fi) Lp Lc Dp Dc) as M.
  destruct (qmul32_ok p (qconj32 i) Fp (finite_conj i Fi) (len_small _ Lp) (len_small _ Lc)) as [Fm _].
  assert (NJ : qnorm (qmul J (Q4 0 0 1 0)) <= 106 / 100).
  { rewrite qnorm_mul, norm_k, Rmult_1_r. unfold J. rewrite qnorm_scale, qnorm_conj, Rabs_pos_eq by lra. nra. }
  rewrite value_conj, qnorm_conj in M. fold (up_of J) in M. unfold J in M at 1. rewrite up_scale in M.
  assert (E : est32 r = let '(x, y, z, _) := qmul32 p (qconj32 i) in (x, y, z)) by reflexivity.
  rewrite up_pure in M |- *. revert M. rewrite E. revert Fm. destruct (qmul32 p (qconj32 i)) as [[[x y] z] w]. intros (Fx & Fy & Fz & _) M. split; [cbn [finite3]; auto|].
  eapply Rle_trans; [|eapply Rle_trans; [exact M|]].
  - unfold qdist. apply sqrt_le_1_alt. unfold length2, qsub, pure, qscale. cbn [value vvalue vx vy vz QuatModel.qx QuatModel.qy QuatModel.qz QuatModel.qw]. nra.
  - assert (B1 : 14 / 100000000 * qnorm (value i) <= 14 / 100000000 * (102 / 100)) by (apply Rmult_le_compat_l; lra).
    assert (B2 : qnorm (qmul J (Q4 0 0 1 0)) * (14 / 100000000) <= 106 / 100 * (14 / 100000000)) by (apply Rmult_le_compat_r; lra). lra.
Qed.
