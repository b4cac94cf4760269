(** Proofs about clipping in binary32. *)
From Coq Require Import Reals ZArith List Bool Lra Lia Psatz.
From Flocq Require Import Core.Core IEEE754.BinarySingleNaN.
From Verif Require Import Arith Ieee LidarModel LikeFloatProofs LikeFloatErr KdFloatProofs IeeeErr QuatFloatProofs ClipFloatModel ClipFloatSpec.
Import ListNotations.
Local Open Scope R_scope.

Lemma b127_big : 1000000000000000000000000000000000000 <= bpow radix2 127. Proof. cbn. lra. Qed.
Lemma eta_tiny : bpow radix2 (-150) <= / 100000000000000000000000000000000000000000. Proof. cbn. lra. Qed.
Lemma u24 : bpow radix2 (-24) = / 16777216. Proof. cbn. lra. Qed.
Lemma overflow127 x : Rlt_bool (Rabs (rnd x)) (bpow radix2 128) = false -> 0 <= x -> bpow radix2 127 <= x.
Proof.
  intros H P. destruct (Rle_or_lt (bpow radix2 127) x) as [|L]; [assumption|exfalso].
  assert (Q : rnd x <= bpow radix2 127) by (apply rnd_le; [apply fmt_bpow; lia|lra]). assert (Q0 : 0 <= rnd x) by (apply rnd_ge; [apply fmt_0|exact P]).
  rewrite Rlt_bool_true in H; [discriminate|]. rewrite Rabs_pos_eq by exact Q0. eapply Rle_lt_trans; [exact Q|]. apply bpow_lt. lia.
Qed.
Lemma inf_of (x : f32) : B2SF x = SpecFloat.S754_infinity false -> x = inf32.
Proof. intro H. apply (B2SF_inj 24 128). exact H. Qed.
(** a square: rounded, or infinite when it is huge *)
Lemma square_cases (x : f32) : is_finite x = true ->
  (is_finite (fmult32 x x) = true /\ f2r (fmult32 x x) = rnd (f2r x * f2r x)) \/
  (fmult32 x x = inf32 /\ bpow radix2 127 <= f2r x * f2r x).
Proof.
  intro Fx. pose proof (Bmult_correct 24 128 _ _ mode_NE x x) as H. fold (f2r x) in H. destruct (Rlt_bool _ _) eqn:E in H.
  - left. destruct H as (H1 & H2 & _). split; [unfold fmult32; rewrite H2, Fx; reflexivity|exact H1].
  - right. split; [|apply overflow127; [exact E|nra]]. apply inf_of. rewrite xorb_nilpotent in H. exact H.
Qed.
Lemma sq_nonneg (x : f32) : 0 <= rnd (f2r x * f2r x).
Proof. apply rnd_ge; [apply fmt_0|nra]. Qed.
Lemma plus_inf (a : f32) : (is_finite a = true \/ a = inf32) -> fplus32 inf32 a = inf32 /\ fplus32 a inf32 = inf32.
Proof. intros [F| ->]; [destruct a; try discriminate; split; reflexivity|split; reflexivity]. Qed.
Lemma sum_cases (p : pt32) : is_finite (px p) = true -> is_finite (py p) = true ->
  let s := fplus32 (fmult32 (px p) (px p)) (fmult32 (py p) (py p)) in
  (is_finite s = true /\ 0 <= f2r s /\ Rabs (f2r s - dist2 p) <= 201 / 100 * / 16777216 * dist2 p + / 10000000000000000000000000000000000000000) \/
  (s = inf32 /\ 10000000000000000000000000000000000 <= dist2 p).
Proof.
  intros Fx Fy. cbv zeta. unfold dist2. fold (f2r (px p)) (f2r (py p)). pose proof b127_big as BB. pose proof eta_tiny as ET.
  set (a := f2r (px p)). set (b := f2r (py p)).
  assert (A0 : 0 <= a * a) by nra. assert (B0 : 0 <= b * b) by nra.
  destruct (square_cases (px p) Fx) as [[F1 V1]|[I1 L1]]; destruct (square_cases (py p) Fy) as [[F2 V2]|[I2 L2]].
  - fold a in V1. fold b in V2. set (s1 := fmult32 (px p) (px p)) in *. set (s2 := fmult32 (py p) (py p)) in *.
    pose proof (rnd_err (a * a)) as E1. pose proof (rnd_err (b * b)) as E2. rewrite (Rabs_pos_eq (a * a) A0) in E1. rewrite (Rabs_pos_eq (b * b) B0) in E2. rewrite u24 in E1, E2.
    pose proof (sq_nonneg (px p)) as N1. pose proof (sq_nonneg (py p)) as N2. fold a in N1. fold b in N2. rewrite <- V1 in N1, E1. rewrite <- V2 in N2, E2. apply abs2 in E1, E2.
    pose proof (Bplus_correct 24 128 _ _ mode_NE s1 s2 F1 F2) as H. fold (f2r s1) (f2r s2) in H. destruct (Rlt_bool _ _) eqn:E in H.
    + left. destruct H as (H1 & H2 & _). fold (f2r (Bplus mode_NE s1 s2)) in H1. change (Bplus mode_NE s1 s2) with (fplus32 s1 s2) in *.
      pose proof (rnd_err (f2r s1 + f2r s2)) as E3. rewrite (Rabs_pos_eq (f2r s1 + f2r s2)) in E3 by lra. rewrite u24 in E3. rewrite <- H1 in E3. apply abs2 in E3.
      split; [exact H2|]. split; [rewrite H1; apply rnd_ge; [apply fmt_0|lra]|]. apply abs2. lra.
    + right. assert (L : bpow radix2 127 <= f2r s1 + f2r s2) by (apply overflow127; [exact E|lra]). split; [|lra].
      destruct H as [H _]. apply inf_of. assert (Sg : Bsign s1 = false).
      { unfold s1, fmult32. clear - Fx. destruct (px p) as [s|s| |s m e K]; try discriminate; [destruct s; reflexivity|].
        pose proof (Bmult_correct 24 128 _ _ mode_NE (B754_finite s m e K) (B754_finite s m e K)) as Q. destruct (Rlt_bool _ _) in Q.
        - destruct Q as (_ & Q2 & Q3). rewrite Q3; [cbn; apply xorb_nilpotent|]. clear - Q2. destruct (Bmult _ _ _); [reflexivity|reflexivity|discriminate|reflexivity].
        - rewrite xorb_nilpotent in Q. apply inf_of in Q. change (Bmult mode_NE (B754_finite s m e K) (B754_finite s m e K)) with (fmult32 (B754_finite s m e K) (B754_finite s m e K)) in *. rewrite Q. reflexivity. }
      rewrite Sg in H. exact H.
  - right. fold b in L2. rewrite I2. split; [apply plus_inf; left; exact F1|lra].
  - right. fold a in L1. rewrite I1. split; [apply plus_inf; left; exact F2|lra].
  - right. fold a in L1. rewrite I1, I2. split; [reflexivity|lra].
Qed.
