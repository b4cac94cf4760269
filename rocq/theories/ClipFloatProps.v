(** C131: clipping in single precision.  Vocabulary: ClipFloatSpec.v and [keeps] of LidarSpec.v. *)
From Coq Require Import Reals ZArith List Bool Lra Lia Psatz.
From Flocq Require Import Core.Core IEEE754.BinarySingleNaN.
From Verif Require Import Arith Ieee LidarModel LidarSpec LikeFloatProofs LikeFloatErr KdFloatProofs IeeeErr QuatFloatProofs ClipFloatModel ClipFloatSpec ClipFloatProofs.
Import ListNotations.
Local Open Scope R_scope.

Lemma limit_sq (l : f32) : is_finite l = true -> (B2R l = 0 \/ / 1000000 <= B2R l <= 1000000000000000) ->
  is_finite (fmult32 l l) = true /\ Rabs (f2r (fmult32 l l) - B2R l * B2R l) <= 101 / 100 * / 16777216 * (B2R l * B2R l).
Proof.
  intros F H. assert (B : 0 <= B2R l * B2R l <= 1000000000000000000000000000000) by (destruct H as [E|[L U]]; [rewrite E; lra|split; [nra|]; replace 1000000000000000000000000000000 with (1000000000000000 * 1000000000000000) by lra; apply Rmult_le_compat; lra]).
  destruct (mul_fin l l F F) as [A V]; [fold (f2r l) in B; rewrite Rabs_pos_eq by lra; eapply Rle_trans; [apply B|]; cbn; lra|].
  split; [exact A|]. rewrite V. change (f2r l) with (B2R l). pose proof (rnd_err (B2R l * B2R l)) as E. rewrite (Rabs_pos_eq (B2R l * B2R l)) in E by lra. rewrite u24 in E.
  destruct H as [Z|[L U]].
  - rewrite Z, Rmult_0_l. replace (rnd 0) with 0 by (symmetry; apply rnd_id, fmt_0). rewrite Rminus_diag_eq by reflexivity. rewrite Rabs_R0. lra.
  - eapply Rle_trans; [exact E|]. pose proof eta_tiny. assert (/ 1000000 * / 1000000 <= B2R l * B2R l) by (apply Rmult_le_compat; lra). change eta with (bpow radix2 (-150)) in *. lra.
Qed.
Lemma ltb_inf (a : f32) : is_finite a = true -> Bltb a inf32 = true /\ Bltb inf32 a = false.
Proof. intro F. destruct a as [s|s| |s m e K]; try discriminate; destruct s; split; reflexivity. Qed.
Lemma ltb_false (a b : f32) : is_finite a = true -> is_finite b = true -> f2r b <= f2r a -> Bltb a b = false.
Proof. intros Fa Fb H. destruct (Bltb a b) eqn:E; [|reflexivity]. apply (ltb_fin a b Fa Fb) in E. lra. Qed.
Lemma ltb_true (a b : f32) : is_finite a = true -> is_finite b = true -> f2r a < f2r b -> Bltb a b = true.
Proof. intros Fa Fb H. apply (ltb_fin a b Fa Fb). exact H. Qed.
Lemma outside_clipped log near far zmin zmax p : limits near far zmin zmax -> finite_point p -> surely_outside near far zmin zmax p -> clipped32 log near far zmin zmax p = true.
Proof.
  intros (Fn & Ff & Fl & Fh & Hn & Hf) (Fx & Fy & Fz) O. destruct (limit_sq near Fn Hn) as [Nn En]. destruct (limit_sq far Ff (or_intror Hf)) as [Nf Ef].
  unfold clipped32, clip_removes. cbn [flt fadd fmul B32]. pose proof (sum_cases p Fx Fy) as SC. cbv zeta in SC. set (s := fplus32 _ _) in *.
  destruct (Bltb (fmult32 far far) s) eqn:C1; [reflexivity|]. destruct (Bltb s (fmult32 near near)) eqn:C2; [reflexivity|].
  apply abs2 in En, Ef. assert (F2 : / 1000000 * / 1000000 <= B2R far * B2R far) by (apply Rmult_le_compat; lra). assert (D0 : 0 <= dist2 p) by (unfold dist2; nra).
  destruct O as [O|[O|[O|O]]].
  - exfalso. destruct SC as [(Fs & Ps & Es)|[-> L]].
    + assert (N2 : / 1000000 * / 1000000 <= B2R near * B2R near). { destruct Hn as [Z|Hn]; [rewrite Z in O; unfold m4 in O; lra|apply Rmult_le_compat; lra]. }
      rewrite (ltb_true s (fmult32 near near) Fs Nn) in C2; [discriminate|]. apply abs2 in Es. unfold m4 in O. lra.
    + assert (B2R near * B2R near <= 1000000000000000 * 1000000000000000) by (destruct Hn as [Z|Hn]; [rewrite Z; lra|apply Rmult_le_compat; lra]).
      assert (0 <= B2R near * B2R near) by nra. unfold m4 in O. lra.
  - exfalso. destruct SC as [(Fs & Ps & Es)|[-> L]].
    + rewrite (ltb_true (fmult32 far far) s Nf Fs) in C1; [discriminate|]. apply abs2 in Es. unfold m4 in O.
      destruct (Rle_or_lt (dist2 p) (2 * (B2R far * B2R far))); lra.
    + destruct (ltb_inf _ Nf) as [Q _]. rewrite Q in C1. discriminate.
  - rewrite (ltb_true (pz p) zmin Fz Fl O). reflexivity.
  - rewrite (ltb_true zmax (pz p) Fh Fz O). apply orb_true_r.
Qed.
Lemma inside_kept log near far zmin zmax p : limits near far zmin zmax -> finite_point p -> surely_inside near far zmin zmax p -> clipped32 log near far zmin zmax p = false.
Proof.
  intros (Fn & Ff & Fl & Fh & Hn & Hf) (Fx & Fy & Fz) [[O1 O2] [O3 O4]]. destruct (limit_sq near Fn Hn) as [Nn En]. destruct (limit_sq far Ff (or_intror Hf)) as [Nf Ef].
  unfold clipped32, clip_removes. cbn [flt fadd fmul B32]. pose proof (sum_cases p Fx Fy) as SC. cbv zeta in SC. set (s := fplus32 _ _) in *.
  apply abs2 in En, Ef. assert (F2 : / 1000000 * / 1000000 <= B2R far * B2R far <= 1000000000000000 * 1000000000000000) by (split; apply Rmult_le_compat; lra). assert (D0 : 0 <= dist2 p) by (unfold dist2; nra).
  destruct SC as [(Fs & Ps & Es)|[_ L]]; [|unfold m4 in O2; lra]. apply abs2 in Es. unfold m4 in O1, O2.
  rewrite (ltb_false (fmult32 far far) s Nf Fs) by lra.
  rewrite (ltb_false s (fmult32 near near) Fs Nn).
  2:{ destruct Hn as [Z|Hn]; [rewrite Z in *; rewrite Rmult_0_l in *; lra|]. assert (/ 1000000 * / 1000000 <= B2R near * B2R near) by (apply Rmult_le_compat; lra). lra. }
  rewrite (ltb_false (pz p) zmin Fz Fl O3), (ltb_false zmax (pz p) Fh Fz O4). reflexivity.
Qed.
(** What clipping keeps, in order and each as often as it occurs: every finite point whose horizontal
    distance is within the limits by a relative 2^-22 of the squared distance and whose height is within
    the limits; it keeps no point that is outside by as much, and none whose height is outside at all.
    (Squaring may overflow: such points are beyond the far limit.) *)
Theorem C131_clip : forall (log : f32 -> f32) near far zmin zmax pc, limits near far zmin zmax ->
  exists kept : pt32 -> Prop, (forall p, finite_point p -> surely_inside near far zmin zmax p -> kept p) /\
    (forall p, finite_point p -> surely_outside near far zmin zmax p -> ~ kept p) /\
    keeps kept (clip32 log near far zmin zmax pc) pc.
Proof.
  intros log near far zmin zmax pc L. exists (fun p => clipped32 log near far zmin zmax p = false). split; [|split].
  - intros p Fp H. apply inside_kept; assumption.
  - intros p Fp H. rewrite outside_clipped by assumption. discriminate.
  - unfold clip32. induction pc as [|p pc IH]; [constructor|]. cbn [filter]. destruct (clipped32 log near far zmin zmax p) eqn:E; cbn [negb].
    + apply keeps_no; [rewrite E; discriminate|exact IH].
    + apply keeps_yes; [exact E|exact IH].
Qed.
(** The undecided band is thin: a point clipped or kept against its exact distance is within a relative
    1.2e-7 of the limit - a micrometre at 8 metres. *)
Theorem C131_band : forall near far zmin zmax p, limits near far zmin zmax -> finite_point p ->
  ~ surely_inside near far zmin zmax p -> ~ surely_outside near far zmin zmax p ->
  let d := sqrt (dist2 p) in
  Rabs (d - B2R near) <= / 8000000 * B2R near \/ Rabs (d - B2R far) <= / 8000000 * B2R far.
Proof.
  intros near far zmin zmax p (Fn & Ff & Fl & Fh & Hn & Hf) (Fx & Fy & Fz) NI NO. cbv zeta.
  assert (D0 : 0 <= dist2 p) by (unfold dist2; nra). assert (Z : B2R zmin <= B2R (pz p) <= B2R zmax).
  { split; apply Rnot_lt_le; intro K; apply NO; unfold surely_outside; auto. }
  assert (N1 : B2R near * B2R near * (1 - m4) <= dist2 p) by (apply Rnot_lt_le; intro K; apply NO; unfold surely_outside; auto).
  assert (N2 : dist2 p <= B2R far * B2R far * (1 + m4)) by (apply Rnot_lt_le; intro K; apply NO; unfold surely_outside; auto).
  assert (G : forall l, 0 <= l -> l * l * (1 - m4) <= dist2 p <= l * l * (1 + m4) -> Rabs (sqrt (dist2 p) - l) <= / 8000000 * l).
  { intros l Pl [A B]. apply abs2. split.
    - enough (l * (1 - / 8000000) <= sqrt (dist2 p)) by lra. apply Rsqr_incr_0_var; [|apply sqrt_pos]. unfold Rsqr. rewrite sqrt_sqrt by exact D0.
      eapply Rle_trans; [|exact A]. replace (l * (1 - / 8000000) * (l * (1 - / 8000000))) with (l * l * ((1 - / 8000000) * (1 - / 8000000))) by ring. apply Rmult_le_compat_l; [nra|unfold m4; lra].
    - enough (sqrt (dist2 p) <= l * (1 + / 8000000)) by lra. apply Rsqr_incr_0_var; [|apply Rmult_le_pos; lra]. unfold Rsqr. rewrite sqrt_sqrt by exact D0.
      eapply Rle_trans; [exact B|]. replace (l * (1 + / 8000000) * (l * (1 + / 8000000))) with (l * l * ((1 + / 8000000) * (1 + / 8000000))) by ring. apply Rmult_le_compat_l; [nra|unfold m4; lra]. }
  destruct (Rle_or_lt (dist2 p) (B2R far * B2R far * (1 - m4))) as [I2|I2].
  - destruct (Rle_or_lt (B2R near * B2R near * (1 + m4)) (dist2 p)) as [I1|I1].
    + exfalso. apply NI. split; [split; assumption|exact Z].
    + left. apply G; [destruct Hn; lra|lra].
  - right. apply G; lra.
Qed.
(** Points that are not finite: an infinite x or y is always clipped unless the other is NaN; with a
    NaN in the plane only the height is looked at, and a NaN height is never looked at. *)
Theorem C131_not_finite : forall (log : f32 -> f32) near far zmin zmax p, limits near far zmin zmax ->
  let infinite x := x = inf32 \/ x = (B754_infinity true : f32) in
  (infinite (px p) /\ py p <> nan32 \/ infinite (py p) /\ px p <> nan32 -> clipped32 log near far zmin zmax p = true) /\
  (px p = nan32 \/ py p = nan32 -> clipped32 log near far zmin zmax p = Bltb (pz p) zmin || Bltb zmax (pz p)) /\
  (is_finite (px p) = true -> is_finite (py p) = true -> pz p = nan32 ->
     B2R near * B2R near * (1 + m4) <= dist2 p <= B2R far * B2R far * (1 - m4) -> clipped32 log near far zmin zmax p = false).
Proof.
  intros log near far zmin zmax p LM infinite. pose proof LM as (Fn & Ff & Fl & Fh & Hn & Hf). destruct (limit_sq near Fn Hn) as [Nn En]. destruct (limit_sq far Ff (or_intror Hf)) as [Nf Ef].
  assert (IQ : forall x : f32, infinite x -> fmult32 x x = inf32) by (intros x [->| ->]; reflexivity).
  assert (SQ : forall x : f32, x <> nan32 -> is_finite (fmult32 x x) = true \/ fmult32 x x = inf32).
  { intros x Hx. destruct x as [s|s| |s m e K]; [left; reflexivity|right; destruct s; reflexivity|exfalso; apply Hx; reflexivity|]. destruct (square_cases (B754_finite s m e K) eq_refl) as [[Q _]|[Q _]]; [left|right]; exact Q. }
  split; [|split].
  - intro H. unfold clipped32, clip_removes. cbn [flt fadd fmul B32].
    assert (E : fplus32 (fmult32 (px p) (px p)) (fmult32 (py p) (py p)) = inf32).
    { destruct H as [[H N]|[H N]]; rewrite (IQ _ H); apply plus_inf, SQ, N. }
    rewrite E. destruct (ltb_inf _ Nf) as [-> _]. reflexivity.
  - intro H. unfold clipped32, clip_removes. cbn [flt fadd fmul B32].
    assert (N1 : forall a, Bltb (nan32 : f32) a = false) by (intros [| | |]; reflexivity).
    assert (N2 : forall a, Bltb a (nan32 : f32) = false) by (intros [| | |]; reflexivity).
    assert (E : fplus32 (fmult32 (px p) (px p)) (fmult32 (py p) (py p)) = nan32).
    { destruct H as [->| ->].
      - change (fmult32 nan32 nan32) with nan32. destruct (fmult32 (py p) (py p)); reflexivity.
      - change (fmult32 nan32 nan32) with nan32. destruct (fmult32 (px p) (px p)); reflexivity. }
    rewrite E, N1, N2. reflexivity.
  - intros Fx Fy Hz SI. pose proof (inside_kept log near far zmin zmin {| px := px p; py := py p; pz := zmin |}) as K.
    assert (L' : limits near far zmin zmin) by (unfold limits; tauto). specialize (K L' (Logic.conj Fx (Logic.conj Fy Fl)) (Logic.conj SI (Logic.conj (Rle_refl _) (Rle_refl _)))).
    unfold clipped32, clip_removes in *. cbn [flt fadd fmul B32 px py pz] in *. rewrite Hz.
    destruct (Bltb (fmult32 far far) _); [discriminate|]. destruct (Bltb _ (fmult32 near near)); [discriminate|].
    assert (N1 : Bltb (nan32 : f32) zmin = false) by (destruct zmin; reflexivity). assert (N2 : Bltb zmax (nan32 : f32) = false) by (destruct zmax; reflexivity).
    rewrite N1, N2. reflexivity.
Qed.

Example C131_nonvacuous :
  limits (f32_of_Z 1) (f32_of_Z 10) (f32_of_Z (-2)) (f32_of_Z 2) /\
  surely_inside (f32_of_Z 1) (f32_of_Z 10) (f32_of_Z (-2)) (f32_of_Z 2) {| px := f32_of_Z 3; py := f32_of_Z 4; pz := f32_of_Z 1 |} /\
  surely_outside (f32_of_Z 1) (f32_of_Z 10) (f32_of_Z (-2)) (f32_of_Z 2) {| px := f32_of_Z 8; py := f32_of_Z 7; pz := f32_of_Z 1 |} /\
  finite_point {| px := f32_of_Z 3; py := f32_of_Z 4; pz := f32_of_Z 1 |}.
Proof.
  destruct (of_Z_exact 1 ltac:(lia)) as [F1 V1]. destruct (of_Z_exact 10 ltac:(lia)) as [F10 V10]. destruct (of_Z_exact (-2) ltac:(lia)) as [Fm2 Vm2].
  destruct (of_Z_exact 2 ltac:(lia)) as [F2 V2]. destruct (of_Z_exact 3 ltac:(lia)) as [F3 V3]. destruct (of_Z_exact 4 ltac:(lia)) as [F4 V4].
  destruct (of_Z_exact 8 ltac:(lia)) as [F8 V8]. destruct (of_Z_exact 7 ltac:(lia)) as [F7 V7]. unfold f2r in *.
  split; [|split; [|split]].
  - unfold limits. rewrite V1, V10. repeat split; try assumption; lra.
  - unfold surely_inside, dist2, m4. cbn [px py pz]. rewrite V1, V10, Vm2, V2, V3, V4. lra.
  - unfold surely_outside, dist2, m4. cbn [px py pz]. rewrite V1, V10, Vm2, V2, V8, V7. lra.
  - repeat split; assumption.
Qed.
