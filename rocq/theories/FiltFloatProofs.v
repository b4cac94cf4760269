(** Proofs about the smoothing filter in floats. *)
From Coq Require Import Reals ZArith List Bool Lra Lia Psatz.
From Flocq Require Import Core.Core IEEE754.BinarySingleNaN Relative Plus_error.
From Verif Require Import Arith Ieee NdModel LikeFloatProofs LikeFloatErr KdFloatProofs IeeeErr FilterModel FilterSpec FilterProofs QuatFloatModel QuatFloatSpec QuatFloatProofs FiltFloatModel.
Import ListNotations.
Local Open Scope R_scope.

Lemma sub64_close (a b : f64) : is_finite a = true -> is_finite b = true -> Rabs (B2R a - B2R b) <= bpow radix2 1023 ->
  is_finite (Bminus mode_NE a b) = true /\ close ulp64 (B2R (Bminus mode_NE a b)) (B2R a - B2R b).
Proof.
  intros Fa Fb U. rewrite <- half_ulp64. pose proof (Bminus_correct 53 1024 _ _ mode_NE a b Fa Fb) as H.
  rewrite (round_fits 53 1024 _ U) in H. destruct H as (H1 & H2 & _). split; [exact H2|]. rewrite H1.
  destruct (FLT_plus_error_N_ex radix2 (SpecFloat.emin 53 1024) 53 (fun z => negb (Z.even z)) (B2R a) (- B2R b) (generic_format_B2R 53 1024 a) (generic_format_opp _ _ _ (generic_format_B2R 53 1024 b))) as (e & E1 & E2).
  exists e. split; [|exact E2]. eapply Rle_trans; [exact E1|]. apply (u_rod1pu_ro_le_u_ro radix2 53).
Qed.
(** doubling is exact *)
Lemma double_exact (t : f32) : is_finite t = true -> Rabs (f2r t) <= 1024 -> is_finite (fmult32 (f32_of_Z 2) t) = true /\ f2r (fmult32 (f32_of_Z 2) t) = 2 * f2r t.
Proof.
  intros Ft Bt. destruct (of_Z_exact 2 ltac:(lia)) as [F2 V2].
  destruct (mul_fin (f32_of_Z 2) t F2 Ft) as [A B].
  { rewrite V2, Rabs_mult, Rabs_pos_eq by lra. pose proof big100. assert (2048 <= bpow radix2 100) by (cbn; lra). lra. }
  split; [exact A|]. rewrite B, V2. apply round_generic; [typeclasses eauto|].
  pose proof (generic_format_B2R 24 128 t) as G. apply FLT_format_generic in G; [|reflexivity]. destruct G as [[m e] G1 G2 G3]. cbn [Fnum Fexp] in *.
  apply generic_format_FLT. exists (Float radix2 m (e + 1)); cbn [Fnum Fexp]; [|exact G2|lia].
  unfold f2r. rewrite G1. unfold F2R. cbn [Fnum Fexp]. rewrite bpow_plus. cbn [bpow]. cbn. lra.
Qed.

(** fully proportional reasoning about a tiny relative error *)
Lemma close_abs k x y Y : close k x y -> Rabs y <= Y -> Rabs (x - y) <= k * Y.
Proof.
  intros (e & He & ->) H. replace (y * (1 + e) - y) with (e * y) by ring. rewrite Rabs_mult.
  apply Rmult_le_compat; try apply Rabs_pos; assumption.
Qed.
Lemma one64 : is_finite (f64_of_Z 1) = true /\ B2R (f64_of_Z 1) = 1.
Proof.
  split; [reflexivity|]. replace (B2R (f64_of_Z 1)) with (SF2R radix2 (B2SF (f64_of_Z 1))) by (symmetry; apply B2R_SF2R || (rewrite SF2R_B2SF; reflexivity)).
  replace (B2SF (f64_of_Z 1)) with (SpecFloat.S754_finite false 4503599627370496 (-52)) by (vm_compute; reflexivity). cbn. unfold F2R; cbn. lra.
Qed.
Lemma mone64 : is_finite (f64_of_Z (-1)) = true /\ B2R (f64_of_Z (-1)) = -1.
Proof.
  split; [reflexivity|]. replace (B2R (f64_of_Z (-1))) with (SF2R radix2 (B2SF (f64_of_Z (-1)))) by (symmetry; apply B2R_SF2R || (rewrite SF2R_B2SF; reflexivity)).
  replace (B2SF (f64_of_Z (-1))) with (SpecFloat.S754_finite true 4503599627370496 (-52)) by (vm_compute; reflexivity). cbn. unfold F2R; cbn. lra.
Qed.
Lemma big64 x : Rabs x <= 1000000 -> Rabs x <= bpow radix2 1023.
Proof. intro. assert (1000000 <= bpow radix2 20) by (cbn; lra). assert (bpow radix2 20 <= bpow radix2 1023) by (apply bpow_le; lia). lra. Qed.
Lemma close_range k x y lo hi : close k x y -> k <= / 1000 -> lo <= y <= hi -> 0 < lo -> lo * (1 - k) <= x <= hi * (1 + k).
Proof.
  intros (e & He & ->) K [L U] P. apply abs2 in He. split.
  - apply Rmult_le_compat; lra.
  - apply Rmult_le_compat; lra.
Qed.
Lemma close_neg k x y : close k x y -> close k (- x) (- y).
Proof. intros (e & He & ->). exists e. split; [exact He|ring]. Qed.

Section Coef.
Context (tc : f32) (Ft : is_finite tc = true) (Lt : 1 <= f2r tc <= 1024).
Let T := 2 * f2r tc.
Let a := / (1 + T).
Let c := (T - 1) * a.
Lemma T_range : 2 <= T <= 2048. Proof. unfold T. lra. Qed.
Lemma a_range : / 2049 <= a <= / 3.
Proof. pose proof T_range. unfold a. split; apply Rinv_le; lra. Qed.
Lemma aT : a * (1 + T) = 1. Proof. pose proof T_range. unfold a. field. lra. Qed.
Lemma c_range : / 3 <= c < 1.
Proof. pose proof T_range. pose proof a_range. pose proof aT. unfold c. split; nra. Qed.
Lemma Tfl : is_finite (f64_of_f32 (fmult32 (f32_of_Z 2) tc)) = true /\ B2R (f64_of_f32 (fmult32 (f32_of_Z 2) tc)) = T.
Proof.
  destruct (double_exact tc Ft) as [A B]; [rewrite Rabs_pos_eq by lra; lra|]. destruct (widen_exact _ A) as [C D]. split; [exact C|]. rewrite D. exact B.
Qed.
Lemma gain_ok : is_finite (gain32 tc) = true /\ close (101 / 100 * ulp32) (f2r (gain32 tc)) (- a).
Proof.
  unfold gain32. destruct Tfl as [F1 V1]. destruct one64 as [Fo Vo]. destruct mone64 as [Fm Vm]. pose proof T_range as TR. pose proof a_range as AR.
  destruct (add_close 53 1024 (f64_of_Z 1) (f64_of_f32 (fmult32 (f32_of_Z 2) tc)) Fo F1) as [F2 C2].
  { apply big64. rewrite Vo, V1, Rabs_pos_eq; lra. }
  rewrite Vo, V1 in C2. rewrite half_ulp64 in C2. set (s := Bplus mode_NE (f64_of_Z 1) _) in *.
  assert (S1 : 2 <= B2R s <= 4000). { destruct (close_range _ _ _ 3 2049 C2) as [P Q]; unfold ulp64 in *; lra. }
  assert (C3 : close (2 * ulp64) (B2R (f64_of_Z (-1)) / B2R s) (- a)).
  { rewrite Vm. replace (-1 / B2R s) with (- / B2R s) by (field; lra). apply close_neg. apply (close_inv ulp64); [exact C2|lra|unfold ulp64; lra|unfold ulp64; lra]. }
  assert (N : / 4098 <= Rabs (B2R (f64_of_Z (-1)) / B2R s) <= 2).
  { apply (mid_close _ _ _ (/ 2049) 1) in C3; [lra|unfold ulp64; lra|rewrite Rabs_Ropp, Rabs_pos_eq; lra]. }
  destruct (div64_close (f64_of_Z (-1)) s Fm) as [F4 C4]; [lra|unfold mid; lra|].
  assert (C5 : close (4 * ulp64) (B2R (div64 (f64_of_Z (-1)) s)) (- a)) by (eapply close_trans; [exact C4|exact C3|unfold ulp64; lra]).
  assert (N5 : / 4098 <= Rabs (B2R (div64 (f64_of_Z (-1)) s)) <= 2).
  { apply (mid_close _ _ _ (/ 2049) 1) in C5; [lra|unfold ulp64; lra|rewrite Rabs_Ropp, Rabs_pos_eq; lra]. }
  destruct (narrow_close (div64 (f64_of_Z (-1)) s)) as [F6 C6]; [unfold mid; lra|].
  split; [exact F6|]. eapply close_trans; [exact C6|exact C5|unfold ulp64, ulp32; lra].
Qed.
Lemma pole_ok : is_finite (pole32 tc (gain32 tc)) = true /\ close (203 / 100 * ulp32) (f2r (pole32 tc (gain32 tc))) c.
Proof.
  unfold pole32. destruct Tfl as [F1 V1]. destruct one64 as [Fo Vo]. destruct gain_ok as [Fg Cg]. destruct (widen_exact _ Fg) as [Fw Vw]. pose proof T_range as TR. pose proof a_range as AR. pose proof c_range as CR.
  destruct (sub64_close (f64_of_Z 1) (f64_of_f32 (fmult32 (f32_of_Z 2) tc)) Fo F1) as [F2 C2].
  { apply big64. rewrite Vo, V1, Rabs_left; lra. }
  rewrite Vo, V1 in C2. set (s := Bminus mode_NE (f64_of_Z 1) _) in *.
  assert (C3 : close (102 / 100 * ulp32) (B2R s * B2R (f64_of_f32 (gain32 tc))) c).
  { rewrite Vw. replace c with ((1 - T) * - a) by (unfold c; ring). eapply close_mul; [exact C2|exact Cg|unfold ulp64, ulp32; lra]. }
  assert (N : / 6 <= Rabs (B2R s * B2R (f64_of_f32 (gain32 tc))) <= 2).
  { apply (mid_close _ _ _ (/ 3) 1) in C3; [lra|unfold ulp32; lra|rewrite Rabs_pos_eq; lra]. }
  destruct (mul64_close s (f64_of_f32 (gain32 tc)) F2 Fw) as [F4 C4]; [unfold mid; lra|].
  assert (C5 : close (1021 / 1000 * ulp32) (B2R (mul64 s (f64_of_f32 (gain32 tc)))) c) by (eapply close_trans; [exact C4|exact C3|unfold ulp64, ulp32; lra]).
  assert (N5 : / 6 <= Rabs (B2R (mul64 s (f64_of_f32 (gain32 tc)))) <= 2).
  { apply (mid_close _ _ _ (/ 3) 1) in C5; [lra|unfold ulp32; lra|rewrite Rabs_pos_eq; lra]. }
  destruct (narrow_close (mul64 s (f64_of_f32 (gain32 tc)))) as [F6 C6]; [unfold mid; lra|].
  split; [exact F6|]. eapply close_trans; [exact C6|exact C5|unfold ulp32; lra].
Qed.
Lemma feed_ok : is_finite (feed32 (pole32 tc (gain32 tc))) = true /\ Rabs (f2r (feed32 (pole32 tc (gain32 tc))) - (- c - 1)) <= 41 / 10 * ulp32.
Proof.
  unfold feed32. destruct one64 as [Fo Vo]. destruct pole_ok as [Fp Cp]. pose proof c_range as CR.
  assert (Fn : is_finite (Bopp (pole32 tc (gain32 tc))) = true) by (rewrite is_finite_Bopp; exact Fp).
  destruct (widen_exact _ Fn) as [Fw Vw]. set (q := Bopp (pole32 tc (gain32 tc))) in *.
  assert (Vq : B2R q = - f2r (pole32 tc (gain32 tc))) by (unfold q; apply B2R_Bopp).
  pose proof (close_range _ _ _ (/ 3) 1 Cp ltac:(unfold ulp32; lra) ltac:(lra) ltac:(lra)) as PR.
  pose proof (close_abs _ _ _ 1 Cp ltac:(rewrite Rabs_pos_eq; lra)) as PA. apply abs2 in PA.
  destruct (sub64_close (f64_of_f32 q) (f64_of_Z 1) Fw Fo) as [F2 C2].
  { apply big64. rewrite Vo, Vw, Vq. apply abs2. unfold ulp32 in *. lra. }
  rewrite Vo, Vw, Vq in C2. set (s := Bminus mode_NE (f64_of_f32 q) (f64_of_Z 1)) in *.
  pose proof (close_abs _ _ _ 3 C2 ltac:(apply abs2; unfold ulp32 in *; lra)) as SA. apply abs2 in SA.
  destruct (narrow_close s) as [F6 C6]. { unfold mid. rewrite Rabs_left; unfold ulp32, ulp64 in *; lra. }
  split; [exact F6|]. pose proof (close_abs _ _ _ (2001 / 1000) C6 ltac:(apply abs2; unfold ulp32, ulp64 in *; lra)) as NA. apply abs2 in NA.
  apply abs2. unfold f2r. unfold ulp32, ulp64, f2r in *. lra.
Qed.
End Coef.

Lemma div_fin a b : is_finite a = true -> f2r b <> 0 -> Rabs (f2r a / f2r b) <= bpow radix2 100 ->
  is_finite (fdiv32 a b) = true /\ f2r (fdiv32 a b) = rnd (f2r a / f2r b).
Proof.
  intros Fa Hb H. pose proof (Bdiv_correct 24 128 _ _ mode_NE a b Hb) as E. fold (f2r a) (f2r b) in E. rewrite (fits _ H) in E.
  destruct E as (E1 & E2 & _). split; [unfold fdiv32; rewrite E2; exact Fa|exact E1].
Qed.
Lemma big100' x : Rabs x <= 10000000000000000000 -> Rabs x <= bpow radix2 100.
Proof. intro. assert (10000000000000000000 <= bpow radix2 100) by (cbn; lra). lra. Qed.
Lemma prod_err x X y Y dx dy BX BY : Rabs (x - X) <= dx -> Rabs (y - Y) <= dy -> Rabs X <= BX -> Rabs y <= BY -> Rabs (x * y - X * Y) <= dx * BY + BX * dy.
Proof.
  intros H1 H2 H3 H4. replace (x * y - X * Y) with ((x - X) * y + X * (y - Y)) by ring.
  eapply Rle_trans; [apply Rabs_triang|]. rewrite !Rabs_mult. apply Rplus_le_compat; apply Rmult_le_compat; try apply Rabs_pos; assumption.
Qed.
(** a rounded product, sum *)
Lemma mul_r a b X Y dx dy BX BY N : is_finite a = true -> is_finite b = true ->
  Rabs (f2r a - X) <= dx -> Rabs (f2r b - Y) <= dy -> Rabs X <= BX -> Rabs (f2r b) <= BY -> Rabs (X * Y) + (dx * BY + BX * dy) <= N -> N <= 10000000000000000000 ->
  is_finite (fmult32 a b) = true /\ Rabs (f2r (fmult32 a b) - X * Y) <= dx * BY + BX * dy + (ulp32 * N + e0).
Proof.
  intros Fa Fb H1 H2 H3 H4 HN HB. pose proof (prod_err _ _ _ _ _ _ _ _ H1 H2 H3 H4) as P.
  assert (K : Rabs (f2r a * f2r b) <= N). { replace (f2r a * f2r b) with (X * Y + (f2r a * f2r b - X * Y)) by ring. eapply Rle_trans; [apply Rabs_triang|]. lra. }
  destruct (mul_fin a b Fa Fb) as [A B]; [apply big100'; lra|]. split; [exact A|]. pose proof (rnd_e _ _ K) as E. rewrite <- B in E.
  replace (f2r (fmult32 a b) - X * Y) with ((f2r a * f2r b - X * Y) + (f2r (fmult32 a b) - f2r a * f2r b)) by ring.
  eapply Rle_trans; [apply Rabs_triang|]. lra.
Qed.
Lemma add_r a b X Y dx dy N : is_finite a = true -> is_finite b = true ->
  Rabs (f2r a - X) <= dx -> Rabs (f2r b - Y) <= dy -> Rabs (X + Y) + (dx + dy) <= N -> N <= 10000000000000000000 ->
  is_finite (fplus32 a b) = true /\ Rabs (f2r (fplus32 a b) - (X + Y)) <= dx + dy + (ulp32 * N + e0).
Proof.
  intros Fa Fb H1 H2 HN HB.
  assert (P : Rabs ((f2r a + f2r b) - (X + Y)) <= dx + dy). { replace ((f2r a + f2r b) - (X + Y)) with ((f2r a - X) + (f2r b - Y)) by ring. eapply Rle_trans; [apply Rabs_triang|]. lra. }
  assert (K : Rabs (f2r a + f2r b) <= N). { replace (f2r a + f2r b) with ((X + Y) + ((f2r a + f2r b) - (X + Y))) by ring. eapply Rle_trans; [apply Rabs_triang|]. lra. }
  destruct (add_fin a b Fa Fb) as [A B]; [apply big100'; lra|]. split; [exact A|]. pose proof (rnd_e _ _ K) as E. rewrite <- B in E.
  replace (f2r (fplus32 a b) - (X + Y)) with (((f2r a + f2r b) - (X + Y)) + (f2r (fplus32 a b) - (f2r a + f2r b))) by ring.
  eapply Rle_trans; [apply Rabs_triang|]. lra.
Qed.
Lemma abs_near x X d B N : Rabs (x - X) <= d -> Rabs X <= B -> B + d <= N -> Rabs x <= N.
Proof. intros. replace x with (X + (x - X)) by ring. eapply Rle_trans; [apply Rabs_triang|]. lra. Qed.

Section Track.
Context (tc : f32) (Ft : is_finite tc = true) (Lt : 1 <= f2r tc <= 1024).
Context (M : R) (LM : / 1000000000000000 <= M <= 1000000000000000).
Let T := 2 * f2r tc.
Let a := / (1 + T).
Let c := (T - 1) * a.
Let g3 := gain32 tc.
Let g1 := pole32 tc g3.
(** the real filter's coefficients, and the invariant of a run *)
Definition real_coefs (f : filt) : Prop := k3 f = - a /\ k2 f = a /\ k1 f = c /\ k0 f = - c - 1 /\ angle f = false.
Definition float_coefs (g : filt32) : Prop := k3_32 g = g3 /\ k2_32 g = Bopp g3 /\ k1_32 g = g1 /\ k0_32 g = feed32 g1.
Definition bound : R := 4 * ulp32 * (T * (1 + T) * M).
Definition track (g : filt32) (f : filt) : Prop :=
  real_coefs f /\ float_coefs g /\ Rabs (x_ f) <= T * M /\ is_finite (x32 g) = true /\ Rabs (f2r (x32 g) - x_ f) <= bound /\
  Rabs (out f) <= M /\ is_finite (out32 g) = true /\ Rabs (f2r (out32 g) - out f) <= 6 * ulp32 * (T * M).

Lemma sizes : 2 * M <= T * M <= 2048 * M /\ 2 * (T * M) <= T * T * M <= 2048 * (T * M) /\ 0 < M.
Proof. pose proof (T_range tc Lt) as TR. fold T in TR. assert (P : 0 < M) by lra.
  assert (0 <= (T - 2) * M) by (apply Rmult_le_pos; lra). assert (0 <= (2048 - T) * M) by (apply Rmult_le_pos; lra). assert (0 < T * M) by (apply Rmult_lt_0_compat; lra).
  assert (0 <= (T - 2) * (T * M)) by (apply Rmult_le_pos; lra). assert (0 <= (2048 - T) * (T * M)) by (apply Rmult_le_pos; lra). repeat split; lra. Qed.
Lemma small_e0 : 1000 * e0 <= ulp32 * M / 100.
Proof. unfold e0, ulp32. lra. Qed.
Lemma start_ok o : is_finite o = true -> Rabs (f2r o) <= M ->
  is_finite (start32 (Bopp g3) g3 o) = true /\ Rabs (f2r (start32 (Bopp g3) g3 o) - - (T * f2r o)) <= 10 * ulp32 * (T * M).
Proof.
  intros Fo Bo. pose proof (T_range tc Lt) as TR. pose proof (a_range tc Lt) as AR. pose proof (aT tc Lt) as AT. pose proof sizes as SZ. pose proof small_e0 as SE.
  destruct (gain_ok tc Ft Lt) as [Fg Cg]. fold T a g3 in TR, AR, AT, Fg, Cg.
  pose proof (close_abs _ _ _ (/ 3) Cg ltac:(rewrite Rabs_Ropp, Rabs_pos_eq; lra)) as Ag.
  assert (Fn : is_finite (Bopp g3) = true) by (rewrite is_finite_Bopp; exact Fg).
  assert (Vn : f2r (Bopp g3) = - f2r g3) by apply B2R_Bopp.
  destruct (of_Z_exact 1 ltac:(lia)) as [F1 V1].
  destruct (sub_fin (f32_of_Z 1) (Bopp g3) F1 Fn) as [Fs Vs]. { apply big100'. rewrite V1, Vn. apply abs2. apply abs2 in Ag. unfold ulp32 in *. lra. }
  assert (Es : Rabs (f2r (fminus32 (f32_of_Z 1) (Bopp g3)) - T * a) <= 2 * ulp32).
  { assert (K : Rabs (f2r (f32_of_Z 1) - f2r (Bopp g3)) <= 11 / 10) by (rewrite V1, Vn; apply abs2; apply abs2 in Ag; unfold ulp32 in *; lra).
    pose proof (rnd_e _ _ K) as E. rewrite <- Vs, V1, Vn in E. apply abs2. apply abs2 in E, Ag. unfold ulp32, e0 in *. lra. }
  destruct (mul_r _ o (T * a) (f2r o) (2 * ulp32) 0 1 M (2 * M) Fs Fo Es) as [Fm Em]; [rewrite Rminus_diag_eq by reflexivity; rewrite Rabs_R0; lra|apply abs2; lra|exact Bo| |lra|].
  { rewrite Rabs_mult. assert (Rabs (T * a) * Rabs (f2r o) <= 1 * M) by (apply Rmult_le_compat; try apply Rabs_pos; [apply abs2; lra|exact Bo]). unfold ulp32. lra. }
  set (v2 := fmult32 (fminus32 (f32_of_Z 1) (Bopp g3)) o) in *.
  assert (Em' : Rabs (f2r v2 - T * a * f2r o) <= 41 / 10 * ulp32 * M) by (eapply Rle_trans; [exact Em|]; unfold ulp32, e0 in *; lra).
  clear Em.
  assert (Z3 : f2r g3 <> 0) by (apply abs2 in Ag; unfold ulp32 in *; intro Q; destruct Cg as (e & He & Ee); rewrite Q in Ee; apply abs2 in He; assert (0 < a * (1 + e)) by (apply Rmult_lt_0_compat; unfold ulp32 in *; lra); lra).
  assert (Ci : close (102 / 100 * ulp32) (/ f2r g3) (- (1 + T))).
  { replace (- (1 + T)) with (/ - a) by (unfold a; field; lra). apply (close_inv (101 / 100 * ulp32)); [exact Cg|lra|unfold ulp32; lra|unfold ulp32; lra]. }
  pose proof (close_abs _ _ _ (1 + T) Ci ltac:(rewrite Rabs_Ropp, Rabs_pos_eq; lra)) as Ai.
  assert (Bv : Rabs (f2r v2) <= 1001 / 1000 * M).
  { eapply (abs_near _ (T * a * f2r o) _ M); [exact Em'| |unfold ulp32; lra]. rewrite Rabs_mult. assert (Rabs (T * a) * Rabs (f2r o) <= 1 * M) by (apply Rmult_le_compat; try apply Rabs_pos; [apply abs2; lra|exact Bo]). lra. }
  pose proof (prod_err _ (T * a * f2r o) _ (- (1 + T)) _ _ M (1001 / 1000 * (1 + T)) Em' Ai) as PE.
  specialize (PE ltac:(rewrite Rabs_mult; assert (Rabs (T * a) * Rabs (f2r o) <= 1 * M) by (apply Rmult_le_compat; try apply Rabs_pos; [apply abs2; lra|exact Bo]); lra)).
  assert (Bi : Rabs (/ f2r g3) <= 1001 / 1000 * (1 + T)) by (apply (abs_near _ _ _ (1 + T) _ Ai); [rewrite Rabs_Ropp, Rabs_pos_eq; lra|unfold ulp32; lra]).
  specialize (PE Bi). replace (T * a * f2r o * - (1 + T)) with (- (T * f2r o)) in PE by (transitivity (- (T * f2r o) * (a * (1 + T))); [rewrite AT; ring|ring]).
  assert (BT : Rabs (- (T * f2r o)) <= T * M). { rewrite Rabs_Ropp, Rabs_mult, (Rabs_pos_eq T) by lra. apply Rmult_le_compat_l; lra. }
  assert (PE' : Rabs (f2r v2 / f2r g3 - - (T * f2r o)) <= 6 * ulp32 * (T * M) + 6 * ulp32 * M).
  { unfold Rdiv. eapply Rle_trans; [exact PE|]. unfold ulp32 in *. lra. }
  pose proof (abs_near _ _ _ _ (1001 / 1000 * (T * M)) PE' BT ltac:(unfold ulp32; lra)) as Nq.
  destruct (div_fin v2 g3 Fm Z3) as [Fd Vd]; [apply big100'; lra|]. unfold start32. fold v2. split; [exact Fd|]. rewrite Vd.
  pose proof (rnd_e _ _ Nq) as E. replace (rnd (f2r v2 / f2r g3) - - (T * f2r o)) with ((rnd (f2r v2 / f2r g3) - f2r v2 / f2r g3) + (f2r v2 / f2r g3 - - (T * f2r o))) by ring.
  eapply Rle_trans; [apply Rabs_triang|]. unfold ulp32, e0 in *. lra.
Qed.

Lemma x_step (X i : R) : Rabs X <= T * M -> Rabs i <= M -> Rabs ((- c - 1) * i + c * X) <= T * M.
Proof.
  intros HX Hi. pose proof (T_range tc Lt) as TR. pose proof (c_range tc Lt) as CR. pose proof (aT tc Lt) as AT. fold T a in TR, AT. fold T a c in CR. pose proof sizes as SZ.
  eapply Rle_trans; [apply Rabs_triang|]. rewrite !Rabs_mult. rewrite (Rabs_left (- c - 1)), (Rabs_pos_eq c) by lra. replace (- (- c - 1)) with (1 + c) by ring.
  apply Rle_trans with ((1 + c) * M + c * (T * M)); [apply Rplus_le_compat; apply Rmult_le_compat_l; lra|].
  apply Req_le. replace c with (1 - 2 * a) by (unfold c; lra). transitivity (T * M + (2 * M - 2 * M * (a * (1 + T)))); [ring|rewrite AT; ring].
Qed.
Lemma out_step (X i : R) : Rabs X <= T * M -> Rabs i <= M -> Rabs (a * i + - a * X) <= M.
Proof.
  intros HX Hi. pose proof (T_range tc Lt) as TR. pose proof (a_range tc Lt) as AR. pose proof (aT tc Lt) as AT. fold T a in TR, AT, AR.
  eapply Rle_trans; [apply Rabs_triang|]. rewrite !Rabs_mult. rewrite (Rabs_left (- a)), (Rabs_pos_eq a) by lra.
  apply Rle_trans with (a * M + - - a * (T * M)); [apply Rplus_le_compat; apply Rmult_le_compat_l; lra|].
  apply Req_le. transitivity (M * (a * (1 + T))); [ring|rewrite AT; ring].
Qed.
Lemma track_set g f o : is_finite o = true -> Rabs (f2r o) <= M -> real_coefs f -> float_coefs g -> track (set32 g o) (set f (f2r o)).
Proof.
  intros Fo Bo RC FC. destruct (start_ok o Fo Bo) as [Fs Es]. pose proof (T_range tc Lt) as TR. pose proof (aT tc Lt) as AT. pose proof (a_range tc Lt) as AR. fold T a in TR, AT, AR. pose proof sizes as SZ.
  destruct RC as (E3 & E2 & RC'). destruct FC as (G3 & G2 & FC').
  assert (X : x_ (set f (f2r o)) = - (T * f2r o)).
  { cbn [set x_]. rewrite E3, E2. replace (1 - a) with (T * a) by lra. field. lra. }
  unfold track. rewrite X. cbn [set set32 x32 out32 out k3 k2 k1 k0 angle k3_32 k2_32 k1_32 k0_32]. unfold real_coefs, float_coefs. cbn [set set32 k3 k2 k1 k0 angle k3_32 k2_32 k1_32 k0_32].
  rewrite G2, G3. split; [tauto|]. split; [tauto|]. split; [rewrite Rabs_Ropp, Rabs_mult, (Rabs_pos_eq T) by lra; apply Rmult_le_compat_l; lra|].
  split; [exact Fs|]. split; [eapply Rle_trans; [exact Es|]; unfold bound, ulp32; lra|]. split; [exact Bo|]. split; [exact Fo|].
  rewrite Rminus_diag_eq by reflexivity. rewrite Rabs_R0. unfold ulp32. lra.
Qed.
Lemma track_input g f i : is_finite i = true -> Rabs (f2r i) <= M -> track g f -> track (input32 g i) (input f (f2r i)).
Proof.
  intros Fi Bi ((E3 & E2 & E1 & E0 & EA) & (G3 & G2 & G1 & G0) & BX & Fx & Ex & _).
  pose proof (T_range tc Lt) as TR. pose proof (aT tc Lt) as AT. pose proof (a_range tc Lt) as AR. pose proof (c_range tc Lt) as CR. fold T a in TR, AT, AR. fold T a c in CR. pose proof sizes as SZ. pose proof small_e0 as SE.
  destruct (gain_ok tc Ft Lt) as [Fg Cg]. destruct (pole_ok tc Ft Lt) as [Fp Cp]. destruct (feed_ok tc Ft Lt) as [Ff Cf]. fold T a g3 in Fg, Cg. fold g3 g1 in Fp, Cp, Ff, Cf. fold T a c in Cp, Cf.
  pose proof (close_abs _ _ _ a Cg ltac:(rewrite Rabs_Ropp, Rabs_pos_eq; lra)) as Ag. pose proof (close_abs _ _ _ 1 Cp ltac:(rewrite Rabs_pos_eq; lra)) as Ap.
  assert (Fn : is_finite (Bopp g3) = true) by (rewrite is_finite_Bopp; exact Fg). assert (Vn : f2r (Bopp g3) = - f2r g3) by apply B2R_Bopp.
  assert (C : c * (1 + T) = T - 1) by (transitivity ((T - 1) * (a * (1 + T))); [unfold c; ring|rewrite AT; ring]).
  assert (CB : c * bound = bound - 8 * ulp32 * (T * M)). { unfold bound. transitivity (4 * ulp32 * (T * M) * (c * (1 + T))); [ring|rewrite C; ring]. }
  assert (AB : a * bound = 4 * ulp32 * (T * M)). { unfold bound. transitivity (4 * ulp32 * (T * M) * (a * (1 + T))); [ring|rewrite AT; ring]. }
  assert (Bb : bound <= / 2000 * (T * M)). { unfold bound. unfold ulp32. lra. }
  pose proof (x_step _ _ BX Bi) as XS. 
  assert (Zi : Rabs (f2r i - f2r i) <= 0) by (rewrite Rminus_diag_eq by reflexivity; rewrite Rabs_R0; lra).
  (* the new internal state *)
  destruct (mul_r (feed32 g1) i (- c - 1) (f2r i) _ 0 2 M (201 / 100 * M) Ff Fi Cf Zi) as [F0 P0]; [apply abs2; lra|exact Bi| |lra|].
  { rewrite Rabs_mult. assert (Rabs (- c - 1) * Rabs (f2r i) <= 2 * M) by (apply Rmult_le_compat; try apply Rabs_pos; [apply abs2; lra|exact Bi]). unfold ulp32. lra. }
  pose proof (abs_near _ _ _ _ (1001 / 1000 * (T * M)) Ex BX ltac:(lra)) as Nx.
  assert (CX : Rabs (c * x_ f) <= T * M). { rewrite Rabs_mult, (Rabs_pos_eq c) by lra. assert (c * Rabs (x_ f) <= 1 * (T * M)) by (apply Rmult_le_compat; try apply Rabs_pos; lra). lra. }
  destruct (mul_r g1 (x32 g) c (x_ f) (203 / 100 * ulp32 * 1) bound c (1001 / 1000 * (T * M)) (1003 / 1000 * (T * M)) Fp Fx Ap Ex) as [F1 P1]; [rewrite Rabs_pos_eq; lra|exact Nx| |lra|].
  { rewrite CB. unfold ulp32 in *. lra. }
  destruct (add_r _ _ _ _ _ _ (1003 / 1000 * (T * M)) F0 F1 P0 P1) as [F2 P2]; [rewrite CB; unfold ulp32, e0 in *; lra|lra|].
  set (x' := fplus32 (fmult32 (feed32 g1) i) (fmult32 g1 (x32 g))) in *. set (X' := (- c - 1) * f2r i + c * x_ f) in *.
  assert (Ex' : Rabs (f2r x' - X') <= bound). { eapply Rle_trans; [exact P2|]. rewrite CB. unfold ulp32, e0 in *. lra. }
  clear P0 P1 P2.
  (* the new output *)
  assert (A2 : Rabs (f2r (Bopp g3) - a) <= 101 / 100 * ulp32 * a) by (rewrite Vn; apply abs2; apply abs2 in Ag; lra).
  pose proof (out_step _ _ XS Bi) as OS.
  assert (Rabs (a * f2r i) <= / 3 * M) by (rewrite Rabs_mult, (Rabs_pos_eq a) by lra; apply Rmult_le_compat; try apply Rabs_pos; lra).
  assert (aM : a * M <= / 3 * M) by (apply Rmult_le_compat_r; lra).
  assert (aTM : a * (T * M) <= M) by (apply Rle_trans with (M * (a * (1 + T)) - a * M); [apply Req_le; ring|rewrite AT; assert (0 < a * M) by (apply Rmult_lt_0_compat; lra); lra]).
  destruct (mul_r (Bopp g3) i a (f2r i) _ 0 (/ 3) M (/ 2 * M) Fn Fi A2 Zi) as [F3 P3]; [rewrite Rabs_pos_eq; lra|exact Bi|unfold ulp32; lra|lra|].
  pose proof (abs_near _ _ _ _ (1001 / 1000 * (T * M)) Ex' XS ltac:(lra)) as Nx'.
  assert (Rabs (- a * X') <= M). { rewrite Rabs_mult, Rabs_Ropp, (Rabs_pos_eq a) by lra. assert (a * Rabs X' <= a * (T * M)) by (apply Rmult_le_compat_l; lra). lra. }
  destruct (mul_r g3 x' (- a) X' _ bound a (1001 / 1000 * (T * M)) (1001 / 1000 * M) Fg F2 Ag Ex') as [F4 P4]; [rewrite Rabs_Ropp, Rabs_pos_eq; lra|exact Nx'| |lra|].
  { rewrite AB. unfold ulp32 in *. lra. }
  destruct (add_r _ _ _ _ _ _ (1002 / 1000 * M) F3 F4 P3 P4) as [F5 P5]; [rewrite AB; unfold ulp32, e0 in *; lra|lra|].
  assert (I : x_ (input f (f2r i)) = X' /\ out (input f (f2r i)) = a * f2r i + - a * X').
  { unfold X'. cbn [input x_ out]. rewrite EA, E0, E1, E2, E3. split; reflexivity. }
  destruct I as [I1 I2]. unfold track. rewrite I1, I2. unfold real_coefs, float_coefs. cbn [input input32 x32 out32 k3 k2 k1 k0 angle k3_32 k2_32 k1_32 k0_32].
  rewrite G0, G1, G2, G3. fold x'. split; [tauto|]. split; [tauto|]. split; [exact XS|]. split; [exact F2|]. split; [exact Ex'|]. split; [exact OS|]. split; [exact F5|].
  eapply Rle_trans; [exact P5|]. rewrite AB. unfold ulp32, e0 in *. lra.
Qed.
End Track.
