(** Error bounds of the float computations: C69 (normal density), C101 (coefficient of the
    multidimensional density). *)
From Coq Require Import Reals ZArith List Bool Lra Lia Psatz.
From Flocq Require Import Core.Core IEEE754.BinarySingleNaN.
From Verif Require Import Arith Ieee NdModel NdSpec NdProps MatModel IeeeErr.
Import ListNotations.
Open Scope R_scope.

(** std::exp with relative error [k] on the arguments in question *)
Definition exp_close (k : R) (expf : f32 -> f32) : Prop :=
  forall t, is_finite t = true -> -60 <= B2R t <= 1 -> is_finite (expf t) = true /\ close k (B2R (expf t)) (exp (B2R t)).

Lemma one64 : B2R (f64_of_Z 1) = 1 /\ is_finite (f64_of_Z 1) = true.
Proof. split; [|reflexivity]. rewrite <- SF2R_B2SF. lazy -[SF2R IZR Rmult Rinv Rdiv]. unfold SF2R, F2R. cbn. lra. Qed.
Lemma two64 : B2R (f64_of_Z 2) = 2 /\ is_finite (f64_of_Z 2) = true.
Proof. split; [|reflexivity]. rewrite <- SF2R_B2SF. lazy -[SF2R IZR Rmult Rinv Rdiv]. unfold SF2R, F2R. cbn. lra. Qed.
Lemma twopi64 : B2R (mul64 (f64_of_Z 2) pi64) = 2 * (7074237752028440 / 2251799813685248) /\ is_finite (mul64 (f64_of_Z 2) pi64) = true.
Proof. split; [|reflexivity]. rewrite <- SF2R_B2SF. lazy -[SF2R IZR Rmult Rinv Rdiv]. unfold SF2R, F2R. cbn. lra. Qed.

Lemma nd32_a_close sigma : is_finite sigma = true -> / 1048576 <= B2R sigma <= 1048576 ->
  is_finite (nd32_a (nd32_new sigma)) = true /\ close (/ 8388608) (B2R (nd32_a (nd32_new sigma))) (/ (B2R sigma * sqrt (2 * PI))).
Proof.
  intros Fs Rs. unfold nd32_new. cbn [nd32_a]. destruct (widen_exact sigma Fs) as [Fw Ew]. set (s := f64_of_f32 sigma) in *. set (x := B2R sigma) in *.
  destruct twopi64 as [Ep Fp]. set (P := 2 * (7074237752028440 / 2251799813685248)) in *.
  assert (HP : 6 <= P <= 7) by (unfold P; lra). set (tp := mul64 (f64_of_Z 2) pi64) in *.
  destruct (mul64_close tp s Fp Fw) as [F1 C1]. { rewrite Ep, Ew. apply mid_pos. split; nra. }
  rewrite Ep, Ew in C1. set (m1 := mul64 tp s) in *.
  assert (Px : / 1048576 * 6 <= P * x <= 1048576 * 7) by (split; nra).
  assert (B1 : close ulp64 (B2R m1 * x) (P * x * x)). { destruct C1 as (e & E1 & E2). exists e. split; [exact E1|]. rewrite E2. ring. }
  assert (Pxx : / 1048576 * / 1048576 * 6 <= P * x * x <= 1048576 * 1048576 * 7) by (split; nra).
  assert (U : 0 < ulp64 <= / 1000000000000) by (unfold ulp64; lra).
  destruct (mul64_close m1 s F1 Fw) as [F2 C2]. { rewrite Ew. apply mid_pos. destruct (close_pos _ _ _ B1) as [Q _]; [lra|lra|]. clear -Q Pxx U. split; nra. }
  rewrite Ew in C2. set (m2 := mul64 m1 s) in *.
  assert (C3 : close (/ 1000000000000) (B2R m2) (P * x * x)). { refine (close_trans _ _ _ _ _ _ C2 B1 _). unfold ulp64. lra. }
  destruct (close_pos _ _ _ C3) as [Q3 P3]; [lra|lra|].
  assert (C4 : close (/ 1000000000000) (sqrt (B2R m2)) (sqrt (P * x * x))) by (apply close_sqrt; [exact C3|lra|lra]).
  assert (Es : sqrt (P * x * x) = x * sqrt P). { replace (P * x * x) with (x * x * P) by ring. rewrite sqrt_mult by nra. rewrite sqrt_square by lra. reflexivity. }
  assert (S2 : 2 <= sqrt P <= 3). { split; [rewrite <- (sqrt_square 2) by lra|rewrite <- (sqrt_square 3) by lra]; apply sqrt_le_1; lra. }
  rewrite Es in C4. assert (Xs : / 1048576 * 2 <= x * sqrt P <= 1048576 * 3) by (split; nra).
  destruct (close_pos _ _ _ C4) as [Q4 P4]; [lra|lra|].
  destruct (sqrt64_close m2 P3) as [F5 C5]. { apply mid_pos. clear -Q4 Xs. split; lra. }
  set (r := Bsqrt mode_NE m2) in *.
  assert (C6 : close (/ 400000000000) (B2R r) (x * sqrt P)). { refine (close_trans _ _ _ _ _ _ C5 C4 _). unfold ulp64. lra. }
  destruct (close_pos _ _ _ C6) as [Q6 P6]; [lra|lra|].
  destruct one64 as [E1 Fo].
  assert (C7 : close (/ 300000000000) (/ B2R r) (/ (x * sqrt P))) by (apply (close_inv _ _ _ _ C6); lra).
  assert (I1 : / (1048576 * 3) <= / (x * sqrt P) <= 1048576 / 2).
  { split; [apply Rinv_le; lra|]. replace (1048576 / 2) with (/ (/ 1048576 * 2)) by field. apply Rinv_le; lra. }
  destruct (close_pos _ _ _ C7) as [Q7 P7]; [lra|lra|].
  destruct (div64_close (f64_of_Z 1) r Fo) as [F8 C8]; [lra| |]. { rewrite E1. unfold Rdiv. rewrite Rmult_1_l. apply mid_pos. clear -Q7 I1. split; lra. }
  rewrite E1 in C8. unfold Rdiv in C8. rewrite Rmult_1_l in C8. set (d := div64 (f64_of_Z 1) r) in *.
  assert (C9 : close (/ 200000000000) (B2R d) (/ (x * sqrt P))). { refine (close_trans _ _ _ _ _ _ C8 C7 _). unfold ulp64. lra. }
  destruct (close_pos _ _ _ C9) as [Q9 P9]; [lra|lra|].
  destruct (narrow_close d) as [F10 C10]. { apply mid_pos. clear -Q9 I1. split; lra. }
  split; [exact F10|].
  assert (C11 : close (/ 15000000) (B2R (f32_of_f64 d)) (/ (x * sqrt P))). { refine (close_trans _ _ _ _ _ _ C10 C9 _). unfold ulp32. lra. }
  assert (C12 : close (/ 1000000000000) P (2 * PI)). { destruct pi_close as (e & K1 & K2). exists e. split; [exact K1|]. unfold P. rewrite K2. ring. }
  pose proof PI_RGT_0 as Hpi. pose proof (sqrt_lt_R0 (2 * PI) ltac:(lra)) as Hsp.
  assert (C13 : close (/ 1000000000000) (x * sqrt P) (x * sqrt (2 * PI))).
  { apply close_sqrt in C12; [|lra|lra]. destruct C12 as (e & K1 & K2). exists e. split; [exact K1|]. rewrite K2. ring. }
  assert (C14 : close (/ 500000000000) (/ (x * sqrt P)) (/ (x * sqrt (2 * PI)))). { refine (close_inv _ _ _ _ C13 _ _ _); [|lra|lra]. apply Rgt_not_eq. apply Rmult_lt_0_compat; lra. }
  refine (close_trans _ _ _ _ _ _ C11 C14 _). lra.
Qed.
Lemma nd32_sq2_close sigma : is_finite sigma = true -> / 1048576 <= B2R sigma <= 1048576 ->
  is_finite (nd32_sq2 (nd32_new sigma)) = true /\ close (/ 8000000) (B2R (nd32_sq2 (nd32_new sigma))) (2 * B2R sigma * B2R sigma).
Proof.
  intros Fs Rs. unfold nd32_new. cbn [nd32_sq2]. set (x := B2R sigma) in *.
  assert (X2 : / 1048576 * / 1048576 <= x * x <= 1048576 * 1048576) by (split; nra).
  destruct (mul32_close sigma sigma Fs Fs) as [F1 C1]. { fold x. apply mid_pos. clear - X2. split; lra. } fold x in C1. set (m := fmult32 sigma sigma) in *.
  destruct (widen_exact m F1) as [F2 E2]. destruct two64 as [Et Ft].
  destruct (close_pos _ _ _ C1) as [Q1 P1]; [unfold ulp32; lra|lra|].
  destruct (mul64_close (f64_of_f32 m) (f64_of_Z 2) F2 Ft) as [F3 C3]. { rewrite E2, Et. apply mid_pos. unfold ulp32 in Q1. clear -Q1 X2. split; lra. }
  rewrite E2, Et in C3. set (d := mul64 (f64_of_f32 m) (f64_of_Z 2)) in *.
  assert (C4 : close ulp32 (B2R m * 2) (2 * x * x)). { destruct C1 as (e & K1 & K2). exists e. split; [exact K1|]. rewrite K2. ring. }
  assert (C5 : close (/ 16000000) (B2R d) (2 * x * x)). { refine (close_trans _ _ _ _ _ _ C3 C4 _). unfold ulp32, ulp64. lra. }
  destruct (close_pos _ _ _ C5) as [Q5 P5]; [lra|lra|].
  destruct (narrow_close d) as [F6 C6]. { apply mid_pos. clear -Q5 X2. split; lra. }
  split; [exact F6|]. refine (close_trans _ _ _ _ _ _ C6 C5 _). unfold ulp32. lra.
Qed.
Lemma exp_mono a b : a <= b -> exp a <= exp b.
Proof. intros [H| ->]; [left; apply exp_increasing; exact H|right; reflexivity]. Qed.
Lemma exp50 : exp 50 <= 3 ^ 50.
Proof.
  assert (G : forall n, exp (INR n) <= 3 ^ n). { induction n as [|n IH]; [cbn; rewrite exp_0; lra|]. rewrite S_INR, exp_plus. cbn [pow]. rewrite Rmult_comm. apply Rmult_le_compat; try (left; apply exp_pos); [apply exp_le_3|exact IH]. }
  replace 50 with (INR 50) at 1 by (rewrite INR_IZR_INZ; reflexivity). apply G.
Qed.
Lemma exp_arg_close sigma x : is_finite sigma = true -> / 1048576 <= B2R sigma <= 1048576 -> is_finite x = true -> Rabs (B2R x) <= 10 * B2R sigma ->
  let t := fdiv32 (fmult32 (Bopp x) x) (nd32_sq2 (nd32_new sigma)) in
  is_finite t = true /\ Rabs (B2R t - - (B2R x / B2R sigma) ^ 2 / 2) <= / 50000 /\ 0 <= (B2R x / B2R sigma) ^ 2 / 2 <= 50.
Proof.
  intros Fs Rs Fx Rx t. destruct (nd32_sq2_close sigma Fs Rs) as [Fq Cq]. set (q := nd32_sq2 (nd32_new sigma)) in *. set (s := B2R sigma) in *. set (X := B2R x) in *.
  set (V := (X / s) ^ 2 / 2). assert (HX : - (10 * s) <= X <= 10 * s) by (apply Rabs_le_inv; exact Rx).
  assert (H2 : 0 <= X * X <= 100 * (s * s)) by (split; nra).
  assert (S2 : / 1048576 * / 1048576 <= s * s <= 1048576 * 1048576) by (split; nra).
  assert (EV : V * (2 * s * s) = X * X) by (unfold V; field; lra).
  assert (HV : 0 <= V <= 50) by (split; nra).
  assert (Eo : B2R (Bopp x) = - X) by apply B2R_Bopp. assert (Fo : is_finite (Bopp x) = true) by (rewrite is_finite_Bopp; exact Fx).
  assert (Bb : bpow radix2 127 = 170141183460469231731687303715884105728) by (cbn; lra).
  assert (Bm : / 2 * bpow radix2 (3 - 128 - 24) <= / 1000000000000000000000000000000) by (cbn; lra).
  destruct (mul_close_abs 24 128 (Bopp x) x Fo Fx) as [Fp (e1 & h1 & E1 & E2 & E3)].
  { rewrite Eo. fold X. change (128 - 1)%Z with 127%Z. rewrite Bb. apply Rabs_le. split; nra. }
  rewrite Eo in E3. fold X in E3. rewrite half_ulp32 in E1. unfold ulp32 in E1. change (Bmult mode_NE (Bopp x) x) with (fmult32 (Bopp x) x) in *. set (p := fmult32 (Bopp x) x) in *.
  pose proof (Rle_trans _ _ _ E2 Bm) as E2'. apply Rabs_le_inv in E1. apply Rabs_le_inv in E2'.
  destruct Cq as (e2 & G1 & G2). apply Rabs_le_inv in G1. assert (HQ : 0 < B2R q) by (rewrite G2; nra).
  (* p / q = - V (1 + d) + r *)
  assert (Q1 : B2R p / B2R q = - V * ((1 + e1) / (1 + e2)) + h1 / B2R q). { rewrite E3, G2. replace (- X * X) with (- (V * (2 * s * s))) by (rewrite EV; ring). field. repeat split; try lra. }
  set (d := (1 + e1) / (1 + e2)) in *.
  assert (Hd : Rabs (d - 1) <= / 5000000).
  { assert (Dd : d * (1 + e2) = 1 + e1) by (unfold d; field; lra). apply Rabs_le. split; nra. }
  apply Rabs_le_inv in Hd. set (r := h1 / B2R q) in *.
  assert (Hr : Rabs r <= / 1000000000000000).
  { assert (Er : r * B2R q = h1) by (unfold r; field; lra). assert (Bq : / 1099511627776 <= B2R q) by (rewrite G2; nra).
    apply Rabs_le. split; nra. }
  apply Rabs_le_inv in Hr.
  assert (HQ2 : -51 <= B2R p / B2R q <= 1) by (rewrite Q1; split; nra).
  destruct (div_close_abs 24 128 p q Fp) as [Ft (e3 & h3 & K1 & K2 & K3)]; [lra| |].
  { change (128 - 1)%Z with 127%Z. rewrite Bb. apply Rabs_le. split; lra. }
  rewrite half_ulp32 in K1. unfold ulp32 in K1. pose proof (Rle_trans _ _ _ K2 Bm) as K2'. apply Rabs_le_inv in K1. apply Rabs_le_inv in K2'.
  split; [exact Ft|]. split; [|exact HV]. change (Bdiv mode_NE p q) with t in K3. rewrite K3.
  replace (- (X / s) ^ 2 / 2) with (- V) by (unfold V; field; lra).
  apply Rabs_le. assert (Ha : Rabs (B2R p / B2R q * e3) <= / 300000). { rewrite Rabs_mult. apply Rle_trans with (51 * / 16777216); [|lra]. apply Rmult_le_compat; try apply Rabs_pos; apply Rabs_le; lra. }
  apply Rabs_le_inv in Ha. assert (Hb : Rabs (V * (d - 1)) <= 50 * / 5000000). { rewrite Rabs_mult. apply Rmult_le_compat; try apply Rabs_pos; apply Rabs_le; lra. }
  apply Rabs_le_inv in Hb. assert (EE : B2R p / B2R q * (1 + e3) + h3 - - V = - (V * (d - 1)) + r + B2R p / B2R q * e3 + h3) by (rewrite Q1; ring).
  rewrite EE. split; lra.
Qed.
(** the computed density of a value up to ten standard deviations away is finite and is the
    normal density up to twice the relative error of std::exp and 1/10000 *)
Theorem C69_float_density k expf sigma x : exp_close k expf -> 0 <= k <= / 1000 ->
  is_finite sigma = true -> / 1048576 <= B2R sigma <= 1048576 -> is_finite x = true -> Rabs (B2R x) <= 10 * B2R sigma ->
  let d := nd32_eval expf (nd32_new sigma) x in
  is_finite d = true /\ close (2 * k + / 10000) (B2R d) (gauss (B2R sigma) (B2R x)).
Proof.
  intros He Hk Fs Rs Fx Rx d. destruct (exp_arg_close sigma x Fs Rs Fx Rx) as (Ft & Ct & HV). destruct (nd32_a_close sigma Fs Rs) as [Fa Ca].
  unfold nd32_eval in d. set (t := fdiv32 (fmult32 (Bopp x) x) (nd32_sq2 (nd32_new sigma))) in *. set (a := nd32_a (nd32_new sigma)) in *.
  set (v := - (B2R x / B2R sigma) ^ 2 / 2) in *. assert (HV' : -50 <= v <= 0) by (unfold v; lra).
  pose proof (Rabs_le_inv _ _ Ct) as Ct'. destruct (He t Ft) as [Fe Ce]; [lra|].
  assert (C1 : close (/ 25000) (exp (B2R t)) (exp v)).
  { replace (B2R t) with (v + (B2R t - v)) by ring. rewrite exp_plus. destruct (close_exp _ _ Ct) as (e & K1 & K2); [lra|]. exists e. split; [lra|]. rewrite K2. ring. }
  assert (C2 : close (k * (1 + / 25000) + / 25000) (B2R (expf t)) (exp v)). { refine (close_trans _ _ _ _ _ _ Ce C1 _). lra. }
  assert (G : gauss (B2R sigma) (B2R x) = / (B2R sigma * sqrt (2 * PI)) * exp v). { unfold gauss. rewrite (Rabs_pos_eq (B2R sigma)) by lra. reflexivity. }
  assert (C3 : close (k * (1 + / 20000) + / 23000) (B2R a * B2R (expf t)) (gauss (B2R sigma) (B2R x))). { rewrite G. refine (close_mul _ _ _ _ _ _ _ Ca C2 _). lra. }
  assert (Hs : 2 <= sqrt (2 * PI) <= 3).
  { assert (P : 2 <= PI <= 4). { destruct pi_close as (e & K1 & K2). apply Rabs_le_inv in K1. split; nra. }
    assert (W2 : 4 <= 2 * PI <= 9) by lra. set (W := 2 * PI) in *. clearbody W.
    split; [rewrite <- (sqrt_square 2) by lra|rewrite <- (sqrt_square 3) by lra]; apply sqrt_le_1; lra. }
  assert (B1 : / (1048576 * 3) <= / (B2R sigma * sqrt (2 * PI)) <= 1048576).
  { split; [apply Rinv_le; nra|]. replace 1048576 with (/ / 1048576) by field. apply Rinv_le; nra. }
  assert (B2 : / 717897987691852588770249 <= exp v <= 1).
  { split.
    - apply Rle_trans with (exp (- (50))); [|apply exp_mono; lra]. rewrite exp_Ropp. apply Rinv_le; [apply exp_pos|]. eapply Rle_trans; [exact exp50|]. cbn. lra.
    - rewrite <- exp_0. apply exp_mono. lra. }
  assert (B3 : / (1048576 * 3) * / 717897987691852588770249 <= gauss (B2R sigma) (B2R x) <= 1048576).
  { rewrite G. split; [apply Rmult_le_compat; lra|]. apply Rle_trans with (1048576 * 1); [|lra]. apply Rmult_le_compat; lra. }
  destruct (close_pos _ _ _ C3) as [Q3 _]; [lra|lra|].
  destruct (mul32_close a (expf t) Fa Fe) as [Fd Cd]. { apply mid_pos. assert (HK : 0 <= k * (1 + / 20000) + / 23000 <= 1 / 2) by lra.
    set (K := k * (1 + / 20000) + / 23000) in *. set (g := gauss (B2R sigma) (B2R x)) in *. clear -Q3 B3 HK. clearbody K g. assert (0 < g) by lra.
    assert (0 <= K * g) by (apply Rmult_le_pos; lra). assert (K * g <= 1 / 2 * g) by (apply Rmult_le_compat_r; lra). split; lra. }
  split; [exact Fd|]. refine (close_trans _ _ _ _ _ _ Cd C3 _). unfold ulp32. lra.
Qed.
(** an exponential function of this accuracy exists *)
Definition exp32 (t : f32) : f32 := binary_normalize 24 128 _ _ mode_NE (Zfloor (exp (B2R t) * bpow radix2 200)) (-200) false.
Lemma exp32_close : exp_close (/ 8000000) exp32.
Proof.
  intros t Ft Ht. assert (L : / 3 ^ 60 <= exp (B2R t) <= 3).
  { split; [|eapply Rle_trans; [apply exp_mono, Ht|exact exp_le_3]]. apply Rle_trans with (exp (- (60))); [|apply exp_mono; lra]. rewrite exp_Ropp. apply Rinv_le; [apply exp_pos|]. 
    assert (G : forall n, exp (INR n) <= 3 ^ n). { induction n as [|n IH]; [cbn; rewrite exp_0; lra|]. rewrite S_INR, exp_plus. cbn [pow]. rewrite Rmult_comm. apply Rmult_le_compat; try (left; apply exp_pos); [apply exp_le_3|exact IH]. }
    replace 60 with (INR 60) at 1 by (rewrite INR_IZR_INZ; reflexivity). apply G. }
  assert (T : 3 ^ 60 = 42391158275216203514294433201) by (cbn; lra). rewrite T in L. set (y := exp (B2R t)) in *.
  assert (C : close (/ 1000000000000000) (F2R (Float radix2 (Zfloor (y * bpow radix2 200)) (-200))) y).
  { apply close_iff; [lra|]. unfold F2R. cbn [Fnum Fexp]. pose proof (Zfloor_lb (y * bpow radix2 200)) as A. pose proof (Zfloor_ub (y * bpow radix2 200)) as B.
    assert (P : bpow radix2 200 * bpow radix2 (-200) = 1) by (rewrite <- bpow_plus; reflexivity). pose proof (bpow_gt_0 radix2 (-200)) as Q.
    assert (Q2 : bpow radix2 (-200) <= / 1000000000000000000000000000000000000000000000000000000000000) by (cbn; lra).
    set (z := IZR (Zfloor (y * bpow radix2 200))) in *. set (b := bpow radix2 (-200)) in *. set (c := bpow radix2 200) in *. clearbody z b c.
    rewrite (Rabs_pos_eq y) by lra. assert (E1 : z * b <= y * c * b) by (apply Rmult_le_compat_r; lra). assert (E2 : y * c * b <= (z + 1) * b) by (apply Rmult_le_compat_r; lra).
    replace (y * c * b) with y in E1, E2 by (rewrite Rmult_assoc, P; ring). apply Rabs_le. split; nra. }
  destruct (close_pos _ _ _ C) as [Q _]; [lra|lra|].
  destruct (normalize_close 24 128 (Zfloor (y * bpow radix2 200)) (-200) false) as [F N]. { apply mid32, mid_pos. clear -Q L. split; lra. }
  rewrite half_ulp32 in N. split; [exact F|]. refine (close_trans _ _ _ _ _ _ N C _). unfold ulp32. lra.
Qed.
Example C69_float_nonvacuous : exp_close (/ 8000000) exp32 /\
  let sigma := f32_of_f64 (div64 (f64_of_Z 1) (f64_of_Z 4)) in let x := f32_of_Z 2 in
  is_finite sigma = true /\ B2R sigma = / 4 /\ is_finite x = true /\ B2R x = 2 /\ Rabs (B2R x) <= 10 * B2R sigma.
Proof.
  split; [exact exp32_close|]. cbv zeta.
  assert (E1 : B2R (f32_of_f64 (div64 (f64_of_Z 1) (f64_of_Z 4))) = / 4) by (rewrite <- SF2R_B2SF; lazy -[SF2R IZR Rmult Rinv Rdiv]; unfold SF2R, F2R; cbn; lra).
  assert (E2 : B2R (f32_of_Z 2) = 2) by (rewrite <- SF2R_B2SF; lazy -[SF2R IZR Rmult Rinv Rdiv]; unfold SF2R, F2R; cbn; lra).
  split; [reflexivity|]. split; [exact E1|]. split; [reflexivity|]. split; [exact E2|]. rewrite E1, E2, Rabs_pos_eq; lra.
Qed.

(** the computed coefficient of the multidimensional density: within 1/4000000 of the exact one *)
Theorem C101_float_coefficient (c : f64) (dt : f32) : is_finite c = true -> 1 <= B2R c <= 1048576 ->
  is_finite dt = true -> / 1208925819614629174706176 <= B2R dt <= 1208925819614629174706176 ->
  is_finite (ndn32_a c dt) = true /\ close (/ 4000000) (B2R (ndn32_a c dt)) (1 / (B2R c * sqrt (B2R dt))).
Proof.
  intros Fc Rc Fd Rd. unfold ndn32_a. set (x := B2R c) in *. set (y := B2R dt) in *.
  assert (S1 : / 1099511627776 <= sqrt y <= 1099511627776). { split; [rewrite <- (sqrt_square (/ 1099511627776)) by lra|rewrite <- (sqrt_square 1099511627776) by lra]; apply sqrt_le_1; lra. }
  destruct (sqrt32_close dt) as [F1 C1]; [fold y; lra|apply mid_pos; fold y; lra|]. fold y in C1. set (s := Bsqrt mode_NE dt) in *.
  destruct (widen_exact s F1) as [F2 E2]. destruct (close_pos _ _ _ C1) as [Q1 P1]; [unfold ulp32; lra|lra|].
  assert (B1 : close ulp32 (x * B2R s) (x * sqrt y)). { destruct C1 as (e & K1 & K2). exists e. split; [exact K1|]. rewrite K2. ring. }
  assert (X1 : / 1099511627776 <= x * sqrt y <= 1048576 * 1099511627776) by (split; nra).
  destruct (close_pos _ _ _ B1) as [Q2 P2]; [unfold ulp32; lra|lra|]. unfold ulp32 in Q2.
  destruct (mul64_close c (f64_of_f32 s) Fc F2) as [F3 C3]. { rewrite E2. fold x. apply mid_pos. clear -Q2 X1. split; lra. }
  rewrite E2 in C3. fold x in C3. set (m := mul64 c (f64_of_f32 s)) in *.
  assert (C4 : close (/ 16000000) (B2R m) (x * sqrt y)). { refine (close_trans _ _ _ _ _ _ C3 B1 _). unfold ulp32, ulp64. lra. }
  destruct (close_pos _ _ _ C4) as [Q4 P4]; [lra|lra|].
  assert (C5 : close (/ 15000000) (/ B2R m) (/ (x * sqrt y))) by (apply (close_inv _ _ _ _ C4); lra).
  assert (I1 : / (1048576 * 1099511627776) <= / (x * sqrt y) <= 1099511627776).
  { split; [apply Rinv_le; lra|]. replace 1099511627776 with (/ / 1099511627776) by field. apply Rinv_le; lra. }
  destruct (close_pos _ _ _ C5) as [Q5 P5]; [lra|lra|]. destruct one64 as [E1 Fo].
  destruct (div64_close (f64_of_Z 1) m Fo) as [F6 C6]; [lra| |]. { rewrite E1. unfold Rdiv. rewrite Rmult_1_l. apply mid_pos. clear -Q5 I1. split; lra. }
  rewrite E1 in C6. unfold Rdiv in C6. rewrite Rmult_1_l in C6. set (d := div64 (f64_of_Z 1) m) in *.
  assert (C7 : close (/ 14000000) (B2R d) (/ (x * sqrt y))). { refine (close_trans _ _ _ _ _ _ C6 C5 _). unfold ulp64. lra. }
  destruct (close_pos _ _ _ C7) as [Q7 P7]; [lra|lra|].
  destruct (narrow_close d) as [F8 C8]. { apply mid_pos. clear -Q7 I1. split; lra. }
  split; [exact F8|]. unfold Rdiv. rewrite Rmult_1_l. refine (close_trans _ _ _ _ _ _ C8 C7 _). unfold ulp32. lra.
Qed.
Example C101_float_nonvacuous : B2R (f64_of_Z 248) = 248 /\ B2R (f32_of_Z 3) = 3 /\ is_finite (f64_of_Z 248) = true /\ is_finite (f32_of_Z 3) = true.
Proof.
  split; [|split; [|split; reflexivity]]; rewrite <- SF2R_B2SF; lazy -[SF2R IZR Rmult Rinv Rdiv]; unfold SF2R, F2R; cbn; lra.
Qed.
