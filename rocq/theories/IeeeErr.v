(** Rounding errors of binary32 / binary64 operations: every operation whose exact result is in
    the normal range is finite and within half a unit in the last place. *)
From Coq Require Import Reals ZArith List Bool Lra Lia Psatz.
From Flocq Require Import Core.Core IEEE754.BinarySingleNaN Relative Plus_error.
From Verif Require Import Arith Ieee NdModel.
Import ListNotations.
Open Scope R_scope.

(** [x] is [y] up to the relative error [k] *)
Definition close (k x y : R) : Prop := exists e, Rabs e <= k /\ x = y * (1 + e).

Lemma close_iff k x y : 0 <= k -> (close k x y <-> Rabs (x - y) <= k * Rabs y).
Proof.
  intro K. split.
  - intros (e & He & ->). replace (y * (1 + e) - y) with (y * e) by ring. rewrite Rabs_mult, Rmult_comm. apply Rmult_le_compat_r; [apply Rabs_pos|exact He].
  - intro H. destruct (Req_dec y 0) as [->|Hy].
    + exists 0. rewrite Rabs_R0 in *. split; [exact K|]. rewrite Rmult_0_r in H. pose proof (Rabs_pos (x - 0)). assert (E : Rabs (x - 0) = 0) by lra.
      destruct (Req_dec (x - 0) 0) as [Z|Z]; [lra|]. apply Rabs_no_R0 in Z. lra.
    + exists ((x - y) / y). split; [|field; exact Hy]. unfold Rdiv. rewrite Rabs_mult, Rabs_inv. pose proof (Rabs_pos_lt y Hy).
      apply Rmult_le_reg_r with (Rabs y); [assumption|]. rewrite Rmult_assoc, Rinv_l by lra. lra.
Qed.
Lemma close_refl k x : 0 <= k -> close k x x.
Proof. intro. exists 0. rewrite Rabs_R0. split; [assumption|ring]. Qed.
Lemma close_weak k l x y : close k x y -> k <= l -> close l x y.
Proof. intros (e & H & E) L. exists e. split; [lra|exact E]. Qed.
Lemma close_mul k l m x y x' y' : close k x y -> close l x' y' -> k + l + k * l <= m -> close m (x * x') (y * y').
Proof.
  intros (e & He & ->) (f & Hf & ->) H. exists (e + f + e * f). split; [|ring].
  eapply Rle_trans; [apply Rabs_triang|]. eapply Rle_trans; [apply Rplus_le_compat_r, Rabs_triang|]. rewrite Rabs_mult.
  pose proof (Rabs_pos e). pose proof (Rabs_pos f). assert (Rabs e * Rabs f <= k * l) by (apply Rmult_le_compat; lra). lra.
Qed.
Lemma close_trans k l m x y z : close k x y -> close l y z -> k + l + k * l <= m -> close m x z.
Proof.
  intros (e & He & ->) (f & Hf & ->) H. exists (e + f + e * f). split; [|ring].
  eapply Rle_trans; [apply Rabs_triang|]. eapply Rle_trans; [apply Rplus_le_compat_r, Rabs_triang|]. rewrite Rabs_mult.
  pose proof (Rabs_pos e). pose proof (Rabs_pos f). assert (Rabs e * Rabs f <= k * l) by (apply Rmult_le_compat; lra). lra.
Qed.
Lemma close_inv k m x y : close k x y -> y <> 0 -> k < 1 -> k <= m * (1 - k) -> close m (/ x) (/ y).
Proof.
  intros (e & He & ->) Hy K M. assert (He' : -k <= e <= k) by (apply Rabs_le_inv; exact He). assert (0 < 1 + e) by lra.
  exists (- e / (1 + e)). split; [|field; lra]. unfold Rdiv. rewrite Rabs_mult, Rabs_Ropp, Rabs_inv, (Rabs_pos_eq (1 + e)) by lra.
  apply Rmult_le_reg_r with (1 + e); [assumption|]. rewrite Rmult_assoc, Rinv_l by lra. pose proof (Rabs_pos e).
  assert (0 <= m). { destruct (Rle_or_lt 0 m); [assumption|]. nra. } nra.
Qed.
Lemma close_sqrt k x y : close k x y -> 0 <= y -> k <= 1 -> close k (sqrt x) (sqrt y).
Proof.
  intros (e & He & ->) Hy K. assert (He' : -k <= e <= k) by (apply Rabs_le_inv; exact He).
  exists (sqrt (1 + e) - 1). split; [|rewrite sqrt_mult by lra; ring].
  pose proof (sqrt_pos (1 + e)) as P. pose proof (sqrt_sqrt (1 + e) ltac:(lra)) as Q. set (s := sqrt (1 + e)) in *.
  assert (E : (s - 1) * (s + 1) = e) by (replace ((s - 1) * (s + 1)) with (s * s - 1) by ring; rewrite Q; ring).
  rewrite <- E, Rabs_mult, (Rabs_pos_eq (s + 1)) in He by lra. pose proof (Rabs_pos (s - 1)). nra.
Qed.
Lemma close_exp k t : Rabs t <= k -> k <= 1 / 2 -> close (2 * k) (exp t) 1.
Proof.
  intros T K. exists (exp t - 1). split; [|ring]. assert (T' : - k <= t <= k) by (apply Rabs_le_inv; exact T).
  pose proof (exp_ineq1_le t) as L. pose proof (exp_ineq1_le (- t)) as U. rewrite exp_Ropp in U. pose proof (exp_pos t) as P.
  assert (exp t * (1 - t) <= 1). { apply Rmult_le_reg_r with (/ exp t); [apply Rinv_0_lt_compat; exact P|]. rewrite Rmult_1_l. replace (exp t * (1 - t) * / exp t) with (1 - t) by (field; lra). lra. }
  apply Rabs_le. split; [lra|]. nra.
Qed.
Lemma close_pos k x y : close k x y -> k < 1 -> 0 < y -> (1 - k) * y <= x <= (1 + k) * y /\ 0 < x.
Proof. intros (e & He & ->) K Y. assert (He' : -k <= e <= k) by (apply Rabs_le_inv; exact He). assert (0 < 1 + e) by lra. repeat split; nra. Qed.

(** ** one rounding *)
Section Gen.
Context (prec emax : Z) {Hp : Prec_gt_0 prec} {He : Prec_lt_emax prec emax}.
Notation emin := (3 - emax - prec)%Z.
Notation rn := (round radix2 (SpecFloat.fexp prec emax) (round_mode mode_NE)).
Lemma round_close x : bpow radix2 (2 - emax) <= Rabs x -> close (/ 2 * bpow radix2 (- prec + 1)) (rn x) x.
Proof.
  intro H. apply close_iff; [pose proof (bpow_gt_0 radix2 (- prec + 1)); lra|].
  apply (relative_error_N_FLT radix2 emin prec Hp (fun z => negb (Z.even z)) x). replace (emin + prec - 1)%Z with (2 - emax)%Z by lia. exact H.
Qed.
Lemma round_bound x k : (emin + prec <= k)%Z -> Rabs x <= bpow radix2 k -> Rabs (rn x) <= bpow radix2 k.
Proof.
  intros Hk H. apply abs_round_le_generic; try typeclasses eauto; [|exact H].
  apply generic_format_bpow. unfold SpecFloat.fexp, SpecFloat.emin. pose proof Hp. red in H0. lia.
Qed.
Lemma round_fits x : Rabs x <= bpow radix2 (emax - 1) -> Rlt_bool (Rabs (rn x)) (bpow radix2 emax) = true.
Proof.
  intro H. apply Rlt_bool_true. apply Rle_lt_trans with (bpow radix2 (emax - 1)); [|apply bpow_lt; lia].
  apply round_bound; [|exact H]. pose proof He as K. unfold Prec_lt_emax in K. pose proof Hp. red in H0. lia.
Qed.
Definition in_range (x : R) : Prop := bpow radix2 (2 - emax) <= Rabs x <= bpow radix2 (emax - 1).
Notation flt := (binary_float prec emax).
Notation half_ulp := (/ 2 * bpow radix2 (- prec + 1)).
Lemma mul_close (a b : flt) : is_finite a = true -> is_finite b = true -> in_range (B2R a * B2R b) ->
  is_finite (Bmult mode_NE a b) = true /\ close half_ulp (B2R (Bmult mode_NE a b)) (B2R a * B2R b).
Proof.
  intros Fa Fb [L U]. pose proof (Bmult_correct prec emax _ _ mode_NE a b) as H. rewrite (round_fits _ U) in H. destruct H as (H1 & H2 & _).
  rewrite H2, Fa, Fb. split; [reflexivity|]. rewrite H1. apply round_close, L.
Qed.
Lemma div_close (a b : flt) : is_finite a = true -> B2R b <> 0 -> in_range (B2R a / B2R b) ->
  is_finite (Bdiv mode_NE a b) = true /\ close half_ulp (B2R (Bdiv mode_NE a b)) (B2R a / B2R b).
Proof.
  intros Fa Hb [L U]. pose proof (Bdiv_correct prec emax _ _ mode_NE a b Hb) as H. rewrite (round_fits _ U) in H. destruct H as (H1 & H2 & _).
  rewrite H2, Fa. split; [reflexivity|]. rewrite H1. apply round_close, L.
Qed.
Lemma sqrt_close (a : flt) : 0 < B2R a -> in_range (sqrt (B2R a)) ->
  is_finite (Bsqrt mode_NE a) = true /\ close half_ulp (B2R (Bsqrt mode_NE a)) (sqrt (B2R a)).
Proof.
  intros Pa [L _]. destruct (Bsqrt_correct prec emax _ _ mode_NE a) as (H1 & H2 & _). split.
  - rewrite H2. destruct a as [s|s| |[|] m e Ha]; try reflexivity; try (cbn in Pa; lra). exfalso. unfold B2R in Pa. pose proof (F2R_lt_0 radix2 (Float radix2 (Zneg m) e) ltac:(reflexivity)). cbn [cond_Zopp] in Pa. cbn in *. lra.
  - rewrite H1. apply round_close, L.
Qed.
Lemma normalize_close m e s : in_range (F2R (Float radix2 m e)) ->
  is_finite (binary_normalize prec emax _ _ mode_NE m e s) = true /\ close half_ulp (B2R (binary_normalize prec emax _ _ mode_NE m e s)) (F2R (Float radix2 m e)).
Proof.
  intros [L U]. pose proof (binary_normalize_correct prec emax _ _ mode_NE m e s) as H. cbv zeta in H. rewrite (round_fits _ U) in H. destruct H as (H1 & H2 & _).
  split; [exact H2|]. rewrite H1. apply round_close, L.
Qed.
(** addition never underflows *)
Lemma add_close (a b : flt) : is_finite a = true -> is_finite b = true -> Rabs (B2R a + B2R b) <= bpow radix2 (emax - 1) ->
  is_finite (Bplus mode_NE a b) = true /\ close half_ulp (B2R (Bplus mode_NE a b)) (B2R a + B2R b).
Proof.
  intros Fa Fb U. pose proof (Bplus_correct prec emax _ _ mode_NE a b Fa Fb) as H. rewrite (round_fits _ U) in H. destruct H as (H1 & H2 & _).
  split; [exact H2|]. rewrite H1.
  destruct (FLT_plus_error_N_ex radix2 emin prec (fun z => negb (Z.even z)) (B2R a) (B2R b) (generic_format_B2R prec emax a) (generic_format_B2R prec emax b)) as (e & E1 & E2).
  exists e. split; [|exact E2]. eapply Rle_trans; [exact E1|]. apply (u_rod1pu_ro_le_u_ro radix2 prec).
Qed.
(** division, with the absolute error of a result below the normal range *)
Lemma div_close_abs (a b : flt) : is_finite a = true -> B2R b <> 0 -> Rabs (B2R a / B2R b) <= bpow radix2 (emax - 1) ->
  is_finite (Bdiv mode_NE a b) = true /\ exists e h, Rabs e <= half_ulp /\ Rabs h <= / 2 * bpow radix2 emin /\ B2R (Bdiv mode_NE a b) = B2R a / B2R b * (1 + e) + h.
Proof.
  intros Fa Hb U. pose proof (Bdiv_correct prec emax _ _ mode_NE a b Hb) as H. rewrite (round_fits _ U) in H. destruct H as (H1 & H2 & _).
  rewrite H2, Fa. split; [reflexivity|]. rewrite H1.
  destruct (relative_error_N_FLT'_ex radix2 emin prec Hp (fun z => negb (Z.even z)) (B2R a / B2R b)) as (e & h & E1 & E2 & _ & E3).
  exists e, h. split; [eapply Rle_trans; [exact E1|apply (u_rod1pu_ro_le_u_ro radix2 prec)]|]. split; [exact E2|exact E3].
Qed.
Lemma mul_close_abs (a b : flt) : is_finite a = true -> is_finite b = true -> Rabs (B2R a * B2R b) <= bpow radix2 (emax - 1) ->
  is_finite (Bmult mode_NE a b) = true /\ exists e h, Rabs e <= half_ulp /\ Rabs h <= / 2 * bpow radix2 emin /\ B2R (Bmult mode_NE a b) = B2R a * B2R b * (1 + e) + h.
Proof.
  intros Fa Fb U. pose proof (Bmult_correct prec emax _ _ mode_NE a b) as H. rewrite (round_fits _ U) in H. destruct H as (H1 & H2 & _).
  rewrite H2, Fa, Fb. split; [reflexivity|]. rewrite H1.
  destruct (relative_error_N_FLT'_ex radix2 emin prec Hp (fun z => negb (Z.even z)) (B2R a * B2R b)) as (e & h & E1 & E2 & _ & E3).
  exists e, h. split; [eapply Rle_trans; [exact E1|apply (u_rod1pu_ro_le_u_ro radix2 prec)]|]. split; [exact E2|exact E3].
Qed.
End Gen.

(** ** literal bounds *)
Definition ulp32 : R := / 16777216.
Definition ulp64 : R := / 9007199254740992.
Lemma half_ulp32 : / 2 * bpow radix2 (- (24) + 1) = ulp32. Proof. unfold ulp32. cbn. lra. Qed.
Lemma half_ulp64 : / 2 * bpow radix2 (- (53) + 1) = ulp64. Proof. unfold ulp64. cbn. lra. Qed.
(** between 2^-120 and 2^120 *)
Definition mid (x : R) : Prop := / 1329227995784915872903807060280344576 <= Rabs x <= 1329227995784915872903807060280344576.
Lemma b120 : bpow radix2 120 = 1329227995784915872903807060280344576. Proof. cbn. lra. Qed.
Lemma bm120 : bpow radix2 (- (120)) = / 1329227995784915872903807060280344576. Proof. cbn. lra. Qed.
Lemma mid32 x : mid x -> in_range 128 x.
Proof.
  intros [L U]. rewrite <- b120 in L, U. split.
  - eapply Rle_trans; [|exact L]. rewrite <- bpow_opp. apply bpow_le. lia.
  - eapply Rle_trans; [exact U|]. apply bpow_le. lia.
Qed.
Lemma mid64 x : mid x -> in_range 1024 x.
Proof.
  intros [L U]. rewrite <- b120 in L, U. split.
  - eapply Rle_trans; [|exact L]. rewrite <- bpow_opp. apply bpow_le. lia.
  - eapply Rle_trans; [exact U|]. apply bpow_le. lia.
Qed.
Lemma mid_pos x : / 1329227995784915872903807060280344576 <= x <= 1329227995784915872903807060280344576 -> mid x.
Proof. intro H. unfold mid. rewrite Rabs_pos_eq by lra. exact H. Qed.
Lemma mul32_close a b : is_finite a = true -> is_finite b = true -> mid (B2R a * B2R b) ->
  is_finite (fmult32 a b) = true /\ close ulp32 (B2R (fmult32 a b)) (B2R a * B2R b).
Proof. intros. rewrite <- half_ulp32. apply mul_close; auto. apply mid32. assumption. Qed.
Lemma mul64_close a b : is_finite a = true -> is_finite b = true -> mid (B2R a * B2R b) ->
  is_finite (mul64 a b) = true /\ close ulp64 (B2R (mul64 a b)) (B2R a * B2R b).
Proof. intros. rewrite <- half_ulp64. apply mul_close; auto. apply mid64. assumption. Qed.
Lemma div64_close a b : is_finite a = true -> B2R b <> 0 -> mid (B2R a / B2R b) ->
  is_finite (div64 a b) = true /\ close ulp64 (B2R (div64 a b)) (B2R a / B2R b).
Proof. intros. rewrite <- half_ulp64. apply div_close; auto. apply mid64. assumption. Qed.
Lemma sqrt64_close (a : f64) : 0 < B2R a -> mid (sqrt (B2R a)) -> is_finite (Bsqrt mode_NE a) = true /\ close ulp64 (B2R (Bsqrt mode_NE a)) (sqrt (B2R a)).
Proof. intros. rewrite <- half_ulp64. apply sqrt_close; auto. apply mid64. assumption. Qed.
Lemma sqrt32_close (a : f32) : 0 < B2R a -> mid (sqrt (B2R a)) -> is_finite (Bsqrt mode_NE a) = true /\ close ulp32 (B2R (Bsqrt mode_NE a)) (sqrt (B2R a)).
Proof. intros. rewrite <- half_ulp32. apply sqrt_close; auto. apply mid32. assumption. Qed.
Lemma narrow_close (x : f64) : mid (B2R x) -> is_finite (f32_of_f64 x) = true /\ close ulp32 (B2R (f32_of_f64 x)) (B2R x).
Proof.
  intro M. assert (Z : B2R x <> 0). { intro E. unfold mid in M. rewrite E, Rabs_R0 in M. lra. }
  destruct x as [s|s| |s m e H]; try (cbn in Z; contradiction). rewrite <- half_ulp32. cbn [f32_of_f64]. apply (normalize_close 24 128). apply mid32, M.
Qed.
(** float to double is exact *)
Lemma widen_exact (x : f32) : is_finite x = true -> is_finite (f64_of_f32 x) = true /\ B2R (f64_of_f32 x) = B2R x.
Proof.
  intro Fx. destruct x as [s|s| |s m e H]; try discriminate; [split; reflexivity|]. cbn [f64_of_f32].
  pose proof (binary_normalize_correct 53 1024 _ _ mode_NE (cond_Zopp s (Zpos m)) e s) as K. cbv zeta in K.
  change (F2R (Float radix2 (cond_Zopp s (Z.pos m)) e)) with (B2R (B754_finite s m e H : f32)) in K. set (X := B754_finite s m e H : f32) in *.
  assert (G : generic_format radix2 (SpecFloat.fexp 53 1024) (B2R X)).
  { apply (generic_inclusion_mag radix2 (SpecFloat.fexp 24 128)); [|apply generic_format_B2R]. intros _. unfold SpecFloat.fexp, SpecFloat.emin. lia. }
  rewrite round_generic in K by (try typeclasses eauto; exact G).
  assert (B : Rlt_bool (Rabs (B2R X)) (bpow radix2 1024) = true).
  { apply Rlt_bool_true. apply Rlt_trans with (bpow radix2 128); [apply abs_B2R_lt_emax|apply bpow_lt; lia]. }
  rewrite B in K. destruct K as (K1 & K2 & _). split; [exact K2|exact K1].
Qed.
Lemma mid_close k x y lo hi : close k x y -> k <= 1 / 2 -> lo <= Rabs y <= hi -> lo / 2 <= Rabs x <= 2 * hi.
Proof.
  intros (e & He & ->) K B. assert (He' : -k <= e <= k) by (apply Rabs_le_inv; exact He). rewrite Rabs_mult, (Rabs_pos_eq (1 + e)) by lra.
  pose proof (Rabs_pos y). split; nra.
Qed.
Lemma pi_close : close (/ 1000000000000) (7074237752028440 / 2251799813685248) PI.
Proof.
  pose proof PI_RGT_0 as P. apply close_iff; [lra|]. rewrite (Rabs_pos_eq PI) by lra. pose proof (PI_2_3_7_ineq 7) as [L U].
  unfold PI_2_3_7_tg, Ratan_seq, tg_alt in L, U. cbn in L, U. assert (L' : 4 * (PI / 4) = PI) by field.
  apply Rabs_le. rewrite <- L'. split; lra.
Qed.
