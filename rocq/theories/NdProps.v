(** C69, C70: the normal likelihood and the gravity measurement. *)
From Coq Require Import Reals ZArith List Bool Lra Lia Psatz.
From Flocq Require Import Core.Core IEEE754.BinarySingleNaN.
From Verif Require Import Arith Ieee PfModel PfIeee PfProps QuatModel QuatSpec QuatProofs QuatProofs2 StateModel NdModel NdSpec.
Import ListNotations.
Open Scope R_scope.

(** ** C69 *)
Theorem C69_density : forall sigma x, sigma <> 0 -> nd_eval (nd_new sigma) x = gauss sigma x.
Proof.
  intros s x Hs. unfold nd_eval, nd_new, gauss. cbn [nd_a nd_sq2]. f_equal.
  - unfold Rdiv. rewrite Rmult_1_l. f_equal. replace (2 * PI * s * s) with ((s * s) * (2 * PI)) by ring.
    pose proof PI_RGT_0. rewrite sqrt_mult by nra. f_equal. apply (sqrt_Rsqr_abs s).
  - f_equal. field. exact Hs.
Qed.
Lemma gauss_pos s x : s <> 0 -> 0 < gauss s x.
Proof.
  intros Hs. unfold gauss. pose proof PI_RGT_0. apply Rmult_lt_0_compat; [|apply exp_pos].
  apply Rinv_0_lt_compat, Rmult_lt_0_compat; [apply Rabs_pos_lt; exact Hs|apply sqrt_lt_R0; lra].
Qed.
Lemma gauss_decreasing s x y : s <> 0 -> Rabs x < Rabs y -> gauss s y < gauss s x.
Proof.
  intros Hs H. unfold gauss. pose proof PI_RGT_0.
  apply Rmult_lt_compat_l.
  { apply Rinv_0_lt_compat, Rmult_lt_0_compat; [apply Rabs_pos_lt; exact Hs|apply sqrt_lt_R0; lra]. }
  apply exp_increasing.
  assert (Q : x ^ 2 < y ^ 2).
  { rewrite <- !Rsqr_pow2. apply Rsqr_lt_abs_1. exact H. }
  replace ((x / s) ^ 2) with (x ^ 2 / s ^ 2) by (field; exact Hs). replace ((y / s) ^ 2) with (y ^ 2 / s ^ 2) by (field; exact Hs).
  assert (0 < s ^ 2) by (rewrite <- Rsqr_pow2; apply Rsqr_pos_lt; exact Hs).
  assert (x ^ 2 / s ^ 2 < y ^ 2 / s ^ 2) by (apply Rmult_lt_compat_r; [apply Rinv_0_lt_compat; auto|auto]). lra.
Qed.
Theorem C69_shape : forall sigma, sigma <> 0 -> let f := nd_eval (nd_new sigma) in
  (forall x, 0 < f x) /\ (forall x, f (- x) = f x) /\ (forall x, f x <= f 0) /\
  f 0 = / (Rabs sigma * sqrt (2 * PI)) /\ (forall x y, Rabs x < Rabs y -> f y < f x).
Proof.
  intros s Hs f. unfold f. split; [|split; [|split; [|split]]].
  - intros x. rewrite C69_density by auto. apply gauss_pos; auto.
  - intros x. unfold nd_eval. f_equal. f_equal. f_equal. ring.
  - intros x. rewrite !C69_density by auto. destruct (Req_dec x 0) as [->|Hx]; [lra|].
    left. apply gauss_decreasing; auto. rewrite Rabs_R0. apply Rabs_pos_lt; auto.
  - rewrite C69_density by auto. unfold gauss. replace (- (0 / s) ^ 2 / 2) with 0 by (field; auto). rewrite exp_0. ring.
  - intros x y H. rewrite !C69_density by auto. apply gauss_decreasing; auto.
Qed.
(** A standard deviation of zero makes every value NaN in the arithmetic of the code. *)
Theorem C69_zero_sigma_is_nan : forall expf sb x, exp_ok expf -> is_nan (nd32_eval expf (nd32_new (B754_zero sb)) x) = true.
Proof.
  intros expf sb x [E1 E2].
  assert (Ha : nd32_a (nd32_new (B754_zero sb)) = inf32) by (destruct sb; vm_compute; reflexivity).
  assert (Hq : nd32_sq2 (nd32_new (B754_zero sb)) = B754_zero false) by (destruct sb; vm_compute; reflexivity).
  unfold nd32_eval. rewrite Ha, Hq. destruct x as [b|b| |b m e Hb].
  - assert (E : fdiv32 (fmult32 (Bopp (B754_zero b)) (B754_zero b)) (B754_zero false) = B754_nan) by (destruct b; reflexivity).
    rewrite E, E2. reflexivity.
  - assert (E : fdiv32 (fmult32 (Bopp (B754_infinity b)) (B754_infinity b)) (B754_zero false) = B754_infinity true) by (destruct b; reflexivity).
    rewrite E, E1. reflexivity.
  - assert (E : fdiv32 (fmult32 (Bopp B754_nan) B754_nan) (B754_zero false) = B754_nan) by reflexivity.
    rewrite E, E2. reflexivity.
  - set (y := fmult32 (Bopp (B754_finite b m e Hb)) (B754_finite b m e Hb)).
    assert (Hy : y = B754_zero true \/ y = B754_nan \/ Bsign y = true /\ is_nan y = false).
    { destruct (is_nan y) eqn:En; [right; left; destruct y; try discriminate; reflexivity|]. right. right. split; [|reflexivity].
      unfold y, fmult32 in *. 
      pose proof (Bmult_correct 24 128 _ _ mode_NE (Bopp (B754_finite b m e Hb)) (B754_finite b m e Hb)) as Q.
      destruct (Rlt_bool _ _).
      - destruct Q as (_ & _ & Q). rewrite (Q En). cbn [Bopp Bsign]. destruct b; reflexivity.
      - destruct (Bmult mode_NE (Bopp (B754_finite b m e Hb)) (B754_finite b m e Hb)); cbn in Q; try discriminate Q.
        cbn in Q. unfold binary_overflow in Q. cbn in Q. cbn [Bsign]. injection Q as Q. rewrite Q. destruct b; reflexivity. }
    destruct Hy as [->|[->|[Hs Hn]]].
    + change (fdiv32 (B754_zero true) (B754_zero false)) with (B754_nan : f32). rewrite E2. reflexivity.
    + change (fdiv32 B754_nan (B754_zero false)) with (B754_nan : f32). rewrite E2. reflexivity.
    + destruct y as [s|s| |s m' e' Hb']; cbn [Bsign is_nan] in Hs, Hn; try discriminate; subst s.
      * change (fdiv32 (B754_zero true) (B754_zero false)) with (B754_nan : f32). rewrite E2. reflexivity.
      * change (fdiv32 (B754_infinity true) (B754_zero false)) with (B754_infinity true : f32). rewrite E1. reflexivity.
      * change (fdiv32 (B754_finite true m' e' Hb') (B754_zero false)) with (B754_infinity true : f32). rewrite E1. reflexivity.
Qed.
Example C69_nonvacuous : exists expf, exp_ok expf.
Proof. exists (fun x => match x with B754_nan => B754_nan | _ => B754_zero false end). split; reflexivity. Qed.

(** ** C70 *)
(** Cauchy-Schwarz *)
Lemma cauchy a b : vdot a b ^ 2 <= vdot a a * vdot b b.
Proof.
  assert (Q : vdot a a * vdot b b - vdot a b ^ 2 =
    (vx a * vy b - vy a * vx b) ^ 2 + (vy a * vz b - vz a * vy b) ^ 2 + (vz a * vx b - vx a * vz b) ^ 2) by (unfold vdot; ring).
  pose proof (pow2_ge_0 (vx a * vy b - vy a * vx b)). pose proof (pow2_ge_0 (vy a * vz b - vz a * vy b)).
  pose proof (pow2_ge_0 (vz a * vx b - vx a * vz b)). lra.
Qed.
Lemma dot_norms a b : Rabs (vdot a b) <= vnorm a * vnorm b.
Proof.
  unfold vnorm. assert (0 <= vdot a a) by (unfold vdot; nra). assert (0 <= vdot b b) by (unfold vdot; nra).
  rewrite <- sqrt_mult by auto. rewrite <- sqrt_Rsqr_abs. apply sqrt_le_1_alt. rewrite Rsqr_pow2. apply cauchy.
Qed.
Lemma norm_pos_vec a : a <> V3 0 0 0 -> 0 < vnorm a.
Proof.
  intros H. unfold vnorm. apply sqrt_lt_R0. unfold vdot. destruct a as [x y z]. cbn [vx vy vz].
  destruct (Req_dec x 0) as [->|Hx]; [|nra]. destruct (Req_dec y 0) as [->|Hy]; [|nra]. destruct (Req_dec z 0) as [->|Hz]; [|nra].
  exfalso. apply H. reflexivity.
Qed.
Lemma up_norm q : unit_quat q -> vnorm (qrot (inv q) (V3 0 0 1)) = 1.
Proof.
  intros U. assert (E : qrot q (qrot (inv q) (V3 0 0 1)) = V3 0 0 1) by (apply qrot_inv_r; auto).
  assert (Q : vdot (qrot (inv q) (V3 0 0 1)) (qrot (inv q) (V3 0 0 1)) = 1).
  { rewrite <- (qrot_dot q) by auto. rewrite E. unfold vdot. cbn [vx vy vz]. ring. }
  unfold vnorm. rewrite Q. apply sqrt_1.
Qed.
(** the argument of the arc cosine is always legal in real arithmetic *)
Theorem C70_argument_range : forall acc_var acc s, unit_quat (rot s) -> acc <> V3 0 0 0 ->
  -1 <= gravity_arg (gravity_set (gravity_new acc_var) acc) s <= 1.
Proof.
  intros av acc s U Ha. unfold gravity_arg, gravity_set. cbn [gr_acc gr_norm].
  set (u := qrot (inv (rot s)) (V3 0 0 1)). assert (Hu : vnorm u = 1) by (apply up_norm; auto). rewrite Hu, Rmult_1_r.
  pose proof (norm_pos_vec acc Ha) as Hn. pose proof (dot_norms u acc) as D. rewrite Hu, Rmult_1_l in D.
  apply Rabs_le_inv in D. split.
  - apply Rmult_le_reg_r with (vnorm acc); [auto|]. unfold Rdiv. rewrite Rmult_assoc, Rinv_l by lra. lra.
  - apply Rmult_le_reg_r with (vnorm acc); [auto|]. unfold Rdiv. rewrite Rmult_assoc, Rinv_l by lra. lra.
Qed.
(** The likelihood is the normal density of the angle between the measured acceleration and
    the direction [u] that is up in the particle's frame; nothing else of the particle or
    of the measurement matters. *)
Theorem C70_depends_on_angle : forall acc_var acc s u t, acc_var <> 0 -> unit_quat (rot s) -> acc <> V3 0 0 0 ->
  qrot (rot s) u = V3 0 0 1 -> angle_between u acc t ->
  gravity_measure (gravity_set (gravity_new acc_var) acc) s = gauss acc_var t.
Proof.
  intros av acc s u t Hv U Ha Hu [Ht1 Ht2].
  assert (Eu : u = qrot (inv (rot s)) (V3 0 0 1)) by (rewrite <- Hu; symmetry; apply qrot_inv_l; auto).
  unfold gravity_measure. cbn [gr_nd gravity_set gravity_new]. rewrite C69_density by auto. f_equal.
  unfold gravity_arg. cbn [gr_acc gr_norm gravity_set]. rewrite <- Eu.
  assert (Nu : vnorm u = 1) by (rewrite Eu; apply up_norm; auto). pose proof (norm_pos_vec acc Ha) as Hn.
  rewrite Ht2, Nu. replace (1 * vnorm acc * cos t / (vnorm acc * 1)) with (cos t) by (field; lra). apply acos_cos; lra.
Qed.
Lemma angle_exists a b : a <> V3 0 0 0 -> b <> V3 0 0 0 -> exists t, angle_between a b t.
Proof.
  intros Ha Hb. pose proof (norm_pos_vec a Ha). pose proof (norm_pos_vec b Hb). pose proof (dot_norms a b) as D. apply Rabs_le_inv in D.
  exists (acos (vdot a b / (vnorm a * vnorm b))). split; [apply acos_bound|].
  assert (Hp : 0 < vnorm a * vnorm b) by (apply Rmult_lt_0_compat; auto).
  rewrite cos_acos; [field; split; lra|]. split; (apply Rmult_le_reg_r with (vnorm a * vnorm b); [auto|]; unfold Rdiv; rewrite Rmult_assoc, Rinv_l by lra; lra).
Qed.
(** Turning the particle about the vertical changes nothing. *)
Theorem C70_yaw_invariant : forall acc_var acc s s' a, unit_quat (rot s) -> rot s' = qmul (yaw a) (rot s) ->
  gravity_measure (gravity_set (gravity_new acc_var) acc) s' = gravity_measure (gravity_set (gravity_new acc_var) acc) s.
Proof.
  intros av acc s s' a U E. unfold gravity_measure, gravity_arg. cbn [gr_acc gr_norm gr_nd gravity_set gravity_new].
  assert (Uy : unit_quat (yaw a)) by (unfold unit_quat, yaw; cbn [qx qy qz qw]; pose proof (sin2_cos2 (a / 2)) as Q; unfold Rsqr in Q; lra).
  assert (Q : qrot (inv (rot s')) (V3 0 0 1) = qrot (inv (rot s)) (V3 0 0 1)).
  { rewrite E, inv_mul by (apply unit_nonzero; auto). rewrite qrot_mul. f_equal.
    assert (Ez : qrot (yaw a) (V3 0 0 1) = V3 0 0 1) by (rewrite yaw_rot; cbn [vx vy vz]; f_equal; ring).
    rewrite <- Ez at 1. apply qrot_inv_l. exact Uy. }
  rewrite Q. reflexivity.
Qed.
(** The likelihood is largest exactly for the particles whose up direction is the measured
    one, and decreases with the angle. *)
Theorem C70_best_when_aligned : forall acc_var acc s s' u u' t t', acc_var <> 0 -> unit_quat (rot s) -> unit_quat (rot s') -> acc <> V3 0 0 0 ->
  qrot (rot s) u = V3 0 0 1 -> qrot (rot s') u' = V3 0 0 1 -> angle_between u acc t -> angle_between u' acc t' ->
  (gravity_measure (gravity_set (gravity_new acc_var) acc) s' < gravity_measure (gravity_set (gravity_new acc_var) acc) s <-> t < t').
Proof.
  intros av acc s s' u u' t t' Hv U U' Ha Hu Hu' A A'.
  rewrite (C70_depends_on_angle av acc s u t), (C70_depends_on_angle av acc s' u' t') by auto.
  destruct A as [A _], A' as [A' _]. split.
  - intros H. destruct (Rlt_or_le t t') as [L|L]; [exact L|exfalso]. destruct (Req_dec t t') as [->|Hne]; [lra|].
    assert (gauss av t < gauss av t') by (apply gauss_decreasing; auto; rewrite !Rabs_pos_eq by lra; lra). lra.
  - intros H. apply gauss_decreasing; auto. rewrite !Rabs_pos_eq by lra. exact H.
Qed.
(** In float arithmetic the argument can exceed 1: a particle with a roll of about 29
    degrees and an IMU that measures exactly its up direction. *)
Definition f32m (m e : Z) : f32 := binary_normalize 24 128 _ _ mode_NE m e false.
Definition roll29 : quat32 := (f32m 1 (-2), B754_zero false, B754_zero false, f32m 16244470 (-24)).
Definition acc29 : vec32 := (B754_zero false, f32m 16244470 (-25), f32m 7 (-3)).
Lemma val32 (x : f32) y : B2SF x = y -> B2R x = SF2R radix2 y.
Proof. intros <-. symmetry. apply SF2R_B2SF. Qed.
Theorem C70_argument_above_one_refuted :
  Bltb (f32_of_Z 1) (gravity_arg32 acc29 roll29) = true /\
  (Rabs (B2R (f32m 1 (-2)) ^ 2 + B2R (f32m 16244470 (-24)) ^ 2 - 1) < / 10000000)%R.
Proof.
  split; [vm_compute; reflexivity|].
  assert (E1 : B2R (f32m 1 (-2)) = / 4) by (erewrite val32 by (vm_compute; reflexivity); unfold SF2R, F2R; cbn; lra).
  assert (E2 : B2R (f32m 16244470 (-24)) = 16244470 / 16777216) by (erewrite val32 by (vm_compute; reflexivity); unfold SF2R, F2R; cbn; lra).
  rewrite E1, E2. apply Rabs_def1; lra.
Qed.
(** ... and then a single such particle suppresses the update of the whole filter. *)
Theorem C70_nan_drops_update : forall (log expf acosf : f32 -> f32) sigma acc (f : filter (B32 log) quat32) i p,
  exp_ok expf -> acos_ok acosf -> nth_error (parts (B32 log) f) i = Some p ->
  Bltb (f32_of_Z 1) (gravity_arg32 acc (st _ p)) = true ->
  measure (B32 log) (fun _ q => gravity_measure32 expf acosf (nd32_new sigma) acc q) f = f.
Proof.
  intros log expf acosf sigma acc f i p [_ He] Hac Hp Hlt. apply (C02_nan_likelihood log _ f i p Hp).
  unfold gravity_measure32. rewrite (Hac _ Hlt). unfold nd32_eval.
  assert (E : fdiv32 (fmult32 (Bopp B754_nan) B754_nan) (nd32_sq2 (nd32_new sigma)) = B754_nan) by (destruct (nd32_sq2 (nd32_new sigma)); reflexivity).
  rewrite E, He. destruct (nd32_a (nd32_new sigma)); reflexivity.
Qed.
Example C70_nonvacuous : exists acc s u t, unit_quat (rot s) /\ acc <> V3 0 0 0 /\ qrot (rot s) u = V3 0 0 1 /\ angle_between u acc t /\ u <> V3 0 0 1.
Proof.
  exists (V3 1 2 3).
  exists (state_pr (V3 0 0 0) (Q4 (3/5) 0 0 (4/5))).
  cbn [rot state_pr]. assert (U : unit_quat (Q4 (3/5) 0 0 (4/5))) by (unfold unit_quat; cbn [qx qy qz qw]; lra).
  set (u := qrot (inv (Q4 (3/5) 0 0 (4/5))) (V3 0 0 1)).
  assert (Hu : qrot (Q4 (3/5) 0 0 (4/5)) u = V3 0 0 1) by (apply qrot_inv_r; exact U).
  assert (Hn : V3 1 2 3 <> V3 0 0 0) by (intros H; injection H; intros; lra).
  destruct (angle_exists u (V3 1 2 3)) as (t & Ht); auto.
  { intros Hz. pose proof (up_norm _ U) as N. fold u in N. rewrite Hz in N. unfold vnorm, vdot in N. cbn [vx vy vz] in N.
    replace (0 * 0 + 0 * 0 + 0 * 0) with 0 in N by ring. rewrite sqrt_0 in N. lra. }
  exists u, t. split; [exact U|]. split; [exact Hn|]. split; [exact Hu|]. split; [exact Ht|].
  intros Hz. rewrite Hz, qrot_closed in Hu. injection Hu. lra.
Qed.
