From Coq Require Import Reals List Bool Lra Lia Psatz Permutation.
From Verif Require Import Arith PfModel PfSpec RsumLemmas QuatModel QuatSpec QuatProofs QuatProofs2 StateModel StateSpec.
Import ListNotations.
Open Scope R_scope.

(** ** vectors and poses *)
Lemma vadd_assoc a b c : vadd (vadd a b) c = vadd a (vadd b c). Proof. qring. Qed.
Lemma vadd_0_r a : vadd a v0 = a. Proof. qring. Qed.
Lemma vadd_0_l a : vadd v0 a = a. Proof. qring. Qed.
Lemma vsub_vadd a b : vadd (vsub a b) b = a. Proof. qring. Qed.
Lemma vadd_vsub a b : vadd b (vsub a b) = a. Proof. qring. Qed.
Lemma vadd_opp_l a : vadd (vopp a) a = v0. Proof. qring. Qed.
Lemma vadd_opp_r a : vadd a (vopp a) = v0. Proof. qring. Qed.
Lemma vsub_opp a b : vsub a b = vadd (vopp b) a. Proof. qring. Qed.
Lemma qrot_vopp q v : qrot q (vopp v) = vopp (qrot q v). Proof. rring. Qed.
Lemma qrot_v0 q : qrot q v0 = v0. Proof. rring. Qed.
Lemma vnorm_scale v s : vnorm (vscale v s) = Rabs s * vnorm v.
Proof.
  unfold vnorm. replace (vdot (vscale v s) (vscale v s)) with (Rsqr s * vdot v v) by (qdes; qunf; unfold Rsqr; ring).
  rewrite sqrt_mult, sqrt_Rsqr_abs; [reflexivity|apply Rle_0_sqr|apply vdot_nonneg].
Qed.

Lemma comp_assoc a b c : comp_pose (comp_pose a b) c = comp_pose a (comp_pose b c).
Proof.
  destruct a as [p q], b as [p' q'], c as [p'' q'']. unfold comp_pose; cbn.
  rewrite qrot_mul, qrot_add, vadd_assoc, qmul_assoc. reflexivity.
Qed.
Lemma comp_inv_r a : unit_quat (snd a) -> comp_pose a (inv_pose a) = (v0, q1).
Proof.
  destruct a as [p q]. intros U. unfold comp_pose, inv_pose; cbn in *.
  rewrite qrot_vopp, qrot_inv_r by auto. rewrite vadd_opp_r, inv_r by (apply unit_nonzero; auto). reflexivity.
Qed.
Lemma comp_inv_l a : unit_quat (snd a) -> comp_pose (inv_pose a) a = (v0, q1).
Proof.
  destruct a as [p q]. intros U. unfold comp_pose, inv_pose; cbn in *.
  rewrite vadd_opp_l, inv_l by (apply unit_nonzero; auto). reflexivity.
Qed.
Lemma comp_id_l a : comp_pose (v0, q1) a = a.
Proof. destruct a. unfold comp_pose; cbn. rewrite qrot_1, vadd_0_l, qmul_1_l. reflexivity. Qed.
Lemma comp_id_r a : comp_pose a (v0, q1) = a.
Proof. destruct a. unfold comp_pose; cbn. rewrite qrot_v0, vadd_0_r, qmul_1_r. reflexivity. Qed.

(** ** motion model *)
Lemma predict_unit tl ta prev cur dt s : unit_pose prev -> unit_pose cur -> unit_pose s ->
  unit_pose (predict1 tl ta prev cur dt s).
Proof.
  unfold unit_pose. intros. cbn [predict1 motion_predict rot]. apply unit_normalized, unit_nonzero.
  repeat apply unit_mul; auto using unit_inv. apply setAxisAng_unit, ez_nonzero.
Qed.
Lemma predict_noise_free tl ta prev cur dt s : noise_free s -> noise_free (predict1 tl ta prev cur dt s).
Proof. intros H; exact H. Qed.
Lemma predict_pose tl ta prev cur dt s : noise_free s -> unit_pose prev -> unit_pose cur -> unit_pose s ->
  pose_of (predict1 tl ta prev cur dt s)
    = comp_pose (pose_of s) (comp_pose (inv_pose (pose_of prev)) (pose_of cur)).
Proof.
  intros (L & LA & AL & AA) Up Uc Us. unfold unit_pose in *.
  unfold pose_of, comp_pose, inv_pose, predict1, setOdoms, motion_predict. cbn -[inv qrot setAxisAng qmul].
  rewrite L, LA, AL, AA, !Rmult_0_l, Rplus_0_l, Rplus_0_r. f_equal.
  - f_equal. f_equal. rewrite qrot_sub. rewrite vsub_opp. rewrite vscale_1. apply vadd_0_r.
  - rewrite setAxisAng_0 by apply ez_nonzero. rewrite qmul_1_l. apply normalized_unit.
    repeat apply unit_mul; auto using unit_inv.
Qed.
Lemma predict_err tl ta prev cur dt s : noise_free s ->
  err_lin (predict1 tl ta prev cur dt s) = vscale (err_lin s) (1 - dt / tl) /\
  err_ang (predict1 tl ta prev cur dt s) = vscale (err_ang s) (1 - dt / ta).
Proof.
  intros (L & LA & AL & AA). cbn -[qrot inv]. rewrite L, LA, AL, AA, !Rmult_0_l, !Rplus_0_r.
  split.
  - f_equal. set (t := qrot _ _). clearbody t. generalize (err_lin s). intros. qring.
  - f_equal. apply vadd_0_r.
Qed.

Definition last_odom (prev : state) (odoms : list (state * R)) : state := last (map fst odoms) prev.
Lemma last_cons {A} (x d : A) l : last (x :: l) d = last l x.
Proof. revert x d. induction l as [|y l IH]; intros; [reflexivity|]. change (last (x :: y :: l) d) with (last (y :: l) d). rewrite IH. rewrite (IH y x). reflexivity. Qed.

Lemma chain_pose tl ta odoms : forall prev s, noise_free s -> unit_pose prev -> unit_pose s ->
  Forall (fun o => unit_pose (fst o)) odoms ->
  let s' := predict_chain tl ta prev odoms s in
  noise_free s' /\ unit_pose s' /\
  pose_of s' = comp_pose (pose_of s) (comp_pose (inv_pose (pose_of prev)) (pose_of (last (map fst odoms) prev))).
Proof.
  induction odoms as [|[cur dt] r IH]; intros prev s NF Up Us Uo; cbn zeta.
  - cbn. split; auto. split; auto. rewrite comp_inv_l by exact Up. rewrite comp_id_r. reflexivity.
  - inversion Uo as [|x y Uc Ur]; subst. cbn [fst] in Uc.
    cbn [predict_chain map fst]. rewrite last_cons.
    destruct (IH cur (predict1 tl ta prev cur dt s)) as (A & B & C); auto using predict_unit.
    cbn zeta in *. split; auto. split; auto. rewrite C, predict_pose by auto.
    set (l := last (map fst r) cur). rewrite !comp_assoc. f_equal. f_equal.
    rewrite <- (comp_assoc (pose_of cur)), comp_inv_r by exact Uc. apply comp_id_l.
Qed.

Lemma chain_err tl ta odoms : forall prev s, noise_free s ->
  let s' := predict_chain tl ta prev odoms s in
  vnorm (err_lin s') = fold_right Rmult 1 (map (fun o => Rabs (1 - snd o / tl)) odoms) * vnorm (err_lin s) /\
  vnorm (err_ang s') = fold_right Rmult 1 (map (fun o => Rabs (1 - snd o / ta)) odoms) * vnorm (err_ang s).
Proof.
  induction odoms as [|[cur dt] r IH]; intros prev s NF; cbn zeta.
  - cbn. split; ring.
  - cbn [predict_chain map fold_right snd]. destruct (IH cur (predict1 tl ta prev cur dt s) NF) as [A B].
    cbn zeta in *. rewrite A, B. destruct (predict_err tl ta prev cur dt s NF) as [C D].
    rewrite C, D, !vnorm_scale. split; ring.
Qed.

(** ** noise *)
Lemma diagonal_zero {E} (normal : R -> R -> E -> R * E) mean e n :
  length mean = n -> diagonal normal mean (repeat 0 n) e = (mean, e).
Proof.
  revert n. induction mean as [|m mean IH]; intros n H; cbn in *; subst n; [reflexivity|].
  cbn [repeat]. destruct (Req_EM_T 0 0); [|lra]. rewrite IH; auto.
Qed.
Lemma atan2_01 : atan2 0 1 = 0.
Proof. unfold atan2. assert (Rltb 0 1 = true) as -> by (apply Rltb_true; lra). replace (0/1) with 0 by field. apply atan_0. Qed.
Lemma getRPY_q1 : getRPY q1 = v0.
Proof.
  unfold getRPY, q1, v0; cbn [qx qy qz qw].
  replace (2 * (0 * 0 + 1 * 0)) with 0 by ring. replace (- 2 * (0 * 0 + 0 * 0) + 1) with 1 by ring.
  rewrite atan2_01. replace (-2 * (0 * 0 - 1 * 0)) with 0 by ring. rewrite Rmin_right, Rmax_right by lra.
  rewrite asin_0. reflexivity.
Qed.
Lemma setRPY_0 : setRPY v0 = q1.
Proof. unfold setRPY, v0, q1; cbn. replace (0/2) with 0 by field. rewrite sin_0, cos_0. f_equal; ring. Qed.

Lemma zero_noise {E} (normal : R -> R -> E -> R * E) (mean : state) e :
  generateNoise normal mean (state_rpy v0 v0) e
  = (noise_state (set_mean mean) (set_mean mean), e).
Proof.
  unfold generateNoise. change (set_sigma (state_rpy v0 v0)) with (repeat 0 6).
  rewrite diagonal_zero by reflexivity. reflexivity.
Qed.
Lemma noise_state_zero mean : noise_state (set_mean mean) (set_mean mean) =
  {| pos := pos mean; rot := setRPY (getRPY (rot mean)); diff := false; noise_ll := 0; noise_la := 0; noise_al := 0;
     noise_aa := 0; err_lin := pos mean; err_ang := v0; rpy := v0 |}.
Proof.
  unfold noise_state, set_mean. cbn [nth].
  replace (V3 (vx (pos mean)) (vy (pos mean)) (vz (pos mean))) with (pos mean) by (destruct (pos mean); reflexivity).
  replace (V3 (vx (getRPY (rot mean))) (vy (getRPY (rot mean))) (vz (getRPY (rot mean)))) with (getRPY (rot mean)) by (destruct (getRPY (rot mean)); reflexivity).
  f_equal. unfold v0. f_equal; ring.
Qed.
Lemma noise_state0 : noise_state (set_mean state0) (set_mean state0) = state0.
Proof. rewrite noise_state_zero. cbn [pos rot state0]. rewrite getRPY_q1, setRPY_0. reflexivity. Qed.
Lemma splus_0 s : same_pose (splus s state0) s.
Proof. unfold same_pose. cbn. rewrite !vadd_0_r, qmul_1_l. repeat split. Qed.

(** ** wrapping of angles *)
Lemma wrap_down_some x : forall n, x <= PI + INR n * (2 * PI) -> exists y k, wrap_down n x = Some y /\
  y = x - INR k * (2 * PI) /\ y <= PI /\ (- PI <= x -> - PI <= y) /\ (x <= PI -> y = x).
Proof.
  intros n. revert x. induction n as [|n IH]; intros x H.
  - exists x, 0%nat. cbn in *. destruct (Rltb PI x) eqn:E; [apply Rltb_true in E; lra|]. repeat split; auto; lra.
  - cbn [wrap_down]. destruct (Rltb PI x) eqn:E; [apply Rltb_true in E|apply Rltb_false in E].
    + destruct (IH (x - 2 * PI)) as (y & k & A & B & C & D & D').
      * rewrite S_INR in H. lra.
      * exists y, (S k). rewrite S_INR. repeat split; auto; try lra; intros _; apply D; lra.
    + exists x, 0%nat. cbn. repeat split; auto; lra.
Qed.
Lemma wrap_up_some x : forall n, - PI - INR n * (2 * PI) <= x -> exists y k, wrap_up n x = Some y /\
  y = x + INR k * (2 * PI) /\ - PI <= y /\ (x <= PI -> y <= PI).
Proof.
  intros n. revert x. induction n as [|n IH]; intros x H.
  - exists x, 0%nat. cbn in *. destruct (Rltb x (- PI)) eqn:E; [apply Rltb_true in E; lra|apply Rltb_false in E]. repeat split; auto; lra.
  - cbn [wrap_up]. destruct (Rltb x (- PI)) eqn:E; [apply Rltb_true in E|apply Rltb_false in E].
    + destruct (IH (x + 2 * PI)) as (y & k & A & B & C & D).
      * rewrite S_INR in H. lra.
      * exists y, (S k). rewrite S_INR. repeat split; auto; try lra; intros _; apply D; lra.
    + exists x, 0%nat. cbn. repeat split; auto; lra.
Qed.
Lemma wrap_some n x : Rabs x <= PI + INR n * (2 * PI) -> exists y, wrap n x = Some y /\ same_angle y x /\ - PI <= y <= PI.
Proof.
  intros H. unfold wrap. pose proof PI_RGT_0.
  assert (Hx : x <= PI + INR n * (2*PI) /\ - x <= PI + INR n * (2 * PI)) by (unfold Rabs in H; destruct (Rcase_abs x); lra).
  destruct (wrap_down_some x n) as (y & k & A & B & C & D & D'); [lra|]. rewrite A.
  destruct (wrap_up_some y n) as (z & k' & A2 & B2 & C2 & D2).
  { destruct (Rle_lt_dec x PI); [rewrite D' by auto; lra|].
    assert (- PI <= y) by (apply D; lra). pose proof (pos_INR n). nra. }
  exists z. rewrite A2. split; auto. split.
  - exists (Z.of_nat k' - Z.of_nat k)%Z. rewrite minus_IZR, <- !INR_IZR_INZ. lra.
  - split; auto.
Qed.

(** ** mean pose *)
Definition wstep (m : qmean) (sw : state * R) : qmean := qmean_add m (fst sw) (snd sw).
Lemma vadd_scale_0 a v : vadd a (vscale v 0) = a. Proof. qring. Qed.
Lemma vadd_scale_2 a v p q : vadd (vadd a (vscale v p)) (vscale v q) = vadd a (vscale v (p + q)). Proof. qring. Qed.
Lemma mean_fold r (ps : list (state * R)) : Forall (fun sw => rot (fst sw) = r) ps -> forall m,
  let m' := fold_left wstep ps m in
  m_sum m' = m_sum m + Rsum (map snd ps) /\
  m_front m' = vadd (m_front m) (vscale (qrot r ex) (Rsum (map snd ps))) /\
  m_up m' = vadd (m_up m) (vscale (qrot r ez) (Rsum (map snd ps))) /\
  m_pos m' = vadd (m_pos m) (V3 (Rsum (map (fun sw => snd sw * vx (pos (fst sw))) ps))
                                (Rsum (map (fun sw => snd sw * vy (pos (fst sw))) ps))
                                (Rsum (map (fun sw => snd sw * vz (pos (fst sw))) ps))).
Proof.
  induction 1 as [|[s p] ps Hr H IH]; intros m; cbn zeta.
  - cbn -[qrot]. change (V3 0 0 0) with v0. rewrite vadd_0_r, !vadd_scale_0. repeat split; ring.
  - cbn [fold_left]. destruct (IH (wstep m (s, p))) as (A & B & C & D). cbn zeta in *.
    cbn [fst] in Hr. rewrite A, B, C, D. unfold wstep, qmean_add. cbn [fst snd m_sum m_front m_up m_pos map].
    rewrite Hr. fold ex. fold ez. unfold Rsum. cbn [fold_right].
    change (fold_right Rplus 0 (map snd ps)) with (Rsum (map snd ps)).
    repeat split; try ring.
    + apply vadd_scale_2.
    + apply vadd_scale_2.
    + destruct (m_pos m), (pos s). unfold vadd, vscale; cbn. f_equal; ring.
Qed.
Lemma mean_agree r ps : unit_quat r -> qw r <> 0 -> Forall (fun sw => rot (fst sw) = r) ps ->
  0 < Rsum (map snd ps) -> 
  let m := fold_left wstep ps qmean0 in m_sum m = Rsum (map snd ps) /\ agree r ps (qmean_get m).
Proof.
  intros U W H P m. destruct (mean_fold r ps H qmean0) as (A & B & C & D). cbn zeta in *. fold m in A, B, C, D.
  cbn [qmean0 m_sum m_front m_up m_pos] in *. rewrite vadd_0_l in B, C, D. rewrite Rplus_0_l in A.
  split; auto. unfold agree, qmean_get, state_pr. cbn [rot pos]. rewrite A, B, C, D.
  split; [apply frontup_restore; auto|]. cbn. repeat split.
Qed.

Lemma expect_all (M : mean_ops RA state) (tot : mean_st RA M -> R) :
  (forall m s x, tot (mean_add RA M m s x) = tot m + x) -> (forall m, mean_total RA M m = tot m) ->
  forall ps m, Forall (fun x => 0 <= x) (map (w RA) ps) -> tot m + Rsum (map (w RA) ps) <= 1 ->
  expect_loop RA M (1 : RA) m ps = fold_left (fun m p => mean_add RA M m (st RA p) (w RA p)) ps m.
Proof.
  intros Ht Hm ps. induction ps as [|p ps IH]; intros m Hw Hs; [reflexivity|].
  cbn [expect_loop fold_left]. rewrite Hm.
  cbn [map] in Hw, Hs. change (Rsum (w RA p :: map (w RA) ps)) with (w RA p + Rsum (map (w RA) ps)) in Hs.
  apply Forall_cons_iff in Hw. destruct Hw as [Hp Hw].
  assert (Hn : 0 <= Rsum (map (w RA) ps)) by (apply Rsum_nonneg; exact Hw).
  assert (E : tot (mean_add RA M m (st RA p) (w RA p)) = tot m + w RA p) by apply Ht.
  rewrite E.
  replace (@flt RA (1 : RA) (tot m + w RA p)) with false.
  - apply IH; auto. rewrite E. lra.
  - symmetry. apply Rltb_false. lra.
Qed.
