(** Properties C44-C51 and C88 of poses, noise, motion model and mean pose (vocabulary: StateSpec.v). *)
From Coq Require Import Reals ZArith List Arith Bool Permutation Lra Lia Psatz.
From Verif Require Import Arith PfModel PfSpec PfProofs RsumLemmas PfReal PfCov PfProps QuatModel QuatSpec QuatProofs QuatProofs2 QuatProps
  StateModel StateSpec StateProofs.
Import ListNotations.
Local Open Scope R_scope.

(** C44. *)
Theorem C44_difference_then_sum : forall s m, nonzero_quat (rot m) ->
  pos (splus (sminus s m) m) = pos s /\ rot (splus (sminus s m) m) = rot s
  /\ err_lin (splus (sminus s m) m) = err_lin s /\ err_ang (splus (sminus s m) m) = err_ang s.
Proof.
  intros s m H. cbn -[qmul inv]. rewrite !vsub_vadd, <- qmul_assoc, inv_r, qmul_1_l by auto.
  repeat split.
Qed.
Theorem C44_other_order_position : forall s m, pos (splus m (sminus s m)) = pos s.
Proof. intros. cbn. apply vadd_vsub. Qed.
(** m + (s - m) does not restore the rotation. *)
Theorem C44_other_order_rotation_refuted : exists s m, unit_quat (rot s) /\ unit_quat (rot m)
  /\ ~ same_rotation (rot (splus m (sminus s m))) (rot s).
Proof.
  exists (state_pr v0 (Q4 1 0 0 0)), (state_pr v0 (Q4 (3/5) (4/5) 0 0)).
  cbn [rot splus sminus state_pr].
  split; [unfold unit_quat; cbn; lra|]. split; [unfold unit_quat; cbn; lra|].
  rewrite inv_unit by (unfold unit_quat; cbn; lra).
  intros H. specialize (H ex). unfold ex, qmul, conj in H; cbn [qx qy qz qw] in H. rewrite !qrot_closed in H.
  apply (f_equal vx) in H. cbn [vx] in H. lra.
Qed.

(** C45. A cloud transformed by a pose with any non-zero rotation. *)
Theorem C45_transform_rigid : forall s pc, nonzero_quat (rot s) ->
  map lab (transform s pc) = map lab pc
  /\ (forall i j a b a' b', nth_error pc i = Some a -> nth_error pc j = Some b ->
        nth_error (transform s pc) i = Some a' -> nth_error (transform s pc) j = Some b' ->
        dist3 (p3 a') (p3 b') = dist3 (p3 a) (p3 b))
  /\ (unit_quat (rot s) -> forall i a, nth_error pc i = Some a ->
        nth_error (transform s pc) i = Some {| p3 := fst (comp_pose (pose_of s) (p3 a, q1)); lab := lab a |}).
Proof.
  intros s pc H. unfold transform. split; [|split].
  - rewrite map_map. apply map_ext. reflexivity.
  - intros i j a b a' b' Ha Hb Ha' Hb'. rewrite nth_error_map, Ha in Ha'. rewrite nth_error_map, Hb in Hb'.
    cbn [option_map] in *. injection Ha' as <-. injection Hb' as <-. cbn [p3]. unfold dist3.
    replace (vsub (vadd (qrot (qnormalized (rot s)) (p3 a)) (pos s)) (vadd (qrot (qnormalized (rot s)) (p3 b)) (pos s)))
      with (qrot (qnormalized (rot s)) (vsub (p3 a) (p3 b))).
    + apply qrot_norm, unit_normalized, H.
    + rewrite qrot_sub. generalize (qrot (qnormalized (rot s)) (p3 a)), (qrot (qnormalized (rot s)) (p3 b)), (pos s). intros. qring.
  - intros U i a Ha. rewrite nth_error_map, Ha. cbn [option_map]. f_equal. rewrite normalized_unit by auto.
    unfold comp_pose, pose_of; cbn [fst snd]. f_equal.
    generalize (qrot (rot s) (p3 a)), (pos s). intros. qring.
Qed.
(** A non-trivial case: a rotation that is not normalized. *)
Example C45_nonvacuous : nonzero_quat (Q4 0 0 3 4) /\ ~ unit_quat (Q4 0 0 3 4)
  /\ map lab (transform (state_pr (V3 1 2 3) (Q4 0 0 3 4)) [{| p3 := V3 1 0 0; lab := 7 |}]) = [7%nat].
Proof.
  split; [intros (_ & _ & H & _); cbn in H; lra|]. split; [unfold unit_quat; cbn; lra|reflexivity].
Qed.

(** C46. Zero sigma: the generator returns the mean itself and does not draw. *)
Definition no_sigma : state := state_rpy v0 v0.
Theorem C46_generator_returns_mean : forall {E} (normal : R -> R -> E -> R * E) (mean : list R) e,
  diagonal normal mean (repeat 0 (length mean)) e = (mean, e).
Proof. intros. apply diagonal_zero. reflexivity. Qed.
Theorem C46_zero_noise_is_neutral : forall {E} (normal : R -> R -> E -> R * E) e,
  generateNoise normal state0 no_sigma e = (state0, e)
  /\ forall s, same_pose (splus s (fst (generateNoise normal state0 no_sigma e))) s
            /\ (unit_pose s -> same_pose (normalize (splus s (fst (generateNoise normal state0 no_sigma e)))) s).
Proof.
  intros E normal e. assert (H : generateNoise normal state0 no_sigma e = (state0, e)).
  { unfold no_sigma. rewrite zero_noise, noise_state0. reflexivity. }
  split; [exact H|]. intros s. rewrite H. cbn [fst]. split; [apply splus_0|].
  intros U. destruct (splus_0 s) as (A & B & C & D). unfold same_pose, normalize; cbn [pos rot err_lin err_ang].
  rewrite B, normalized_unit by exact U. auto.
Qed.
Theorem C46_resample_with_zero_sigma : forall (A : arith) {E} (normal : R -> R -> E -> R * E) (engine : nat -> E) offset d (f : filter A state),
  parts A f <> [] -> sorted_copy A (dup_of A f0 (parts A f)) d ->
  Forall unit_pose (poses A f) ->
  exists f', resample A splus normalize offset (fun k => fst (generateNoise normal state0 no_sigma (engine k))) d f = Some f'
    /\ length (parts A f') = length (parts A f)
    /\ forall s, In s (poses A f') -> exists x, In x (poses A f) /\ same_pose s x.
Proof.
  intros A E normal engine offset d f H1 H2 H3.
  destruct (C05_resample_shape A splus normalize offset (fun k => fst (generateNoise normal state0 no_sigma (engine k))) d f H1 H2)
    as (f' & R1 & R2 & _ & _ & _ & R3).
  exists f'. split; [exact R1|]. split; [exact R2|]. intros s Hs. destruct (R3 s Hs) as [Hi|(x & m & Hx & ->)].
  - exists s. split; [exact Hi|]. repeat split.
  - exists x. split; [exact Hx|]. apply C46_zero_noise_is_neutral. rewrite Forall_forall in H3. auto.
Qed.
Theorem C46_noise_with_zero_sigma : forall (A : arith) {E} (normal : R -> R -> E -> R * E) (engine : nat -> E) (f : filter A state) i s,
  nth_error (poses A f) i = Some s ->
  exists s', nth_error (poses A (add_noise A splus (fun k => fst (generateNoise normal state0 no_sigma (engine k))) f)) i = Some s'
    /\ same_pose s' s.
Proof.
  intros. destruct (C14_noise A splus (fun k => fst (generateNoise normal state0 no_sigma (engine k))) f) as (_ & _ & _ & H4 & _).
  eexists. split; [apply H4; eassumption|]. apply C46_zero_noise_is_neutral.
Qed.
(** Around a mean pose, the whole mean position is recorded as odometry error. *)
Theorem C46_mean_position_becomes_error : forall {E} (normal : R -> R -> E -> R * E) p r e,
  err_lin (fst (generateNoise normal (state_pr p r) no_sigma e)) = p
  /\ pos (fst (generateNoise normal (state_pr p r) no_sigma e)) = p
  /\ rot (fst (generateNoise normal (state_pr p r) no_sigma e)) = setRPY (getRPY r).
Proof. intros. unfold no_sigma. rewrite zero_noise. cbn [fst]. rewrite noise_state_zero. repeat split. Qed.

(** C47. *)
Theorem C47_prediction_composes : forall tl ta prev cur dt s,
  noise_free s -> unit_pose prev -> unit_pose cur -> unit_pose s ->
  pose_of (predict1 tl ta prev cur dt s)
    = comp_pose (pose_of s) (comp_pose (inv_pose (pose_of prev)) (pose_of cur)).
Proof. exact predict_pose. Qed.
(** the pose operations used above are a group *)
Theorem C47_rigid_motions_form_a_group : forall a b c, unit_quat (snd a) ->
  comp_pose (comp_pose a b) c = comp_pose a (comp_pose b c)
  /\ comp_pose a (inv_pose a) = (v0, q1) /\ comp_pose (inv_pose a) a = (v0, q1)
  /\ comp_pose (v0, q1) a = a /\ comp_pose a (v0, q1) = a.
Proof. intros. auto using comp_assoc, comp_inv_r, comp_inv_l, comp_id_l, comp_id_r. Qed.
Example C47_nonvacuous : noise_free state0 /\ unit_pose state0 /\ unit_pose (state_pr (V3 1 0 0) (Q4 0 0 (3/5) (4/5)))
  /\ pos (predict1 1 1 state0 (state_pr (V3 1 0 0) (Q4 0 0 (3/5) (4/5))) 1 (state_pr (V3 5 0 0) (Q4 0 0 1 0))) = V3 4 0 0.
Proof.
  split; [repeat split|]. split; [apply unit_1|]. assert (U : unit_pose (state_pr (V3 1 0 0) (Q4 0 0 (3/5) (4/5)))) by (unfold unit_pose, unit_quat; cbn; lra).
  split; [exact U|].
  assert (U2 : unit_pose (state_pr (V3 5 0 0) (Q4 0 0 1 0))) by (unfold unit_pose, unit_quat; cbn; lra).
  assert (N : noise_free (state_pr (V3 5 0 0) (Q4 0 0 1 0))) by (repeat split).
  change (pos ?x) with (fst (pose_of x)). rewrite predict_pose by (auto; apply unit_1).
  unfold comp_pose, inv_pose, pose_of; cbn [fst snd pos rot state_pr state0].
  rewrite qrot_v0, inv_unit by apply unit_1. unfold q1, conj; cbn [qx qy qz qw]. rewrite !qrot_closed. unfold vopp, vadd, v0, q1; cbn [vx vy vz].
  rewrite ?qrot_closed. cbn -[qrot]. rewrite ?qrot_closed. cbn. f_equal; ring.
Qed.

(** C48. *)
Theorem C48_predictions_telescope : forall tl ta o0 odoms s, noise_free s -> unit_pose o0 -> unit_pose s ->
  Forall (fun o => unit_pose (fst o)) odoms ->
  let on := last (map fst odoms) o0 in
  pose_of (predict_chain tl ta o0 odoms s)
    = comp_pose (pose_of s) (comp_pose (inv_pose (pose_of o0)) (pose_of on))
  /\ (forall dt, pose_of (predict_chain tl ta o0 odoms s) = pose_of (predict1 tl ta o0 on dt s))
  /\ (pose_of s = pose_of o0 -> pose_of (predict_chain tl ta o0 odoms s) = pose_of on).
Proof.
  intros tl ta o0 odoms s N U0 Us Uo on. destruct (chain_pose tl ta odoms o0 s N U0 Us Uo) as (_ & _ & H).
  cbn zeta in H. fold on in H.
  assert (Uon : unit_pose on).
  { unfold on. clear - U0 Uo. revert o0 U0. induction Uo as [|[c dt] r Hc Hr IH]; intros; [exact U0|].
    cbn [map fst]. rewrite last_cons. apply IH. exact Hc. }
  split; [exact H|]. split.
  - intros dt. rewrite H, predict_pose; auto.
  - intros E. rewrite H, E, <- comp_assoc, comp_inv_r by exact U0. apply comp_id_l.
Qed.

(** C49. *)
Theorem C49_rotation_stays_unit : forall tl ta prev cur dt s,
  unit_pose prev -> unit_pose cur -> unit_pose s -> unit_pose (predict1 tl ta prev cur dt s).
Proof. exact predict_unit. Qed.
Theorem C49_for_every_chain : forall tl ta odoms prev s, unit_pose prev -> unit_pose s ->
  Forall (fun o => unit_pose (fst o)) odoms -> unit_pose (predict_chain tl ta prev odoms s).
Proof.
  induction odoms as [|[c dt] r IH]; intros prev s U Us Uo; [exact Us|].
  inversion Uo; subst. cbn [predict_chain]. apply IH; auto. apply predict_unit; auto.
Qed.

(** C50. *)
Lemma prod_le1 (l : list R) : Forall (fun x => 0 <= x <= 1) l -> 0 <= fold_right Rmult 1 l <= 1.
Proof. induction 1 as [|x l H _ IH]; cbn [fold_right]; [lra|]. nra. Qed.
Lemma prod_const (l : list R) x : Forall (fun y => y = x) l -> fold_right Rmult 1 l = x ^ length l.
Proof. induction 1 as [|y l H _ IH]; cbn [fold_right length pow]; [reflexivity|]. rewrite H, IH. reflexivity. Qed.
Lemma vnorm_nonneg v : 0 <= vnorm v. Proof. apply sqrt_pos. Qed.
Theorem C50_never_grows : forall tl ta prev odoms s, noise_free s ->
  0 < tl -> 0 < ta ->
  Forall (fun o => 0 <= snd o <= 2 * tl /\ 0 <= snd o <= 2 * ta) odoms ->
  vnorm (err_lin (predict_chain tl ta prev odoms s)) <= vnorm (err_lin s)
  /\ vnorm (err_ang (predict_chain tl ta prev odoms s)) <= vnorm (err_ang s).
Proof.
  intros tl ta prev odoms s N Hl Ha H. destruct (chain_err tl ta odoms prev s N) as [A B]. cbn zeta in *. rewrite A, B.
  assert (K : forall t (d : R), 0 < t -> 0 <= d <= 2 * t -> 0 <= Rabs (1 - d / t) <= 1).
  { intros t d Ht Hd. split; [apply Rabs_pos|]. apply Rabs_le.
    assert (0 <= d / t <= 2) by (split; [apply Rmult_le_pos; [lra|left; apply Rinv_0_lt_compat; lra]|
      apply (Rmult_le_reg_r t); auto; unfold Rdiv; rewrite Rmult_assoc, Rinv_l by lra; lra]). lra. }
  assert (P1 : 0 <= fold_right Rmult 1 (map (fun o => Rabs (1 - snd o / tl)) odoms) <= 1).
  { apply prod_le1. rewrite Forall_map. eapply Forall_impl; [|exact H]. intros o [? _]. apply K; auto. }
  assert (P2 : 0 <= fold_right Rmult 1 (map (fun o => Rabs (1 - snd o / ta)) odoms) <= 1).
  { apply prod_le1. rewrite Forall_map. eapply Forall_impl; [|exact H]. intros o [_ ?]. apply K; auto. }
  pose proof (vnorm_nonneg (err_lin s)). pose proof (vnorm_nonneg (err_ang s)). split; nra.
Qed.
Lemma chain_err_const tl ta prev odoms s dt : noise_free s -> Forall (fun o => snd o = dt) odoms ->
  vnorm (err_lin (predict_chain tl ta prev odoms s)) = Rabs (1 - dt / tl) ^ length odoms * vnorm (err_lin s)
  /\ vnorm (err_ang (predict_chain tl ta prev odoms s)) = Rabs (1 - dt / ta) ^ length odoms * vnorm (err_ang s).
Proof.
  intros N H. destruct (chain_err tl ta odoms prev s N) as [A B]. cbn zeta in *. rewrite A, B.
  split; f_equal; (etransitivity; [apply prod_const|rewrite map_length; reflexivity]);
    rewrite Forall_map; eapply Forall_impl; try exact H; cbn; intros o ->; reflexivity.
Qed.
Theorem C50_vanishes : forall tl ta dt s eps, noise_free s -> 0 < dt < 2 * tl -> 0 < dt < 2 * ta -> 0 < eps ->
  exists n, forall prev odoms, Forall (fun o => snd o = dt) odoms -> (n <= length odoms)%nat ->
    vnorm (err_lin (predict_chain tl ta prev odoms s)) < eps
    /\ vnorm (err_ang (predict_chain tl ta prev odoms s)) < eps.
Proof.
  intros tl ta dt s eps N Hl Ha He.
  assert (K : forall t m, 0 < dt < 2 * t -> 0 <= m -> exists n, forall k, (n <= k)%nat -> Rabs (1 - dt / t) ^ k * m < eps).
  { intros t m Ht Hm. assert (Q : Rabs (1 - dt / t) < 1).
    { apply Rabs_def1. - assert (0 < dt / t) by (apply Rdiv_lt_0_compat; lra). lra.
      - assert (dt / t < 2) by (apply (Rmult_lt_reg_r t); [lra|]; unfold Rdiv; rewrite Rmult_assoc, Rinv_l by lra; lra). lra. }
    destruct (pow_lt_1_zero (Rabs (1 - dt / t))) with (y := eps / (m + 1)) as [n Hn].
    - rewrite Rabs_Rabsolu. exact Q.
    - apply Rdiv_lt_0_compat; lra.
    - exists n. intros k Hk. specialize (Hn k Hk). rewrite Rabs_pos_eq in Hn by (apply pow_le, Rabs_pos).
      apply Rle_lt_trans with (Rabs (1 - dt / t) ^ k * (m + 1)).
      + apply Rmult_le_compat_l; [apply pow_le, Rabs_pos|lra].
      + apply Rmult_lt_compat_r with (r := m + 1) in Hn; [|lra]. unfold Rdiv in Hn. rewrite Rmult_assoc, Rinv_l, Rmult_1_r in Hn by lra. exact Hn. }
  destruct (K tl (vnorm (err_lin s)) Hl (vnorm_nonneg _)) as [n1 H1].
  destruct (K ta (vnorm (err_ang s)) Ha (vnorm_nonneg _)) as [n2 H2].
  exists (Nat.max n1 n2). intros prev odoms Ho Hn. destruct (chain_err_const tl ta prev odoms s dt N Ho) as [A B].
  rewrite A, B. split; [apply H1|apply H2]; lia.
Qed.
Theorem C50_long_gaps_diverge_refuted : forall tl ta dt s M, noise_free s -> 0 < tl -> 2 * tl < dt -> err_lin s <> v0 ->
  exists n, forall prev odoms, Forall (fun o => snd o = dt) odoms -> (n <= length odoms)%nat ->
    M < vnorm (err_lin (predict_chain tl ta prev odoms s)).
Proof.
  intros tl ta dt s M N Ht Hd Hnz.
  assert (Q : 1 < Rabs (1 - dt / tl)).
  { rewrite Rabs_left1.
    - assert (2 < dt / tl) by (apply (Rmult_lt_reg_r tl); [lra|]; unfold Rdiv; rewrite Rmult_assoc, Rinv_l by lra; lra). lra.
    - assert (2 < dt / tl) by (apply (Rmult_lt_reg_r tl); [lra|]; unfold Rdiv; rewrite Rmult_assoc, Rinv_l by lra; lra). lra. }
  assert (P : 0 < vnorm (err_lin s)).
  { apply vnorm_pos. intros (A & B & C). apply Hnz. destruct (err_lin s); cbn in *; subst. reflexivity. }
  destruct (Pow_x_infinity (Rabs (1 - dt / tl))) with (b := (Rabs M + 1) / vnorm (err_lin s)) as [n Hn].
  { rewrite Rabs_Rabsolu. exact Q. }
  exists n. intros prev odoms Ho Hk. destruct (chain_err_const tl ta prev odoms s dt N Ho) as [A _]. rewrite A.
  specialize (Hn (length odoms) Hk). rewrite (Rabs_pos_eq (_ ^ _)) in Hn by (apply pow_le, Rabs_pos).
  apply Rge_le in Hn. apply Rmult_le_compat_r with (r := vnorm (err_lin s)) in Hn; [|lra].
  unfold Rdiv in Hn. rewrite Rmult_assoc, Rinv_l, Rmult_1_r in Hn by lra.
  pose proof (RRle_abs M). lra.
Qed.

(** C51. *)
(** poses with their weights, and with weight times bias *)
Definition pose_weight (p : particle RA state) : state * R := (st RA p, w RA p).
Definition pose_biased_weight (p : particle RA state) : state * R := (st RA p, w RA p * bias RA p).
Theorem C51_mean_of_agreeing_particles : forall (f : filter RA state) r, unit_quat r -> qw r <> 0 ->
  (forall s, In s (poses RA f) -> rot s = r) ->
  Forall (fun x => 0 <= x) (weights RA f) -> 0 < Rsum (weights RA f) <= 1 ->
  exists e, expectation RA pose_mean (1 : RA) f = Some e
    /\ agree r (map pose_weight (parts RA f)) e.
Proof.
  intros f r U W Hr Hw Hs. unfold expectation.
  rewrite (expect_all pose_mean m_sum) by (auto; unfold weights in *; cbn; lra).
  assert (E : forall m ps, fold_left (fun m p => mean_add RA pose_mean m (st RA p) (w RA p)) ps m
     = fold_left wstep (map pose_weight ps) m).
  { intros m ps. revert m. induction ps as [|p ps IH]; intros m; [reflexivity|]. cbn [fold_left map]. apply IH. }
  rewrite E.
  assert (EW : map snd (map pose_weight (parts RA f)) = (weights RA f : list R)) by (rewrite map_map; reflexivity).
  destruct (mean_agree r (map pose_weight (parts RA f)) U W) as [A B].
  - rewrite Forall_map. apply Forall_forall. intros p Hp. cbn. apply Hr. unfold poses. apply in_map. exact Hp.
  - rewrite EW. lra.
  - cbn zeta in A, B. cbn [mean_total pose_mean mean_new mean_get].
    assert (G : Rltb 0 (m_sum (fold_left wstep (map pose_weight (parts RA f)) qmean0)) = true).
    { apply Rltb_true. rewrite A, EW. lra. }
    change (@flt RA) with Rltb. change (@f0 RA) with 0. rewrite G. eexists. split; [reflexivity|exact B].
Qed.
Theorem C51_biased_mean_of_agreeing_particles : forall (f : filter RA state) r, unit_quat r -> qw r <> 0 ->
  (forall s, In s (poses RA f) -> rot s = r) ->
  0 < Rsum (map (fun p => w RA p * bias RA p) (parts RA f)) ->
  exists e, expectation_biased RA pose_mean f = Some e
    /\ agree r (map pose_biased_weight (parts RA f)) e.
Proof.
  intros f r U W Hr Hs. unfold expectation_biased.
  assert (E : forall m ps, fold_left (fun m p => mean_add RA pose_mean m (st RA p) (biased_weight RA p)) ps m
     = fold_left wstep (map pose_biased_weight ps) m).
  { intros m ps. revert m. induction ps as [|p ps IH]; intros m; [reflexivity|]. cbn [fold_left map]. apply IH. }
  rewrite E.
  assert (EW : map snd (map pose_biased_weight (parts RA f)) = map (fun p => w RA p * bias RA p) (parts RA f)) by (rewrite map_map; reflexivity).
  destruct (mean_agree r (map pose_biased_weight (parts RA f)) U W) as [A B].
  - rewrite Forall_map. apply Forall_forall. intros p Hp. cbn. apply Hr. unfold poses. apply in_map. exact Hp.
  - rewrite EW. exact Hs.
  - cbn zeta in A, B. cbn [mean_total pose_mean mean_new mean_get].
    assert (G : Rltb 0 (m_sum (fold_left wstep (map pose_biased_weight (parts RA f)) qmean0)) = true).
    { apply Rltb_true. rewrite A, EW. exact Hs. }
    change (@flt RA) with Rltb. change (@f0 RA) with 0. rewrite G. eexists. split; [reflexivity|exact B].
Qed.
Example C51_nonvacuous : unit_quat (Q4 0 0 (3/5) (4/5)) /\ qw (Q4 0 0 (3/5) (4/5)) <> 0 /\
  let f := two (state_pr (V3 0 0 0) (Q4 0 0 (3/5) (4/5))) (state_pr (V3 4 0 0) (Q4 0 0 (3/5) (4/5))) (1/4) (3/4) in
  (forall s, In s (poses RA f) -> rot s = Q4 0 0 (3/5) (4/5)) /\
  Forall (fun x => 0 <= x) (weights RA f) /\ 0 < Rsum (weights RA f) <= 1.
Proof.
  split; [unfold unit_quat; cbn; lra|]. split; [cbn; lra|]. cbn zeta. split; [|split].
  - intros s [<-|[<-|[]]]; reflexivity.
  - unfold two, weights; cbn; repeat constructor; lra.
  - unfold two, weights; cbn. lra.
Qed.

(** C88. The 6DOF covariance: the angle-wrapping loops stop after at most one
    iteration on every pair of particles without explicit RPY, every angle difference
    used is the real one modulo a turn and in [-pi,pi], and the matrix has no
    negative variance in any direction. *)
Lemma angle_range q i : Rabs (v_get (getRPY q) i) <= PI.
Proof.
  destruct (C41_ranges q) as (A & B & C). pose proof PI_RGT_0. apply Rabs_le.
  destruct (getRPY q) as [a b c]. cbn in A, B, C. destruct i as [|[|[|i]]]; cbn; lra.
Qed.
Theorem C88_wrap_terminates : forall s e i, StateModel.diff s = false -> StateModel.diff e = false ->
  exists d, cov_diff 1 s e i = Some d /\
    ((i < 3)%nat -> d = v_get (pos s) i - v_get (pos e) i) /\
    ((3 <= i)%nat -> - PI <= d <= PI /\
       same_angle d (v_get (getRPY (rot s)) (i - 3) - v_get (getRPY (rot e)) (i - 3))).
Proof.
  intros s e i Hs He. unfold cov_diff, angles. rewrite Hs, He.
  destruct (Nat.ltb_spec i 3).
  - eexists. split; [reflexivity|]. split; [reflexivity|lia].
  - destruct (wrap_some 1 (v_get (getRPY (rot s)) (i - 3) - v_get (getRPY (rot e)) (i - 3))) as (y & A & B & C).
    + pose proof (angle_range (rot s) (i - 3)). pose proof (angle_range (rot e) (i - 3)).
      pose proof (Rabs_triang (v_get (getRPY (rot s)) (i - 3)) (- v_get (getRPY (rot e)) (i - 3))).
      rewrite Rabs_Ropp in H2. unfold Rminus. pose proof PI_RGT_0. cbn [INR]. lra.
    + exists y. split; [exact A|]. split; [lia|auto].
Qed.
(** covElement as a total function: never stuck by C88_wrap_terminates *)
Definition cov6 (s e : state) (j k : nat) : R := match covElement 1 s e j k with Some x => x | None => 0 end.
Theorem C88_covariance_psd : forall M pass ratio shuffle (f : filter RA state) c,
  0 <= ratio -> (forall l, Permutation l (shuffle l)) ->
  covariance RA M (cov6 : state -> state -> nat -> nat -> RA) 6 pass ratio shuffle f = Some c ->
  Forall (fun x => 0 <= x) (weights RA f) ->
  exists k qs, passed pass (weights RA f) k /\ sample_of ratio (firstn k (parts RA f)) qs
    /\ (0 < Rsum (map (w RA) qs) -> forall v, 0 <= quad 6 c v).
Proof.
  intros M pass ratio shuffle f c. apply (covariance_psd cov6 (fun s e i => match cov_diff 1 s e i with Some x => x | None => 0 end)).
  intros. unfold cov6, covElement. destruct (cov_diff 1 s e j), (cov_diff 1 s e k); lra.
Qed.

(** C100: what constructors and operators put into the noise and error fields. *)
Definition no_noise (s : state) : Prop := noise_ll s = 0 /\ noise_la s = 0 /\ noise_al s = 0 /\ noise_aa s = 0.
Theorem C100_built_poses : forall p r v s m,
  (forall x, In x [state0; state_pr p r; state_rpy p v] -> no_noise x /\ err_lin x = v0 /\ err_ang x = v0)
  /\ pos state0 = v0 /\ rot state0 = q1 /\ pos (state_pr p r) = p /\ rot (state_pr p r) = r /\ pos (state_rpy p v) = p
  /\ no_noise (splus s m) /\ no_noise (sminus s m)
  /\ err_lin (splus s m) = vadd (err_lin s) (err_lin m) /\ err_ang (splus s m) = vadd (err_ang s) (err_ang m)
  /\ err_lin (sminus s m) = vsub (err_lin s) (err_lin m) /\ err_ang (sminus s m) = vsub (err_ang s) (err_ang m).
Proof.
  intros p r v s m. split; [|repeat split].
  intros x H. cbn [In] in H. destruct H as [<-|[<-|[<-|[]]]]; repeat split.
Qed.
