(** Property theorem C82: the published transform and the published pose. *)
From Coq Require Import String Reals ZArith List Bool Arith Lia Lra.
From Verif Require PfModel FilterModel AccumModel FilterProofs.
From Verif Require Import Arith KdModel QuatModel QuatSpec QuatProofs QuatProps StateModel StateSpec RayModel LidarModel NdModel ParamModel
  NodeModel NodeSpec NodeFrame NodeLocProofs NodeStepProofs NodeHistProps.
Import ListNotations.
Open Scope nat_scope.
Open Scope list_scope.

(** the vector filter with the coefficients of a low pass, in or out of angle mode *)
Definition low_pass (T : R) (ang : bool) (f : FilterModel.filt3) : Prop :=
  FilterProofs.coeffs T FilterModel.FILTER_LPF (FilterModel.fx f) /\ FilterModel.angle (FilterModel.fx f) = ang
  /\ FilterProofs.coeffs T FilterModel.FILTER_LPF (FilterModel.fy f) /\ FilterModel.angle (FilterModel.fy f) = ang
  /\ FilterProofs.coeffs T FilterModel.FILTER_LPF (FilterModel.fz f) /\ FilterModel.angle (FilterModel.fz f) = ang.
Lemma low_pass_new T ang : low_pass T ang (FilterModel.new_filt3 FilterModel.FILTER_LPF (T, T, T) (0, 0, 0)%R ang).
Proof. unfold low_pass. cbn [FilterModel.new_filt3 FilterModel.fx FilterModel.fy FilterModel.fz]. repeat split; apply FilterProofs.coeffs_new. Qed.
Lemma low_pass_set T ang f v : low_pass T ang f -> low_pass T ang (FilterModel.set3 f v).
Proof. destruct v as [[a b] c]. unfold low_pass. cbn [FilterModel.set3 FilterModel.fx FilterModel.fy FilterModel.fz]. intros (A & A' & B & B' & C & C').
  refine (Logic.conj (FilterProofs.coeffs_set _ _ _ _ A) (Logic.conj A' (Logic.conj (FilterProofs.coeffs_set _ _ _ _ B) (Logic.conj B' (Logic.conj (FilterProofs.coeffs_set _ _ _ _ C) C'))))). Qed.
Lemma low_pass_input T ang f v : low_pass T ang f -> low_pass T ang (FilterModel.input3 f v).
Proof. destruct v as [[a b] c]. unfold low_pass. cbn [FilterModel.input3 FilterModel.fx FilterModel.fy FilterModel.fz]. intros (A & A' & B & B' & C & C').
  refine (Logic.conj (FilterProofs.coeffs_input _ _ _ _ A) (Logic.conj A' (Logic.conj (FilterProofs.coeffs_input _ _ _ _ B) (Logic.conj B' (Logic.conj (FilterProofs.coeffs_input _ _ _ _ C) C'))))). Qed.
Lemma set_passes T f c : (0 <= T)%R -> FilterProofs.coeffs T FilterModel.FILTER_LPF f -> FilterModel.out (FilterModel.input (FilterModel.set f c) c) = c.
Proof.
  intros HT Hc. pose proof (FilterProofs.lpf_const T (FilterModel.set f c) c HT (FilterProofs.coeffs_set _ _ _ _ Hc) eq_refl (FilterProofs.set_x T f c HT Hc)) as H.
  apply H.
Qed.
Lemma set3_passes T ang f v : (0 <= T)%R -> low_pass T ang f -> FilterModel.v_out (FilterModel.input3 (FilterModel.set3 f v) v) = v.
Proof.
  intros HT (A & _ & B & _ & C & _). destruct v as [[a b] c]. cbn [FilterModel.set3 FilterModel.input3 FilterModel.v_out FilterModel.fx FilterModel.fy FilterModel.fz].
  rewrite !(set_passes T) by assumption. reflexivity.
Qed.
Lemma v3_tup v : v3 (tup v) = v.
Proof. destruct v. reflexivity. Qed.

Section Tf.
Context {S : Type} (caster : cloud -> (pt -> R -> search) -> raycaster S)
        (voxel : R * R * R -> list lpt -> list lpt) (p : params).
Notation node := (node (S := S)).
Implicit Types n : node.
Hypothesis Hlpf : (0 <= Rceil (lpf_step p))%Z.

(** C82: in every localization step the transform map <- odom applied to the current
    odometry pose gives the published pose, and the floor frame is at its height. *)
Theorem C82_transform_gives_pose n m e n' o t mp mr z t' pp pr c :
  step caster voxel p n (ECloud m e) = Ok (n', o) -> In (OTf t (mp, mr) z) o -> In (OPose t' (pp, pr) c) o ->
  pp = vadd mp (qrot mr (pos (odom (n_odom n)))) /\ pr = qmul mr (rot (odom (n_odom n))) /\ z = vz pp.
Proof.
  intros H Ht Hp. apply event_cases in H; [|exact Hlpf].
  destruct H as [A1 A2 A3 A4 A5 A6|m' e' h n2 n3 A1 A2 A3 A4 A5 A6 A7 A8 A9 A10]; [destruct (A6 _ _ _ Ht)|].
  destruct A8 as [(est & ratio & q1 & q2 & est' & c0 & r1 & r2 & ps & _ & B1 & B2 & _ & _ & T & _ & -> & Hm & _) _ _ _ _ _ _ _ _ _ _ _].
  assert (Hp' : pp = pos est' /\ pr = rot est').
  { apply in_app_or in Hp. destruct Hp as [Hp|Hp]; [destruct (publish_tf_out _ _ _ _ _ _ _ _ T Hp) as (? & ? & ? & ?); discriminate|]. cbn [app] in Hp.
    destruct Hp as [Hp|Hp]; [injection Hp as _ <- <- _; auto|]. apply in_app_or in Hp. destruct Hp as [Hp|[Hp|[Hp|[]]]]; try discriminate. destruct (Hm _ Hp) as (? & ? & ?); discriminate. }
  destruct Hp' as [-> ->]. apply in_app_or in Ht. destruct Ht as [Ht|Ht].
  2:{ cbn [app] in Ht. destruct Ht as [Ht|Ht]; [discriminate|]. apply in_app_or in Ht. destruct Ht as [Ht|[Ht|[Ht|[]]]]; try discriminate. destruct (Hm _ Ht) as (? & ? & ?); discriminate. }
  apply publish_tf_step_shape in T. destruct T as (fp & fa & mp0 & mr0 & _ & T1 & T2 & ->). rewrite T1, T2, B1, A4 in *.
  destruct (publish_tf p); [|destruct Ht]. destruct Ht as [Ht|[]]. injection Ht as _ <- <- <-. auto.
Qed.

(** the output filters of every reachable node *)
Lemma filters_low_pass evs : forall n n' o, steps caster voxel p n evs = Ok (n', o) ->
  low_pass (lpf_step p) false (f_pos (n_out n)) /\ low_pass (lpf_step p) true (f_ang (n_out n)) ->
  low_pass (lpf_step p) false (f_pos (n_out n')) /\ low_pass (lpf_step p) true (f_ang (n_out n')).
Proof.
  induction evs as [|ev t IH]; cbn; intros n n' o H Hf.
  - injection H as <- <-. exact Hf.
  - bok H. destruct x as [n1 o1]. bok H. destruct x as [n2 o2]. injection H as <- <-. apply event_cases in E; [|exact Hlpf]. apply (IH _ _ _ E0).
    destruct E as [A1 A2 A3 A4 A5 _|m e h q2 q3 A1 A2 A3 A4 A5 A6 A7 A8 A9 A10].
    + rewrite (so_pos _ _ A1), (so_ang _ _ A1). exact Hf.
    + rewrite A9. destruct A8 as [(est & ratio & r1 & r2 & est' & c0 & r3 & r4 & ps & _ & _ & B2 & _ & _ & T & _ & _ & _ & _ & F1 & F2) _ _ _ _ _ _ _ _ _ _ _].
      rewrite F1, F2. clear F1 F2. unfold publish_tf_step in T. destruct (map_odom est (odom (n_odom r1))) as [mp0 mr0].
      pose proof (after_jump_ok p r1 est) as J. cbv zeta in J. destruct J as (_ & _ & _ & _ & _ & _ & _ & _ & J1 & J2 & _).
      set (nj := after_jump p r1 est) in *. clearbody nj. cbv zeta in T. apply pair_equal_spec in T; destruct T as [T _]; apply pair_equal_spec in T; destruct T as [<- _]. cbn [set_out n_out f_pos f_ang].
      rewrite J1, J2, B2, (so_pos _ _ A2), (so_ang _ _ A2). destruct Hf as [Hp Ha].
      split; apply low_pass_input; destruct (jumped p r1 est); try assumption; apply low_pass_set; assumption.
Qed.
(** C82: when there are more particles than configured, or the estimate is far from the
    previous one, the published pose is the estimate itself (up to the sign of the
    quaternion), unless the correction has a pitch of +-90 degrees. *)
Theorem C82_jump_publishes_estimate evs gen rc0 n o0 m e n' o t pp pr c :
  steps caster voxel p (configure p gen rc0) evs = Ok (n, o0) -> (0 <= lpf_step p)%R ->
  step caster voxel p n (ECloud m e) = Ok (n', o) -> In (OPose t (pp, pr) c) o -> unit_quat (rot (odom (n_odom n))) ->
  exists f est0, PfModel.expectation_biased RA pose_mean f = Some est0
    /\ (exists lk b, f = PfModel.do_bias RA b (PfModel.measure RA lk (n_pf n)))
    /\ let est := normalize est0 in
       let prev := state_prev (n_out n) in
       (np p < Z.of_nat (psize n))%Z \/ (jump_dist p < vnorm (vsub (pos est) (pos prev)))%R
         \/ (jump_ang p < Rabs (snd (getAxisAng (qmul (inv (rot est)) (rot prev)))))%R ->
       nonzero_quat (rot est0) -> Rabs (vz (qrot (qmul (rot est) (inv (rot (odom (n_odom n))))) ex)) <> 1%R ->
       pp = pos est /\ same_rotation pr (rot est).
Proof.
  intros Hr HT H Hp Uo.
  assert (LP : low_pass (lpf_step p) false (f_pos (n_out n)) /\ low_pass (lpf_step p) true (f_ang (n_out n))).
  { apply (filters_low_pass _ _ _ _ Hr). split; apply low_pass_new. }
  apply event_cases in H; [|exact Hlpf].
  destruct H as [A1 A2 A3 A4 A5 A6|m' e' h n2 n3 A1 A2 A3 A4 A5 A6 A7 A8 A9 A10]; [destruct (A5 _ _ _ Hp)|].
  destruct A8 as [(est & ratio & q1 & q2 & est' & c0 & r1 & r2 & ps & B0 & B1 & B2 & _ & (est0 & lk & B3 & B4 & ->) & T & _ & -> & Hm & _) _ _ _ _ _ _ _ _ _ _ _].
  exists (n_pf q1), est0. split; [exact B4|]. split; [rewrite B3, A3; do 2 eexists; reflexivity|].
  cbv zeta. intros Hj Hnz Hgim.
  assert (Hp' : pp = pos est' /\ pr = rot est').
  { apply in_app_or in Hp. destruct Hp as [Hp|Hp]; [destruct (publish_tf_out _ _ _ _ _ _ _ _ T Hp) as (? & ? & ? & ?); discriminate|]. cbn [app] in Hp.
    destruct Hp as [Hp|Hp]; [injection Hp as _ <- <- _; auto|]. apply in_app_or in Hp. destruct Hp as [Hp|[Hp|[Hp|[]]]]; try discriminate. destruct (Hm _ Hp) as (? & ? & ?); discriminate. }
  destruct Hp' as [-> ->].
  assert (Hjump : jumped p q1 (normalize est0) = true).
  { unfold jumped, too_many. rewrite B0, B2, (so_prev _ _ A2). unfold psize. rewrite A3. fold (psize n).
    destruct (np p <? Z.of_nat (psize n))%Z eqn:Ez; [reflexivity|]. apply Z.ltb_ge in Ez. destruct Hj as [Hj|Hj]; [lia|].
    unfold far_off. destruct Hj as [Hj|Hj]; apply Rltb_true in Hj; rewrite Hj; [reflexivity|apply orb_true_r]. }
  unfold publish_tf_step in T. rewrite Hjump, B1, A4 in T.
  pose proof (after_jump_ok p q1 (normalize est0)) as J. cbv zeta in J. destruct J as (_ & _ & _ & _ & _ & _ & _ & _ & J1 & J2 & _).
  set (nj := after_jump p q1 (normalize est0)) in *. clearbody nj.
  unfold map_odom in T. cbv zeta beta iota in T. apply pair_equal_spec in T; destruct T as [T _]; apply pair_equal_spec in T; destruct T as [_ <-]. cbn [pos rot].
  rewrite J1, J2, B2, (so_pos _ _ A2), (so_ang _ _ A2).
  rewrite (set3_passes (lpf_step p) false), (set3_passes (lpf_step p) true) by (try exact HT; apply LP). rewrite !v3_tup.
  set (od := odom (n_odom n)) in *. set (est := normalize est0) in *.
  assert (Ue : unit_quat (rot est)) by (apply unit_normalized; exact Hnz).
  set (mr := qmul (rot est) (inv (rot od))) in *.
  assert (Um : unit_quat mr) by (apply unit_mul; [exact Ue|apply unit_inv; exact Uo]).
  destruct (C41_set_after_get mr Um Hgim) as [_ Hs]. split.
  - rewrite (Hs (pos od)). unfold vadd, vsub. destruct (pos est), (qrot mr (pos od)). cbn. f_equal; ring.
  - intro v. rewrite C40_composition, (Hs (qrot (rot od) v)). unfold mr. rewrite C40_composition, qrot_inv_l by exact Uo. reflexivity.
Qed.
End Tf.

(** The exception is real: with the robot pitched up by 90 degrees the heading of the
    estimate is lost. *)
Theorem C82_pitch_90_refuted {S} (p : params) (n : node (S := S)) (e : menv) :
  (0 <= lpf_step p)%R -> low_pass (lpf_step p) true (f_ang (n_out n)) -> odom (n_odom n) = state0 -> too_many p n = true ->
  let est := state_pr v0 (setRPY (V3 0 (PI / 2) (PI / 2))) in
  ~ same_rotation (rot (snd (fst (publish_tf_step p n e est)))) (rot est).
Proof.
  intros HT LP Ho Ht est. unfold publish_tf_step, jumped. rewrite Ho, Ht. unfold map_odom.
  assert (I1 : inv (rot state0) = q1) by (change (rot state0) with q1; unfold inv, q1; qunf; f_equal; field).
  rewrite I1. pose proof (after_jump_ok p n est) as J. cbv zeta in J. destruct J as (_ & _ & _ & _ & _ & _ & _ & _ & _ & J2 & _).
  set (nj := after_jump p n est) in *. clearbody nj. cbn [fst snd rot]. rewrite J2, (set3_passes (lpf_step p) true) by assumption. rewrite v3_tup.
  change (rot est) with (setRPY (V3 0 (PI / 2) (PI / 2))). change (rot state0) with q1.
  assert (M : forall q, qmul q q1 = q) by (intros []; unfold qmul, q1; cbn; f_equal; ring). rewrite !M.
  rewrite (proj1 (C41_gimbal_lock_loses_heading 0 (PI / 2))).
  intro H. specialize (H ey). rewrite !(fun r q y => proj1 (C41_set_is_yaw_pitch_roll r q y)), !C40_composition in H.
  rewrite (proj2 (proj2 (C41_elementary 0 ey))) in H.
  rewrite (proj1 (proj2 (C41_elementary (PI / 2) _))) in H. rewrite !(fun a v => proj1 (C41_elementary a v)) in H.
  unfold ey in H. cbn [vx vy vz] in H. apply (f_equal vx) in H. cbn [vx] in H. rewrite cos_PI2, sin_PI2, cos_0, sin_0 in H. lra.
Qed.
