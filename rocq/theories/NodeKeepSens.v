(** No measurement finds another pose more likely than the true one. *)
From Coq Require Import String Reals ZArith List Bool Arith Lia Lra Permutation.
From Verif Require PfModel FilterModel AccumModel PfSpec.
From Verif Require Import Arith KdModel QuatModel QuatSpec QuatProofs QuatProofs2 StateModel StateSpec StateProofs StateProps RayModel LidarModel LidarSpec LidarProofs LidarProofs2 LidarProps NdModel NdSpec NdProps ParamModel MatModel
  NodeModel NodeSpec NodeFrame NodeLocProofs NodeStepProofs NodeMapProofs NodeMapProps NodeMotionProps NodePostSpec NodePostProofs NodeHistProps NodePostProps NodeOutProps NodeTrackSpec NodeTrackProofs NodeKeepSpec NodeKeepProofs.
Import ListNotations.
Open Scope nat_scope.
Open Scope R_scope.
Open Scope list_scope.

(** ** the normal density *)
Lemma nd_pos sg x : sg <> 0 -> 0 < nd_eval (nd_new sg) x.
Proof. intro H. destruct (C69_shape _ H) as (G & _). apply G. Qed.
Lemma nd_mono sg x y : sg <> 0 -> Rabs x <= Rabs y -> nd_eval (nd_new sg) y <= nd_eval (nd_new sg) x.
Proof.
  intros H [L|E].
  - destruct (C69_shape _ H) as (_ & _ & _ & _ & G). left. apply G, L.
  - destruct (C69_shape _ H) as (_ & G & _). right. unfold Rabs in E. destruct (Rcase_abs x), (Rcase_abs y).
    + replace y with x by lra. reflexivity.
    + replace y with (- x) by lra. apply G.
    + replace y with (- x) by lra. apply G.
    + replace y with x by lra. reflexivity.
Qed.

(** ** gravity *)
Lemma gravity_best var am s s' : var <> 0 -> am = qrot (QuatModel.inv (rot s)) (V3 0 0 1) -> unit_quat (rot s) ->
  0 <= gravity_measure (gravity_set (gravity_new var) am) s' <= gravity_measure (gravity_set (gravity_new var) am) s.
Proof.
  intros Hv Ham U. unfold gravity_measure. cbn [gr_nd gravity_set gravity_new]. split; [left; apply nd_pos; exact Hv|]. apply nd_mono; [exact Hv|].
  assert (E : gravity_arg (gravity_set (gravity_new var) am) s = 1).
  { unfold gravity_arg. cbn [gr_acc gr_norm gravity_set]. rewrite Ham.
    set (v := qrot (QuatModel.inv (rot s)) (V3 0 0 1)). assert (Hn : vnorm v = 1) by (apply up_norm; exact U).
    rewrite Hn. unfold vnorm in Hn.
    assert (Hp : 0 <= vdot v v) by (unfold vdot; nra). pose proof (sqrt_def _ Hp) as Q. rewrite Hn in Q. rewrite <- Q. field. }
  rewrite E, acos_1, Rabs_R0. apply Rabs_pos.
Qed.

(** ** landmark *)
Lemma rsum_swap' f : rsum 6 (fun j => rsum 6 (fun i => f i j)) = rsum 6 (fun i => rsum 6 (fun j => f i j)).
Proof. cbn [rsum]. ring. Qed.
Lemma ndn_best inv sg x : 0 < det 6 sg -> (forall x, 0 <= form6 inv x) ->
  0 <= ndn_eval 6 (ndn_new 6 sg inv) x <= ndn_eval 6 (ndn_new 6 sg inv) (fun _ => 0).
Proof.
  intros Hd Hf. unfold ndn_eval. cbn [ndn_a ndn_new ndn_inv].
  assert (Ha : 0 < 1 / (Rpower (2 * PI) (/ 2 * INR 6) * sqrt (det 6 sg))).
  { unfold Rdiv. rewrite Rmult_1_l. apply Rinv_0_lt_compat, Rmult_lt_0_compat; [apply exp_pos|apply sqrt_lt_R0; exact Hd]. }
  assert (E : rsum 6 (fun j => rsum 6 (fun i => - / 2 * x i * inv i j) * x j) = - / 2 * form6 inv x).
  { unfold form6. cbn [rsum]. ring. }
  assert (E0 : rsum 6 (fun j => rsum 6 (fun i => - / 2 * 0 * inv i j) * 0) = 0) by (cbn [rsum]; ring).
  rewrite E, E0. specialize (Hf x). split.
  - apply Rmult_le_pos; [lra|left; apply exp_pos].
  - apply Rmult_le_compat_l; [lra|]. destruct Hf as [Hf|Hf].
    + left. apply exp_increasing. lra.
    + rewrite <- Hf, Rmult_0_r. lra.
Qed.
Lemma landmark_best cov inverse P s s' : 0 < det 6 (landmark_sigma cov) -> (forall x, 0 <= form6 (inverse (landmark_sigma cov)) x) ->
  unit_quat (snd P) -> at_pose P s -> let L := fun t => landmark_like cov inverse (diff6 (state_pr (fst P) (snd P)) t) in 0 <= L s' <= L s.
Proof.
  intros Hd Hf U (A & _) L. unfold L, landmark_like. set (sg := landmark_sigma cov) in *. clearbody sg. clear L.
  assert (E : diff6 (state_pr (fst P) (snd P)) s = [0; 0; 0; 0; 0; 0]).
  { unfold diff6, sminus. cbv zeta. cbn [pos rot state_pr]. assert (Ep : pos s = fst P) by (rewrite <- A; reflexivity). assert (Er : rot s = snd P) by (rewrite <- A; reflexivity).
    rewrite Ep, Er, inv_l, StateProofs.getRPY_q1 by (apply unit_nonzero; exact U). unfold vsub. cbn. repeat (f_equal; try lra). }
  destruct (ndn_best (inverse sg) sg (fun i => nth i (diff6 (state_pr (fst P) (snd P)) s') 0) Hd Hf) as [B1 B2]. split; [exact B1|].
  rewrite E. replace (ndn_eval 6 (ndn_new 6 sg (inverse sg)) (fun i => nth i [0; 0; 0; 0; 0; 0] 0)) with (ndn_eval 6 (ndn_new 6 sg (inverse sg)) (fun _ => 0)); [exact B2|].
  unfold ndn_eval. f_equal.
Qed.

(** ** beams *)
Lemma beta_unit bp : 0 <= bp_alpha bp <= 1 -> (0 < bp_default bp)%N -> 0 <= rpow (bp_alpha bp) (1 / IZR (Z.of_N (bp_default bp))) <= 1.
Proof.
  intros [A B] D. assert (Hn : 0 < 1 / IZR (Z.of_N (bp_default bp))).
  { unfold Rdiv. rewrite Rmult_1_l. apply Rinv_0_lt_compat. apply (IZR_lt 0). lia. }
  destruct A as [A|A].
  - split; [left; apply rpow_pos; exact A|]. eapply Rle_trans; [apply (rpow_mono _ 0); lra|]. rewrite rpow_0 by exact A. lra.
  - rewrite <- A. unfold rpow. destruct (Req_EM_T 0 0) as [_|X]; [|lra]. cbv beta iota. destruct (Req_EM_T (1 / IZR (Z.of_N (bp_default bp))) 0); split; lra.
Qed.
Section Beams.
Context {S : Type} (rc : raycaster S) (bm : beam) (os : list vec3) (st : state) (k : nat).
Hypothesis Hb : 0 <= b_beta bm <= 1.
Lemma beam_points_range pts : forall s c s' c', 0 <= c -> beam_points bm rc os st k pts s c = Done (s', c') -> 0 <= c' <= c.
Proof.
  induction pts as [|q pts IH]; intros s c s' c' Hc H; cbn [beam_points] in H; [injection H as _ <-; lra|].
  destruct (nth_error os (lab q)) as [o|]; [|discriminate]. destruct (getBeamStatus bm rc k s _ _) as [[s1 b]| |]; try discriminate.
  destruct (penalised bm b).
  - assert (E : beam_mul (A := RA) c (b_beta bm) = c * b_beta bm) by reflexivity. rewrite E in H.
    apply IH in H; [|apply Rmult_le_pos; lra]. split; [lra|]. assert (c * b_beta bm <= c * 1) by (apply Rmult_le_compat_l; lra). lra.
  - apply IH in H; assumption.
Qed.
Lemma beam_points_free pts : (forall q o sa sb b, In q pts -> nth_error os (lab q) = Some o ->
    getBeamStatus bm rc k sa (vadd (pos st) (qrot (rot st) o)) (p3 q) = Done (sb, b) -> penalised bm b = false) ->
  forall s c s' c', beam_points bm rc os st k pts s c = Done (s', c') -> c' = c.
Proof.
  intro F. induction pts as [|q pts IH]; intros s c s' c' H; cbn [beam_points] in H; [injection H as _ <-; reflexivity|].
  destruct (nth_error os (lab q)) as [o|] eqn:Eo; [|discriminate]. destruct (getBeamStatus bm rc k s _ _) as [[s1 b]| |] eqn:Es; try discriminate.
  rewrite (F q o s s1 b (or_introl eq_refl) Eo Es) in H. apply IH in H; [exact H|]. intros q' o' sa sb b' Hq. apply F. right. exact Hq.
Qed.
Hypothesis Ha : 0 <= bp_alpha (b_par bm) <= 1.
Lemma beam_measure_range bp s s' r : beam_measure bm rc k s (Some bp) os st = Done (s', r) -> 0 <= fst r <= 1.
Proof.
  unfold beam_measure. destruct bp as [|q bp]; [intro H; injection H as _ <-; cbn [fst]; lra|].
  destruct (beam_points _ _ _ _ _ _ _ _) as [[s1 c]| |] eqn:E; try discriminate. apply beam_points_range in E; [|lra]. intro H.
  injection H as _ <-. cbn [fst]. unfold beam_clamp. cbn [flt RA]. change (0 <= (if Rltb c (bp_alpha (b_par bm)) then bp_alpha (b_par bm) else c) <= 1). destruct (Rltb c (bp_alpha (b_par bm))); lra.
Qed.
Lemma beam_measure_free bp s s' r : (forall q o sa sb b, In q bp -> nth_error os (lab q) = Some o ->
    getBeamStatus bm rc k sa (vadd (pos st) (qrot (rot st) o)) (vadd (qrot (qnormalized (rot st)) (p3 q)) (pos st)) = Done (sb, b) -> penalised bm b = false) ->
  beam_measure bm rc k s (Some bp) os st = Done (s', r) -> fst r = 1.
Proof.
  intro F. unfold beam_measure. destruct bp as [|q bp]; [intro H; injection H as _ <-; reflexivity|].
  destruct (beam_points _ _ _ _ _ _ _ _) as [[s1 c]| |] eqn:E; try discriminate. apply beam_points_free in E.
  - subst c. intro H. injection H as _ <-. cbn [fst]. unfold beam_clamp. change ((if Rltb 1 (bp_alpha (b_par bm)) then bp_alpha (b_par bm) else 1) = 1).
    destruct (Rltb 1 (bp_alpha (b_par bm))) eqn:Q; [apply Rltb_true in Q; lra|reflexivity].
  - intros x o sa sb b Hx Ho. unfold transform in Hx. apply in_map_iff in Hx. destruct Hx as (y & <- & Hy). cbn [p3 lab] in *. intro Hs. eapply F; [exact Hy|exact Ho|exact Hs].
Qed.
End Beams.

(** ** likelihood field *)
Section Field.
Context (lp : like_params) (f : pt -> R -> search).
Hypothesis Hw : 0 <= lp_weight lp.
Hypothesis Hf : 0 <= lp_dist_flat lp <= lp_dist_min lp.
Let top : R := (lp_dist_min lp - lp_dist_flat lp) * lp_weight lp.
Lemma like_points_range pts : forall c k c' k', like_points lp f pts c k = Some (c', k') -> c <= c' <= c + INR (length pts) * top.
Proof.
  assert (T0 : 0 <= top) by (unfold top; apply Rmult_le_pos; lra).
  induction pts as [|q pts IH]; intros c k c' k' H; cbn [like_points] in H; [injection H as <- _; cbn; lra|].
  assert (L : forall c0, c <= c0 <= c + top -> c0 <= c' <= c0 + INR (length pts) * top -> c <= c' <= c + INR (length (q :: pts)) * top).
  { intros c0 A B. cbn [length]. rewrite S_INR. lra. }
  destruct (f (to_pt (p3 q)) (lp_dist_min lp)) as [| |[|[i sq] l]]; try discriminate; try (apply (L c); [lra|eapply IH; exact H]).
  cbv zeta in H. destruct (Rltb _ 0) eqn:Q; [apply (L c); [lra|eapply IH; exact H]|]. apply Rltb_false in Q.
  eapply L; [|eapply IH; exact H]. pose proof (Rmax_r (sqrt sq) (lp_dist_flat lp)) as M. unfold top. split.
  - assert (0 <= (lp_dist_min lp - Rmax (sqrt sq) (lp_dist_flat lp)) * lp_weight lp) by (apply Rmult_le_pos; lra). lra.
  - apply Rplus_le_compat_l. apply Rmult_le_compat_r; lra.
Qed.
Lemma like_points_best pts : (forall q, In q pts -> exists j d, f (to_pt (p3 q)) (lp_dist_min lp) = Found [(j, d)] /\ d <= 0) ->
  forall c k, like_points lp f pts c k = Some (c + INR (length pts) * top, (k + length pts)%nat).
Proof.
  induction pts as [|q pts IH]; intros F c k; cbn [like_points]; [cbn; repeat f_equal; try lra; lia|].
  destruct (F q (or_introl eq_refl)) as (j & d & E & Hd). rewrite E. cbv zeta.
  rewrite (sqrt_neg_0 d Hd), (Rmax_right 0) by lra. destruct (Rltb _ 0) eqn:Q; [apply Rltb_true in Q; lra|].
  rewrite IH by (intros; apply F; right; assumption). cbn [length]. rewrite S_INR. unfold top. f_equal. f_equal; [ring|lia].
Qed.
End Field.
