(** Property theorems C101 (multidimensional normal likelihood, landmarks), C102 (initial pose
    from a covariance) and C103 (odometry error of the first particles). *)
From Coq Require Import String Reals ZArith List Bool Arith Lia Lra.
From Flocq Require Import Core.Core IEEE754.BinarySingleNaN.
From Verif Require PfModel PfSpec PfProofs PfReal PfProps PfIeee RsumLemmas StateProofs QuatProofs2 NodeMotionProps.
From Verif Require Import Arith Ieee KdModel KdSpec QuatModel QuatSpec QuatProofs StateModel StateSpec RayModel LidarModel NdModel NdSpec NdProps ParamModel
  NodeModel NodeSpec NodePostSpec NodePostProps NodeOutProps MatModel MatSpec MatProofs MatDet.
Import ListNotations.
Open Scope R_scope.
Open Scope list_scope.

(** ** C101 *)
(** what is called the determinant below is the determinant: the function that is linear in
    every row, changes its sign when neighbouring rows are exchanged and is 1 for the identity;
    it is positive for every positive definite matrix *)
Theorem C101_determinant :
  (forall n m i (a : R) u v, (i < n)%nat ->
     det n (set_row m i (fun b => a * u b + v b)) = a * det n (set_row m i u) + det n (set_row m i v)) /\
  (forall n m i, (S i < n)%nat -> det n (swap_rows i m) = - det n m) /\
  (forall n, det n delta = 1) /\
  (forall n m, pos_def n m -> 0 < det n m).
Proof. split; [exact det_row_linear|]. split; [exact det_swap|]. split; [exact det_identity|exact det_pos_def]. Qed.
(** the multivariate normal density *)
Theorem C101_density n sigma inverse x :
  ndn_eval n (ndn_new n sigma inverse) x = 1 / (Rpower (2 * PI) (/ 2 * INR n) * sqrt (det n sigma)) * exp (- (form n inverse x / 2)).
Proof. rewrite eval_form. reflexivity. Qed.
(** of independent components it is the product of the one-dimensional densities *)
Theorem C101_independent n sigma inverse v : diagonal_of n sigma v -> (forall i, (i < n)%nat -> 0 < v i) -> is_inverse n sigma inverse ->
  forall x, ndn_eval n (ndn_new n sigma inverse) x = rprod n (fun i => NdSpec.gauss (sqrt (v i)) (x i)).
Proof.
  intros D V I x. rewrite C101_density, gauss_product by exact V. rewrite (det_diagonal n sigma v D).
  rewrite (form_diagonal n inverse (fun i => / v i)); [reflexivity|]. apply (diagonal_inverse n sigma); auto. intros i Hi. specialize (V i Hi). lra.
Qed.
(** for every positive definite covariance it is positive, symmetric, and decreases strictly away
    from zero in every direction *)
Theorem C101_shape n sigma inverse : pos_def n sigma -> is_inverse n sigma inverse ->
  let f := ndn_eval n (ndn_new n sigma inverse) in
  (forall x, 0 < f x) /\ (forall x, f (fun i => - x i) = f x)
  /\ (forall x, nonzero n x -> f x < f (fun _ => 0))
  /\ (forall x s t, nonzero n x -> Rabs s < Rabs t -> f (fun i => t * x i) < f (fun i => s * x i)).
Proof.
  intros P I f. pose proof (det_pos_def n sigma P) as D. assert (A : 0 < 1 / (Rpower (2 * PI) (/ 2 * INR n) * sqrt (det n sigma))).
  { apply Rdiv_lt_0_compat; [lra|]. apply Rmult_lt_0_compat; [apply exp_pos|apply sqrt_lt_R0; exact D]. }
  pose proof (inverse_pos_def n sigma inverse I P) as Q.
  assert (M : forall x s t, nonzero n x -> Rabs s < Rabs t -> f (fun i => t * x i) < f (fun i => s * x i)).
  { intros x s t Hx Hst. unfold f. rewrite !C101_density. apply Rmult_lt_compat_l; [exact A|]. apply exp_increasing.
    rewrite !form_scale. specialize (Q x Hx). apply Rsqr_lt_abs_1 in Hst. unfold Rsqr in Hst. nra. }
  split; [|split; [|split]].
  - intro x. unfold f. rewrite C101_density. apply Rmult_lt_0_compat; [exact A|apply exp_pos].
  - intro x. unfold f. rewrite !C101_density, form_neg. reflexivity.
  - intros x Hx. specialize (M x 0 1 Hx). unfold f in *. rewrite !C101_density in *. rewrite !form_scale in M.
    rewrite (form_zero n inverse (fun _ => 0)) by reflexivity. rewrite !Rmult_0_l, !Rmult_1_l in M. apply M. rewrite Rabs_R0, Rabs_R1. lra.
  - exact M.
Qed.
Lemma zero_det_a c s : is_finite_strict c = true -> Bsign c = false -> ndn32_a c (B754_zero s) = B754_infinity s.
Proof.
  intros Hc Hs. unfold ndn32_a. destruct c as [b|b| |b m e H]; try discriminate. cbn in Hs. subst b. destruct s; reflexivity.
Qed.
(** in float, with a computed determinant of (plus or minus) zero, every landmark is either
    ignored or turns all weights into NaN *)
Theorem C101_singular_covariance {T} (log expf : f32 -> f32) (c : f64) dt (v : nat -> T -> f32) (f : PfModel.filter (B32 log) T) :
  exp32_ok expf -> is_finite_strict c = true -> Bsign c = false -> (exists s, dt = B754_zero s) ->
  (forall q, In q (PfModel.parts (B32 log) f) -> nonneg32 (PfModel.w (B32 log) q)) ->
  let f' := PfModel.measure (B32 log) (fun i s => ndn32_eval expf c dt (v i s)) f in
  f' = f \/ Forall (fun x : f32 => is_nan x = true) (PfSpec.weights (B32 log) f').
Proof.
  intros [He1 He2] Hc Hs [sg ->] Hw f'. set (L := fun i s => ndn32_eval expf c (B754_zero sg) (v i s)) in *.
  assert (HL : forall i s, is_nan (L i s) = true \/ L i s = B754_infinity sg).
  { intros i s. unfold L, ndn32_eval. rewrite zero_det_a by assumption. destruct (v i s) as [b|b| |b m e H] eqn:Ev.
    - destruct (He2 _ (eq_refl : is_nan (B754_zero b : f32) = false)) as [N S0]. destruct (expf (B754_zero b)) as [b'|b'| |b' m' e' H']; cbn in N, S0; try discriminate; subst b'; destruct sg; cbn; auto.
    - destruct (He2 _ (eq_refl : is_nan (B754_infinity b : f32) = false)) as [N S0]. destruct (expf (B754_infinity b)) as [b'|b'| |b' m' e' H']; cbn in N, S0; try discriminate; subst b'; destruct sg; cbn; auto.
    - rewrite He1. left. reflexivity.
    - destruct (He2 _ (eq_refl : is_nan (B754_finite b m e H : f32) = false)) as [N S0]. destruct (expf (B754_finite b m e H)) as [b'|b'| |b' m' e' H']; cbn in N, S0; try discriminate; subst b'; destruct sg; cbn; auto. }
  destruct (Classical_Prop.classic (exists i q, nth_error (PfModel.parts (B32 log) f) i = Some q /\ is_nan (fmult32 (PfModel.w _ q) (L i (PfModel.st _ q))) = true)) as [(i & q & Hq & Hn)|Hno].
  - left. unfold f'. apply PfProofs.measure_noop.
    assert (E : fold_left fplus32 (PfSpec.scores (B32 log) L f) (B754_zero false) = nan32).
    { apply fold_plus_in_nan. apply nth_error_In with (n := i). etransitivity; [apply PfIeee.nth_scores32; exact Hq|]. f_equal.
      destruct (fmult32 (PfModel.w _ q) (L i (PfModel.st _ q))); try discriminate. reflexivity. }
    change (Bltb (B754_zero false) (fold_left fplus32 (PfSpec.scores (B32 log) L f) (B754_zero false)) = false). rewrite E. reflexivity.
  - assert (Hsc : forall x, In x (PfSpec.scores (B32 log) L f) -> (x : f32) = B754_infinity sg).
    { intros x Hx. apply PfIeee.scores_in in Hx. destruct Hx as (i & q & Hq & ->).
      assert (Hnn : is_nan (fmult32 (PfModel.w _ q) (L i (PfModel.st _ q))) <> true) by (intro Hy; apply Hno; eauto).
      specialize (Hw q (nth_error_In _ _ Hq)). destruct Hw as [W1 W2]. destruct (HL i (PfModel.st _ q)) as [Hn|Hn].
      - exfalso. apply Hnn. destruct (L i (PfModel.st _ q)); try discriminate. destruct (PfModel.w _ q : f32); reflexivity.
      - rewrite Hn in *. destruct (PfModel.w (B32 log) q : f32) as [b|b| |b m e H] eqn:Ew; try discriminate; cbn in Hnn; try congruence.
        assert (b = false) as ->. { destruct b; [|reflexivity]. exfalso. unfold f2r in W2. cbn in W2. assert (Hlt : F2R (Float radix2 (Z.neg m) e) < 0) by (apply F2R_lt_0; reflexivity). lra. }
        destruct sg; reflexivity. }
    assert (Hf : forall l, (forall x, In x l -> x = B754_infinity sg) -> l <> [] -> forall a, a = B754_zero false \/ a = B754_infinity sg -> fold_left fplus32 l a = B754_infinity sg).
    { induction l as [|x l IH]; intros Hl Hne a Ha; [congruence|]. cbn [fold_left].
      assert (E : fplus32 a x = B754_infinity sg) by (rewrite (Hl x (or_introl eq_refl)); destruct Ha as [->| ->]; destruct sg; reflexivity). rewrite E.
      destruct l as [|y l]; [reflexivity|]. apply IH; [intros; apply Hl; right; assumption|discriminate|right; reflexivity]. }
    destruct (PfSpec.scores (B32 log) L f) as [|x0 xs] eqn:Es.
    + left. unfold f'. apply PfProofs.measure_noop. rewrite Es. reflexivity.
    + assert (Et : fold_left fplus32 (PfSpec.scores (B32 log) L f) (B754_zero false) = B754_infinity sg) by (rewrite Es; apply Hf; [exact Hsc|discriminate|left; reflexivity]).
      destruct sg.
      * left. unfold f'. apply PfProofs.measure_noop. change (Bltb (B754_zero false) (fold_left fplus32 (PfSpec.scores (B32 log) L f) (B754_zero false)) = false). rewrite Et. reflexivity.
      * right. apply Forall_forall. intros x Hx. apply In_nth_error in Hx. destruct Hx as [i Hx].
        assert (Hi : (i < length (PfModel.parts (B32 log) f))%nat).
        { destruct (PfProofs.measure_shape (B32 log) L f) as (E & _). rewrite <- E.
          assert (H : @nth_error f32 (PfSpec.weights (B32 log) (PfModel.measure (B32 log) L f)) i <> None) by (intros HH; pose proof (eq_trans (eq_sym HH) Hx) as K; discriminate K).
          apply nth_error_Some in H. unfold PfSpec.weights in H. rewrite map_length in H. exact H. }
        destruct (nth_error (PfModel.parts (B32 log) f) i) as [q|] eqn:Hp; [|apply nth_error_None in Hp; lia].
        assert (Hq : fmult32 (PfModel.w _ q) (L i (PfModel.st _ q)) = inf32).
        { apply Hsc. rewrite <- Es. apply nth_error_In with (n := i). apply PfIeee.nth_scores32. exact Hp. }
        destruct (PfIeee.measure_overflow log L f i q Et Hp) as (y & H1 & H2 & _); [rewrite Hq; reflexivity|].
        assert (E : y = x) by (cbn in H1, Hx; unfold f' in Hx; congruence). subst y. apply H2. exact Hq.
Qed.

(** ** Landmarks *)
Lemma zero_diff_same measured s : unit_pose measured -> unit_pose s -> (forall i, (i < 6)%nat -> nth i (pose_diff measured s) 0 = 0) ->
  pos s = pos measured /\ same_rotation (rot s) (rot measured).
Proof.
  intros Um Us H. unfold unit_pose in *. unfold pose_diff in H.
  pose proof (H 0%nat ltac:(lia)) as H0. pose proof (H 1%nat ltac:(lia)) as H1. pose proof (H 2%nat ltac:(lia)) as H2.
  pose proof (H 3%nat ltac:(lia)) as H3. pose proof (H 4%nat ltac:(lia)) as H4. pose proof (H 5%nat ltac:(lia)) as H5. clear H. cbn [nth] in *.
  split. { destruct (pos s) as [a1 a2 a3], (pos measured) as [b1 b2 b3]. cbn [vx vy vz] in *. f_equal; lra. }
  set (q := qmul (QuatModel.inv (rot measured)) (rot s)) in *.
  assert (Uq : unit_quat q) by (apply unit_mul; [apply unit_inv|]; assumption).
  assert (Eg : getRPY q = V3 0 0 0) by (destruct (getRPY q) as [a1 a2 a3]; cbn [vx vy vz] in *; subst; reflexivity).
  assert (Hz : vz (qrot q ex) = 0).
  { pose proof (f_equal vy Eg) as E. rewrite QuatProofs2.getRPY_spec in E by exact Uq. cbn [vy] in E.
    destruct (QuatProofs2.unit_rows q Uq) as (A & _). cbn zeta in A.
    assert (Hr : -1 <= - vz (qrot q ex) <= 1) by (split; nra).
    assert (Es : sin (asin (- vz (qrot q ex))) = - vz (qrot q ex)) by (apply sin_asin; exact Hr). rewrite E, sin_0 in Es. lra. }
  assert (Hu : up_to_sign (setRPY (getRPY q)) q) by (apply QuatProofs2.rpy_restore; [exact Uq|rewrite Hz, Rabs_R0; lra]).
  rewrite Eg in Hu. change (V3 0 0 0) with v0 in Hu. rewrite StateProofs.setRPY_0 in Hu.
  assert (Er : rot s = qmul (rot measured) q) by (unfold q; rewrite <- qmul_assoc, inv_r, qmul_1_l by (apply unit_nonzero; exact Um); reflexivity).
  intro v. rewrite Er, qrot_mul. f_equal. apply up_to_sign_same in Hu. rewrite <- Hu. apply qrot_1.
Qed.
Section Land.
Context {S : Type} (caster : cloud -> (pt -> R -> search) -> raycaster S)
        (voxel : R * R * R -> list lpt -> list lpt) (p : params).
Notation node := (node (S := S)).
Implicit Types n : node.
Notation wt := (PfModel.w RA). Notation stt := (PfModel.st RA). Notation prts := (PfModel.parts RA).
(** the covariance of the message, row by row *)
Definition cov_entry (cov : list R) : mat := fun i j => nth (6 * i + j) cov 0.
Lemma landmark_pos_def cov : pos_def 6 (cov_entry cov) -> pos_def 6 (landmark_sigma cov).
Proof.
  intros P x Hx. specialize (P x Hx). rewrite <- form_transpose in P. unfold form in *. unfold cov_entry, landmark_sigma in *.
  erewrite rsum_ext; [exact P|]. intros i _. apply rsum_ext. intros j _. cbn beta. do 2 f_equal. f_equal. lia.
Qed.
(** a landmark with a positive definite covariance gives every particle a positive likelihood, no
    particle a larger one than a particle at the measured pose, and the same only to particles at
    the measured pose; so it works for every such message (C99_selection applies) *)
Theorem C101_landmark n m inverse srt offset z now n' o :
  let cov := pm_cov m in let measured := state_pr (pm_pos m) (pm_rot m) in
  pos_def 6 (cov_entry cov) -> inverts 6 inverse (fun i j => cov_entry cov j i) -> unit_pose measured ->
  step caster voxel p n (ELandmark m inverse srt offset z now) = Ok (n', o) ->
  exists (f : PfModel.filter RA state) lk nr inv,
    reweighted (n_pf n) f lk /\ PfModel.resample RA splus normalize (offset : RA) nr (sorted_dup srt f) f = Some (n_pf n')
    /\ (forall i, drawn_pose (resample_var p) (z i) (nr i))
    /\ is_inverse 6 (fun i j => cov_entry cov j i) inv
    /\ forall i q, nth_error (prts (n_pf n)) i = Some q -> 0 < lk i /\
         lk i = 1 / ((2 * PI) ^ 3 * sqrt (det 6 (fun i j => cov_entry cov j i))) * exp (- (form 6 inv (fun k => nth k (pose_diff measured (stt q)) 0) / 2)) /\
         forall j r, nth_error (prts (n_pf n)) j = Some r -> pos (stt r) = pos measured -> rot (stt r) = rot measured ->
           lk i <= lk j /\ (unit_pose (stt q) -> lk i = lk j -> pos (stt q) = pos measured /\ same_rotation (rot (stt q)) (rot measured)).
Proof.
  intros cov measured P I0 U H. apply C99_landmark in H. destruct H as (f & lk & nr & Hl & Hr & Hs & Hn & _). fold cov measured in Hl. clearbody cov measured.
  set (inv := inverse (landmark_sigma cov)). exists f, lk, nr, inv. split; [exact Hr|]. split; [exact Hs|]. split; [exact Hn|].
  assert (Ee : forall i j, landmark_sigma cov i j = cov_entry cov j i) by (intros; unfold landmark_sigma, cov_entry; f_equal; lia).
  assert (I : is_inverse 6 (landmark_sigma cov) inv) by (apply I0; intros; apply Ee).
  split. { intros i k Hi Hk. rewrite <- (I i k Hi Hk). apply rsum_ext. intros. rewrite Ee. reflexivity. }
  destruct (C101_shape 6 (landmark_sigma cov) inv (landmark_pos_def cov P) I) as (S1 & S2 & S3 & _).
  intros i q Hq. rewrite (Hl i q Hq). split; [apply S1|]. split.
  { unfold landmark_like. fold inv. rewrite C101_density. replace (/ 2 * INR 6) with (INR 3) by (rewrite !INR_IZR_INZ; cbn; lra).
    rewrite Rpower_pow by (pose proof PI_RGT_0; lra). rewrite (det_ext 6 (landmark_sigma cov) (fun i j => cov_entry cov j i)) by (intros; apply Ee). reflexivity. }
  intros j r Hj Hp Hro. rewrite (Hl j r Hj).
  rewrite (C99_no_difference measured U (stt r) Hp Hro).
  assert (Z : landmark_like cov inverse [0; 0; 0; 0; 0; 0] = ndn_eval 6 (ndn_new 6 (landmark_sigma cov) inv) (fun _ => 0)).
  { unfold landmark_like. rewrite !C101_density. reflexivity. }
  rewrite Z. unfold landmark_like. fold inv.
  destruct (Classical_Prop.classic (nonzero 6 (fun k => nth k (pose_diff measured (stt q)) 0))) as [N|N].
  - specialize (S3 _ N). split; [lra|]. intros _ E. exfalso. apply (Rlt_irrefl _ (eq_ind _ (fun y => y < _) S3 _ E)).
  - assert (Hz : forall k, (k < 6)%nat -> nth k (pose_diff measured (stt q)) 0 = 0).
    { intros k Hk. destruct (Req_dec (nth k (pose_diff measured (stt q)) 0) 0) as [E|E]; [exact E|]. exfalso. apply N. exists k. auto. }
    split; [|intros Uq _; apply zero_diff_same; assumption]. right. rewrite !C101_density. do 4 f_equal. apply form_ext. exact Hz.
Qed.
End Land.

(** ** C102: vectors drawn for a covariance matrix *)
(** draws with mean zero and unit covariance become vectors with the requested mean and the
    requested covariance (its lower triangle, mirrored: all of it if it is symmetric) *)
Theorem C102_mean_and_covariance n mean m vecs vals l :
  eigen_of n m vecs vals -> pos_semidef n (lower m) -> total l = 1 -> has_mean n l (fun _ => 0) -> has_cov n l (fun _ => 0) delta ->
  has_mean n (samples n mean (norm_transform vecs vals) l) mean /\ has_cov n (samples n mean (norm_transform vecs vals) l) mean (lower m)
  /\ (symmetric n m -> has_cov n (samples n mean (norm_transform vecs vals) l) mean m).
Proof.
  intros E P T M C. split; [apply samples_mean; assumption|].
  assert (K : has_cov n (samples n mean (norm_transform vecs vals) l) mean (lower m)).
  { intros i j Hi Hj. rewrite (samples_cov n mean (norm_transform vecs vals) l C i j Hi Hj). apply transform_square; try assumption. apply (eigen_nonneg n m vecs vals E P). }
  split; [exact K|]. intros Hs i j Hi Hj. rewrite (K i j Hi Hj). unfold lower. destruct (Nat.ltb_spec i j); [apply Hs; assumption|reflexivity].
Qed.
(** without covariance every generated vector is the mean *)
Theorem C102_no_covariance n mean m vecs vals z : eigen_of n m vecs vals -> (forall i j, (j <= i)%nat -> (i < n)%nat -> m i j = 0) ->
  forall i, (i < n)%nat -> nth i (multi_noise n mean (norm_transform vecs vals) z) 0 = mean i.
Proof.
  intros E Z i Hi. rewrite multi_nth by exact Hi. rewrite rsum_0; [ring|]. intros k Hk. unfold norm_transform.
  rewrite <- (eigenvalue_form n m vecs vals k E Hk). unfold form. rewrite rsum_0; [rewrite sqrt_0; ring|].
  intros a Ha. apply rsum_0. intros b Hb. unfold lower. destruct (Nat.ltb_spec a b); rewrite Z by lia; ring.
Qed.
(** every direction in which the covariance has no spread is left alone *)
Theorem C102_flat_direction n mean m vecs vals z u : eigen_of n m vecs vals -> pos_semidef n (lower m) -> form n (lower m) u = 0 ->
  rsum n (fun i => u i * nth i (multi_noise n mean (norm_transform vecs vals) z) 0) = rsum n (fun i => u i * mean i).
Proof.
  intros E P Hu. pose proof (eigen_nonneg n m vecs vals E P) as L.
  assert (Hk : forall k, (k < n)%nat -> rsum n (fun i => u i * norm_transform vecs vals i k) = 0).
  { assert (Hs : rsum n (fun k => rsum n (fun i => u i * norm_transform vecs vals i k) * rsum n (fun i => u i * norm_transform vecs vals i k)) = 0).
    { rewrite <- Hu. unfold form. rewrite (rsum_ext n _ (fun k => rsum n (fun i => rsum n (fun j => (u i * norm_transform vecs vals i k) * (u j * norm_transform vecs vals j k))))) by (intros; symmetry; apply rsum_const_swap).
      rewrite rsum_swap. apply rsum_ext. intros i Hi. rewrite rsum_swap. apply rsum_ext. intros j Hj.
      rewrite <- (transform_square n m vecs vals i j E L Hi Hj), <- rsum_scale, <- rsum_scale_r. apply rsum_ext. intros. ring. }
    intros k Hk. set (g := fun k => rsum n (fun i => u i * norm_transform vecs vals i k)) in *.
    assert (G : forall n, rsum n (fun k => g k * g k) = 0 -> forall k, (k < n)%nat -> g k = 0).
    { clear. clearbody g. intro N. induction N as [|N IH]; intros H k Hk; [lia|]. cbn [rsum] in H.
      assert (0 <= rsum N (fun k => g k * g k)) by (rewrite <- (rsum_0 N (fun _ => 0)) by reflexivity; apply rsum_le; intros; nra).
      assert (0 <= g N * g N) by nra. destruct (Nat.eq_dec k N) as [->|]; [nra|]. apply IH; [lra|lia]. }
    exact (G n Hs k Hk). }
  rewrite (rsum_ext n _ (fun i => u i * mean i + rsum n (fun j => (u i * norm_transform vecs vals i j) * z j))).
  - rewrite rsum_plus, rsum_swap. rewrite (rsum_0 n (fun j => rsum n (fun i => u i * norm_transform vecs vals i j * z j))); [ring|].
    intros j Hj. rewrite rsum_scale_r, (Hk j Hj). ring.
  - intros i Hi. rewrite multi_nth by exact Hi. rewrite Rmult_plus_distr_l, <- rsum_scale. f_equal. apply rsum_ext. intros. ring.
Qed.
Section Init.
Context {S : Type} (caster : cloud -> (pt -> R -> search) -> raycaster S)
        (voxel : R * R * R -> list lpt -> list lpt) (p : params).
Notation node := (node (S := S)).
Implicit Types n : node.
Notation stt := (PfModel.st RA). Notation prts := (PfModel.parts RA).
(** the pose described by six numbers *)
Definition pose6 (x : list R) : vec3 * quat := (V3 (nth 0 x 0) (nth 1 x 0) (nth 2 x 0), setRPY (V3 (nth 3 x 0) (nth 4 x 0) (nth 5 x 0))).
(** position and roll, pitch, yaw of a pose *)
Definition six (s : state) : vec := fun i => nth i [vx (pos s); vy (pos s); vz (pos s); vx (getRPY (rot s)); vy (getRPY (rot s)); vz (getRPY (rot s))] 0.
Lemma cov_matrix_entry cov i j : cov_matrix 6 cov i j = cov_entry cov i j.
Proof. unfold cov_matrix, cov_entry. f_equal. lia. Qed.
Lemma cov_semidef cov : pos_semidef 6 (lower (cov_entry cov)) -> pos_semidef 6 (lower (cov_matrix 6 cov)).
Proof. intros P x. specialize (P x). unfold form in *. rewrite (rsum_ext 6 _ (fun i => rsum 6 (fun j => x i * lower (cov_entry cov) i j * x j))); [exact P|]. intros i _. apply rsum_ext. intros j _. unfold lower. rewrite !cov_matrix_entry. reflexivity. Qed.
(** an accepted initial pose: every particle stands at a drawn vector, has no odometry error and
    weight 1/N; if the draws of the particles have mean zero and unit covariance, the particles
    have, in the map frame, the mean that the message has in the map frame and the covariance as
    it is in the message (whatever the transform: the covariance is not rotated) *)
Theorem C102_initial_pose n msg lk tr tq solver z now n' out :
  let cov := pm_cov msg in
  Rabs (qdot (pm_rot msg) (pm_rot msg) - 1) <= 1 / 10 -> lk (frame_map p) (pm_frame msg) (pm_stamp msg) = Some (tr, tq) ->
  decomposes 6 solver (cov_entry cov) -> pos_semidef 6 (lower (cov_entry cov)) ->
  step caster voxel p n (EPosition msg lk solver z now) = Ok (n', out) ->
  let N := length (prts (n_pf n)) in
  exists (mean : state) (xs : nat -> list R), pos mean = vadd (qrot tq (pm_pos msg)) tr
    /\ (unit_quat tq -> unit_quat (pm_rot msg) -> rot mean = qmul tq (pm_rot msg))
    /\ length (prts (n_pf n')) = N
    /\ (forall i q, nth_error (prts (n_pf n')) i = Some q -> (pos (stt q), rot (stt q)) = pose6 (xs i) /\ err_lin (stt q) = V3 0 0 0 /\ err_ang (stt q) = V3 0 0 0
          /\ PfModel.w RA q = 1 / INR N)
    /\ let family f := map (fun i => (1 / INR N, f i)) (seq 0 N) in
       has_mean 6 (family z) (fun _ => 0) -> has_cov 6 (family z) (fun _ => 0) delta -> (0 < N)%nat ->
       has_mean 6 (family (fun i j => nth j (xs i) 0)) (six mean) /\ has_cov 6 (family (fun i j => nth j (xs i) 0)) (six mean) (lower (cov_entry cov)).
Proof.
  intros cov Ho Hk E0 P0 H N. assert (E : eigen_of 6 (cov_matrix 6 cov) (fst (solver (cov_matrix 6 cov))) (snd (solver (cov_matrix 6 cov)))) by (apply E0; intros; apply cov_matrix_entry).
  set (vecs := fst (solver (cov_matrix 6 cov))) in *. set (vals := snd (solver (cov_matrix 6 cov))) in *. pose proof (cov_semidef cov P0) as P. destruct (NodeMotionProps.C77_accepted caster voxel p n msg lk tr tq solver z now Ho Hk) as (n2 & o2 & mean & H2 & A01 & A02 & A1 & A2 & A3 & _).
  cbv zeta in H2. assert (n2 = n') by congruence. subst n2. clear H H2. exists mean. unfold NodeMotionProps.poses in *. rewrite !map_length in *.
  exists (fun i => multi_noise 6 (six mean) (norm_transform vecs vals) (z i)). split; [exact A01|]. split; [exact A02|]. split; [exact A1|]. split.
  - intros i q Hq. assert (Es : stt q = NodeModel.reset_err (let m := set_mean mean in noise_state (multi_noise 6 (fun i => nth i m 0) (norm_transform vecs vals) (z i)) m)).
    { rewrite (A2 i (stt q)) by (rewrite nth_error_map, Hq; reflexivity). unfold initial_state. fold cov. rewrite (surjective_pairing (solver (cov_matrix 6 cov))). reflexivity. }
    rewrite Es. split; [reflexivity|]. split; [reflexivity|]. split; [reflexivity|]. rewrite Forall_forall in A3. apply (A3 q (nth_error_In _ _ Hq)).
  - set (family := fun f : nat -> vec => map (fun i => (1 / INR N, f i)) (seq 0 N)). intros M C HN. set (l := family z).
    assert (Et : total l = 1).
    { unfold l, family. assert (G : forall k a, total (map (fun i => (1 / INR N, z i)) (seq a k)) = INR k / INR N).
      { unfold total, average. induction k as [|k IH]; intro a; cbn [seq map fold_right fst snd]; [unfold Rdiv; rewrite Rmult_0_l; reflexivity|]. rewrite IH, S_INR. unfold Rdiv. ring. }
      rewrite G. unfold Rdiv. apply Rinv_r. apply not_0_INR. lia. }
    assert (Ef : family (fun i => (fun j => nth j (multi_noise 6 (six mean) (norm_transform vecs vals) (z i)) 0) : vec) = samples 6 (six mean) (norm_transform vecs vals) l).
    { unfold family, samples, l, family. rewrite map_map. reflexivity. }
    cbv beta. change (has_mean 6 (family (fun i => (fun j => nth j (multi_noise 6 (six mean) (norm_transform vecs vals) (z i)) 0) : vec)) (six mean) /\ has_cov 6 (family (fun i => (fun j => nth j (multi_noise 6 (six mean) (norm_transform vecs vals) (z i)) 0) : vec)) (six mean) (lower (cov_entry cov))).
    rewrite Ef. destruct (C102_mean_and_covariance 6 (six mean) _ _ _ l E P Et M C) as (R1 & R2 & _). split; [assumption|]. intros a b Ha Hb. rewrite (R2 a b Ha Hb). unfold lower. rewrite !cov_matrix_entry. reflexivity.
Qed.

(** ** C103 *)
(** the particles of the configured initial pose start with their whole position as odometry
    error ... *)
Theorem C103_initial_error gen (rc0 : S) :
  forall i q, nth_error (prts (n_pf (configure p gen rc0))) i = Some q -> err_lin (stt q) = pos (stt q).
Proof.
  intros i q H. unfold configure in H. cbn [n_pf] in H. unfold PfModel.init in H. cbn [PfModel.parts] in H. rewrite PfProofs.mapi_nth in H.
  destruct (nth_error _ i); [|discriminate]. injection H as <-. cbn [PfModel.set_w PfModel.set_st PfModel.st]. unfold diag_noise, generateNoise. destruct (diagonal _ _ _ _). reflexivity.
Qed.
(** ... so that a localization step with these particles multiplies every weight by the density of
    the distance of the particle from the origin of the map *)
Theorem C103_first_step_prefers_origin gen (rc0 : S) evs n o0 m e n' o t x c :
  let n0 := configure p gen rc0 in
  steps caster voxel p n0 evs = Ok (n, o0) -> n_pf n = n_pf n0 -> step caster voxel p n (ECloud m e) = Ok (n', o) -> In (OPose t x c) o ->
  exists n1 h pc os n2 bp lp cl lk (f f4 : PfModel.filter RA state) nr,
    measures_with voxel p caster n m e n1 h pc os /\ filters p n1 e (voxel (ds_x p, ds_y p, ds_z p) pc) = (n2, bp, lp) /\ last_map o0 None = Some cl
    /\ reweighted (n_pf n) f lk /\ PfModel.resample RA splus normalize (e_offset e : RA) nr (sorted_dup (e_sort e) f) f = Some f4
    /\ forall i q, nth_error (prts (n_pf n)) i = Some q -> exists sa sb b l,
         beam_measure (l_beam (n_lid n2)) (caster cl (e_search e)) (e_fuel e) sa (Some bp) os (stt q) = Done (sb, b)
         /\ like_measure (l_like (n_lid n2)) (e_search e) (Some lp) (stt q) = Some l
         /\ lk i = fst b * fst l * NodePostSpec.gauss (integ_lin_sigma p) (vnorm (pos (stt q))).
Proof.
  intros n0 Hs Hp Hc Hi.
  destruct (C95_localization_step caster voxel p evs _ rc0 n o0 m e n' o t x c Hs Hc Hi) as (n1 & h & pc & os & n2 & bp & lp & cl & lk & g & f & f4 & f6 & nr & nx & st & k & mp & od & im & A1 & A2 & A3 & A4 & A5 & _ & _ & _ & A6 & _ & A7 & _).
  exists n1, h, pc, os, n2, bp, lp, cl, lk, f, f4, nr. repeat (split; [assumption|]). intros i q Hq. destruct (A5 i q Hq) as (sa & sb & b & l & B1 & B2 & B3).
  exists sa, sb, b, l. split; [exact B1|]. split; [exact B2|]. rewrite B3. f_equal. f_equal. f_equal.
  rewrite Hp in Hq. apply (C103_initial_error gen rc0 i q Hq).
Qed.
End Init.

(** ** Concrete cases *)
Definition mat22 (a b c d : R) : mat := fun i j => match i, j with O, O => a | O, _ => b | _, O => c | _, _ => d end.
(** a correlated covariance *)
Example C101_shape_nonvacuous : pos_def 2 (mat22 2 1 1 2) /\ is_inverse 2 (mat22 2 1 1 2) (mat22 (2/3) (-1/3) (-1/3) (2/3)) /\ 0 < det 2 (mat22 2 1 1 2).
Proof.
  split; [|split].
  - intros x (i & Hi & Hx). unfold form. cbn. assert (Hp : 0 < x 0%nat * x 0%nat \/ 0 < x 1%nat * x 1%nat) by (destruct i as [|[|i]]; [left|right|lia]; exact (Rsqr_pos_lt _ Hx)).
    assert (0 <= x 0%nat * x 0%nat) by apply Rle_0_sqr. assert (0 <= x 1%nat * x 1%nat) by apply Rle_0_sqr. assert (0 <= (x 0%nat + x 1%nat) * (x 0%nat + x 1%nat)) by apply Rle_0_sqr. destruct Hp; nra.
  - intros i k Hi Hk. destruct i as [|[|i]], k as [|[|k]]; try lia; cbn; lra.
  - cbn. lra.
Qed.
(** the unit covariance of a landmark message *)
Definition unit_cov : list R := map (fun k => if Nat.eqb (k mod 7) 0 then 1 else 0) (seq 0 36).
Example C101_landmark_nonvacuous : pos_def 6 (cov_entry unit_cov) /\ is_inverse 6 (landmark_sigma unit_cov) delta /\ 0 < det 6 (landmark_sigma unit_cov)
  /\ diagonal_of 6 (landmark_sigma unit_cov) (fun _ => 1).
Proof.
  assert (D1 : diagonal_of 6 (cov_entry unit_cov) (fun _ => 1)).
  { intros i j Hi Hj. do 6 (destruct i as [|i]; [do 6 (destruct j as [|j]; [reflexivity|]); lia|]). lia. }
  assert (D2 : diagonal_of 6 (landmark_sigma unit_cov) (fun _ => 1)).
  { intros i j Hi Hj. do 6 (destruct i as [|i]; [do 6 (destruct j as [|j]; [reflexivity|]); lia|]). lia. }
  split; [|split; [|split; [|exact D2]]].
  - intros x (i & Hi & Hx). rewrite (form_diagonal 6 _ _ x D1).
    assert (G : forall k, 0 <= rsum k (fun i => 1 * (x i * x i)) /\ ((i < k)%nat -> 0 < rsum k (fun i => 1 * (x i * x i)))).
    { induction k as [|k [I1 I2]]; cbn [rsum]; [split; [lra|lia]|]. assert (0 <= x k * x k) by apply Rle_0_sqr. split; [lra|]. intro Hk.
      destruct (Nat.eq_dec i k) as [<-|Hn]; [assert (0 < x i * x i) by exact (Rsqr_pos_lt _ Hx); lra|]. specialize (I2 ltac:(lia)). lra. }
    apply G. exact Hi.
  - intros i k Hi Hk. rewrite (rsum_ext 6 _ (fun j => delta i j * delta j k)) by (intros j Hj; rewrite (D2 i j Hi Hj); reflexivity). apply (rsum_delta 6 i (fun j => delta j k) Hi).
  - rewrite (det_diagonal 6 _ _ D2). cbn. lra.
Qed.
(** four draws with mean zero and unit covariance, and a correlated covariance *)
Definition four (a b : R) : vec := fun i => match i with O => a | _ => b end.
Example C102_nonvacuous : exists vecs vals l,
  eigen_of 2 (mat22 (5/2) (3/2) (3/2) (5/2)) vecs vals /\ pos_semidef 2 (lower (mat22 (5/2) (3/2) (3/2) (5/2)))
  /\ total l = 1 /\ has_mean 2 l (fun _ => 0) /\ has_cov 2 l (fun _ => 0) delta /\ symmetric 2 (mat22 (5/2) (3/2) (3/2) (5/2)).
Proof.
  assert (Q : / sqrt 2 * / sqrt 2 = / 2). { rewrite <- Rinv_mult. rewrite sqrt_sqrt by lra. reflexivity. }
  exists (mat22 (/ sqrt 2) (/ sqrt 2) (/ sqrt 2) (- / sqrt 2)), (four 4 1), (map (fun z => (1/4, z)) [four 1 1; four 1 (-1); four (-1) 1; four (-1) (-1)]).
  split; [split|split; [|split; [|split; [|split]]]].
  - intros a b Ha Hb. destruct a as [|[|a]], b as [|[|b]]; try lia; cbn; nra.
  - intros a b Ha Hb. destruct a as [|[|a]], b as [|[|b]]; try lia; cbn; nra.
  - intro x. unfold form. cbn. assert (0 <= (x 0%nat + x 1%nat) * (x 0%nat + x 1%nat)) by apply Rle_0_sqr. assert (0 <= x 0%nat * x 0%nat) by apply Rle_0_sqr. assert (0 <= x 1%nat * x 1%nat) by apply Rle_0_sqr. nra.
  - unfold total, average. cbn. lra.
  - intros i Hi. destruct i as [|[|i]]; try lia; unfold average; cbn; lra.
  - intros i j Hi Hj. destruct i as [|[|i]], j as [|[|j]]; try lia; unfold average; cbn; lra.
  - intros i j Hi Hj. destruct i as [|[|i]], j as [|[|j]]; try lia; reflexivity.
Qed.
(** a zero determinant: one particle, and a finite exponent or a NaN one *)
Example C101_singular_nonvacuous (log : f32 -> f32) : exists expf, exp32_ok expf /\
  let f := {| PfModel.parts := [ {| PfModel.st := true; PfModel.w := f32_of_Z 1 : B32 log; PfModel.bias := f0; PfModel.acc := None |} ]; PfModel.entropy := None |} in
  is_finite_strict (f64_of_Z 248) = true /\ Bsign (f64_of_Z 248) = false
  /\ PfSpec.weights (B32 log) (PfModel.measure (B32 log) (fun _ (s : bool) => ndn32_eval expf (f64_of_Z 248) (B754_zero false) (f32_of_Z 0)) f) = [nan32]
  /\ PfModel.measure (B32 log) (fun _ (s : bool) => ndn32_eval expf (f64_of_Z 248) (B754_zero false) B754_nan) f = f.
Proof.
  exists (fun x => if is_nan x then B754_nan else f32_of_Z 1). split; [split; [reflexivity|]|].
  - intros x Hx. rewrite Hx. split; reflexivity.
  - cbv zeta. split; [reflexivity|]. split; [reflexivity|]. split; reflexivity.
Qed.
Example C101_C102_oracles_nonvacuous : inverts 6 (fun _ => delta) (fun i j => cov_entry unit_cov j i)
  /\ decomposes 6 (fun _ => (delta, fun _ => 1)) (cov_entry unit_cov) /\ pos_semidef 6 (lower (cov_entry unit_cov)).
Proof.
  assert (D : forall i j, (i < 6)%nat -> (j < 6)%nat -> cov_entry unit_cov i j = delta i j).
  { intros i j Hi Hj. do 6 (destruct i as [|i]; [do 6 (destruct j as [|j]; [reflexivity|]); lia|]). lia. }
  assert (Ds : forall i j, delta i j = delta j i) by (intros; unfold delta; rewrite Nat.eqb_sym; reflexivity).
  split; [|split].
  - intros m H i k Hi Hk. rewrite (rsum_ext 6 _ (fun j => delta i j * delta j k)); [apply (rsum_delta 6 i (fun j => delta j k) Hi)|].
    intros j Hj. rewrite (H i j Hi Hj), (D j i Hj Hi), Ds. reflexivity.
  - intros m H. cbn [fst snd]. split.
    + intros a b Ha Hb. rewrite (rsum_ext 6 _ (fun i => delta a i * delta i b)) by (intros; rewrite (Ds i a); reflexivity). apply (rsum_delta 6 a (fun j => delta j b) Ha).
    + intros i j Hi Hj. rewrite (rsum_ext 6 _ (fun k => delta i k * delta k j)) by (intros; rewrite (Ds j i0); ring). rewrite (rsum_delta 6 i (fun k => delta k j) Hi).
      unfold lower. destruct (Nat.ltb_spec i j); rewrite H by assumption; rewrite D by assumption; auto.
  - intros x. unfold form. rewrite (rsum_ext 6 _ (fun i => x i * x i)).
    + rewrite <- (rsum_0 6 (fun _ => 0)) by reflexivity. apply rsum_le. intros. apply Rle_0_sqr.
    + intros i Hi. rewrite (rsum_ext 6 _ (fun j => delta i j * (x i * x j))); [apply (rsum_delta 6 i (fun j => x i * x j) Hi)|].
      intros j Hj. unfold lower. destruct (Nat.ltb_spec i j); rewrite D by assumption; rewrite ?(Ds j i); ring.
Qed.
