(** C119: what the weighted sampler knows about the particles right after a global localization. *)
From Coq Require Import String.
From Coq Require Import Reals ZArith NArith List Bool Arith Permutation Lra Lia.
From Verif Require PfModel FilterModel AccumModel PfProofs PfSpec.
From Verif Require Import Arith KdModel QuatModel StateModel StateSpec RayModel LidarModel LidarSpec NdModel SamplerModel ParamModel MatModel
  NodeModel NodeSpec NodeFrame NodeStepProofs NodeMapProofs NodeMapProps NodeAccProps NodeGlobProps NodeSampModel NodeSampSpec NodeSampProps.
Import ListNotations.
Open Scope R_scope.
Open Scope list_scope.

(** the same filter with its first [j] particles only *)
Definition first_particles (j : nat) (f : PfModel.filter RA state) : PfModel.filter RA state :=
  {| PfModel.parts := firstn j (PfModel.parts RA f); PfModel.entropy := PfModel.entropy RA f |}.
Lemma mean_total_add (m : qmean) s (w : R) : m_sum (qmean_add m s w) = m_sum m + w.
Proof. destruct m. reflexivity. Qed.
Lemma expect_firstn (c : R) (ps : list (PfModel.particle RA state)) : (forall q, In q ps -> PfModel.w RA q = c) -> forall (m : qmean) (j : nat),
  1 < m_sum m + INR (Datatypes.S j) * c ->
  PfModel.expect_loop RA pose_mean (1 : RA) m ps = PfModel.expect_loop RA pose_mean (1 : RA) m (firstn (Datatypes.S j) ps).
Proof.
  induction ps as [|q ps IH]; intros Hw m j Hj; [reflexivity|]. cbn [firstn PfModel.expect_loop]. cbv zeta.
  assert (Hq : PfModel.w RA q = c) by (apply Hw; left; reflexivity).
  set (m' := PfModel.mean_add RA pose_mean m (PfModel.st RA q) (PfModel.w RA q)).
  assert (Em : m_sum m' = m_sum m + c) by (unfold m'; cbn [PfModel.mean_add pose_mean]; rewrite mean_total_add, Hq; reflexivity).
  change (@flt RA (1 : RA) (PfModel.mean_total RA pose_mean m')) with (Rltb 1 (m_sum m')).
  destruct (Rltb 1 (m_sum m')) eqn:El; [reflexivity|]. apply Rltb_false in El.
  destruct j as [|j]; [exfalso; rewrite S_INR in Hj; cbn [INR] in Hj; lra|].
  apply IH; [intros x Hx; apply Hw; right; exact Hx|]. rewrite Em. rewrite (S_INR (Datatypes.S j)) in Hj. lra.
Qed.
Lemma pass_firstn (c : R) (ps : list (PfModel.particle RA state)) : (forall q, In q ps -> PfModel.w RA q = c) -> forall (s : R) (j : nat),
  1 < s + INR (Datatypes.S j) * c ->
  PfModel.pass_count RA (1 : RA) (s : RA) ps = PfModel.pass_count RA (1 : RA) (s : RA) (firstn (Datatypes.S j) ps).
Proof.
  induction ps as [|q ps IH]; intros Hw s j Hj; [reflexivity|]. cbn [firstn PfModel.pass_count]. cbv zeta.
  assert (Hq : PfModel.w RA q = c) by (apply Hw; left; reflexivity).
  change (@fadd RA (s : RA) (PfModel.w RA q)) with (s + PfModel.w RA q). rewrite Hq.
  change (@flt RA (1 : RA) (s + c)) with (Rltb 1 (s + c)). destruct (Rltb 1 (s + c)) eqn:El; [reflexivity|]. apply Rltb_false in El.
  destruct j as [|j]; [exfalso; rewrite S_INR in Hj; cbn [INR] in Hj; lra|]. f_equal.
  apply IH; [intros x Hx; apply Hw; right; exact Hx|]. rewrite (S_INR (Datatypes.S j)) in Hj. lra.
Qed.
Lemma nth_firstn {X} (l : list X) : forall j i, (i < j)%nat -> nth_error (firstn j l) i = nth_error l i.
Proof. induction l as [|x l IH]; intros [|j] [|i] H; try lia; try reflexivity. cbn. apply IH. lia. Qed.
Lemma cov_firstn ce (e : state) dim (ps : list (PfModel.particle RA state)) j idx : Forall (fun i => (i < j)%nat) idx -> forall m s,
  PfModel.cov_loop RA ce e dim (firstn j ps) idx m s = PfModel.cov_loop RA ce e dim ps idx m s.
Proof.
  induction 1 as [|i idx Hi _ IH]; intros m s; [reflexivity|]. cbn [PfModel.cov_loop]. rewrite nth_firstn by exact Hi. destruct (nth_error ps i); [apply IH|reflexivity].
Qed.
Lemma sample_indices_lt k (r : R) shuffle : (forall l : list nat, Permutation l (shuffle l)) -> Forall (fun i => (i < k)%nat) (PfModel.sample_indices RA k (r : RA) shuffle).
Proof.
  intro H. apply Forall_forall. intros i Hi. unfold PfModel.sample_indices in Hi.
  assert (G : In i (seq 0 k)); [|apply in_seq in G; lia].
  destruct (flt _ _); [|exact Hi]. apply (Permutation_in i (Permutation_sym (H (seq 0 k)))).
  rewrite <- (firstn_skipn (Nat.min k (Nat.max 0 (@ftrunc RA (@fmul RA (@fofnat RA k) (r : RA))))) (shuffle (seq 0 k))). apply in_or_app. left. exact Hi.
Qed.
(** with weights 1 / K, the mean and the covariance see the first K + 1 particles *)
Lemma expectation_first (K : nat) (f : PfModel.filter RA state) : (0 < K)%nat -> (forall q, In q (PfModel.parts RA f) -> PfModel.w RA q = 1 / INR K) ->
  PfModel.expectation RA pose_mean (1 : RA) f = PfModel.expectation RA pose_mean (1 : RA) (first_particles (K + 1) f)
  /\ forall (r : R) shuffle, (forall l : list nat, Permutation l (shuffle l)) ->
     PfModel.covariance RA pose_mean cov_el 6 (1 : RA) (r : RA) shuffle f = PfModel.covariance RA pose_mean cov_el 6 (1 : RA) (r : RA) shuffle (first_particles (K + 1) f).
Proof.
  intros HK Hw. pose proof (lt_0_INR K HK) as HKR.
  assert (HJ : 1 < 0 + INR (Datatypes.S K) * (1 / INR K)).
  { rewrite S_INR. replace (0 + (INR K + 1) * (1 / INR K)) with (1 + / INR K) by (field; lra). pose proof (Rinv_0_lt_compat _ HKR). lra. }
  replace (K + 1)%nat with (Datatypes.S K) by lia.
  assert (E : PfModel.expectation RA pose_mean (1 : RA) f = PfModel.expectation RA pose_mean (1 : RA) (first_particles (Datatypes.S K) f)).
  { unfold PfModel.expectation, first_particles. cbn [PfModel.parts]. rewrite <- (expect_firstn _ _ Hw); [reflexivity|exact HJ]. }
  split; [exact E|]. intros r shuffle Hs. unfold PfModel.covariance. rewrite <- E. destruct (PfModel.expectation RA pose_mean (1 : RA) f) as [x|]; [|reflexivity].
  cbn [first_particles PfModel.parts]. rewrite <- (pass_firstn _ _ Hw (@f0 RA) K HJ). cbv zeta.
  rewrite cov_firstn; [reflexivity|]. eapply Forall_impl; [|apply sample_indices_lt; exact Hs].
  intros i Hi. cbn beta in Hi. rewrite (pass_firstn _ _ Hw (@f0 RA) K HJ) in Hi. 
  pose proof (PfProofs.pass_count_le RA (1 : RA) (@f0 RA) (firstn (Datatypes.S K) (PfModel.parts RA f))) as L. rewrite firstn_length in L. lia.
Qed.

Section Glob.
Context {S E : Type} (caster : cloud -> (pt -> R -> search) -> raycaster S) (voxel : R * R * R -> list lpt -> list lpt) (p : params)
        (eigen : mat3 -> vec3 * (vec3 * vec3 * vec3)).
Notation node := (node (S := S)).
(** The first measurement after a global localization (no other event that changes the
    particles in between): the mean and the covariance that the weighted sampler gets are those
    of the first K + 1 of the K * directions particles, K the number of cells; they stand on the
    first K / directions + 1 cells.  The particles on all the other cells have no influence. *)
Theorem C119_only_the_first_particles : forall evs gen rc0 (n : node) o hits srt n' o' m e n1 h pc os,
  steps caster voxel p (configure p gen rc0) evs = Ok (n, o) -> avail (expect_run voxel p evs) = true ->
  step caster voxel p n (EGlobal hits srt) = Ok (n', o') -> sorts srt -> PfModel.parts RA (n_pf n) <> [] -> (1 <= glob_div_yaw p)%Z ->
  let cells := voxel (glob_grid p, glob_grid p, glob_grid p) (content (expect_run voxel p evs)) in
  legal_hits p cells hits ->
  forall kept, keeps (free_above (metric p) (glob_grid p) cells) kept cells -> kept <> [] -> (Z.of_nat (length kept) * glob_div_yaw p < 2 ^ 64)%Z ->
  measures_with voxel p caster n' m e n1 h pc os -> use_sampler_normal p = true -> (forall l, Permutation l (e_stat_shuffle e l)) ->
  let seen := first_particles (length kept + 1) (n_pf n') in
  length (PfModel.parts RA (n_pf n')) = (length kept * Z.to_nat (glob_div_yaw p))%nat
  /\ (forall q, In q (PfModel.parts RA seen) -> exists i k cell, (i <= length kept / Z.to_nat (glob_div_yaw p))%nat /\ nth_error kept i = Some cell
        /\ stands cell (imu_quat (n_imu n)) (Z.to_nat (glob_div_yaw p)) k (PfModel.st RA q))
  /\ particle_statistics p eigen n1 e =
     do mean <- of_option (PfModel.expectation RA pose_mean (1 : RA) seen);
     do cov <- of_option (PfModel.covariance RA pose_mean cov_el 6 (1 : RA) (cov_ratio p n' : RA) (e_stat_shuffle e) seen);
     Ok (Some (set_statistics eigen mean cov)).
Proof.
  intros evs gen rc0 n o hits srt n' o' m e n1 h pc os Hs Hav Hg Hso Hne Hd cells Hh kept Hk Hkn Hz Hw Hu Hsh seen.
  pose proof (C78_one_particle_per_cell_and_heading caster voxel p evs gen rc0 n o hits srt n' o' Hs Hav Hg Hso Hne Hd Hh kept Hk Hz) as (_ & HL & HP & _).
  split; [exact HL|].
  assert (HQ : forall j q, nth_error (PfModel.parts RA (n_pf n')) j = Some q -> exists cell, nth_error kept (j / Z.to_nat (glob_div_yaw p)) = Some cell
    /\ stands cell (imu_quat (n_imu n)) (Z.to_nat (glob_div_yaw p)) (j mod Z.to_nat (glob_div_yaw p)) (PfModel.st RA q) /\ PfModel.w RA q = 1 / INR (length kept)).
  { intros j q Hj. set (dir := Z.to_nat (glob_div_yaw p)) in *. assert (Hdir : (0 < dir)%nat) by (unfold dir; lia).
    assert (Hjl : (j < length kept * dir)%nat) by (rewrite <- HL; apply nth_error_Some; congruence).
    pose proof (Nat.div_mod j dir ltac:(lia)) as Ej. pose proof (Nat.mod_upper_bound j dir ltac:(lia)) as Hm.
    assert (Hi : (j / dir < length kept)%nat) by (apply Nat.div_lt_upper_bound; [lia|rewrite Nat.mul_comm; exact Hjl]).
    destruct (nth_error kept (j / dir)) as [cell|] eqn:Ec; [|apply nth_error_None in Ec; lia].
    destruct (HP _ _ _ Ec Hm) as (q' & Hq' & Hst & Hw' & _). replace (j / dir * dir + j mod dir)%nat with j in Hq' by lia. exists cell. split; [reflexivity|]. assert (q' = q) as <- by congruence. auto. }
  split.
  { intros q Hq. apply In_nth_error in Hq. destruct Hq as (j & Hj). unfold seen, first_particles in Hj. cbn [PfModel.parts] in Hj.
    assert (Hlt : (j < length kept + 1)%nat).
    { destruct (Nat.lt_ge_cases j (length kept + 1)) as [L|L]; [exact L|]. exfalso. assert (Hn : nth_error (firstn (length kept + 1) (PfModel.parts RA (n_pf n'))) j = None); [|congruence].
      apply nth_error_None. rewrite firstn_length. lia. }
    rewrite nth_firstn in Hj by exact Hlt. destruct (HQ j q Hj) as (cell & C1 & C2 & _). exists (j / Z.to_nat (glob_div_yaw p))%nat, (j mod Z.to_nat (glob_div_yaw p))%nat, cell.
    split; [apply Nat.div_le_mono; lia|]. split; assumption. }
  assert (HW : forall q, In q (PfModel.parts RA (n_pf n')) -> PfModel.w RA q = 1 / INR (length kept)).
  { intros q Hq. apply In_nth_error in Hq. destruct Hq as (j & Hj). destruct (HQ j q Hj) as (cell & _ & _ & H). exact H. }
  assert (HK : (0 < length kept)%nat) by (destruct kept; [congruence|cbn; lia]).
  destruct (expectation_first (length kept) (n_pf n') HK HW) as [X1 X2].
  assert (Epf : n_pf n1 = n_pf n').
  { destruct Hw as [a cs na n0 Hm Hp Hat Hgt Hpr]. pose proof (at_process_frame _ _ _ _ _ _ _ Hat) as (_ & F2 & _). 
    apply gate_ok in Hgt. destruct Hgt as (_ & _ & _ & _ & _ & G6 & _). apply prepare_ok in Hpr. destruct Hpr as (_ & _ & _ & _ & _ & P6 & _). rewrite P6, G6, F2. reflexivity. }
  unfold particle_statistics. rewrite Hu. unfold pf_cov. assert (Er : cov_ratio p n1 = cov_ratio p n') by (unfold cov_ratio, psize; rewrite Epf; reflexivity).
  rewrite Er, Epf, X1, (X2 _ _ Hsh). reflexivity.
Qed.
End Glob.
