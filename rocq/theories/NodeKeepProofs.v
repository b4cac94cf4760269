(** The particle at the true pose survives every operation of the filter. *)
From Coq Require Import String Reals ZArith List Bool Arith Lia Lra Permutation.
From Verif Require PfModel FilterModel AccumModel PfSpec PfProofs PfProps PfReal PfReal2 RsumLemmas.
From Verif Require Import Arith KdModel QuatModel QuatSpec QuatProofs QuatProofs2 StateModel StateSpec StateProofs StateProps RayModel LidarModel LidarSpec LidarProofs LidarProofs2 NdModel NdSpec NdProps ParamModel MatModel
  NodeModel NodeSpec NodeFrame NodeLocProofs NodeStepProofs NodeMotionProps NodePostSpec NodePostProofs NodeHistProps NodePostProps NodeOutProps NodeTrackSpec NodeTrackProofs NodeKeepSpec.
Import ListNotations.
Open Scope nat_scope.
Open Scope R_scope.
Open Scope list_scope.

Notation pfilter := (PfModel.filter RA state).
Notation ws := (PfSpec.weights RA).
Notation ss := (PfSpec.poses RA).
Implicit Types f : pfilter.

Lemma len_ws f : length (ws f) = length (PfModel.parts RA f). Proof. apply map_length. Qed.
Lemma len_ss f : length (ss f) = length (PfModel.parts RA f). Proof. apply map_length. Qed.

(** the same weights and poses *)
Lemma tracked_same P f f' : ws f' = ws f -> ss f' = ss f -> tracked P f -> tracked P f'.
Proof. intros E1 E2 H. unfold tracked. rewrite E1, E2. exact H. Qed.
Lemma tracked_bias P g f : tracked P f -> tracked P (PfModel.do_bias RA g f).
Proof. destruct (PfProps.C14_bias RA g f) as (A & B & _). apply tracked_same; assumption. Qed.

(** prediction: every particle moves in the same way *)
Lemma tracked_predict P P' (g : nat -> state -> state) f :
  (forall i s, at_pose P s -> at_pose P' (g i s)) -> (forall i s, noise_free s -> noise_free (g i s)) ->
  (forall i j s s', noise_free s -> noise_free s' -> vnorm (err_lin s) <= vnorm (err_lin s') -> vnorm (err_lin (g i s)) <= vnorm (err_lin (g j s'))) ->
  tracked P f -> tracked P' (PfModel.predict RA g f).
Proof.
  intros Hg Hn Hm (A & B & C & i & s & w & D1 & D2 & D3 & D4 & D5).
  destruct (PfProps.C14_predict RA g f) as (E1 & _ & _ & E4 & E5).
  assert (Back : forall k x, nth_error (ss (PfModel.predict RA g f)) k = Some x -> exists y, nth_error (ss f) k = Some y /\ x = g k y).
  { intros k x Hx. destruct (nth_error (ss f) k) as [y|] eqn:Ey.
    - exists y. split; [reflexivity|]. rewrite (E4 _ _ Ey) in Hx. congruence.
    - exfalso. apply nth_error_None in Ey. rewrite len_ss in Ey. rewrite <- E5, <- len_ss in Ey. apply nth_error_None in Ey. congruence. }
  rewrite Forall_forall in C. split; [rewrite E1; exact A|]. split; [rewrite E1; exact B|]. split.
  - apply Forall_forall. intros x Hx. apply In_nth_error in Hx. destruct Hx as [k Hk]. destruct (Back _ _ Hk) as (y & Hy & ->). apply Hn, C. eapply nth_error_In. exact Hy.
  - exists i, (g i s), w. split; [apply E4; exact D1|]. rewrite E1. split; [exact D2|]. split; [apply Hg; exact D3|]. split; [exact D4|].
    intros x Hx. apply In_nth_error in Hx. destruct Hx as [k Hk]. destruct (Back _ _ Hk) as (y & Hy & ->).
    apply Hm; [apply C; eapply nth_error_In; exact D1|apply C; eapply nth_error_In; exact Hy|apply D5; eapply nth_error_In; exact Hy].
Qed.

(** a measurement that finds the true pose at least as likely as any other *)
Lemma tracked_measure P (L : nat -> state -> R) f :
  (forall i s, nth_error (ss f) i = Some s -> 0 <= L i s) ->
  (forall i s j s', nth_error (ss f) i = Some s -> at_pose P s -> nth_error (ss f) j = Some s' -> vnorm (err_lin s) <= vnorm (err_lin s') -> L j s' <= L i s) ->
  tracked P f -> tracked P (PfModel.measure RA L f).
Proof.
  intros H0 Hm T. destruct (Rlt_dec 0 (PfSpec.Rsum (PfSpec.scores RA L f))) as [Hp|Hp].
  2:{ assert (E : PfModel.measure RA L f = f).
      { apply (PfProps.C02_noop RA L f). change (Rltb 0 (fold_left Rplus (PfSpec.scores RA L f) 0) = false). apply Rltb_false. rewrite RsumLemmas.fold_left_Rplus. change (F RA) with R in *. lra. }
      rewrite E. exact T. }
  destruct T as (A & B & C & i & s & w & D1 & D2 & D3 & D4 & D5).
  destruct (PfProps.C01_bayes L f Hp) as (E1 & E2 & E3 & E4 & _). set (tot := PfSpec.Rsum (PfSpec.scores RA L f)) in *.
  assert (W : forall k x, nth_error (ws (PfModel.measure RA L f)) k = Some x -> exists w' s', nth_error (ws f) k = Some w' /\ nth_error (ss f) k = Some s' /\ x = w' * L k s' / tot).
  { intros k x Hx. destruct (nth_error (PfModel.parts RA f) k) as [q|] eqn:Eq.
    - exists (PfModel.w RA q), (PfModel.st RA q). unfold PfSpec.weights, PfSpec.poses. rewrite !nth_error_map, Eq. split; [reflexivity|]. split; [reflexivity|].
      pose proof (E1 _ _ Eq) as E. rewrite Hx in E. injection E as ->. reflexivity.
    - exfalso. apply nth_error_None in Eq. rewrite <- E3, <- len_ws in Eq. apply nth_error_None in Eq. congruence. }
  split; [exact E2|]. split; [|split; [rewrite E4; exact C|]].
  - apply Forall_forall. intros x Hx. apply In_nth_error in Hx. destruct Hx as [k Hk]. destruct (W _ _ Hk) as (w' & s' & F1 & F2 & ->).
    rewrite Forall_forall in B. apply Rmult_le_pos; [apply Rmult_le_pos; [apply B; eapply nth_error_In; exact F1|apply (H0 _ _ F2)]|left; apply Rinv_0_lt_compat; exact Hp].
  - destruct (nth_error (PfModel.parts RA f) i) as [q|] eqn:Eq.
    2:{ exfalso. unfold PfSpec.poses in D1. rewrite nth_error_map, Eq in D1. discriminate. }
    unfold PfSpec.poses in D1. unfold PfSpec.weights in D2. rewrite nth_error_map, Eq in D1, D2. injection D1 as <-. injection D2 as <-.
    exists i, (PfModel.st RA q), (PfModel.w RA q * L i (PfModel.st RA q) / tot). rewrite E4.
    assert (Hi : nth_error (ss f) i = Some (PfModel.st RA q)) by (unfold PfSpec.poses; rewrite nth_error_map, Eq; reflexivity).
    split; [exact Hi|]. split; [apply E1; exact Eq|]. split; [exact D3|]. split; [|exact D5].
    intros x Hx. apply In_nth_error in Hx. destruct Hx as [k Hk]. destruct (W _ _ Hk) as (w' & s' & F1 & F2 & ->).
    apply Rmult_le_compat_r; [left; apply Rinv_0_lt_compat; exact Hp|].
    rewrite Forall_forall in B. apply Rmult_le_compat; [apply B; eapply nth_error_In; exact F1|apply (H0 _ _ F2)|apply D4; eapply nth_error_In; exact F1|].
    apply (Hm i _ k s' Hi D3 F2). apply D5. eapply nth_error_In. exact F2.
Qed.

(** resampling in order: the particle with the largest weight is taken at least once *)
Lemma pool_in {T} plus norm (noise : nat -> T) pool (Q : T -> T -> Prop) :
  (forall s, Q s s) -> (forall s k, Q s (norm (plus s (noise k)))) ->
  forall prev k out sel, PfSpec.from_pool_strict plus norm noise pool prev k out sel ->
  (forall x, In x out -> exists s, In s pool /\ Q s x) /\ (forall j s, In j sel -> nth_error pool j = Some s -> exists x, In x out /\ Q s x).
Proof.
  intros H1 H2 prev k out sel H. induction H as [|prev k s j out sel Hj Hs H [IH1 IH2]|prev k s out sel Hs H [IH1 IH2]].
  - split; [intros x []|intros j s []].
  - split.
    + intros x [<-|Hx]; [exists s; split; [eapply nth_error_In; exact Hs|apply H1]|apply IH1, Hx].
    + intros j' s' [<-|Hj'] Hs'; [exists s; split; [left; reflexivity|]; rewrite Hs in Hs'; injection Hs' as <-; apply H1|].
      destruct (IH2 _ _ Hj' Hs') as (x & Hx & Qx). exists x. split; [right; exact Hx|exact Qx].
  - split.
    + intros x [<-|Hx]; [exists s; split; [eapply nth_error_In; exact Hs|apply H2]|apply IH1, Hx].
    + intros j' s' [<-|Hj'] Hs'; [rewrite Hs in Hs'; injection Hs' as <-; eexists; split; [left; reflexivity|apply H2]|].
      destruct (IH2 _ _ Hj' Hs') as (x & Hx & Qx). exists x. split; [right; exact Hx|exact Qx].
Qed.
Lemma sum_le_max l w : (forall x, In x l -> x <= w) -> PfSpec.Rsum l <= INR (length l) * w.
Proof.
  induction l as [|x l IH]; intro H; [cbn; lra|]. unfold PfSpec.Rsum in *. cbn [fold_right length]. rewrite S_INR.
  pose proof (H x (or_introl eq_refl)). assert (fold_right Rplus 0 l <= INR (length l) * w) by (apply IH; intros y Hy; apply H; right; exact Hy). lra.
Qed.
Lemma tracked_resample p P offset z srt f f' : Forall (fun v => v = 0) (resample_var p) -> unit_quat (snd P) -> stable srt ->
  0 < offset < / INR (length (PfModel.parts RA f)) ->
  PfModel.resample RA splus normalize (offset : RA) (resample_noise p z) (sorted_dup srt f) f = Some f' -> tracked P f ->
  tracked P f' /\ length (PfModel.parts RA f') = length (PfModel.parts RA f).
Proof.
  intros Hz U [_ Hs] Ho H (A & B & C & i & s & w & D1 & D2 & D3 & D4 & D5).
  assert (E : sorted_dup srt f = PfModel.dup_of RA (0 : RA) (PfModel.parts RA f)).
  { unfold sorted_dup. apply Hs. intros a b x y Hab Hx Hy. exact (PfReal.dup_sorted (PfModel.parts RA f) B a b x y Hab Hx Hy). }
  rewrite E in H. set (N := length (PfModel.parts RA f)) in *.
  assert (HN : 0 < INR N). { apply lt_0_INR. unfold N. rewrite <- len_ss. assert (i < length (ss f))%nat by (apply nth_error_Some; congruence). lia. }
  destruct (PfReal2.resample_in_order splus normalize offset (resample_noise p z) f B ltac:(rewrite A; lra)) as (g & sel & F1 & F2 & F3 & F4 & F5 & _).
  { rewrite PfReal2.step_real, A. fold N. unfold Rdiv. rewrite Rmult_1_l. exact Ho. }
  rewrite H in F1. injection F1 as <-.
  set (Q := fun s x : state => pose_of x = pose_of s \/ (unit_quat (snd (pose_of s)) -> pose_of x = pose_of s)).
  assert (Q1 : forall x k, noise_free (normalize (splus x (resample_noise p z k))) /\ diff (normalize (splus x (resample_noise p z k))) = false /\ err_lin (normalize (splus x (resample_noise p z k))) = err_lin x
     /\ (unit_quat (rot x) -> pose_of (normalize (splus x (resample_noise p z k))) = pose_of x)).
  { intros x k. unfold resample_noise. rewrite zero_diag by exact Hz. destruct (splus_0 x) as (X1 & X2 & X3). split; [repeat split|]. split; [reflexivity|]. split.
    - unfold normalize. cbn [err_lin]. unfold splus. cbn [err_lin state0]. apply vadd_0_r.
    - intro Ux. unfold pose_of, normalize. cbn [pos rot]. rewrite X1, X2, normalized_unit by exact Ux. reflexivity. }
  destruct (pool_in splus normalize (resample_noise p z) (ss f) (fun s x => (noise_free s -> noise_free x) /\ err_lin x = err_lin s /\ (forall P, unit_quat (snd P) -> at_pose P s -> at_pose P x))) with (3 := F3) as [G1 G2].
  { intro x. auto. }
  { intros x k. destruct (Q1 x k) as (X1 & X2 & X3 & X4). split; [intros _; exact X1|]. split; [exact X3|]. intros P' U' (Y1 & Y2 & Y3). split; [|split; [exact X1|exact X2]].
    rewrite X4; [exact Y1|]. rewrite <- Y1 in U'. exact U'. }
  assert (Hsel : In i sel).
  { destruct (nth_error (PfModel.parts RA f) i) as [q|] eqn:Eq.
    2:{ exfalso. unfold PfSpec.poses in D1. rewrite nth_error_map, Eq in D1. discriminate. }
    pose proof (F5 _ _ Eq) as Fc. unfold PfSpec.weights in D2. rewrite nth_error_map, Eq in D2.
    assert (Ew : PfModel.w RA q = w) by (injection D2; auto). rewrite Ew in Fc.
    assert (Hx : 1 <= INR N * w / PfSpec.Rsum (ws f)).
    { rewrite A. unfold Rdiv. rewrite Rinv_1, Rmult_1_r. rewrite <- A. pose proof (sum_le_max _ _ D4) as M. rewrite len_ws in M. exact M. }
    assert (Hc : (1 <= PfSpec.occurrences i sel)%Z).
    { pose proof (Rfloor_spec (INR N * w / PfSpec.Rsum (ws f))) as [R1 R2]. pose proof (Rceil_spec (INR N * w / PfSpec.Rsum (ws f))) as [R3 R4].
      destruct Fc as [-> | ->].
      - fold N. apply Z.lt_succ_r, lt_IZR. rewrite succ_IZR. fold N in R1, R2. lra.
      - fold N. apply le_IZR. fold N in R3, R4. lra. }
    unfold PfSpec.occurrences in Hc. apply (count_occ_In Nat.eq_dec). lia. }
  destruct (G2 _ _ Hsel D1) as (x & Hx & X1 & X2 & X3). apply In_nth_error in Hx. destruct Hx as [k Hk].
  assert (W : ws f' = repeat (1 / INR N) N).
  { destruct (PfProps.C05_resample_shape RA splus normalize (offset : RA) (resample_noise p z) (PfModel.dup_of RA (0 : RA) (PfModel.parts RA f)) f) as (g' & W1 & _ & W2 & _).
    - intro X. unfold N in HN. rewrite X in HN. cbn in HN. lra.
    - exact (PfProps.in_order_is_sorted f B).
    - rewrite H in W1. injection W1 as <-. exact W2. }
  split; [|exact F2]. split; [|split; [|split]].
  - rewrite W. rewrite RsumLemmas.Rsum_repeat. field. lra.
  - rewrite W. apply Forall_forall. intros y Hy. apply repeat_spec in Hy. subst y. apply Rmult_le_pos; [lra|left; apply Rinv_0_lt_compat; exact HN].
  - rewrite Forall_forall in C |- *. intros y Hy. destruct (G1 _ Hy) as (y0 & Y0 & Y1 & _). apply Y1, C, Y0.
  - exists k, x, (1 / INR N). split; [exact Hk|]. split.
    { rewrite W. assert (k < length (ss f'))%nat by (apply nth_error_Some; congruence). rewrite len_ss, F2 in H0. apply nth_error_repeat. exact H0. }
    split; [apply X3; assumption|]. split; [intros y Hy; rewrite W in Hy; apply repeat_spec in Hy; subst y; lra|].
    intros y Hy. destruct (G1 _ Hy) as (y0 & Y0 & _ & Y2 & _). rewrite X2, Y2. apply D5, Y0.
Qed.
