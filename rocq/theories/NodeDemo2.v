(** The history of NodeDemo meets the hypotheses of C82, C85, C86 and C95-C100 as well. *)
From Coq Require Import String Reals ZArith NArith List Bool Arith Lra Lia Permutation.
From Verif Require PfModel FilterModel AccumModel PfSpec PfProofs PfProps.
From Verif Require Import Arith KdModel KdSpec QuatModel QuatSpec StateModel StateSpec RayModel LidarModel
  NdModel ParamModel ParamProps MatModel MatSpec MatProofs NodeModel NodeSpec NodeFrame NodeLocProofs NodeStepProofs NodeMapProofs NodeAliveSpec NodeAliveProofs NodeAliveProofs2 NodeAliveProps NodePostSpec NodePostProofs NodePostProps NodeOutProps NodeDemo.
Import ListNotations.
Open Scope R_scope.
Open Scope list_scope.

Lemma demo_stamp e n2 n1 h pc os : measures_with demo_voxel demo demo_caster n2 (demo_cloud 2) e n1 h pc os ->
  ac (n_acc n2) = {| AccumModel.cnt_accum := 1; AccumModel.keys := ["laser"%string] |} -> headers (n_acc n2) = [{| h_frame := "laser"; h_stamp := 1 |}] -> h_stamp h = 1.
Proof.
  intros [a cs na n0 M1 M2 M3 M4 M5] H1 H2. rewrite H1 in M2. clear M1.
  assert (E : push_calls demo {| AccumModel.cnt_accum := 1; AccumModel.keys := ["laser"%string] |} (demo_cloud 2) = Ok ({| AccumModel.cnt_accum := 1; AccumModel.keys := ["laser"%string] |},
     [AccumModel.Process; AccumModel.Clear; AccumModel.Accumulate (demo_cloud 2) true])) by reflexivity.
  rewrite E in M2. injection M2 as <- <-. cbn [at_process] in M3. assert (Na : na = set_stat n2 status0) by congruence. subst na. clear M3. apply gate_ok in M4. destruct M4 as (_ & G2 & _).
  unfold prepare in M5. rewrite G2 in M5. change (n_acc (set_stat n2 status0)) with (n_acc n2) in M5. rewrite H2 in M5. cbn [rev app] in M5.
  destruct (local (n_acc n2)); [|discriminate]. destruct (base_tf demo e _); [|discriminate].
  destruct (get_origins _ _); [|discriminate]. assert (Hh : h = {| h_frame := "laser"; h_stamp := 1 |}) by congruence. rewrite Hh. reflexivity.
Qed.
Lemma demo_two_odom k n1 n2 o2 : has_map (n_map n1) = true -> ac (n_acc n1) = AccumModel.accum_init -> local (n_acc n1) = Some [] -> headers (n_acc n1) = [] ->
  step demo_caster demo_voxel demo n1 (ECloud (demo_cloud 1) (with_fuel k demo_env)) = Ok (n2, o2) -> n_odom n2 = n_odom n1.
Proof.
  intros H1 H2 H3 H4. cbn [step]. unfold cbCloud. rewrite H1. change (n_acc (set_stat n1 status0)) with (n_acc n1). rewrite H2.
  assert (E : push_calls demo AccumModel.accum_init (demo_cloud 1) = Ok ({| AccumModel.cnt_accum := 1; AccumModel.keys := ["laser"%string] |}, [AccumModel.Accumulate (demo_cloud 1) true])) by reflexivity.
  rewrite E. cbn [bind callbacks callback]. unfold accumCloud. rewrite demo_pts. change (n_acc (set_stat n1 status0)) with (n_acc n1). rewrite H3, H4. cbn [bind].
  intro H. injection H as <- _. reflexivity.
Qed.
Lemma demo_one_odom n1 o1 : step demo_caster demo_voxel demo demo_init (EMap (Some demo_map) 1 1) = Ok (n1, o1) -> n_odom n1 = n_odom demo_init.
Proof. cbn [step cbMapcloud]. unfold loadMapCloud, cbMapUpdateTimer. intro H. bok H. destruct x as [m' o']. injection H as <- _. reflexivity. Qed.
(** the history, its last event [x] (the localization step) and the two events before *)
Lemma demo_entries : exists k n o y z x t ps c ms us ts mo fz st kd0 mp od im tp l,
  let evs := map (with_fuel_ev k) demo_events in
  let pre := map (with_fuel_ev k) [EMap (Some demo_map) 1 1; ECloud (demo_cloud 1) demo_env] in
  steps demo_caster demo_voxel demo demo_init evs = Ok (n, o)
  /\ trace demo_voxel demo demo_caster demo_init evs = Ok ([y; z] ++ [x]) /\ (exists o2, steps demo_caster demo_voxel demo demo_init pre = Ok (before x, o2))
  /\ what x = ECloud (demo_cloud 2) (with_fuel k demo_env)
  /\ step demo_caster demo_voxel demo (before x) (ECloud (demo_cloud 2) (with_fuel k demo_env)) = Ok (after x, outs x)
  /\ kd (n_map (before x)) = demo_kd /\ n_pf (before x) = n_pf demo_init /\ n_odom (before x) = n_odom demo_init
  /\ localizes y = false /\ localizes z = false
  /\ In (OPose t ps c) (outs x) /\ In (OMatched ms us) (outs x) /\ In (OTf ts mo fz) (outs x) /\ In (OStatus st kd0 mp od im) (outs x) /\ In (OParticles tp l) (outs x).
Proof.
  destruct C93_C94_nonvacuous as (_ & _ & _ & _ & n & o & K & H). specialize (H K (Nat.le_refl K)).
  destruct (steps_trace _ _ _ _ _ _ _ H) as (tr & Ht).
  destruct demo_one as (n1 & o1 & E1 & A1 & A2 & A3 & A4 & A5 & A6 & A7 & A8 & A9 & A10).
  destruct (demo_two K n1 A3 A6 A5 A7) as (n2 & E2 & B1 & B2 & B3 & B4 & B5 & B6 & B7).
  pose proof Ht as Ht'. change (map (with_fuel_ev K) demo_events) with [EMap (Some demo_map) 1 1; ECloud (demo_cloud 1) (with_fuel K demo_env); ECloud (demo_cloud 2) (with_fuel K demo_env)] in Ht'.
  rewrite (trace_cons _ _ _ _ _ _ _ _ E1), (trace_cons _ _ _ _ _ _ _ _ E2) in Ht'.
  destruct (trace demo_voxel demo demo_caster n2 [ECloud (demo_cloud 2) (with_fuel K demo_env)]) as [tr2| | |] eqn:E3; try discriminate.
  apply trace_one in E3. destruct E3 as (n3 & o3 & E3 & ->). cbn [bind] in Ht'. injection Ht' as Htr.
  assert (Po : no_pose o1) by (apply no_pose_existsb; exact A10).
  assert (Mo : match_last (n_out n2) = 0).
  { pose proof E1 as Q1. apply not_cloud_no_pose in Q1; [|intros; discriminate]. destruct Q1 as (_ & Q1 & _). pose proof E2 as Q2. apply cloud_quiet in Q2; [|apply no_pose_nil].
    destruct Q2 as (_ & _ & -> & _). rewrite Q1. reflexivity. }
  assert (Oo : n_odom n2 = n_odom demo_init).
  { rewrite (demo_two_odom K n1 n2 [] A3 A6 A5 A7 E2). exact (demo_one_odom _ _ E1). }
  set (x := {| before := n2; what := ECloud (demo_cloud 2) (with_fuel K demo_env); outs := o3; after := n3 |}) in *.
  destruct (demo_three K n2 n3 o3 E3) as [D1 D2]; try congruence.
  apply existsb_exists in D1. destruct D1 as (y & Hy & Ey). destruct y; try discriminate.
  destruct (pose_localizes _ _ _ _ _ _ _ _ _ _ _ E3 Hy) as (m1 & h & pc & os & m2 & bp & lp & m3 & M1 & M2 & M3 & M4 & P1 & P2 & P3 & P4 & P5 & P6 & P7 & P8 & P9 & P10 & P11 & P12).
  pose proof (demo_stamp _ _ _ _ _ _ M1 B4 B7) as Hh.
  destruct (localize_parts _ _ _ _ _ _ _ _ _ _ _ M4) as (cl & s1 & res & est0 & est' & c0 & q1 & q2 & f4 & k' & L1 & L2 & L3 & (L4 & L5 & L6) & L7 & L8 & L9 & _).
  assert (Hd : due demo m2 (with_fuel K demo_env) h = true).
  { unfold due. rewrite P10, Mo, Hh. change (match_output_interval demo) with (2/10). unfold Rltb. destruct (Rlt_dec (0 + 2/10) 1); [reflexivity|lra]. }
  rewrite Hd in L9. destruct L9 as (ms & us & _ & L9 & _).
  assert (T1 : (0 <= Rceil (lpf_step demo))%Z).
  { destruct demo_fields as (_ & _ & _ & _ & _ & _ & _ & ->). pose proof (Rceil_spec 16) as [_ C]. apply le_IZR. lra. }
  assert (Ht2 : exists ts mo fz, In (OTf ts mo fz) o3).
  { pose proof M4 as M5. apply localize_spec in M5; [|exact T1].
    destruct (lz_ex _ _ _ _ _ _ M5) as (est & ratio & r1 & r2 & est2 & c2 & p1 & p2 & prt & _ & _ & _ & _ & _ & T & _ & -> & _).
    unfold publish_tf_step in T. destruct (map_odom est (odom (n_odom r1))) as [mp0 mr0]. cbv zeta in T. apply pair_equal_spec in T. destruct T as [_ <-].
    change (publish_tf demo) with true. cbv iota. eexists _, _, _. left. reflexivity. }
  destruct Ht2 as (ts & mo & fz & Ht2).
  exists K, n, o, {| before := demo_init; what := EMap (Some demo_map) 1 1; outs := o1; after := n1 |},
    {| before := n1; what := ECloud (demo_cloud 1) (with_fuel K demo_env); outs := []; after := n2 |}, x, stamp, pose, cov, ms, us, ts, mo, fz,
    (stat (n_out m3)), k', (has_map (n_map m2)), (has_odom (n_odom m2)), (has_imu (n_imu m2)).
  eexists _, _. cbv zeta. split; [exact H|]. split; [rewrite Ht; f_equal; symmetry; exact Htr|]. split.
  { exists (o1 ++ [] ++ []). change (map (with_fuel_ev K) [EMap (Some demo_map) 1 1; ECloud (demo_cloud 1) demo_env]) with [EMap (Some demo_map) 1 1; ECloud (demo_cloud 1) (with_fuel K demo_env)].
    remember (EMap (Some demo_map) 1 1) as ev1. remember (ECloud (demo_cloud 1) (with_fuel K demo_env)) as ev2. cbn [steps]. rewrite E1. cbn [bind]. rewrite E2. reflexivity. }
  split; [reflexivity|]. split; [exact E3|]. split; [cbn [x before]; congruence|]. split; [cbn [x before]; congruence|]. split; [exact Oo|].
  split; [exact A10|]. split; [reflexivity|]. split; [exact Hy|]. cbn [x outs].
  assert (Hin : forall a, In a ([OPose (h_stamp h) (pos est', rot est') c0] ++ q2 ++ [OParticles ((if has_odom (n_odom m2) then odom_last (n_odom m2) else e_now (with_fuel K demo_env)) + tf_base (n_out m2) + tf_tolerance demo) (map (fun q => (pos (PfModel.st RA q), qnormalized (rot (PfModel.st RA q)))) (PfModel.parts RA (jump_reset demo m2 (normalize est0) (posterior demo m2 res)))); OStatus (stat (n_out m3)) k' (has_map (n_map m2)) (has_odom (n_odom m2)) (has_imu (n_imu m2))]) -> In a o3) by (intros a Ha; rewrite L5; apply in_or_app; right; exact Ha).
  rewrite L9 in Hin. cbn [app] in Hin. split; [apply Hin; right; left; reflexivity|]. split; [exact Ht2|]. split; [apply Hin; right; right; right; left; reflexivity|apply Hin; right; right; left; reflexivity].
Qed.

Lemma demo_lpf : (0 <= Rceil (lpf_step demo))%Z /\ 0 <= lpf_step demo.
Proof.
  destruct demo_fields as (_ & _ & _ & _ & _ & _ & _ & ->). split; [|lra]. pose proof (Rceil_spec 16) as [_ C]. apply le_IZR. lra.
Qed.
(** a reachable node, a cloud that leads to a localization step, and everything the step
    publishes: the hypotheses of C82, C85, C95, C96 and C97 *)
Example C82_C85_C95_C96_C97_nonvacuous : exists evs n o0 m e n' o t pp pr c ts mp mr fz ms us st k a b d tp l,
  steps demo_caster demo_voxel demo (configure demo (fun _ _ => 0) demo_rc) evs = Ok (n, o0)
  /\ step demo_caster demo_voxel demo n (ECloud m e) = Ok (n', o)
  /\ In (OPose t (pp, pr) c) o /\ In (OTf ts (mp, mr) fz) o /\ In (OMatched ms us) o /\ In (OStatus st k a b d) o /\ In (OParticles tp l) o
  /\ (forall q r, radiusSearch (kd (n_map n)) q r 1 (e_search e q r))
  /\ unit_quat (rot (odom (n_odom n))) /\ (0 <= Rceil (lpf_step demo))%Z /\ 0 <= lpf_step demo.
Proof.
  destruct demo_entries as (k & n & o & y & z & x & t & [pp pr] & c & ms & us & ts & [mp mr] & fz & st & k0 & a & b & d & tp & l & H1 & H2 & (o2 & H3) & H4 & H5 & H6 & H7 & H8 & H9 & H10 & H11 & H12 & H13 & H14 & H15).
  exists (map (with_fuel_ev k) [EMap (Some demo_map) 1 1; ECloud (demo_cloud 1) demo_env]), (before x), o2, (demo_cloud 2), (with_fuel k demo_env), (after x), (outs x),
    t, pp, pr, c, ts, mp, mr, fz, ms, us, st, k0, a, b, d, tp, l.
  split; [exact H3|]. split; [exact H5|]. repeat (split; [assumption|]). split; [intros q r; rewrite H6; apply demo_search|].
  split; [rewrite H8; cbn; unfold unit_quat, qdot; cbn; lra|]. exact demo_lpf.
Qed.
(** with the defaults the radius of the matched points search is not covered (C90); with
    unmatch_output_dist 0.3 it is *)
Definition demo_near : params := load_params (fun x => x) false false (0, 0, 0) (set_param "unmatch_output_dist" (PDouble (3 / 10)) (fun _ => None)).
Example C97_covered_nonvacuous : covers demo_near (unmatch_output_dist demo_near) /\ 0 <= match_output_dist demo_near <= unmatch_output_dist demo_near.
Proof.
  assert (Hr : configured_radius demo_near = 4 / 10).
  { change (configured_radius demo_near) with (fmax (fmax 0 (Rmax (1/10) (Rmax (1/10) (1/10)) * 4)) (2/10)). rewrite (Rmax_left (1/10) (1/10)) by lra. rewrite Rmax_left by lra. unfold fmax.
    destruct (Rltb_spec 0 (1/10 * 4)); [|lra]. destruct (Rltb_spec (1/10*4) (2/10)); lra. }
  assert (Hu : unmatch_output_dist demo_near = 3 / 10) by reflexivity.
  assert (Ht : search_tol demo_near = fmin (fmin (1/10) (1/10)) (1/10) / 16) by reflexivity.
  assert (Hf : forall a, fmin a a = a) by (intro; unfold fmin; destruct (Rltb _ _); reflexivity). rewrite !Hf in Ht.
  split; [|rewrite Hu; change (match_output_dist demo_near) with (1/10); lra].
  unfold covers. rewrite Hr, Hu, Ht. change (map_chunk demo_near) with 20. change (search_weights demo_near) with (1, 1, 5). repeat split; lra.
Qed.
(** C86: the entropy of a node after its first measurement (here a landmark with unit covariance)
    is computed *)
Definition landmark_msg : pose_msg :=
  {| pm_frame := "map"; pm_stamp := 1; pm_pos := V3 1 2 0; pm_rot := q1; pm_cov := map (fun k => if Nat.eqb (k mod 7) 0 then 1 else 0) (seq 0 36) |}.
Lemma landmark_msg_det : 0 < det 6 (landmark_sigma (pm_cov landmark_msg)).
Proof.
  assert (D : diagonal_of 6 (landmark_sigma (pm_cov landmark_msg)) (fun _ => 1)).
  { intros i j Hi Hj. do 6 (destruct i as [|i]; [do 6 (destruct j as [|j]; [reflexivity|]); lia|]). lia. }
  rewrite (det_diagonal 6 _ _ D). cbn [rprod]. lra.
Qed.
Example C86_C99_C100_nonvacuous : exists n' o,
  let like := landmark_like (pm_cov landmark_msg) (fun m => m) in
  step demo_caster demo_voxel demo demo_init (ELandmark landmark_msg (fun m => m) isort 0 (fun _ _ => 0) 1) = Ok (n', o)
  /\ PfModel.entropy RA (n_pf n') <> None /\ unit_pose (state_pr (pm_pos landmark_msg) (pm_rot landmark_msg)) /\ sorts isort
  /\ PfModel.parts RA (n_pf demo_init) <> []
  /\ (forall q, In q (PfModel.parts RA (n_pf demo_init)) -> 0 < PfModel.w RA q /\ 0 < like (pose_diff (state_pr (pm_pos landmark_msg) (pm_rot landmark_msg)) (PfModel.st RA q)))
  /\ noiseless demo_init.
Proof.
  assert (Hw : forall q, In q (PfModel.parts RA (n_pf demo_init)) -> 0 < PfModel.w RA q).
  { intros q Hq. apply In_nth_error in Hq. destruct Hq as [i Hi]. unfold demo_init, configure in Hi. cbn [n_pf] in Hi. unfold PfModel.init in Hi. cbn [PfModel.parts] in Hi.
    rewrite PfProofs.mapi_nth in Hi. destruct (nth_error _ i); [|discriminate]. injection Hi as <-.
    cbn [PfModel.set_w PfModel.w]. change (0 < 1 / INR (length (PfModel.parts RA (PfModel.new_filter RA state0 64)))). cbn [PfModel.new_filter PfModel.parts]. rewrite repeat_length.
    apply Rdiv_lt_0_compat; [lra|]. apply lt_0_INR. lia. }
  assert (Hne : PfModel.parts RA (n_pf demo_init) <> []) by (intro Hx; pose proof demo_len as Hl; rewrite Hx in Hl; discriminate).
  assert (G : exists n' o, step demo_caster demo_voxel demo demo_init (ELandmark landmark_msg (fun m => m) isort 0 (fun _ _ => 0) 1) = Ok (n', o) /\ PfModel.entropy RA (n_pf n') <> None).
  2:{ destruct G as (n' & o & G1 & G2). exists n', o. cbv zeta. split; [exact G1|]. split; [exact G2|].
      split. { unfold unit_pose, unit_quat, qdot, landmark_msg. cbn [rot state_pr pm_rot q1 qx qy qz qw]. lra. }
      split; [exact isort_sorts|]. split; [exact Hne|]. split; [intros q Hq; split; [apply Hw; exact Hq|apply landmark_pos; exact landmark_msg_det]|].
      apply C100_initially_noiseless. }
  set (like := landmark_like (pm_cov landmark_msg) (fun m => m)).
  assert (Hlike : forall d, 0 < like d) by (intro d; apply landmark_pos; exact landmark_msg_det).
  set (meas := state_pr (pm_pos landmark_msg) (pm_rot landmark_msg)).
  assert (Eev : step demo_caster demo_voxel demo demo_init (ELandmark landmark_msg (fun m => m) isort 0 (fun _ _ => 0) 1)
    = do f2 <- of_option (PfModel.resample RA splus normalize (0 : RA) (resample_noise demo (fun _ _ => 0))
        (sorted_dup isort (PfModel.measure RA (fun _ s => like (diff6 meas s)) (n_pf demo_init))) (PfModel.measure RA (fun _ s => like (diff6 meas s)) (n_pf demo_init)));
      Ok (set_pf demo_init f2, [publishParticles demo (set_pf demo_init f2) 1])) by reflexivity.
  clearbody like meas.
  set (L := fun (_ : nat) (s : state) => (like (diff6 meas s) : RA)) in *.
  assert (HL : forall i s, 0 < L i s) by (intros; apply Hlike).
  assert (Hw0 : Forall (fun x => 0 <= x) (PfSpec.weights RA (n_pf demo_init))).
  { unfold PfSpec.weights. rewrite Forall_map. apply Forall_forall. intros q Hq. left. apply Hw. exact Hq. }
  assert (Hs : 0 < PfSpec.Rsum (PfSpec.scores RA L (n_pf demo_init))).
  { unfold PfSpec.scores. revert Hw Hne. generalize (PfModel.parts RA (n_pf demo_init)) as ps. intros ps Hw Hne.
    assert (G : forall ps k, (forall q, In q ps -> 0 < PfModel.w RA q) ->
       0 <= PfSpec.Rsum (map (fun ip => fmul (PfModel.w RA (snd ip)) (L (fst ip) (PfModel.st RA (snd ip)))) (combine (seq k (length ps)) ps))).
    { induction ps0 as [|q l IH]; intros k H; [cbn; lra|]. cbn [length seq combine map PfSpec.Rsum fst snd]. pose proof (H q (or_introl eq_refl)) as Hq.
      apply Rplus_le_le_0_compat; [|apply IH; intros; apply H; right; assumption]. left. apply Rmult_lt_0_compat; [exact Hq|apply HL]. }
    destruct ps as [|q l]; [congruence|]. cbn [length seq combine map PfSpec.Rsum fst snd]. pose proof (Hw q (or_introl eq_refl)) as Hq.
    apply Rplus_lt_le_0_compat; [apply Rmult_lt_0_compat; [exact Hq|apply HL]|]. apply G. intros; apply Hw; right; assumption. }
  destruct (PfProps.C04_entropy L (n_pf demo_init) Hw0 (fun i s => Rlt_le _ _ (HL i s)) Hs) as (h & Hh & _).
  assert (Hl : (0 < length (PfModel.parts RA (PfModel.measure RA L (n_pf demo_init))))%nat).
  { pose proof (measure_len L (n_pf demo_init)) as El. rewrite El, demo_len. lia. }
  destruct (resample_total normalize (0 : R) (resample_noise demo (fun _ _ => 0)) (sorted_dup isort (PfModel.measure RA L (n_pf demo_init))) (PfModel.measure RA L (n_pf demo_init)) (sorted_dup_ne _ _ isort_sorts Hl) Hl) as (f2 & Hf & _).
  exists (set_pf demo_init f2), [publishParticles demo (set_pf demo_init f2) 1]. cbv zeta.
  split. { rewrite Eev. change (@PfModel.measure RA state (fun _ s => like (diff6 meas s)) (n_pf demo_init)) with (PfModel.measure RA L (n_pf demo_init)). rewrite Hf. reflexivity. }
  cbn [set_pf n_pf]. destruct (resample_ok _ _ _ _ _ _ _ Hf) as [_ ->]. rewrite Hh. discriminate.
Qed.
