(** Property theorems C97-C100: reports over time, collected points, landmarks, noise. *)
From Coq Require Import String Reals ZArith List Bool Arith Lia Lra Permutation.
From Verif Require PfModel FilterModel AccumModel PfSpec PfProofs PfReal PfProps RsumLemmas StateProofs.
From Verif Require Import Arith KdModel KdSpec KdProps QuatModel QuatProofs StateModel StateSpec RayModel LidarModel NdModel NdProps ParamModel
  MatModel NodeModel NodeSpec NodeFrame NodeMapProofs NodeMapProps NodeLocProofs NodeStepProofs NodePostSpec NodePostProofs NodePostProps.
Import ListNotations.
Open Scope nat_scope.
Open Scope list_scope.

Section OutProps.
Context {S : Type} (caster : cloud -> (pt -> R -> search) -> raycaster S)
        (voxel : R * R * R -> list lpt -> list lpt) (p : params).
Notation node := (node (S := S)).
Implicit Types n : node.
Notation wt := (PfModel.w RA). Notation stt := (PfModel.st RA). Notation prts := (PfModel.parts RA).

(** ** A cloud without a published pose *)
Definition nothing n n' (o : list output) : Prop :=
  n_map n' = n_map n /\ n_pf n' = n_pf n /\ match_last (n_out n') = match_last (n_out n) /\ (forall ms us, ~ In (OMatched ms us) o).
Lemma measure_quiet n e n' o : measure caster voxel p n e = Ok (n', o) -> no_pose o -> nothing n n' o.
Proof.
  unfold measure. intros H Hi. bok H. destruct x as [n0 go]. pose proof E as G. apply gate_ok in G.
  destruct G as (G1 & G2 & G3 & G4 & G5 & G6 & G7 & G8 & G9 & G10 & G11 & G12 & G13 & G14 & G15 & _).
  destruct go; cbn [negb] in H; [|injection H as <- <-; repeat split; auto; try congruence; intros ? ? []].
  bok H. destruct x as [n1 ready]. apply prepare_ok in E0. destruct E0 as (P1 & P2 & P3 & P4 & P5 & P6 & _).
  destruct ready as [[[h pc] os]|]; [|injection H as <- <-; repeat split; try congruence; intros ? ? []]. bok H. clear E0 x.
  destruct (filters p n1 e (voxel (ds_x p, ds_y p, ds_z p) pc)) as [[n2 bp] lp] eqn:E2. apply filters_ok in E2.
  destruct E2 as (F1 & F2 & F3 & F4 & F5 & F6 & F7). destruct lp as [|l lp].
  - unfold force_update in H. injection H as <- <-. repeat split; cbn; try congruence. intros ? ? [A|[]]. discriminate.
  - exfalso. destruct (localize_parts _ _ _ _ _ _ _ _ _ _ _ H) as (cl & s1 & res & est0 & est' & c0 & o1 & o2 & f4 & k & A1 & A2 & A3 & (A4 & A5 & A6) & _).
    eapply Hi. rewrite A5. apply in_or_app. right. left. reflexivity.
Qed.
Lemma cloud_quiet n m e n' o : step caster voxel p n (ECloud m e) = Ok (n', o) -> no_pose o -> nothing n n' o.
Proof.
  cbn [step]. unfold cbCloud. intros H Hi. destruct (has_map (n_map n)) eqn:Hm; [|injection H as <- <-; repeat split; intros ? ? []].
  bok H. destruct x as [a cs]. bok H. destruct x as [n5 o5]. injection H as <- <-.
  pose proof (push_calls_once _ _ _ _ _ E) as Hc.
  destruct (nproc cs) as [|[|k]] eqn:En; [|clear Hc|lia].
  - apply callbacks_none in E0; [|exact En]. destruct E0 as (B1 & B2 & _ & _ & B5 & _ & ->). split; [cbn in *; congruence|]; split; [cbn in *; congruence|]; split; [cbn [set_acc n_out] in *; rewrite B1; reflexivity|].
    intros ? ? [].
  - destruct (callbacks_one _ _ _ _ _ _ _ _ En E0) as (na & nb & B0 & B1 & B2 & B3 & B4 & B5 & B6 & B7 & B8 & B9 & B10 & B11 & B12 & B13).
    destruct (measure_quiet _ _ _ _ B7 Hi) as (Q1 & Q2 & Q3 & Q4). split; [cbn in *; congruence|]; split; [cbn in *; congruence|]; split; [cbn [set_acc n_out] in *; rewrite B8, Q3, B1; reflexivity|]. exact Q4.
Qed.

(** ** C97: how often the matched points are reported *)
Lemma pose_stamp_in o t x c : In (OPose t x c) o -> (forall t' x' c', In (OPose t' x' c') o -> t' = t) -> pose_stamp o = Some t.
Proof.
  induction o as [|a r IH]; [intros []|]. intros Hi Hu. destruct a; cbn [pose_stamp]; try (apply IH; [destruct Hi as [Hi|Hi]; [discriminate|exact Hi]|intros; eapply Hu; right; eassumption]).
  f_equal. eapply Hu. left. reflexivity.
Qed.
Lemma no_pose_stamp o : no_pose o -> pose_stamp o = None.
Proof. intro H. induction o as [|a r IH]; [reflexivity|]. destruct a; cbn [pose_stamp]; try (apply IH; intros t0 x0 c0 Hi; eapply H; right; exact Hi). exfalso. eapply H. left. reflexivity. Qed.
Lemma not_cloud_no_pose n ev n' o : step caster voxel p n ev = Ok (n', o) -> (forall m e, ev <> ECloud m e) -> no_pose o /\ n_out n' = n_out n /\ forall ms us, ~ In (OMatched ms us) o.
Proof.
  intros H Hne. assert (Q : forall x, In x o -> match x with OPose _ _ _ | OMatched _ _ => False | _ => True end -> True) by auto. clear Q.
  assert (G : n_out n' = n_out n /\ forall x, In x o -> match x with OPose _ _ _ | OMatched _ _ => False | _ => True end).
  { destruct ev; cbn [step] in H.
    - unfold cbMapcloud in H. destruct conv; [|injection H as <- <-; split; [reflexivity|intros ? []]].
      unfold loadMapCloud in H. apply timer_out in H. destruct H as (H1 & H2 & H3). split; [rewrite H1; reflexivity|]. intros x Hx. destruct (H3 x Hx) as (c & ->). exact I.
    - unfold cbLoadPCD in H. destruct file; [|injection H as <- <-; split; [reflexivity|intros ? [<-|[]]; exact I]].
      bok H. destruct x as [n0 oo]. injection H as <- <-. unfold loadMapCloud in E. apply timer_out in E. destruct E as (H1 & H2 & H3). split; [rewrite H1; reflexivity|].
      intros x Hx. apply in_app_or in Hx. destruct Hx as [Hx|[<-|[]]]; [|exact I]. destruct (H3 x Hx) as (c & ->). exact I.
    - unfold cbMapcloudUpdate in H. destruct conv; injection H as <- <-; (split; [reflexivity|intros ? []]).
    - apply timer_out in H. destruct H as (H1 & H2 & H3). split; [exact H1|]. intros x Hx. destruct (H3 x Hx) as (c & ->). exact I.
    - unfold cbPosition in H. destruct (Rltb (1 / 10) _); [injection H as <- <-; split; [reflexivity|intros ? []]|]. destruct (pose_in_map p lk m); [|injection H as <- <-; split; [reflexivity|intros ? []]].
      injection H as <- <-. split; [reflexivity|]. intros ? [<-|[]]. exact I.
    - pose proof (cbOdom_frame voxel p _ _ _ _ _ _ _ H) as F.
      unfold cbOdom in H. destruct (odom_apply p n stamp pose) as [q1 go]. destruct (go && fake_imu p); [|injection H as <- <-; split; [tauto|intros ? []]].
      destruct (imu_apply p q1 stamp _ (rot pose) (imu_tf p lk frame)) as [q2 go2]. destruct (go2 && fake_odom p); [discriminate|]. injection H as <- <-. split; [tauto|intros ? []].
    - pose proof (cbImu_frame voxel p _ _ _ _ _ _ _ _ H) as F.
      unfold cbImu in H. destruct (imu_apply p n stamp acc orient (imu_tf p lk frame)) as [q1 go]. destruct (go && fake_odom p); [|injection H as <- <-; split; [tauto|intros ? []]].
      destruct (odom_apply p q1 stamp _) as [q2 go2]. destruct (go2 && fake_imu p); [discriminate|]. injection H as <- <-. split; [tauto|intros ? []].
    - exfalso. eapply Hne. reflexivity.
    - unfold cbLandmark in H. bok H. injection H as <- <-. split; [reflexivity|]. intros ? [<-|[]]. exact I.
    - unfold cbResizeParticle in H. bok H. injection H as <- <-. split; [reflexivity|]. intros ? [<-|[<-|[]]]; exact I.
    - unfold cbExpansionReset in H. injection H as <- <-. split; [reflexivity|]. intros ? [<-|[<-|[]]]; exact I.
    - unfold cbGlobalLocalization in H. destruct (has_map (n_map n)); [|injection H as <- <-; split; [reflexivity|intros ? [<-|[]]; exact I]].
      bok H. bok H. bok H. injection H as <- <-. split; [reflexivity|]. intros ? [<-|[]]; exact I. }
  destruct G as [G1 G2]. split; [intros t x c Hi; exact (G2 _ Hi)|]. split; [exact G1|]. intros ms us Hi. exact (G2 _ Hi).
Qed.
Lemma loc_match n m e n' o t x c : step caster voxel p n (ECloud m e) = Ok (n', o) -> In (OPose t x c) o ->
  pose_stamp o = Some t
  /\ let due := (match_last (n_out n) + match_output_interval p < t \/ t + 1 < match_last (n_out n))%R /\ (fst (e_subs e) = true \/ snd (e_subs e) = true) in
     (due /\ existsb is_matched o = true /\ match_last (n_out n') = t \/ ~ due /\ existsb is_matched o = false /\ match_last (n_out n') = match_last (n_out n)).
Proof.
  intros Hs Hi. destruct (pose_localizes _ _ _ _ _ _ _ _ _ _ _ Hs Hi) as (n1 & h & pc & os & n2 & bp & lp & n3 & M1 & M2 & M3 & M4 & P1 & P2 & P3 & P4 & P5 & P6 & P7 & P8 & P9 & P10 & P11 & P12).
  destruct (localize_parts _ _ _ _ _ _ _ _ _ _ _ M4) as (cl & s1 & res & est0 & est' & c0 & o1 & o2 & f4 & k & A1 & A2 & A3 & (A4 & A5 & A6) & A7 & A8 & A9 & A10 & A11 & A12).
  assert (Ht : t = h_stamp h /\ pose_stamp o = Some (h_stamp h) /\ existsb is_matched o = existsb is_matched o2).
  { rewrite A5 in Hi. rewrite A5. split; [|split].
    - apply in_app_or in Hi. destruct Hi as [Hi|Hi]; [destruct A8 as [(? & ? & ? & ->)| -> ]; [destruct Hi as [Hi|[]]; discriminate|destruct Hi]|].
      cbn [app] in Hi. destruct Hi as [Hi|Hi]; [injection Hi as <- _ _; reflexivity|]. apply in_app_or in Hi. destruct Hi as [Hi|[Hi|[Hi|[]]]]; try discriminate.
      destruct (due p n2 e h); [destruct A9 as (? & ? & _ & -> & _); destruct Hi as [Hi|[]]; discriminate|destruct A9 as [-> _]; destruct Hi].
    - destruct A8 as [(? & ? & ? & ->)| -> ]; reflexivity.
    - rewrite !existsb_app. cbn [existsb is_matched]. destruct A8 as [(? & ? & ? & ->)| -> ]; cbn; rewrite ?orb_false_r; reflexivity. }
  destruct Ht as (-> & Ht & Hm). split; [exact Ht|]. cbv zeta. rewrite Hm, P2, <- P10.
  assert (D : due p n2 e h = true <-> ((match_last (n_out n2) + match_output_interval p < h_stamp h \/ h_stamp h + 1 < match_last (n_out n2))%R /\ (fst (e_subs e) = true \/ snd (e_subs e) = true))).
  { unfold due. rewrite andb_true_iff, !orb_true_iff, !Rltb_true. tauto. }
  destruct (due p n2 e h).
  - left. split; [apply D; reflexivity|]. destruct A9 as (? & ? & _ & -> & A9). split; [reflexivity|exact A9].
  - right. split; [intro Hd; apply D in Hd; discriminate|]. destruct A9 as [-> A9]. split; [reflexivity|exact A9].
Qed.
Lemma match_last_trace evs : forall n tr, trace voxel p caster n evs = Ok tr ->
  match_last (n_out (last (map (@after S) tr) n)) = last_matched (match_last (n_out n)) tr.
Proof.
  induction evs as [|ev r IH]; intros n tr H; cbn [trace] in H; [injection H as <-; reflexivity|].
  bok H. destruct x as [n1 o1]. bok H. rename x into tr1. injection H as <-. cbn [map last_matched]. cbn [outs after].
  assert (L : forall (l : list node) a b, last (a :: l) b = last l a).
  { induction l as [|z l IHl]; intros a b; [reflexivity|]. change (last (a :: z :: l) b) with (last (z :: l) b). rewrite (IHl z b), (IHl z a). reflexivity. }
  rewrite L, (IH _ _ E0). f_equal. clear E0 IH L.
  destruct (existsb is_pose o1) eqn:Ep.
  - destruct ev; try (apply existsb_exists in Ep; destruct Ep as (y & Hy & Ey); destruct y; try discriminate; exfalso;
      apply not_cloud_no_pose in E; [destruct E as [E _]; eapply E; exact Hy|intros; discriminate]).
    apply existsb_exists in Ep. destruct Ep as (y & Hy & Ey). destruct y; try discriminate.
    destruct (loc_match _ _ _ _ _ _ _ _ E Hy) as [A B]. rewrite A. cbv zeta in B. destruct B as [(_ & -> & B)|(_ & -> & B)]; exact B.
  - apply no_pose_existsb in Ep. rewrite (no_pose_stamp _ Ep). replace (match existsb is_matched o1 with true => _ | false => _ end) with (match_last (n_out n)) by (destruct (existsb is_matched o1); reflexivity).
    destruct ev; try (apply not_cloud_no_pose in E; [destruct E as (_ & -> & _); reflexivity|intros; discriminate]).
    apply cloud_quiet in E; [|exact Ep]. apply E.
Qed.
(** matched and unmatched points are reported exactly at the localization steps with a
    subscriber whose stamp is more than the interval later, or more than a second earlier, than
    that of the last report (stamp zero if there was none) *)
Theorem C97_report_rate evs gen rc0 tr x m e t ps c :
  trace voxel p caster (configure p gen rc0) evs = Ok (tr ++ [x]) -> what x = ECloud m e -> In (OPose t ps c) (outs x) ->
  ((exists ms us, In (OMatched ms us) (outs x))
   <-> ((last_matched 0 tr + match_output_interval p < t \/ t + 1 < last_matched 0 tr)%R /\ (fst (e_subs e) = true \/ snd (e_subs e) = true))).
Proof.
  intros H Hw Hi.
  assert (G : forall evs n tr, trace voxel p caster n evs = Ok (tr ++ [x]) -> match_last (n_out n) = match_last (n_out n) ->
     match_last (n_out (before x)) = last_matched (match_last (n_out n)) tr /\ step caster voxel p (before x) (what x) = Ok (after x, outs x)).
  { clear - x. induction evs as [|ev r IH]; intros n tr H _; cbn [trace] in H; [destruct tr; discriminate|].
    bok H. destruct x0 as [n1 o1]. bok H. rename x0 into tr1. destruct tr as [|y tr].
    - injection H as <- _. split; [reflexivity|exact E].
    - cbn [app] in H. injection H as <- ->. destruct (IH _ _ E0 eq_refl) as [A B]. split; [|exact B]. rewrite A. cbn [last_matched outs].
      pose proof (match_last_trace [ev] n [{| before := n; what := ev; outs := o1; after := n1 |}]) as M. cbn [trace] in M. rewrite E in M. cbn in M.
      specialize (M eq_refl). rewrite M. reflexivity. }
  destruct (G _ _ _ H eq_refl) as [A B]. change (match_last (n_out (configure p gen rc0))) with 0%R in A. rewrite Hw in B.
  destruct (loc_match _ _ _ _ _ _ _ _ B Hi) as [_ C]. cbv zeta in C. rewrite A in C.
  assert (Q : (exists ms us, In (OMatched ms us) (outs x)) <-> existsb is_matched (outs x) = true).
  { rewrite existsb_exists. split; [intros (ms & us & Hq); eexists; split; [exact Hq|reflexivity]|]. intros (y & Hy & Ey). destruct y; try discriminate. eauto. }
  rewrite Q. destruct C as [(C1 & C2 & _)|(C1 & C2 & _)]; rewrite C2; split; intro Hq; auto.
  - discriminate.
Qed.

(** ** C98: the collected points *)
Lemma pc_all_step n ev n' o : step caster voxel p n ev = Ok (n', o) -> (forall m e, ev <> ECloud m e) ->
  pc_all (n_map n') = if loads_map ev then Some [] else pc_all (n_map n).
Proof.
  assert (T : forall n now n' o, cbMapUpdateTimer n now = Ok (n', o) -> pc_all (n_map n') = pc_all (n_map n)).
  { clear. intros n now n' o. unfold cbMapUpdateTimer. intro H. bok H. destruct x as [m o']. injection H as <- _. cbn [set_map n_map].
    unfold timer_map in E. destruct (has_map (n_map n)); [|injection E as <- _; reflexivity].
    destruct (pc_update (n_map n)).
    - destruct (match pc_map2 (n_map n) with Some l => _ | None => _ end) as [h0 m2]. bok E. bok E. injection E as <- _. reflexivity.
    - destruct (pc_map2 (n_map n)); [injection E as <- _; reflexivity|]. bok E. injection E as <- _. reflexivity. }
  intros H Hne. destruct ev; cbn [step loads_map] in *.
  - unfold cbMapcloud in H. destruct conv; [|injection H as <- _; reflexivity]. unfold loadMapCloud in H. apply T in H. rewrite H. reflexivity.
  - unfold cbLoadPCD in H. destruct file; [|injection H as <- _; reflexivity]. bok H. destruct x as [n0 oo]. injection H as <- _. unfold loadMapCloud in E. apply T in E. rewrite E. reflexivity.
  - unfold cbMapcloudUpdate in H. destruct conv; injection H as <- _; reflexivity.
  - exact (T _ _ _ _ H).
  - unfold cbPosition in H. destruct (Rltb (1 / 10) _); [injection H as <- _; reflexivity|]. destruct (pose_in_map p lk m); injection H as <- _; reflexivity.
  - apply (cbOdom_frame voxel p) in H. destruct H as (-> & _). reflexivity.
  - apply (cbImu_frame voxel p) in H. destruct H as (-> & _). reflexivity.
  - exfalso. eapply Hne. reflexivity.
  - unfold cbLandmark in H. bok H. injection H as <- _. reflexivity.
  - unfold cbResizeParticle in H. bok H. injection H as <- _. reflexivity.
  - unfold cbExpansionReset in H. injection H as <- _. reflexivity.
  - unfold cbGlobalLocalization in H. destruct (has_map (n_map n)); [|injection H as <- _; reflexivity]. bok H. bok H. bok H. injection H as <- _. reflexivity.
Qed.
(** when the node ends, the file contains the points of the likelihood model of every
    localization step since the last map load, each placed at the pose published by its step,
    in order; without the setting, and before the first map, there is no file *)
Theorem C98_collected_points evs gen rc0 tr n o :
  trace voxel p caster (configure p gen rc0) evs = Ok tr -> steps caster voxel p (configure p gen rc0) evs = Ok (n, o) ->
  if output_pcd p then collected caster voxel p None tr (saved_pcd p n) else saved_pcd p n = None.
Proof.
  unfold saved_pcd. destruct (output_pcd p) eqn:Ho; [|reflexivity].
  change (@None (list lpt)) with (pc_all (n_map (configure p gen rc0))). generalize (configure p gen rc0) as n0. revert tr n o.
  induction evs as [|ev r IH]; intros tr n o n0 Ht Hs; cbn [trace steps] in *.
  - injection Ht as <-. injection Hs as <- <-. constructor.
  - bok Ht. destruct x as [n1 o1]. bok Ht. rename x into tr1. injection Ht as <-. rewrite E in Hs. cbn [bind] in Hs. bok Hs. destruct x as [n2 o2]. injection Hs as <- <-.
    specialize (IH _ _ _ _ E0 E1). destruct (existsb is_pose o1) eqn:Ep.
    + pose proof Ep as Ep'. apply existsb_exists in Ep. destruct Ep as (y & Hy & Ey). destruct y; try discriminate.
      destruct ev; try (exfalso; apply not_cloud_no_pose in E; [destruct E as [E _]; eapply E; exact Hy|intros; discriminate]).
      destruct (pose_localizes _ _ _ _ _ _ _ _ _ _ _ E Hy) as (n3 & h & pc & os & n4 & bp & lp & n5 & M1 & M2 & M3 & M4 & P1 & P2 & P3 & P4 & P5 & P6 & P7 & P8 & _).
      destruct (localize_parts _ _ _ _ _ _ _ _ _ _ _ M4) as (cl & s1 & res & est0 & est' & c0 & p1 & p2 & f4 & k & A1 & A2 & A3 & (A4 & A5 & A6) & A7 & A8 & A9 & A10 & A11 & A12).
      rewrite Ho in A11. destruct A11 as (l & L1 & L2). rewrite P8 in L1. rewrite L1.
      eapply co_loc with (m := m) (e := e) (pp := pos est') (pr := rot est') (lp := lp).
      * reflexivity.
      * cbn [outs]. rewrite A5. apply in_or_app. right. left. reflexivity.
      * exact M1.
      * exact M2.
      * rewrite P3, L2 in IH. exact IH.
    + assert (Hq : pc_all (n_map n1) = if loads_map ev then Some [] else pc_all (n_map n0)).
      { destruct ev; try (apply (pc_all_step _ _ _ _ E); intros; discriminate). apply no_pose_existsb in Ep. apply cloud_quiet in E; [|exact Ep].
        destruct E as (-> & _). reflexivity. }
      rewrite Hq in IH. destruct (loads_map ev) eqn:El; [apply co_load; assumption|apply co_other; assumption].
Qed.

(** ** C99: landmarks *)
Lemma pose_diff_eq measured s : diff6 measured s = pose_diff measured s.
Proof. reflexivity. Qed.
(** a landmark multiplies every weight by the likelihood of the difference between the particle
    and the measured pose and resamples, with noise of the resampling deviations; nothing else
    changes; the new particles are shown; the frame and the stamp of the message do not matter *)
Theorem C99_landmark n m inverse srt offset z now n' o :
  step caster voxel p n (ELandmark m inverse srt offset z now) = Ok (n', o) ->
  exists (f : PfModel.filter RA state) lk nr,
    (forall i q, nth_error (prts (n_pf n)) i = Some q -> lk i = landmark_like (pm_cov m) inverse (pose_diff (state_pr (pm_pos m) (pm_rot m)) (stt q)))
    /\ reweighted (n_pf n) f lk
    /\ PfModel.resample RA splus normalize (offset : RA) nr (sorted_dup srt f) f = Some (n_pf n')
    /\ (forall i, drawn_pose (resample_var p) (z i) (nr i))
    /\ o = [OParticles (message_time p n now) (shown (n_pf n'))]
    /\ n_map n' = n_map n /\ n_acc n' = n_acc n /\ n_odom n' = n_odom n /\ n_imu n' = n_imu n /\ n_out n' = n_out n /\ n_lid n' = n_lid n.
Proof.
  cbn [step]. unfold cbLandmark. intro H. bok H. apply of_option_ok in E. injection H as <- <-.
  set (like := landmark_like (pm_cov m) inverse) in *. set (measured := state_pr (pm_pos m) (pm_rot m)) in *.
  exists (PfModel.measure RA (fun _ s => like (diff6 measured s)) (n_pf n)),
    (fun i => match nth_error (prts (n_pf n)) i with Some q => like (pose_diff measured (stt q)) | None => 0%R end), (resample_noise p z).
  split; [intros i q ->; reflexivity|]. split; [apply measure_reweighted; intros i q ->; reflexivity|].
  split; [exact E|]. split; [intro i; apply diag_drawn|]. split; [rewrite publish_shown; reflexivity|]. repeat split.
Qed.
(** the difference is zero in all six components exactly for the measured pose *)
Theorem C99_no_difference measured : unit_pose measured -> forall s, pos s = pos measured -> rot s = rot measured ->
  pose_diff measured s = [0; 0; 0; 0; 0; 0]%R.
Proof.
  intros Hu s Hp Hr. unfold pose_diff. rewrite Hr, inv_l, StateProofs.getRPY_q1 by (apply unit_nonzero; exact Hu). rewrite Hp. cbn. repeat (f_equal; try lra).
Qed.
(** particles are kept in proportion to their weight times that likelihood: with [tot] the sum
    of these products, every particle is chosen floor or ceiling of N * product / tot times *)
Theorem C99_selection n m inverse srt offset z now n' o tot :
  let like := landmark_like (pm_cov m) inverse in let measured := state_pr (pm_pos m) (pm_rot m) in
  step caster voxel p n (ELandmark m inverse srt offset z now) = Ok (n', o) ->
  prts (n_pf n) <> [] -> (forall q, In q (prts (n_pf n)) -> (0 < wt q)%R /\ (0 < like (pose_diff measured (stt q)))%R) ->
  tot = PfSpec.Rsum (map (fun q => (wt q * like (pose_diff measured (stt q)))%R) (prts (n_pf n))) -> sorts srt ->
  (0 < offset < 1 / INR (length (prts (n_pf n))))%R ->
  exists nr sel, (forall i, drawn_pose (resample_var p) (z i) (nr i))
    /\ PfSpec.from_pool_strict splus normalize nr (PfSpec.poses RA (n_pf n)) 0 0 (PfSpec.poses RA (n_pf n')) sel
    /\ length sel = length (prts (n_pf n))
    /\ forall j q, nth_error (prts (n_pf n)) j = Some q ->
         PfSpec.floor_or_ceil (INR (length (prts (n_pf n))) * (wt q * like (pose_diff measured (stt q)) / tot)) (PfSpec.occurrences j sel).
Proof.
  intros like measured. cbn [step]. unfold cbLandmark. fold like measured. clearbody like measured. intros H Hne Hpos Htot Hsort Hoff. bok H. apply of_option_ok in E. injection H as <- <-.
  set (L := fun (_ : nat) s => like (diff6 measured s)) in *. set (f := PfModel.measure RA L (n_pf n)) in *.
  assert (Hs : PfSpec.scores RA L (n_pf n) = map (fun q => (wt q * like (pose_diff measured (stt q)))%R) (prts (n_pf n))).
  { unfold PfSpec.scores. generalize (prts (n_pf n)) as l. generalize 0. intros k l. revert k. induction l as [|q l IH]; intro k; [reflexivity|]. cbn [length seq combine map]. f_equal. apply IH. }
  assert (Ht : (0 < tot)%R).
  { rewrite Htot. destruct (prts (n_pf n)) as [|q l] eqn:El; [congruence|]. cbn [map PfSpec.Rsum].
    assert (G : forall l', (forall q, In q l' -> (0 < wt q)%R /\ (0 < like (pose_diff measured (stt q)))%R) -> (0 <= PfSpec.Rsum (map (fun q => (wt q * like (pose_diff measured (stt q)))%R) l'))%R).
    { clear. induction l' as [|q l' IH]; intro H; [cbn; lra|]. cbn [map PfSpec.Rsum]. destruct (H q (or_introl eq_refl)). apply Rplus_le_le_0_compat; [apply Rmult_le_pos; lra|]. apply IH. intros; apply H; right; assumption. }
    destruct (Hpos q (or_introl eq_refl)). apply Rplus_lt_le_0_compat; [apply Rmult_lt_0_compat; assumption|]. apply G. intros; apply Hpos; right; assumption. }
  rewrite <- Hs in Htot. rewrite Htot in Ht. destruct (PfReal.measure_bayes L (n_pf n) Ht) as (B1 & B2 & _). fold f in B1, B2.
  destruct (PfProofs.measure_shape RA L (n_pf n)) as (S1 & S2 & _). fold f in S1, S2.
  assert (Hlen : length (prts f) = length (prts (n_pf n))) by apply measure_len.
  assert (Hsr : PfModel.sorted_copy RA (PfModel.dup_of RA (f0 : RA) (prts f)) (sorted_dup srt f)) by apply Hsort.
  destruct (PfProps.C06_low_variance splus normalize (offset : RA) (resample_noise p z) (sorted_dup srt f) f) as (f' & sel & D1 & D2 & D3 & D4).
  - intro Hx. rewrite Hx in Hlen. destruct (prts (n_pf n)); [congruence|discriminate].
  - apply Forall_forall. intros y Hy. unfold PfSpec.weights in Hy. apply In_nth_error in Hy. destruct Hy as [i Hi].
    assert (Hq : exists q, nth_error (prts (n_pf n)) i = Some q).
    { destruct (nth_error (prts (n_pf n)) i) eqn:En; [eauto|]. apply nth_error_None in En. rewrite <- Hlen in En.
      exfalso. apply nth_error_None in En. rewrite nth_error_map, En in Hi. discriminate. }
    destruct Hq as [q Hq]. pose proof (eq_trans (eq_sym Hi) (B1 i q Hq)) as Hv. injection Hv as ->. apply nth_error_In in Hq. destruct (Hpos q Hq).
    apply Rdiv_lt_0_compat; [apply Rmult_lt_0_compat; assumption|exact Ht].
  - exact Hsr.
  - rewrite B2, Hlen. exact Hoff.
  - rewrite E in D1. injection D1 as <-. exists (resample_noise p z), sel. rewrite S2 in D2. split; [intro i; apply diag_drawn|]. split; [exact D2|]. rewrite Hlen in D3. split; [exact D3|].
    intros j q Hq. assert (Hj : exists q', nth_error (prts f) j = Some q' /\ wt q' = (wt q * like (pose_diff measured (stt q)) / tot)%R).
    { specialize (B1 j q Hq). unfold PfSpec.weights in B1; rewrite nth_error_map in B1. destruct (nth_error (prts f) j) as [q'|]; [|discriminate]. exists q'. split; [reflexivity|].
      cbn [option_map] in B1. injection B1 as B1. rewrite Htot. exact B1. }
    destruct Hj as (q' & Hj & Hw). specialize (D4 j q' Hj). rewrite Hlen, Hw, B2 in D4. assert (Q1 : forall x : R, (x / 1 = x)%R) by (intro; field). rewrite Q1 in D4. exact D4.
Qed.

(** ** C100: odometry noise *)
Lemma assigned w0 (ps : list (PfModel.particle RA state)) : forall ss s, In s (map stt (PfModel.assign_states RA w0 ps ss)) -> In s ss.
Proof.
  induction ps as [|q ps IH]; intros [|y ss] s Hs; cbn in Hs; try (destruct Hs; fail).
  destruct Hs as [<-|Hs]; [left; reflexivity|right; exact (IH _ _ Hs)].
Qed.
Lemma resample_pool plus norm offset noise d (f f' : PfModel.filter RA state) (P : state -> Prop) :
  PfModel.resample RA plus norm (offset : RA) noise d f = Some f' -> (forall s, In s (map snd d) -> P s) -> (forall s z, P s -> P (norm (plus s z))) ->
  forall s, In s (PfSpec.poses RA f') -> P s.
Proof.
  intros H Hd Hn.
  assert (L : forall k i it itp j ss st, PfModel.resample_loop RA plus norm (st : RA) (offset : RA) noise d k i it itp j = Some ss -> forall s, In s ss -> P s).
  { induction k as [|k IH]; intros i it itp j ss st Hl; cbn [PfModel.resample_loop] in Hl; [injection Hl as <-; intros s []|].
    destruct (PfModel.lower_bound_from RA d it _) as [it'|]; [|discriminate].
    assert (Hin : forall m x, nth_error d m = Some x -> P (snd x)) by (intros m x Hx; apply Hd, in_map; eapply nth_error_In; exact Hx).
    destruct (nth_error d it') as [x|] eqn:Ex.
    - destruct (it' =? itp); (destruct (PfModel.resample_loop RA plus norm st offset noise d k _ _ _ _) as [r|] eqn:Er; [|discriminate]; cbn [option_map] in Hl; injection Hl as <-; intros s [<-|Hs];
        [|exact (IH _ _ _ _ _ _ Er s Hs)]); [apply Hn|]; exact (Hin _ _ Ex).
    - destruct (nth_error d itp) as [x|] eqn:Ey; [|discriminate]. destruct (PfModel.resample_loop RA plus norm st offset noise d k _ _ _ _) as [r|] eqn:Er; [|discriminate].
      cbn [option_map] in Hl. injection Hl as <-. intros s [<-|Hs]; [exact (Hin _ _ Ey)|exact (IH _ _ _ _ _ _ Er s Hs)]. }
  unfold PfModel.resample in H. destruct (PfModel.accumulate RA _ (prts f)) as [ps total].
  destruct (PfModel.resample_loop RA plus norm _ offset noise d (length ps) 0 0 0 0) as [ss|] eqn:El; [|discriminate]. injection H as <-.
  unfold PfSpec.poses. cbn [PfModel.parts]. intros s Hs. apply (L _ _ _ _ _ _ _ El). clear El.
  exact (assigned _ _ _ _ Hs).
Qed.
Lemma resize_pool dflt d num (f f' : PfModel.filter RA state) (P : state -> Prop) :
  PfModel.resize RA dflt d num f = Some f' -> (forall s, In s (map snd d) -> P s) -> forall s, In s (PfSpec.poses RA f') -> P s.
Proof.
  intros H Hd.
  assert (L : forall k ps it itp ss st, PfModel.resize_loop RA (st : RA) d k (ps : RA) it itp = Some ss -> forall s, In s ss -> P s).
  { induction k as [|k IH]; intros ps it itp ss st Hl; cbn [PfModel.resize_loop] in Hl; [injection Hl as <-; intros s []|].
    destruct (PfModel.lower_bound_from RA d it _) as [it'|]; [|discriminate].
    assert (Hin : forall m x, nth_error d m = Some x -> P (snd x)) by (intros m x Hx; apply Hd, in_map; eapply nth_error_In; exact Hx).
    destruct (nth_error d it') as [x|] eqn:Ex; [|destruct (nth_error d itp) as [x|] eqn:Ey; [|discriminate]];
      (destruct (PfModel.resize_loop RA st d k _ _ _) as [r|] eqn:Er; [|discriminate]; cbn [option_map] in Hl; injection Hl as <-; intros s [<-|Hs]; [eapply Hin; eassumption|exact (IH _ _ _ _ _ Er s Hs)]). }
  unfold PfModel.resize in H. destruct (PfModel.accumulate RA _ (prts f)) as [ps total].
  destruct (PfModel.resize_loop RA _ d num _ 0 0) as [ss|] eqn:El; [|discriminate]. injection H as <-.
  unfold PfSpec.poses. cbn [PfModel.parts]. intros s Hs. apply (L _ _ _ _ _ _ El). clear El.
  exact (assigned _ _ _ _ Hs).
Qed.
Lemma diag_noise_free mean sigma z : noise_free (diag_noise mean sigma z).
Proof. unfold diag_noise, generateNoise. destruct (diagonal _ _ _ _). repeat split. Qed.
Lemma dup_states (l : list (PfModel.particle RA state)) : forall a : RA, map snd (PfModel.dup_of RA a l) = map stt l.
Proof. intro a. apply PfProofs.dup_states. Qed.
Lemma sorted_dup_In srt (f : PfModel.filter RA state) s : sorts srt -> In s (map snd (sorted_dup srt f)) -> In s (PfSpec.poses RA f).
Proof.
  intros Hs Hi. unfold sorted_dup in Hi. destruct (Hs (PfModel.dup_of RA (0%R : RA) (prts f))) as [Hp _].
  unfold PfSpec.poses. rewrite <- (dup_states _ (0%R : RA)). eapply Permutation_in; [|exact Hi]. apply Permutation_map, Permutation_sym. exact Hp.
Qed.
Definition noiseless n : Prop := forall s, In s (PfSpec.poses RA (n_pf n)) -> noise_free s.
Lemma predict_noiseless g n' n : (forall i s, noise_free s -> noise_free (g i s)) -> n_pf n' = PfModel.predict RA g (n_pf n) -> noiseless n -> noiseless n'.
Proof.
  intros Hg He Hn s Hs. rewrite He in Hs. apply In_nth_error in Hs. destruct Hs as [i Hi].
  unfold PfSpec.poses in Hi. rewrite nth_error_map in Hi. unfold PfModel.predict in Hi. cbn [PfModel.parts] in Hi. rewrite PfProofs.mapi_nth in Hi.
  destruct (nth_error (prts (n_pf n)) i) as [q|] eqn:Eq; [|discriminate]. cbn [option_map] in Hi. injection Hi as <-. cbn [PfModel.set_st PfModel.st].
  apply Hg, Hn. unfold PfSpec.poses. apply in_map. eapply nth_error_In. exact Eq.
Qed.
Lemma odom_noiseless n t x n' b : odom_apply p n t x = (n', b) -> noiseless n -> noiseless n'.
Proof.
  unfold odom_apply. repeat match goal with |- (if ?c then _ else _) = _ -> _ => destruct c end; intro H; injection H as <- _; try (intro Hn; exact Hn).
  intro Hn. eapply predict_noiseless; [|reflexivity|exact Hn]. intros i s Hs. exact Hs.
Qed.
Lemma imu_noiseless n t a q tf n' b : imu_apply p n t a q tf = (n', b) -> noiseless n -> noiseless n'.
Proof.
  unfold imu_apply. repeat match goal with |- (if ?c then _ else _) = _ -> _ => destruct c end; try destruct tf; intro H; injection H as <- _; try (intro Hn; exact Hn).
  intros Hn s Hs. apply Hn. cbn [set_pf set_imu n_pf] in Hs.
  match type of Hs with In _ (PfSpec.poses RA (PfModel.measure RA ?L ?f)) => destruct (PfProofs.measure_shape RA L f) as (_ & S2 & _); rewrite S2 in Hs end. exact Hs.
Qed.
Lemma splus_noise_free a b : noise_free (splus a b).
Proof. repeat split. Qed.
Lemma normalize_noise_free s : noise_free s -> noise_free (normalize s).
Proof. intro H. exact H. Qed.
(** after an expansion, whether requested or because of a low match ratio, and right after the
    start or an initial pose, every particle moves exactly with the odometry (no noise is drawn
    for it), and this stays so, whatever happens, until the next localization step *)
Theorem C100_expansion_removes_noise n z now n' o :
  step caster voxel p n (EExpansion z now) = Ok (n', o) -> noiseless n'.
Proof.
  cbn [step]. unfold cbExpansionReset. intro H. injection H as <- _. intros s Hs. cbn [set_pf n_pf] in Hs.
  unfold PfSpec.poses, PfModel.add_noise in Hs. cbn [PfModel.parts] in Hs. apply In_nth_error in Hs. destruct Hs as [i Hi].
  rewrite nth_error_map, PfProofs.mapi_nth in Hi. destruct (nth_error (prts (n_pf n)) i); [|discriminate]. injection Hi as <-. apply splus_noise_free.
Qed.
Theorem C100_automatic_expansion_removes_noise evs gen rc0 n o0 m e n' o t x c st k mp od im :
  steps caster voxel p (configure p gen rc0) evs = Ok (n, o0) -> step caster voxel p n (ECloud m e) = Ok (n', o) -> In (OPose t x c) o ->
  In (OStatus st k mp od im) o -> (s_match st < match_ratio_thresh p)%R -> (Z.of_nat (length (prts (n_pf n))) <= num_particles p)%Z -> noiseless n'.
Proof.
  intros H Hs Hi Hst Hm Hz.
  destruct (C95_localization_step caster voxel p evs gen rc0 n o0 m e n' o t x c H Hs Hi) as (n1 & h & pc & os & n2 & bp & lp & cl & lk & g & f & f4 & f6 & nr & nx & st' & k' & mp' & od' & im' & A).
  destruct A as (_ & _ & _ & _ & _ & _ & _ & _ & _ & _ & _ & _ & _ & A1 & AW & A2 & A3).
  assert (st' = st).
  { destruct (pose_localizes _ _ _ _ _ _ _ _ _ _ _ Hs Hi) as (n3 & h' & pc' & os' & n4 & bp' & lp' & n5 & M1 & M2 & M3 & M4 & _).
    destruct (localize_parts _ _ _ _ _ _ _ _ _ _ _ M4) as (cl' & s1 & res & est0 & est' & c0 & o1 & o2 & f4' & k2 & B1 & B2 & B3 & (B4 & B5 & B6) & B7 & B8 & B9 & _).
    assert (U : forall y ky a b d, In (OStatus y ky a b d) o -> y = stat (n_out n5)).
    { intros y ky a b d Hy. rewrite B5 in Hy. apply in_app_or in Hy. destruct Hy as [Hy|Hy]; [destruct B8 as [(? & ? & ? & ->)| -> ]; [destruct Hy as [Hy|[]]; discriminate|destruct Hy]|].
      cbn [app] in Hy. destruct Hy as [Hy|Hy]; [discriminate|]. apply in_app_or in Hy. destruct Hy as [Hy|[Hy|[Hy|[]]]]; try discriminate.
      - destruct (due p n4 e h'); [destruct B9 as (? & ? & _ & -> & _); destruct Hy as [Hy|[]]; discriminate|destruct B9 as [-> _]; destruct Hy].
      - injection Hy as <- _ _ _ _. reflexivity. }
    rewrite (U _ _ _ _ _ A1), (U _ _ _ _ _ Hst). reflexivity. }
  subst st'. unfold psize in A3. apply Z.ltb_ge in Hz. rewrite Hz in A3.
  intros s Hin. rewrite A3 in Hin. apply In_nth_error in Hin. destruct Hin as [i Hin].
  destruct (nth_error (PfSpec.poses RA f4) i) as [s0|] eqn:E0.
  - destruct (A2 i s0 E0) as (s' & _ & A4). rewrite Hin in A4. destruct (Rlt_dec (s_match st) (match_ratio_thresh p)); [|contradiction]. injection A4 as ->. apply splus_noise_free.
  - exfalso. apply nth_error_None in E0.
    assert (Hlt : i < length (PfSpec.poses RA f6)) by (apply nth_error_Some; congruence).
    assert (Hle : length (PfSpec.poses RA f6) = length (PfSpec.poses RA f4)).
    { unfold PfSpec.poses. rewrite !map_length. pose proof (f_equal (@length _) AW) as Hw. unfold PfSpec.weights in Hw. rewrite !map_length in Hw. exact Hw. }
    lia.
Qed.
Theorem C100_noiseless_until_localization evs n tr :
  trace voxel p caster n evs = Ok tr -> noiseless n -> Forall sorts_in tr -> Forall (fun x => localizes x = false) tr ->
  Forall (fun x => noiseless (after x)) tr.
Proof.
  revert n tr. induction evs as [|ev r IH]; intros n tr H Hn Ho Hl; cbn [trace] in H; [injection H as <-; constructor|].
  bok H. destruct x as [n1 o1]. bok H. rename x into tr1. injection H as <-. inversion Ho as [|? ? Ho1 Ho2]; subst. inversion Hl as [|? ? Hl1 Hl2]; subst.
  assert (N1 : noiseless n1).
  { clear IH E0 Ho2 Hl2 Ho Hl. unfold sorts_in in Ho1. cbn [what before] in Ho1. unfold localizes in Hl1. cbn [outs] in Hl1. apply no_pose_existsb in Hl1.
    assert (T : forall n now n' o, cbMapUpdateTimer n now = Ok (n', o) -> n_pf n' = n_pf n) by (intros ? ? ? ? Q; apply timer_out in Q; tauto).
    destruct ev; cbn [step] in E.
    - unfold cbMapcloud in E. destruct conv; [|injection E as <- _; exact Hn]. unfold loadMapCloud in E. apply T in E. unfold noiseless. rewrite E. exact Hn.
    - unfold cbLoadPCD in E. destruct file; [|injection E as <- _; exact Hn]. bok E. destruct x as [n0 oo]. injection E as <- _. unfold loadMapCloud in E0. apply T in E0. unfold noiseless. rewrite E0. exact Hn.
    - unfold cbMapcloudUpdate in E. destruct conv; injection E as <- _; exact Hn.
    - apply T in E. unfold noiseless. rewrite E. exact Hn.
    - unfold cbPosition in E. destruct (Rltb (1 / 10) _); [injection E as <- _; exact Hn|]. destruct (pose_in_map p lk m) as [mean|]; [|injection E as <- _; exact Hn]. injection E as <- _.
      intros s Hs. cbn [set_pf n_pf] in Hs. unfold PfSpec.poses, PfModel.predict, PfModel.init in Hs. cbn [PfModel.parts] in Hs. apply In_nth_error in Hs. destruct Hs as [i Hi].
      rewrite nth_error_map, PfProofs.mapi_nth, PfProofs.mapi_nth in Hi. destruct (nth_error (prts (n_pf n)) i); [|discriminate]. injection Hi as <-. unfold initial_state; destruct (solver (cov_matrix 6 (pm_cov m))); repeat split.
    - unfold cbOdom in E. destruct (odom_apply p n stamp pose) as [q1 go] eqn:Eo. apply odom_noiseless in Eo; [|exact Hn]. destruct (go && fake_imu p); [|injection E as <- _; exact Eo].
      destruct (imu_apply p q1 stamp _ (rot pose) (imu_tf p lk frame)) as [q2 go2] eqn:Ei. apply imu_noiseless in Ei; [|exact Eo]. destruct (go2 && fake_odom p); [discriminate|]. injection E as <- _. exact Ei.
    - unfold cbImu in E. destruct (imu_apply p n stamp acc orient (imu_tf p lk frame)) as [q1 go] eqn:Ei. apply imu_noiseless in Ei; [|exact Hn]. destruct (go && fake_odom p); [|injection E as <- _; exact Ei].
      destruct (odom_apply p q1 stamp _) as [q2 go2] eqn:Eo. apply odom_noiseless in Eo; [|exact Ei]. destruct (go2 && fake_imu p); [discriminate|]. injection E as <- _. exact Eo.
    - apply cloud_quiet in E; [|exact Hl1]. destruct E as (_ & E & _). unfold noiseless. rewrite E. exact Hn.
    - unfold cbLandmark in E. bok E. apply of_option_ok in E0. injection E as <- _. intros s Hs. cbn [set_pf n_pf] in Hs. revert s Hs.
      eapply resample_pool; [exact E0| |intros; apply normalize_noise_free, splus_noise_free].
      intros s Hs. apply sorted_dup_In in Hs; [|exact Ho1]. apply Hn. match type of Hs with In _ (PfSpec.poses RA (PfModel.measure RA ?L ?f)) => destruct (PfProofs.measure_shape RA L f) as (_ & S2 & _); rewrite S2 in Hs end. exact Hs.
    - unfold cbResizeParticle in E. bok E. apply of_option_ok in E0. injection E as <- _. intros s Hs. cbn [set_pf n_pf] in Hs. revert s Hs.
      eapply resize_pool; [exact E0|]. intros s Hs. apply sorted_dup_In in Hs; [|exact Ho1]. apply Hn. exact Hs.
    - exact (C100_expansion_removes_noise n z now n1 o1 E).
    - unfold cbGlobalLocalization in E. destruct (has_map (n_map n)); [|injection E as <- _; exact Hn]. bok E. bok E. bok E. apply of_option_ok in E2. injection E as <- _.
      intros s Hs. cbn [set_pf n_pf] in Hs. unfold PfSpec.poses in Hs. cbn [PfModel.parts] in Hs. apply in_map_iff in Hs. destruct Hs as (q & <- & Hq).
      revert Hq E2. generalize (keep_floor p (hits (to_pts (voxel (glob_grid p, glob_grid p, glob_grid p) (cl_pts x)))) (voxel (glob_grid p, glob_grid p, glob_grid p) (cl_pts x))) as pts.
      intro pts. set (pr := (1 / INR (length pts))%R). clearbody pr. generalize 0%Z as cnt. clear. revert x1 pts.
      induction (prts x0) as [|y l IH]; intros x1 pts cnt Hq Hf; cbn [fill] in Hf; [injection Hf as <-; destruct Hq|].
      destruct pts as [|c0 cs]; [discriminate|]. destruct (if (glob_div_yaw p <=? cnt + 1)%Z then _ else _) as [pts' cnt'].
      destruct (fill _ _ _ l pts' cnt') as [rest|] eqn:Er; [|discriminate]. cbn [option_map] in Hf. injection Hf as <-. destruct Hq as [<-|Hq]; [repeat split|]. exact (IH _ _ _ Hq Er). }
  constructor; [exact N1|]. exact (IH _ _ E0 N1 Ho2 Hl2).
Qed.

(** neither do the particles of a new node and those around a new initial pose *)
Theorem C100_initially_noiseless gen rc0 : noiseless (configure p gen rc0).
Proof.
  intros s Hs. unfold configure in Hs. cbn [n_pf] in Hs. unfold PfSpec.poses, PfModel.init in Hs. cbn [PfModel.parts] in Hs.
  apply In_nth_error in Hs. destruct Hs as [i Hi]. rewrite nth_error_map, PfProofs.mapi_nth in Hi. destruct (nth_error _ i); [|discriminate]. injection Hi as <-. apply diag_noise_free.
Qed.
End OutProps.
