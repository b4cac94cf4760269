(** Property theorems C114: the time stamps of transforms and particles, and the status of a cloud
    without usable points, over a whole history.  Everywhere the ray caster, the voxel filter, the
    parameters, the initial particles and all inputs of the outside world are arbitrary. *)
From Coq Require Import String Reals ZArith List Bool Arith Lia Lra.
From Verif Require PfModel FilterModel AccumModel FilterProofs.
From Verif Require Import Arith KdModel QuatModel QuatSpec StateModel StateSpec RayModel LidarModel NdModel ParamModel
  NodeModel NodeSpec NodeFrame NodeMapProofs NodeLocProofs NodeStepProofs NodeTfProps NodePostProofs NodeAccProofs NodeAccProps NodeApiProps NodeCorrProps.
Import ListNotations.
Open Scope R_scope.
Open Scope list_scope.

(** ** Specification *)
Definition clip01 (x : R) : R := Rmax 0 (Rmin 1 x).
(** the smoothed interval between localizations at the times [ts]: a low-pass filter of length 5
    from zero, of the intervals, each between 0 and 1 second; the first interval starts at time 0 *)
Definition interval_step (a : R * (R * R)) (t : R) : R * (R * R) := (t, smooth 5 false false (snd a) (clip01 (t - fst a))).
Definition tolerance (ts : list R) : R := fst (snd (fold_left interval_step ts (0, (0, 0)))).
(** the clock at an event (only where the node reads it) *)
Definition clock (ev : event) : R :=
  match ev with
  | EPosition _ _ _ _ now | ELandmark _ _ _ _ _ now | EResize _ _ now | EExpansion _ now => now
  | ECloud _ e => e_now e
  | _ => 0
  end.

Section Time.
Context {S : Type} (caster : cloud -> (pt -> R -> search) -> raycaster S)
        (voxel : R * R * R -> list lpt -> list lpt) (p : params).
Notation node := (node (S := S)).
Implicit Types n : node.
Hypothesis Hlpf : (0 <= Rceil (lpf_step p))%Z.
(** the times of the localizations of a history *)
Definition loc_times (tr : list (entry (S := S))) : list R := map (fun x => clock (what x)) (loc_steps tr).
(** the time an output of an event is based on: the last odometry, or the clock *)
Definition base_time (x : entry (S := S)) : R :=
  if has_odom (n_odom (before x)) then odom_last (n_odom (before x)) else clock (what x).
Definition stamped_at (o : output) (t : R) : Prop := (exists x z, o = OTf t x z) \/ (exists l, o = OParticles t l).

Lemma clip_spec dt : (if Rltb 1 dt then 1 else if Rltb dt 0 then 0 else dt) = clip01 dt.
Proof.
  unfold clip01. destruct (Rltb 1 dt) eqn:A; [apply Rltb_true in A; rewrite Rmin_left, Rmax_right; lra|]. apply Rltb_false in A.
  destruct (Rltb dt 0) eqn:B; [apply Rltb_true in B; rewrite Rmin_right, Rmax_left; lra|]. apply Rltb_false in B. rewrite Rmin_right, Rmax_right; lra.
Qed.
(** a status alone carries no stamp *)
Lemma topics_unstamped o : (forall c, In c o -> topic_of c <> TTf /\ topic_of c <> TParticles) -> forall c t, In c o -> ~ stamped_at c t.
Proof. intros H c t Hc [(x & z & ->)|(l & ->)]; destruct (H _ Hc) as [A B]; [apply A|apply B]; reflexivity. Qed.
Lemma quiet_stamps n ev n' o t c : step caster voxel p n ev = Ok (n', o) -> no_pose o -> In c o -> stamped_at c t ->
  t = (if has_odom (n_odom n) then odom_last (n_odom n) else clock ev) + tf_base (n_out n) + tf_tolerance p.
Proof.
  intros H Hp Hc Hs.
  assert (Q : forall ts, map topic_of o = ts -> (~ In TTf ts /\ ~ In TParticles ts) -> False).
  { intros ts E [A B]. destruct Hs as [(x & z & ->)|(l & ->)]; [apply A|apply B]; rewrite <- E; change TTf with (topic_of (OTf t x z)) || change TParticles with (topic_of (OParticles t l)); apply in_map; exact Hc. }
  destruct ev; cbn [step clock] in *.
  - exfalso. unfold cbMapcloud in H. destruct conv; [|injection H as <- <-; destruct Hc]. apply load_topics in H. apply (Q _ H). split; intros [|[]]; discriminate.
  - exfalso. unfold cbLoadPCD in H. destruct file; [|injection H as <- <-; destruct Hc as [<-|[]]; destruct Hs as [(x & z & E)|(l & E)]; discriminate].
    bok H. destruct x as [n1 o1]. injection H as <- <-. apply load_topics in E. eapply Q; [rewrite map_app, E; reflexivity|]. split; intros [|[|[]]]; discriminate.
  - exfalso. unfold cbMapcloudUpdate in H. destruct conv; injection H as <- <-; destruct Hc.
  - exfalso. apply timer_out in H. destruct H as (_ & _ & H). destruct (H _ Hc) as (c0 & ->). destruct Hs as [(? & ? & ?)|(? & ?)]; discriminate.
  - unfold cbPosition in H. destruct (Rltb (1 / 10) _); [injection H as <- <-; destruct Hc|]. destruct (pose_in_map p lk m); [|injection H as <- <-; destruct Hc].
    injection H as <- <-. destruct Hc as [<-|[]]. destruct Hs as [(? & ? & ?)|(l & E)]; [discriminate|]. unfold publishParticles in E. injection E as E _. symmetry. exact E.
  - exfalso. unfold cbOdom in H. destruct (odom_apply p n stamp pose) as [n1 go]. destruct (go && fake_imu p); [|injection H as <- <-; destruct Hc].
    destruct (imu_apply _ _ _ _ _ _) as [n2 go2]. destruct (go2 && fake_odom p); [discriminate|injection H as <- <-; destruct Hc].
  - exfalso. unfold cbImu in H. destruct (imu_apply _ _ _ _ _ _) as [n1 go]. destruct (go && fake_odom p); [|injection H as <- <-; destruct Hc].
    destruct (odom_apply _ _ _ _) as [n2 go2]. destruct (go2 && fake_imu p); [discriminate|injection H as <- <-; destruct Hc].
  - exfalso. apply (cloud_topics caster voxel p) in H. destruct H as [H|(_ & [H|(ms & _ & H)])].
    + apply (Q _ H). split; intros [].
    + apply (Q _ H). split; intros [|[]]; discriminate.
    + assert (I : In TPose (map topic_of o)) by (rewrite H; apply in_or_app; right; left; reflexivity).
      apply in_map_iff in I. destruct I as (y & Ey & Iy). destruct y; try discriminate. destruct (Hp _ _ _ Iy).
  - unfold cbLandmark in H. bok H. injection H as <- <-. destruct Hc as [<-|[]]. destruct Hs as [(? & ? & ?)|(l & Eq)]; [discriminate|]. unfold publishParticles in Eq. injection Eq as Eq _. symmetry. exact Eq.
  - unfold cbResizeParticle in H. bok H. injection H as <- <-. destruct Hc as [<-|[<-|[]]]; destruct Hs as [(? & ? & ?)|(l & Eq)]; try discriminate. unfold publishParticles in Eq. injection Eq as Eq _. symmetry. exact Eq.
  - unfold cbExpansionReset in H. injection H as <- <-. destruct Hc as [<-|[<-|[]]]; destruct Hs as [(? & ? & ?)|(l & Eq)]; try discriminate. unfold publishParticles in Eq. injection Eq as Eq _. symmetry. exact Eq.
  - exfalso. unfold cbGlobalLocalization in H. destruct (has_map (n_map n)); [|injection H as <- <-; destruct Hc as [<-|[]]; destruct Hs as [(? & ? & ?)|(? & ?)]; discriminate].
    bok H. bok H. bok H. injection H as <- <-. destruct Hc as [<-|[]]; destruct Hs as [(? & ? & ?)|(? & ?)]; discriminate.
Qed.

Lemma trace_stamps evs : forall n tr a, trace voxel p caster n evs = Ok tr ->
  follows 5 false (rate (n_out n)) (snd a) -> tf_base (n_out n) = fst (snd a) -> localized_last (n_out n) = fst a ->
  forall k x o t, nth_error tr k = Some x -> In o (outs x) -> stamped_at o t ->
  t = base_time x + fst (snd (fold_left interval_step (loc_times (firstn k tr)) a)) + tf_tolerance p.
Proof.
  induction evs as [|ev evs IH]; intros n tr a H Hf Hb Hl k x o t Hx Ho Hs.
  { cbn in H. injection H as <-. destruct k; discriminate. }
  cbn [trace] in H. bok H. destruct x0 as [n1 o1]. bok H. rename x0 into tr1. injection H as <-.
  assert (EC := E). apply event_cases in EC; [|exact Hlpf].
  set (en := {| before := n; what := ev; outs := o1; after := n1 |}) in *.
  destruct k as [|k].
  - injection Hx as <-. cbn [firstn loc_times loc_steps filter map fold_left]. rewrite <- Hb. unfold base_time. cbn [before what en outs] in *.
    destruct EC as [A1 A2 A3 A4 A5 A6|m e h n2 n3 A1 A2 A3 A4 A5 A6 A7 A8 A9 A10 A11].
    + exact (quiet_stamps _ _ _ _ _ _ E A5 Ho Hs).
    + rewrite A1. cbn [clock]. destruct A8 as [(est & ratio & q1 & q2 & est' & c0 & r1 & r2 & ps & _ & B1 & B2 & _ & _ & T & _ & Eo & Hm & _) _ _ _ _ _ _ _ _ _ _ _].
      rewrite Eo in Ho. apply in_app_or in Ho. destruct Ho as [Ho|Ho].
      * unfold publish_tf_step in T. destruct (map_odom est (odom (n_odom q1))) as [mp mr]. apply pair_equal_spec in T. destruct T as [_ T]. rewrite <- T in Ho.
        pose proof (after_jump_ok p q1 est) as J. cbv zeta in J. destruct J as (_ & _ & _ & _ & _ & _ & _ & _ & _ & _ & _ & J3 & _).
        clear T. set (nj := after_jump p q1 est) in *. clearbody nj.
        destruct (publish_tf p); [|destruct Ho]. destruct Ho as [<-|[]]. destruct Hs as [(x & z & Eq)|(l & Eq)]; [|discriminate]. injection Eq as Eq _ _. rewrite <- Eq.
        rewrite J3, B1, B2, A4, (so_base _ _ A2). reflexivity.
      * cbn [app] in Ho. destruct Ho as [<-|Ho]; [destruct Hs as [(? & ? & ?)|(? & ?)]; discriminate|]. apply in_app_or in Ho. destruct Ho as [Ho|[<-|[<-|[]]]].
        -- destruct (Hm _ Ho) as (? & ? & ->). destruct Hs as [(? & ? & ?)|(? & ?)]; discriminate.
        -- destruct Hs as [(? & ? & ?)|(l & Eq)]; [discriminate|]. injection Eq as Eq _. rewrite <- Eq, A4, (so_base _ _ A2). reflexivity.
        -- destruct Hs as [(? & ? & ?)|(? & ?)]; discriminate.
  - cbn [nth_error] in Hx. unfold loc_times, loc_steps. cbn [firstn filter].
    destruct EC as [A1 A2 A3 A4 A5 A6|m e h n2 n3 A1 A2 A3 A4 A5 A6 A7 A8 A9 A10 A11].
    + assert (El : localizes en = false).
      { unfold localizes, en. cbn [outs]. destruct (existsb is_pose o1) eqn:Ex; [|reflexivity]. apply existsb_exists in Ex. destruct Ex as (y & Hy & Ey).
        destruct y; try discriminate. destruct (A5 _ _ _ Hy). }
      rewrite El. rewrite <- (so_rate _ _ A1) in Hf. rewrite <- (so_base _ _ A1) in Hb. rewrite <- (so_last _ _ A1) in Hl.
      exact (IH _ _ _ E0 Hf Hb Hl k x o t Hx Ho Hs).
    + assert (El : localizes en = true).
      { unfold localizes, en. cbn [outs]. destruct A8 as [(est & ratio & q1 & q2 & est' & c0 & r1 & r2 & ps & _ & _ & _ & _ & _ & _ & _ & Eo & _) _ _ _ _ _ _ _ _ _ _ _].
        rewrite Eo, existsb_app. cbn [app existsb is_pose]. apply orb_true_r. }
      rewrite El. cbn [map fold_left]. change (clock (what en)) with (clock ev). rewrite A1. cbn [clock].
      pose proof (lz_rate _ _ _ _ _ _ A8) as R1. rewrite <- A9, (so_rate _ _ A2), (so_last _ _ A2), Hl in R1. cbv zeta in R1. rewrite clip_spec in R1.
      assert (F1 : follows 5 false (rate (n_out n1)) (smooth 5 false false (snd a) (clip01 (e_now e - fst a)))) by (rewrite R1; apply follows_input; [lra|exact Hf]).
      refine (IH _ _ (interval_step a (e_now e)) E0 F1 _ _ k x o t Hx Ho Hs).
      * pose proof (lz_base _ _ _ _ _ _ A8) as B1. rewrite <- A9 in B1. rewrite B1. exact (proj1 (proj2 (proj2 F1))).
      * rewrite A9. exact (lz_last _ _ _ _ _ _ A8).
Qed.

(** C114: at every event of every history, every transform and every particle cloud is stamped
    with the time of the last odometry message (or the clock, before any), plus the smoothed
    interval between the localizations before it, plus the configured tolerance. *)
Theorem C114_stamps evs gen rc0 tr k x o t : trace voxel p caster (configure p gen rc0) evs = Ok tr ->
  nth_error tr k = Some x -> In o (outs x) -> stamped_at o t ->
  t = base_time x + tolerance (loc_times (firstn k tr)) + tf_tolerance p.
Proof.
  intros H Hx Ho Hs. refine (trace_stamps _ _ _ (0, (0, 0)) H _ _ _ _ _ _ _ Hx Ho Hs); [|reflexivity|reflexivity].
  cbn [snd]. exact (follows_new 5 ltac:(lra) false).
Qed.

Lemma measure_lost n e n' o : measure caster voxel p n e = Ok (n', o) -> no_pose o -> o <> [] -> stat (n_out n) = status0 ->
  o = [OStatus {| s_status := NORMAL; s_error := ERROR_POINTS_NOT_FOUND; s_conv := CONV_NORMAL; s_match := 0; s_size := 0;
                  s_entropy := PfModel.entropy RA (n_pf n) |} true (has_map (n_map n)) (has_odom (n_odom n)) (has_imu (n_imu n))].
Proof.
  unfold measure. intros H Hp Ho Hs. bok H. destruct x as [n0 go]. destruct (negb go); [injection H as _ <-; congruence|].
  bok H. destruct x as [n1 ready]. destruct ready as [[[h pc] os]|]; [|injection H as _ <-; congruence].
  bok H. clear E1. destruct (filters p n1 e (voxel (ds_x p, ds_y p, ds_z p) pc)) as [[n2 bp] lp] eqn:Ef.
  apply gate_ok in E. destruct E as (G1 & G2 & G3 & G4 & G5 & G6 & G7 & G8 & G9 & G10 & G11 & G12 & G13 & G14 & G15 & G16 & _).
  apply prepare_ok in E0. destruct E0 as (P1 & P2 & P3 & P4 & P5 & P6 & _).
  apply filters_ok in Ef. destruct Ef as (F1 & F2 & F3 & F4 & F5 & F6 & F7).
  destruct lp.
  - unfold force_update in H. injection H as _ <-. cbn [points_lost set_stat set_out n_out stat s_status s_error s_conv s_match s_size n_pf n_map n_odom n_imu].
    rewrite F5, P4, G7, Hs, F6, P6, G6, F1, P1, G1, F3, P2, G3, F4, P3, G4. reflexivity.
  - exfalso. apply localize_topics in H. destruct H as (ms & _ & H).
    assert (I : In TPose (map topic_of o)) by (rewrite H; apply in_or_app; right; left; reflexivity).
    apply in_map_iff in I. destruct I as (y & Ey & Iy). destruct y; try discriminate. destruct (Hp _ _ _ Iy).
Qed.
(** C114: a cloud without usable points publishes this status and nothing else: no match, no
    particles, the entropy of the last resampling; it is an error for the diagnostics. *)
Theorem C114_points_lost evs gen rc0 tr x m e : trace voxel p caster (configure p gen rc0) evs = Ok tr -> In x tr -> what x = ECloud m e ->
  localizes x = false -> outs x <> [] ->
  outs x = [OStatus {| s_status := NORMAL; s_error := ERROR_POINTS_NOT_FOUND; s_conv := CONV_NORMAL; s_match := 0; s_size := 0;
                       s_entropy := PfModel.entropy RA (n_pf (before x)) |} true true (has_odom (n_odom (before x))) (has_imu (n_imu (before x)))].
Proof.
  intros H Hx Hw Hl Ho. destruct (trace_in _ _ _ _ _ _ _ H Hx) as (evs1 & evs2 & o1 & -> & H1 & H2). rewrite Hw in H2. cbn [step] in H2. unfold cbCloud in H2.
  assert (Hp : no_pose (outs x)).
  { intros t q c Hi. unfold localizes in Hl. rewrite (proj2 (existsb_exists _ _)) in Hl; [discriminate|]. eexists. split; [exact Hi|reflexivity]. }
  destruct (has_map (n_map (before x))) eqn:Hm; [|injection H2 as _ H2; congruence].
  bok H2. destruct x0 as [a cs]. bok H2. destruct x0 as [n5 o5]. injection H2 as _ ->.
  pose proof (push_calls_once _ _ _ _ _ E) as Hc.
  destruct (nproc cs) as [|[|k]] eqn:En; [|clear Hc|lia].
  { apply callbacks_none in E0; [|exact En]. destruct E0 as (_ & _ & _ & _ & _ & _ & E0). congruence. }
  destruct (callbacks_one _ _ _ _ _ _ _ _ En E0) as (na & nb & B0 & B1 & B2 & B3 & B4 & B5 & B6 & B7 & _).
  rewrite (measure_lost _ _ _ _ B7 Hp Ho); [|rewrite B1; reflexivity]. rewrite B2, B3, B4, B5. cbn [set_stat set_out n_pf n_odom n_imu n_map]. rewrite Hm. reflexivity.
Qed.

(** C83: a negative skip_measure is converted to a number near 2^64, so that no cloud is ever
    measured: in any history with fewer than 2^63 processed clouds none publishes anything *)
Theorem C83_negative_never_measures evs gen rc0 tr j x m e : trace voxel p caster (configure p gen rc0) evs = Ok tr ->
  nth_error (filter (processes p) tr) j = Some x -> what x = ECloud m e ->
  (Z.of_nat (Datatypes.S j) < 2 ^ 63)%Z -> (- 2 ^ 31 <= skip_measure p < 0)%Z ->
  outs x = [] /\ n_pf (after x) = n_pf (before x).
Proof.
  intros Ht Hj Hw Hs Hk. pose proof (counter_trace caster voxel p evs _ _ 0%nat Hlpf Ht eq_refl j x Hj) as Hc. rewrite Nat.add_0_l in Hc.
  rewrite Z.mod_small in Hc by lia.
  pose proof (nth_error_In _ _ Hj) as Hin. apply filter_In in Hin. destruct Hin as [Hin Hpr].
  destruct (trace_in _ _ _ _ _ _ _ Ht Hin) as (evs1 & evs2 & o & -> & H1 & H2).
  assert (Hx : x = {| before := before x; what := what x; outs := outs x; after := after x |}) by (destruct x; reflexivity).
  pose proof (step_counter caster voxel p _ _ _ _ x Hlpf H2 Hx) as K. rewrite Hpr in K. destruct K as (_ & m' & e' & Hw' & K1 & K2).
  apply K1. rewrite Hc. assert (Es : (skip_size p = 2 ^ 64 + skip_measure p)%Z) by (unfold skip_size; symmetry; apply Z.mod_unique with (-1)%Z; lia).
  rewrite Es, Z.mod_small by lia. lia.
Qed.
(** C92: the accumulation logic is told exactly what accumCloud returned *)
Theorem C92_success_is_reported n m n' b a : accumCloud p n m = Ok (n', b) ->
  push_calls p a m = if (accum_cloud p =? 0)%Z then Ok (a, AccumModel.push_pass m b)
                     else match AccumModel.push (acc_cfg p) (cm_frame m) m b a with Some r => Ok r | None => Undef end.
Proof.
  unfold accumCloud, push_calls. destruct (cm_pts p m).
  - destruct (local (n_acc n)); [|discriminate]. intro H. injection H as _ <-. reflexivity.
  - intro H. injection H as _ <-. reflexivity.
Qed.
End Time.

(** non-vacuity: two localizations at the times 10 and 11: the first interval counts as one second *)
Example C114_nonvacuous : tolerance [] = 0 /\ 0 < tolerance [10] < tolerance [10; 11] /\ tolerance [10; 11] <= 1.
Proof.
  assert (A : clip01 (10 - 0) = 1) by (unfold clip01; rewrite Rmin_left, Rmax_right; lra).
  assert (B : clip01 (11 - 10) = 1) by (unfold clip01; rewrite Rmin_left, Rmax_right; lra).
  unfold tolerance. cbn [fold_left]. unfold interval_step. cbn [fst snd]. rewrite A, B. unfold smooth. cbn [fst snd]. lra.
Qed.

