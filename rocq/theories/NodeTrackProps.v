(** Property theorems C107: dead reckoning. *)
From Coq Require Import String Reals ZArith List Bool Arith Lia Lra Permutation.
From Verif Require PfModel FilterModel AccumModel PfSpec PfProofs PfCov.
From Verif Require Import Arith KdModel QuatModel QuatSpec QuatProofs QuatProps StateModel StateSpec StateProofs StateProps RayModel LidarModel NdModel ParamModel MatModel
  NodeModel NodeSpec NodeFrame NodeLocProofs NodeStepProofs NodeMotionProps NodePostSpec NodePostProofs NodeHistProps NodePostProps NodeOutProps NodeTrackSpec NodeTrackProofs.
Import ListNotations.
Open Scope nat_scope.
Open Scope R_scope.
Open Scope list_scope.

Lemma travelled_cons d ds : travelled (d :: ds) = comp_pose (travelled [d]) (travelled ds).
Proof.
  assert (G : forall l a, fold_left (fun a d => let '(o0, o, _) := d in comp_pose a (comp_pose (inv_pose (pose_of o0)) (pose_of o))) l a = comp_pose a (travelled l)).
  { unfold travelled. induction l as [|[[o0 o] dt] l IH]; intro a; cbn [fold_left]; [symmetry; apply comp_id_r|].
    rewrite IH, (IH (comp_pose (v0, q1) _)), comp_id_l, comp_assoc. reflexivity. }
  unfold travelled at 1 2. cbn [fold_left]. rewrite G. reflexivity.
Qed.
Lemma travelled_app a b : travelled (a ++ b) = comp_pose (travelled a) (travelled b).
Proof.
  induction a as [|d a IH]; [symmetry; apply comp_id_l|]. cbn [app]. rewrite travelled_cons, IH, (travelled_cons d a), comp_assoc. reflexivity.
Qed.
Lemma getRPY_opp q : getRPY (qopp q) = getRPY q.
Proof. destruct q as [x y z w]. unfold getRPY, qopp. cbn. f_equal; [f_equal; ring| |f_equal; ring]. f_equal. f_equal. f_equal. ring. Qed.

Section Track.
Context {S : Type} (caster : cloud -> (pt -> R -> search) -> raycaster S)
        (voxel : R * R * R -> list lpt -> list lpt) (p : params).
Notation node := (node (S := S)).
Implicit Types n : node.
Notation run n evs := (steps caster voxel p n evs).
(** the reference of the odometry, if there is one, is a rotation *)
Definition ref_unit n : Prop := forall t o, odom_ref n = Some (t, o) -> unit_pose o.

Lemma all_at_pf n n' P : n_pf n' = n_pf n -> all_at n P -> all_at n' P.
Proof. intros E H s Hs. apply H. rewrite <- E. exact Hs. Qed.
Lemma noise_free_predict tl ta o0 o dt P s : unit_pose o0 -> unit_pose o -> unit_quat (snd P) -> at_pose P s ->
  at_pose (comp_pose P (comp_pose (inv_pose (pose_of o0)) (pose_of o))) (predict1 tl ta o0 o dt s).
Proof.
  intros U0 U1 U (A & B & C). split; [|split; [exact B|exact C]]. rewrite predict_pose; try assumption; [rewrite A; reflexivity|]. unfold unit_pose. rewrite <- A in U. exact U.
Qed.
Lemma step_unit P o0 o : unit_pose o0 -> unit_pose o -> unit_quat (snd P) -> unit_quat (snd (comp_pose P (comp_pose (inv_pose (pose_of o0)) (pose_of o)))).
Proof. intros H0 H1 U. cbn [comp_pose inv_pose pose_of snd]. apply unit_mul; [exact U|]. apply unit_mul; [apply unit_inv; exact H0|exact H1]. Qed.
(** one odometry message *)
Lemma odom_at P n t o n' b : odom_apply p n t o = (n', b) -> unit_pose o -> ref_unit n -> unit_quat (snd P) -> all_at n P ->
  let Q := comp_pose P (travelled (applied (odom_ref n) [(t, o)])) in
  all_at n' Q /\ unit_quat (snd Q) /\ odom_ref n' = reference (odom_ref n) [(t, o)] /\ ref_unit n'.
Proof.
  intros H Uo Ur U Hn. unfold ref_unit in *.
  assert (Ha : forall t0 o0, odom_ref n = Some (t0, o0) -> unit_pose o0) by exact Ur. clear Ur.
  assert (Er : odom_ref n = if has_odom (n_odom n) then Some (odom_last (n_odom n), odom_prev (n_odom n)) else None) by reflexivity.
  rewrite Er in Ha |- *. clear Er. unfold odom_apply in H.
  destruct (has_odom (n_odom n)) eqn:Eh; cbn [negb] in H; cbn [applied reference].
  2:{ injection H as <- _. cbn [travelled fold_left]. rewrite comp_id_r. split; [exact Hn|]. split; [exact U|]. split; [reflexivity|].
      intros t1 o1 Ho. cbn in Ho. injection Ho as _ <-. exact Uo. }
  specialize (Ha _ _ eq_refl). unfold Rltb in H.
  destruct (Rlt_dec (t - odom_last (n_odom n)) 0) as [H0|H0]; cbn [orb] in H.
  { injection H as <- _. cbn [travelled fold_left]. rewrite comp_id_r. split; [exact Hn|]. split; [exact U|]. split; [reflexivity|]. intros t1 o1 Ho. discriminate Ho. }
  destruct (Rlt_dec 5 (t - odom_last (n_odom n))) as [H5|H5].
  { injection H as <- _. cbn [travelled fold_left]. rewrite comp_id_r. split; [exact Hn|]. split; [exact U|]. split; [reflexivity|]. intros t1 o1 Ho. discriminate Ho. }
  destruct (Rlt_dec (5 / 100) (t - odom_last (n_odom n))) as [H1|H1].
  - injection H as <- _. unfold travelled. cbn [fold_left]. rewrite comp_id_l. split; [|split; [apply step_unit; assumption|split; [reflexivity|]]].
    + intros s Hs. cbn [set_pf n_pf] in Hs. revert s Hs. apply (pall_predict P); [|exact Hn]. intros i s Hs. apply noise_free_predict; assumption.
    + intros t1 o1 Ho. cbn in Ho. injection Ho as _ <-. exact Uo.
  - injection H as <- _. cbn [travelled fold_left]. rewrite comp_id_r. split; [exact Hn|]. split; [exact U|]. split; [reflexivity|].
    intros t1 o1 Ho. cbn in Ho. injection Ho as _ <-. exact Ha.
Qed.
Lemma imu_at P n t a q tf n' b : imu_apply p n t a q tf = (n', b) -> all_at n P -> all_at n' P /\ odom_ref n' = odom_ref n.
Proof.
  intros H Hn. split; [|apply imu_apply_frame in H; unfold odom_ref; replace (n_odom n') with (n_odom n) by (symmetry; tauto); reflexivity].
  revert H. unfold imu_apply. repeat match goal with |- (if ?c then _ else _) = _ -> _ => destruct c end; try destruct tf; intro H; injection H as <- _; try exact Hn.
  intros s Hs. cbn [set_pf n_pf] in Hs. revert s Hs. apply pall_measure. exact Hn.
Qed.

(** one event *)
Lemma event_at P n ev n' o : no_noise p -> fake_odom p = false -> passive p ev -> unit_quat (snd P) -> ref_unit n -> all_at n P ->
  step caster voxel p n ev = Ok (n', o) ->
  let Q := comp_pose P (travelled (applied (odom_ref n) (odom_msgs [ev]))) in
  all_at n' Q /\ unit_quat (snd Q) /\ odom_ref n' = reference (odom_ref n) (odom_msgs [ev]) /\ ref_unit n'
  /\ forall t l, In (OParticles t l) o -> Forall (fun x => x = Q) l.
Proof.
  intros Hz Hfo Hp U Hr Hn H.
  assert (Same : (forall fr t x lk, ev <> EOdom fr t x lk) -> odom_ref n' = odom_ref n -> all_at n' P -> (forall t l, In (OParticles t l) o -> Forall (fun x => x = P) l) ->
    let Q := comp_pose P (travelled (applied (odom_ref n) (odom_msgs [ev]))) in
    all_at n' Q /\ unit_quat (snd Q) /\ odom_ref n' = reference (odom_ref n) (odom_msgs [ev]) /\ ref_unit n' /\ forall t l, In (OParticles t l) o -> Forall (fun x => x = Q) l).
  { intros Hne Ho Ha Hpub. assert (Em : odom_msgs [ev] = []) by (destruct ev; try reflexivity; exfalso; eapply Hne; reflexivity).
    cbv zeta. rewrite Em. cbn [applied reference travelled fold_left]. rewrite comp_id_r. split; [exact Ha|]. split; [exact U|]. split; [exact Ho|]. split; [|exact Hpub].
    unfold ref_unit. rewrite Ho. exact Hr. }
  assert (Pub : forall (m : node) now t l, all_at m P -> publishParticles p m now = OParticles t l -> Forall (fun x => x = P) l).
  { intros m now t l Hm Hl. unfold publishParticles in Hl. injection Hl as _ <-. apply Forall_map, Forall_forall. intros q Hq.
    destruct (Hm (PfModel.st RA q) (in_map _ _ _ Hq)) as (B1 & _). rewrite <- B1 in U |- *. unfold pose_of in *. cbn [snd] in U. rewrite normalized_unit by exact U. reflexivity. }
  assert (T : forall (m : node) now m' om, cbMapUpdateTimer m now = Ok (m', om) -> n_pf m' = n_pf m /\ odom_ref m' = odom_ref m /\ forall t l, ~ In (OParticles t l) om).
  { intros m now m' om Q. pose proof Q as Q'. apply timer_out in Q. destruct Q as (_ & Q2 & Q3). split; [exact Q2|]. split.
    - unfold cbMapUpdateTimer in Q'. bok Q'. destruct x. injection Q' as <- _. reflexivity.
    - intros t l Hi. destruct (Q3 _ Hi) as (c & Hc). discriminate. }
  destruct ev; cbn [step passive] in H, Hp.
  - apply Same; [discriminate| | |]; unfold cbMapcloud in H; (destruct conv; [unfold loadMapCloud in H; apply T in H; destruct H as (H1 & H2 & H3)|injection H as <- <-]).
    + rewrite H2. reflexivity.
    + reflexivity.
    + eapply all_at_pf; [exact H1|exact Hn].
    + exact Hn.
    + intros tq lq Hi. destruct (H3 _ _ Hi).
    + intros tq lq [].
  - apply Same; [discriminate| | |]; unfold cbLoadPCD in H; (destruct file; [bok H; destruct x as [n0 oo]; injection H as <- <-; unfold loadMapCloud in E; apply T in E; destruct E as (H1 & H2 & H3)|injection H as <- <-]).
    + rewrite H2. reflexivity.
    + reflexivity.
    + eapply all_at_pf; [exact H1|exact Hn].
    + exact Hn.
    + intros tq lq Hi. apply in_app_or in Hi. destruct Hi as [Hi|[Hi|[]]]; [destruct (H3 _ _ Hi)|discriminate].
    + intros tq lq [Hi|[]]. discriminate.
  - unfold cbMapcloudUpdate in H. apply Same; [discriminate| | |]; (destruct conv; injection H as <- <-); try reflexivity; try exact Hn; intros tq lq [].
  - apply T in H. destruct H as (H1 & H2 & H3). apply Same; [discriminate|exact H2|eapply all_at_pf; [exact H1|exact Hn]|intros tq lq Hi; destruct (H3 _ _ Hi)].
  - assert (E : n' = n /\ o = []).
    { unfold cbPosition in H. unfold pose_accepted in Hp. destruct (Rltb (1 / 10) _); [injection H as <- <-; auto|]. cbn [negb andb] in Hp.
      unfold pose_in_map in H. destruct (lk (frame_map p) (pm_frame m) (pm_stamp m)); [discriminate|]. cbn [option_map] in H. injection H as <- <-. auto. }
    destruct E as [-> ->]. apply Same; [discriminate|reflexivity|exact Hn|intros tq lq []].
  - unfold cbOdom in H. destruct (odom_apply p n stamp pose) as [q1 go] eqn:Eo. apply (odom_at P) in Eo; try assumption. cbv zeta in *. cbn [odom_msgs flat_map app].
    destruct Eo as (A1 & A2 & A3 & A4). destruct (go && fake_imu p).
    + destruct (imu_apply p q1 stamp _ (rot pose) (imu_tf p lk frame)) as [q2 go2] eqn:Ei. apply (imu_at _ _ _ _ _ _ _ _ Ei) in A1. destruct A1 as [B1 B2].
      destruct (go2 && fake_odom p); [discriminate|]. injection H as <- <-. split; [exact B1|]. split; [exact A2|]. split; [rewrite B2; exact A3|]. split; [unfold ref_unit; rewrite B2; exact A4|intros tq lq []].
    + injection H as <- <-. split; [exact A1|]. split; [exact A2|]. split; [exact A3|]. split; [exact A4|intros tq lq []].
  - unfold cbImu in H. destruct (imu_apply p n stamp acc orient (imu_tf p lk frame)) as [q1 go] eqn:Ei. apply (imu_at P) in Ei; [|exact Hn]. rewrite Hfo, andb_comm in H. cbn [andb] in H.
    injection H as <- <-. destruct Ei as [A1 A2]. apply Same; [discriminate|exact A2|exact A1|intros tq lq []].
  - destruct (existsb is_pose o) eqn:Ep.
    + assert (Hi : exists t x c, In (OPose t x c) o) by (apply existsb_exists in Ep; destruct Ep as (y & Hy & Ey); destruct y; try discriminate; eauto).
      destruct Hi as (t & x & c & Hi). destruct Hp as [Hs1 Hs2].
      destruct (pose_localizes caster voxel p _ _ _ _ _ _ _ _ H Hi) as (n1 & h & pc & os & n2 & bp & lp & n3 & M1 & M2 & M3 & M4 & M5 & M6 & M7 & M8 & M9 & M10 & M11 & M12 & M13).
      destruct (localize_at caster p Hz P _ _ _ _ _ _ _ _ _ U Hs1 Hs2 M4) as [L1 L2]; [eapply all_at_pf; [exact M9|exact Hn]|].
      apply Same; [discriminate| |eapply all_at_pf; [exact M5|exact L1]|exact L2].
      pose proof (localize_frame _ _ _ _ _ _ _ _ _ _ _ M4) as (_ & _ & F3 & _). unfold odom_ref. rewrite M8, F3, M10. reflexivity.
    + pose proof H as H'. apply cloud_quiet in H; [|apply no_pose_existsb; exact Ep]. destruct H as (_ & H & _).
      assert (Q : n_odom n' = n_odom n /\ forall t l, ~ In (OParticles t l) o).
      { clear - H' Ep. unfold cbCloud in H'. destruct (has_map (n_map n)); [|injection H' as <- <-; split; [reflexivity|intros tq lq []]].
        bok H'. destruct x as [a cs]. bok H'. destruct x as [n5 o5]. injection H' as <- <-. cbn [set_acc n_odom].
        pose proof (push_calls_once _ _ _ _ _ E) as Hc. destruct (nproc cs) as [|[|k]] eqn:En; [|clear Hc|lia].
        { apply callbacks_none in E0; [|exact En]. destruct E0 as (_ & _ & E0 & _ & _ & _ & ->). split; [exact E0|intros tq lq []]. }
        destruct (callbacks_one _ _ _ _ _ _ _ _ En E0) as (na & nb & B0 & B1 & B2 & B3 & B4 & B5 & B6 & B7 & B8 & B9 & B10 & B11 & B12 & B13).
        rewrite B10. change (n_odom (set_stat n status0)) with (n_odom n) in B3. rewrite <- B3. clear - B7 Ep. unfold measure in B7. bok B7. destruct x as [n0 go]. apply gate_ok in E. destruct E as (_ & _ & G3 & _).
        destruct go; cbn [negb] in B7; [|injection B7 as <- <-; split; [exact G3|intros tq lq []]]. bok B7. destruct x as [n1 ready]. apply prepare_ok in E. destruct E as (_ & P2 & _).
        destruct ready as [[[h pc] os]|]; [|injection B7 as <- <-; split; [congruence|intros tq lq []]]. bok B7. clear E x.
        destruct (filters p n1 e (voxel (ds_x p, ds_y p, ds_z p) pc)) as [[n2 bp] lp] eqn:E2. apply filters_ok in E2. destruct E2 as (_ & _ & F3 & _).
        destruct lp as [|l0 lp].
        - unfold force_update in B7. injection B7 as <- <-. split; [cbn; congruence|]. intros tq lq [A|[]]. discriminate.
        - exfalso. destruct (localize_parts _ _ _ _ _ _ _ _ _ _ _ B7) as (cl & s1 & res & est0 & est' & c0 & o1 & o2 & f4 & k & A1 & A2 & A3 & (A4 & A5 & A6) & _).
          rewrite A5 in Ep. rewrite !existsb_app in Ep. cbn in Ep. rewrite !orb_true_r in Ep. discriminate. }
      destruct Q as [Q1 Q2]. apply Same; [discriminate|unfold odom_ref; rewrite Q1; reflexivity|eapply all_at_pf; [exact H|exact Hn]|intros tq lq Hi; destruct (Q2 _ _ Hi)].
  - unfold cbLandmark in H. bok H. apply of_option_ok in E. injection H as <- <-.
    assert (A : all_at (set_pf n x) P). { intros s Hs. cbn [set_pf n_pf] in Hs. revert s Hs. change (pall P x). eapply pall_resample; [exact Hz|exact U|exact Hp|exact E|]. apply pall_measure. exact Hn. }
    apply Same; [discriminate|reflexivity|exact A|]. intros tq lq [Hi|[]]. eapply Pub; [exact A|exact Hi].
  - unfold cbResizeParticle in H. bok H. apply of_option_ok in E. injection H as <- <-.
    assert (A : all_at (set_pf n x) P). { intros s Hs. cbn [set_pf n_pf] in Hs. revert s Hs. change (pall P x). eapply pall_resize; [exact Hp|exact E|exact Hn]. }
    apply Same; [discriminate|reflexivity|exact A|]. intros tq lq [Hi|[Hi|[]]]; [|discriminate]. eapply Pub; [exact A|exact Hi].
  - unfold cbExpansionReset in H. injection H as <- <-.
    assert (A : all_at (set_pf n (PfModel.add_noise RA splus (expansion_noise p z) (n_pf n))) P).
    { intros s Hs. cbn [set_pf n_pf] in Hs. revert s Hs. apply pall_noise; [exact Hz|exact Hn]. }
    apply Same; [discriminate|reflexivity|exact A|]. intros tq lq [Hi|[Hi|[]]]; [|discriminate]. eapply Pub; [exact A|exact Hi].
  - destruct Hp.
Qed.

(** C107: with no noise configured, whatever clouds, IMU data, landmarks, maps and service calls
    arrive, particles that stand at one pose P stay together: after every history they stand at P
    moved by exactly the odometry that was applied, and every published particle cloud shows
    that one pose. *)
Theorem C107_dead_reckoning evs n n' out P :
  no_noise p -> fake_odom p = false -> Forall (passive p) evs -> unit_quat (snd P) -> ref_unit n -> all_at n P ->
  run n evs = Ok (n', out) ->
  all_at n' (comp_pose P (travelled (applied (odom_ref n) (odom_msgs evs)))).
Proof.
  intros Hz Hf He U Hr Hn H.
  enough (G : forall evs n n' out P, Forall (passive p) evs -> unit_quat (snd P) -> ref_unit n -> all_at n P -> run n evs = Ok (n', out) ->
    all_at n' (comp_pose P (travelled (applied (odom_ref n) (odom_msgs evs))))) by (eapply G; eassumption).
  clear - Hz Hf. induction evs as [|ev r IH]; intros n n' out P He U Hr Hn H; cbn [steps] in H.
  - injection H as <- <-. cbn. unfold travelled. cbn [fold_left]. rewrite comp_id_r. exact Hn.
  - bok H. destruct x as [n1 o1]. bok H. destruct x as [n2 o2]. injection H as <- <-. inversion He as [|? ? He1 He2]; subst.
    destruct (event_at P n ev n1 o1 Hz Hf He1 U Hr Hn E) as (A1 & A2 & A3 & A4 & _). cbv zeta in *.
    specialize (IH n1 n2 o2 _ He2 A2 A4 A1 E0).
    assert (Em : odom_msgs (ev :: r) = odom_msgs [ev] ++ odom_msgs r) by (unfold odom_msgs; cbn [flat_map]; rewrite app_nil_r; reflexivity).
    rewrite Em, applied_app, travelled_app, <- comp_assoc, <- A3. exact IH.
Qed.
Theorem C107_published_particles evs n n1 o1 ev n' out P t l :
  no_noise p -> fake_odom p = false -> Forall (passive p) (evs ++ [ev]) -> unit_quat (snd P) -> ref_unit n -> all_at n P ->
  run n evs = Ok (n1, o1) -> step caster voxel p n1 ev = Ok (n', out) -> In (OParticles t l) out ->
  Forall (fun x => x = comp_pose P (travelled (applied (odom_ref n) (odom_msgs (evs ++ [ev]))))) l.
Proof.
  intros Hz Hf He U Hr Hn H H1 Hi.
  enough (G : forall evs n n1 o1 P, Forall (passive p) (evs ++ [ev]) -> unit_quat (snd P) -> ref_unit n -> all_at n P -> run n evs = Ok (n1, o1) ->
    step caster voxel p n1 ev = Ok (n', out) -> Forall (fun x => x = comp_pose P (travelled (applied (odom_ref n) (odom_msgs (evs ++ [ev]))))) l) by (eapply G; eassumption).
  clear - Hz Hf Hi. induction evs as [|e r IH]; intros n n1 o1 P He U Hr Hn H H1; cbn [steps app] in *.
  - injection H as <- <-. inversion He as [|? ? He1 _]; subst. destruct (event_at P n ev n' out Hz Hf He1 U Hr Hn H1) as (_ & _ & _ & _ & A). exact (A _ _ Hi).
  - bok H. destruct x as [n2 o2]. bok H. destruct x as [n3 o3]. injection H as <- <-. inversion He as [|? ? He1 He2]; subst.
    destruct (event_at P n e n2 o2 Hz Hf He1 U Hr Hn E) as (A1 & A2 & A3 & A4 & _). cbv zeta in *.
    specialize (IH n2 n3 o3 _ He2 A2 A4 A1 E0 H1).
    assert (Em : odom_msgs (e :: r ++ [ev]) = odom_msgs [e] ++ odom_msgs (r ++ [ev])) by (unfold odom_msgs; cbn [flat_map]; rewrite app_nil_r; reflexivity).
    rewrite Em, applied_app, travelled_app, <- comp_assoc, <- A3. exact IH.
Qed.
(** with an odometry stream without time jumps: moved from the reference to the last applied message *)
Theorem C107_without_time_jumps evs n n' out P t0 o0 :
  no_noise p -> fake_odom p = false -> Forall (passive p) evs -> unit_quat (snd P) -> all_at n P ->
  run n evs = Ok (n', out) -> odom_ref n = Some (t0, o0) -> unit_pose o0 -> continuous (t0, o0) (odom_msgs evs) ->
  exists tl ol, odom_ref n' = Some (tl, ol) /\ all_at n' (comp_pose P (comp_pose (inv_pose (pose_of o0)) (pose_of ol)))
    /\ forall t o, In (t, o) (odom_msgs evs) -> t - tl <= 5 / 100.
Proof.
  intros Hz Hf He U Hn H Hr Hu Hc.
  assert (Ru : ref_unit n) by (intros t o Ho; rewrite Hr in Ho; injection Ho as <- <-; exact Hu).
  assert (Rf : odom_ref n' = reference (odom_ref n) (odom_msgs evs)).
  { clear Hr Hc. revert n P Hn U Ru H. clear - Hz Hf He. revert out. revert He. induction evs as [|ev r IH]; intros He out n P Hn U Ru H; cbn [steps] in H; [injection H as <- <-; reflexivity|].
    bok H. destruct x as [n1 o1]. bok H. destruct x as [n2 o2]. injection H as <- <-. inversion He as [|? ? He1 He2]; subst.
    destruct (event_at P n ev n1 o1 Hz Hf He1 U Ru Hn E) as (A1 & A2 & A3 & A4 & _). cbv zeta in *.
    rewrite (IH He2 _ _ _ A1 A2 A4 E0), A3, <- reference_app. f_equal. unfold odom_msgs. cbn [flat_map]. rewrite app_nil_r. reflexivity. }
  pose proof (C107_dead_reckoning evs n n' out P Hz Hf He U Ru Hn H) as A. rewrite Hr in A, Rf.
  assert (Um : Forall (fun m => unit_pose (snd m)) (odom_msgs evs)).
  { clear - He. unfold odom_msgs. induction He as [|ev r H _ IH]; [constructor|]. cbn [flat_map]. destruct ev; try exact IH. constructor; [exact H|exact IH]. }
  assert (G : forall msgs t0 o0, continuous (t0, o0) msgs -> unit_pose o0 -> Forall (fun m => unit_pose (snd m)) msgs ->
    exists tl ol, reference (Some (t0, o0)) msgs = Some (tl, ol) /\ t0 <= tl
      /\ (forall t o, In (t, o) [(t0, o0)] \/ In (t, o) msgs -> t - tl <= 5 / 100)
      /\ travelled (applied (Some (t0, o0)) msgs) = comp_pose (inv_pose (pose_of o0)) (pose_of ol)).
  { clear. induction msgs as [|[t o] r IH]; intros t0 o0 Hc Hu Hm.
    - exists t0, o0. split; [reflexivity|]. split; [lra|]. split; [intros t o [[E|[]]|[]]; injection E as <- <-; lra|].
      cbn. rewrite comp_inv_l by exact Hu. reflexivity.
    - cbn [continuous fst] in Hc. destruct Hc as [Hc1 Hc2]. inversion Hm as [|? ? Hm1 Hm2]; subst. cbn [snd] in Hm1.
      cbn [reference applied]. destruct (Rlt_dec (t - t0) 0); [lra|]. destruct (Rlt_dec 5 (t - t0)); [lra|].
      destruct (Rlt_dec (5 / 100) (t - t0)) as [Hd|Hd].
      + destruct (IH t o Hc2 Hm1 Hm2) as (tl & ol & I1 & I2 & I3 & I4). exists tl, ol. split; [exact I1|]. split; [lra|]. split.
        * intros t' o' [[E|[]]|[E|E]]; [injection E as <- <-; lra|injection E as <- <-; lra|apply (I3 t' o'); right; exact E].
        * rewrite travelled_cons, I4. unfold travelled. cbn [fold_left]. rewrite comp_id_l, !comp_assoc. f_equal. rewrite <- (comp_assoc (pose_of o)), comp_inv_r, comp_id_l by exact Hm1. reflexivity.
      + destruct (IH t0 o0 Hc2 Hu Hm2) as (tl & ol & I1 & I2 & I3 & I4). exists tl, ol. split; [exact I1|]. split; [lra|]. split; [|exact I4].
        intros t' o' [E|[E|E]]; [apply (I3 t' o'); left; exact E|injection E as <- <-; lra|apply (I3 t' o'); right; exact E]. }
  destruct (G _ _ _ Hc Hu Um) as (tl & ol & G1 & _ & G3 & G4). exists tl, ol. rewrite Rf, G1, <- G4. split; [reflexivity|]. split; [exact A|]. intros t o Ho. apply (G3 t o). right. exact Ho.
Qed.
(** a localization step then computes exactly that pose (its rotation up to the sign of the
    quaternion; half turns excepted) and reports zero covariance *)
Theorem C107_exact_estimate n m e n' o t x c P :
  step caster voxel p n (ECloud m e) = Ok (n', o) -> In (OPose t x c) o -> all_at n P -> unit_quat (snd P) -> qw (snd P) <> 0 ->
  pos (state_prev (n_out n')) = fst P /\ (rot (state_prev (n_out n')) = snd P \/ rot (state_prev (n_out n')) = qopp (snd P))
  /\ ((0 < Z.of_nat (length (PfModel.parts RA (n_pf n))) <= num_particles p)%Z -> forall i j, (i < 6)%nat -> (j < 6)%nat -> c i j = 0).
Proof.
  intros H Hi Hn U W.
  destruct (pose_localizes caster voxel p _ _ _ _ _ _ _ _ H Hi) as (n1 & h & pc & os & n2 & bp & lp & n3 & M1 & M2 & M3 & M4 & M5 & M6 & M7 & M8 & M9 & M10 & M11 & M12 & M13).
  destruct (localize_parts _ _ _ _ _ _ _ _ _ _ _ M4) as (cl & s1 & res & est0 & est' & c' & o1 & o2 & f4 & k & A1 & A2 & A3 & (A4 & A5 & A6) & A7 & A8 & A9 & A10 & A11 & A12).
  assert (Ec : c = c').
  { rewrite A5 in Hi. apply in_app_or in Hi. destruct Hi as [Hi|Hi]; [destruct A8 as [(? & ? & ? & ->)| -> ]; [destruct Hi as [Hi|[]]; discriminate|destruct Hi]|].
    cbn [app] in Hi. destruct Hi as [Hi|Hi]; [injection Hi as _ _ <-; reflexivity|]. apply in_app_or in Hi. destruct Hi as [Hi|[Hi|[Hi|[]]]]; try discriminate.
    destruct (due p n2 e h); [destruct A9 as (? & ? & _ & -> & _); destruct Hi as [Hi|[]]; discriminate|destruct A9 as [-> _]; destruct Hi]. }
  subst c'. assert (Hn2 : all_at n2 P) by (eapply all_at_pf; [exact M9|exact Hn]).
  assert (Fp : pall P (posterior p n2 res)) by (apply pall_bias, pall_measure; exact Hn2).
  assert (F3 : pall P (jump_reset p n2 (normalize est0) (posterior p n2 res))).
  { unfold jump_reset. match goal with |- context [if ?b then _ else _] => destruct b end; [apply (pall_predict P); [intros i s Hs; exact Hs|]|]; exact Fp. }
  rewrite M6, A12. destruct (biased_same P _ _ Fp A3) as (B1 & B2 & B3). specialize (B2 U W). unfold normalize. cbn [pos rot].
  assert (Un : qnormalized (rot est0) = rot est0).
  { apply normalized_unit. destruct B2 as [-> | -> ]; [exact U|]. unfold unit_quat, qopp in *. destruct (snd P). cbn in *. lra. }
  rewrite Un. split; [exact B1|]. split; [exact B2|]. intros Hsz i j Hi' Hj.
  set (g := fun (s e : state) j => match cov_diff 1 s e j with Some x => x | None => 0 end).
  assert (Hce : forall s e j k, cov_el s e j k = g s e j * g s e k).
  { intros s e' j' k'. unfold cov_el, covElement, g. destruct (cov_diff 1 s e' j') as [a|], (cov_diff 1 s e' k') as [b|]; change (F RA) with R in *; try ring. }
  destruct (PfCov.covariance_value0 cov_el g Hce _ _ _ _ _ _ _ A4) as (em & qs & C1 & C2 & C3). rewrite (C3 i j Hi' Hj).
  destruct (expect_same P _ _ F3 C1) as [(D1 & D2 & D3) _]. specialize (D2 U W).
  assert (Hg : forall q, In q qs -> forall a, g (PfModel.st RA q) em a = 0).
  { intros q Hq a. assert (Hin : In q (PfModel.parts RA (jump_reset p n2 (normalize est0) (posterior p n2 res)))).
    { clear - C2 Hq. revert Hq. induction C2 as [|y z l l' Hy _ IH]; [intros []|]. intros [<-|Hq]; [eapply nth_error_In; exact Hy|exact (IH Hq)]. }
    destruct (F3 (PfModel.st RA q) (in_map _ _ _ Hin)) as (E1 & _ & E3). unfold g, cov_diff. rewrite D1.
    assert (Ea : angles (PfModel.st RA q) = angles em).
    { unfold angles. rewrite E3, D3. replace (rot (PfModel.st RA q)) with (snd P) by (rewrite <- E1; reflexivity). destruct D2 as [-> | -> ]; [reflexivity|symmetry; apply getRPY_opp]. }
    rewrite Ea. replace (pos (PfModel.st RA q)) with (fst P) by (rewrite <- E1; reflexivity).
    destruct (a <? 3)%nat; [ring|]. rewrite Rminus_diag_eq by reflexivity. pose proof PI_RGT_0. unfold wrap, wrap_down. rewrite (proj2 (Rltb_false PI 0)) by lra. unfold wrap_up. rewrite (proj2 (Rltb_false 0 (- PI))) by lra. reflexivity. }
  replace (map (fun q => PfModel.w RA q * g (PfModel.st RA q) em i * g (PfModel.st RA q) em j) qs) with (map (fun _ : PfModel.particle RA state => 0) qs).
  - assert (Z0 : PfSpec.Rsum (map (fun _ : PfModel.particle RA state => 0) qs) = 0) by (clear; induction qs as [|q qs IH]; [reflexivity|]; cbn [map]; unfold PfSpec.Rsum in *; cbn [fold_right]; rewrite IH; ring).
    rewrite Z0. unfold Rdiv. ring.
  - apply map_ext_in. intros q Hq. rewrite !(Hg q Hq). ring.
Qed.
(** the start: with zero initial spread all particles stand at the configured initial pose (its
    rotation passed through roll, pitch and yaw), *)
Theorem C107_start gen rc0 : initial_pose_std p = state_rpy v0 v0 ->
  let P := (pos (initial_pose p), setRPY (getRPY (rot (initial_pose p)))) in
  all_at (configure p gen rc0) P /\ unit_quat (snd P) /\ ref_unit (configure p gen rc0).
Proof.
  intros H P. split; [|split; [apply QuatProofs2.setRPY_unit|intros t o Ho; discriminate Ho]].
  intros s Hs. unfold configure in Hs. cbn [n_pf] in Hs. unfold PfSpec.poses, PfModel.init in Hs. cbn [PfModel.parts] in Hs.
  apply In_nth_error in Hs. destruct Hs as [i Hi]. rewrite nth_error_map, PfProofs.mapi_nth in Hi. destruct (nth_error _ i); [|discriminate]. injection Hi as <-.
  unfold diag_noise. rewrite H, zero_noise, noise_state_zero. cbn [fst PfModel.st]. split; [reflexivity|]. split; [repeat split|reflexivity].
Qed.
(** so a node started that way is, after every such history, at the initial pose moved by the odometry *)
Theorem C107_from_start evs gen rc0 n' out :
  no_noise p -> initial_pose_std p = state_rpy v0 v0 -> fake_odom p = false -> Forall (passive p) evs ->
  run (configure p gen rc0) evs = Ok (n', out) ->
  all_at n' (comp_pose (pos (initial_pose p), setRPY (getRPY (rot (initial_pose p)))) (travelled (applied None (odom_msgs evs)))).
Proof.
  intros Hz Hi Hf He H. destruct (C107_start gen rc0 Hi) as (A & B & C).
  exact (C107_dead_reckoning evs _ n' out _ Hz Hf He B C A H).
Qed.
End Track.
