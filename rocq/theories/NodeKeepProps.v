(** Property theorems C108: the true pose is not lost. *)
From Coq Require Import String Reals ZArith List Bool Arith Lia Lra Permutation.
From Verif Require PfModel FilterModel AccumModel PfSpec PfProofs PfProps NnProofs.
From Verif Require Import Arith KdModel QuatModel QuatSpec QuatProofs QuatProofs2 StateModel StateSpec StateProofs StateProps RayModel LidarModel NdModel ParamModel MatModel
  NodeModel NodeSpec NodeFrame NodeLocProofs NodeStepProofs NodeMapProofs NodeMapProps NodeMotionProps NodePostSpec NodePostProofs NodeHistProps NodePostProps NodeOutProps NodeTrackSpec NodeTrackProofs NodeTrackProps NodeKeepSpec NodeKeepProofs NodeKeepSens NodeKeepRun.
Import ListNotations.
Open Scope nat_scope.
Open Scope R_scope.
Open Scope list_scope.

Section KeepProps.
Context {S : Type} (caster : cloud -> (pt -> R -> search) -> raycaster S)
        (voxel : R * R * R -> list lpt -> list lpt) (p : params).
Notation node := (node (S := S)).
Implicit Types n : node.
Notation run n evs := (steps caster voxel p n evs).

Lemma predict_keeps tl ta o0 o dt P f : unit_pose o0 -> unit_pose o -> unit_quat (snd P) -> tracked P f ->
  tracked (comp_pose P (comp_pose (inv_pose (pose_of o0)) (pose_of o))) (PfModel.predict RA (fun _ => motion_predict (setOdoms tl ta o0 o dt)) f).
Proof.
  intros U0 U1 U. apply tracked_predict.
  - intros _ s Hs. exact (noise_free_predict tl ta o0 o dt P s U0 U1 U Hs).
  - intros _ s Hs. exact Hs.
  - intros _ _ s s' (A1 & A2 & A3 & A4) (B1 & B2 & B3 & B4) Hle. cbn [motion_predict err_lin]. rewrite A1, A3, B1, B3. set (m := setOdoms tl ta o0 o dt).
    assert (E : forall v, vscale (vadd v (vsub (vadd (vscale (rel_tr m) (1 + 0)) (V3 (0 * rel_ang m) 0 0)) (rel_tr m))) (1 - time_diff m / m_lin_tc m) = vscale v (1 - time_diff m / m_lin_tc m)).
    { intros [x y z]. destruct (rel_tr m) as [a b c]. unfold vscale, vadd, vsub. cbn [vx vy vz]. f_equal; ring. }
    rewrite !E.
    assert (N : forall v k, vnorm (vscale v k) = Rabs k * vnorm v).
    { intros v k. unfold vnorm, vdot, vscale. cbn [vx vy vz]. rewrite <- sqrt_Rsqr_abs. rewrite <- sqrt_mult; [f_equal; unfold Rsqr; ring|apply Rle_0_sqr|]. nra. }
    rewrite !N. apply Rmult_le_compat_l; [apply Rabs_pos|exact Hle].
Qed.
Lemma keep_odom P n t o n' b : odom_apply p n t o = (n', b) -> unit_pose o -> ref_unit n -> unit_quat (snd P) -> tracked P (n_pf n) ->
  let Q := comp_pose P (travelled (applied (odom_ref n) [(t, o)])) in
  tracked Q (n_pf n') /\ unit_quat (snd Q) /\ odom_ref n' = reference (odom_ref n) [(t, o)] /\ ref_unit n' /\ psize n' = psize n.
Proof.
  intros H Uo Ur U Hn. unfold ref_unit in *.
  assert (Ha : forall t0 o0, odom_ref n = Some (t0, o0) -> unit_pose o0) by exact Ur. clear Ur.
  assert (Er : odom_ref n = if has_odom (n_odom n) then Some (odom_last (n_odom n), odom_prev (n_odom n)) else None) by reflexivity.
  rewrite Er in Ha |- *. clear Er. unfold odom_apply in H.
  destruct (has_odom (n_odom n)) eqn:Eh; cbn [negb] in H; cbn [applied reference].
  2:{ injection H as <- _. cbn [travelled fold_left]. rewrite comp_id_r. split; [exact Hn|]. split; [exact U|]. split; [reflexivity|]. split; [|reflexivity].
      intros t1 o1 Ho. cbn in Ho. injection Ho as _ <-. exact Uo. }
  specialize (Ha _ _ eq_refl). unfold Rltb in H.
  destruct (Rlt_dec (t - odom_last (n_odom n)) 0) as [H0|H0]; cbn [orb] in H.
  { injection H as <- _. cbn [travelled fold_left]. rewrite comp_id_r. split; [exact Hn|]. split; [exact U|]. split; [reflexivity|]. split; [|reflexivity]. intros t1 o1 Ho. discriminate Ho. }
  destruct (Rlt_dec 5 (t - odom_last (n_odom n))) as [H5|H5].
  { injection H as <- _. cbn [travelled fold_left]. rewrite comp_id_r. split; [exact Hn|]. split; [exact U|]. split; [reflexivity|]. split; [|reflexivity]. intros t1 o1 Ho. discriminate Ho. }
  destruct (Rlt_dec (5 / 100) (t - odom_last (n_odom n))) as [H1|H1].
  - injection H as <- _. unfold travelled. cbn [fold_left]. rewrite comp_id_l. split; [|split; [apply step_unit; assumption|split; [reflexivity|split]]].
    + cbn [set_pf n_pf]. apply predict_keeps; assumption.
    + intros t1 o1 Ho. cbn in Ho. injection Ho as _ <-. exact Uo.
    + unfold psize. cbn [set_pf n_pf PfModel.predict PfModel.parts]. apply mapi_len.
  - injection H as <- _. cbn [travelled fold_left]. rewrite comp_id_r. split; [exact Hn|]. split; [exact U|]. split; [reflexivity|]. split; [|reflexivity].
    intros t1 o1 Ho. cbn in Ho. injection Ho as _ <-. exact Ha.
Qed.
Lemma keep_imu P n t a q tf n' b : acc_var p <> 0 -> unit_quat (snd P) ->
  (forall tfr, tf = Some tfr -> qrot tfr (vnormalized (v3 (FilterModel.v_out (FilterModel.input3 (f_acc (n_imu n)) (tup a))))) = qrot (QuatModel.inv (snd P)) (V3 0 0 1)) ->
  imu_apply p n t a q tf = (n', b) -> tracked P (n_pf n) -> tracked P (n_pf n') /\ odom_ref n' = odom_ref n /\ psize n' = psize n.
Proof.
  intros Hv U Ht H Hn. assert (Ho : odom_ref n' = odom_ref n) by (apply imu_apply_frame in H; unfold odom_ref; replace (n_odom n') with (n_odom n) by (symmetry; tauto); reflexivity).
  enough (G : tracked P (n_pf n') /\ psize n' = psize n) by tauto. clear Ho.
  revert H. unfold imu_apply. repeat match goal with |- (if ?c then _ else _) = _ -> _ => destruct c end; try destruct tf as [tfr|]; intro H; injection H as <- _; try (split; [exact Hn|reflexivity]).
  specialize (Ht _ eq_refl). split.
  - cbn [set_pf n_pf]. apply tracked_measure; [| |exact Hn].
    + intros i s _. unfold gravity_measure. left. apply nd_pos. exact Hv.
    + intros i s j s' _ Hs _ _. apply gravity_best; [exact Hv| |]; destruct (at_parts _ _ Hs) as [_ Er]; rewrite Er; assumption.
  - unfold psize. cbn [set_pf n_pf]. apply measure_len.
Qed.

Lemma at_process_lid e cs : forall n na, at_process voxel p caster e n cs = Ok (Some na) -> n_lid na = n_lid n.
Proof.
  induction cs as [|c cs IH]; intros n na H; [discriminate|]. destruct c as [|m ok|]; cbn [at_process] in H.
  - injection H as <-. reflexivity.
  - bok H. destruct x as [n1 o1]. apply callback_other in E; [|discriminate]. rewrite (IH _ _ H). tauto.
  - bok H. destruct x as [n1 o1]. apply callback_other in E; [|discriminate]. rewrite (IH _ _ H). tauto.
Qed.
Lemma mw_lid n m e n1 h pc os : measures_with voxel p caster n m e n1 h pc os -> n_lid n1 = n_lid n.
Proof.
  intro H. destruct H as [a cs na n0 _ _ H1 H2 H3]. apply at_process_lid in H1. apply gate_ok in H2. apply prepare_ok in H3.
  transitivity (n_lid n0); [tauto|]. transitivity (n_lid na); [tauto|]. exact H1.
Qed.

(** one event of a history that started with [configure] *)
Lemma keep_event evs0 gen rc0 o0 P n ev n' o : keep_settings p -> run (configure p gen rc0) evs0 = Ok (n, o0) -> truthful caster voxel p P n ev ->
  unit_quat (snd P) -> ref_unit n -> tracked P (n_pf n) -> (Z.of_nat (psize n) <= num_particles p)%Z -> step caster voxel p n ev = Ok (n', o) ->
  let Q := moved P n ev in
  tracked Q (n_pf n') /\ unit_quat (snd Q) /\ odom_ref n' = reference (odom_ref n) (odom_msgs [ev]) /\ ref_unit n' /\ psize n' = psize n
  /\ forall t l, In (OParticles t l) o -> In Q l.
Proof.
  intros Hk H0 Hp U Hr Hn Hsz H. unfold moved.
  assert (Kv : acc_var p <> 0 /\ fake_odom p = false /\ fake_imu p = false /\ Forall (fun v => v = 0) (resample_var p)) by (unfold keep_settings in Hk; tauto). destruct Kv as (Kv & Kfo & Kfi & Krv).
  assert (Same : (forall fr t x lk, ev <> EOdom fr t x lk) -> odom_ref n' = odom_ref n -> tracked P (n_pf n') -> psize n' = psize n -> (forall t l, In (OParticles t l) o -> In P l) ->
    let Q := comp_pose P (travelled (applied (odom_ref n) (odom_msgs [ev]))) in
    tracked Q (n_pf n') /\ unit_quat (snd Q) /\ odom_ref n' = reference (odom_ref n) (odom_msgs [ev]) /\ ref_unit n' /\ psize n' = psize n /\ forall t l, In (OParticles t l) o -> In Q l).
  { intros Hne Ho Ha Hz Hpub. assert (Em : odom_msgs [ev] = []) by (destruct ev; try reflexivity; exfalso; eapply Hne; reflexivity).
    cbv zeta. rewrite Em. cbn [applied reference travelled fold_left]. rewrite comp_id_r. split; [exact Ha|]. split; [exact U|]. split; [exact Ho|]. split; [|split; [exact Hz|exact Hpub]].
    unfold ref_unit. rewrite Ho. exact Hr. }
  assert (Same' : (forall fr t x lk, ev <> EOdom fr t x lk) -> odom_ref n' = odom_ref n -> n_pf n' = n_pf n -> (forall t l, ~ In (OParticles t l) o) ->
    let Q := comp_pose P (travelled (applied (odom_ref n) (odom_msgs [ev]))) in
    tracked Q (n_pf n') /\ unit_quat (snd Q) /\ odom_ref n' = reference (odom_ref n) (odom_msgs [ev]) /\ ref_unit n' /\ psize n' = psize n /\ forall t l, In (OParticles t l) o -> In Q l).
  { intros Hne Ho Ha Hpub. apply Same; [exact Hne|exact Ho|rewrite Ha; exact Hn|unfold psize; rewrite Ha; reflexivity|]. intros t l Hi. destruct (Hpub _ _ Hi). }
  assert (T : forall (m : node) now m' om, cbMapUpdateTimer m now = Ok (m', om) -> n_pf m' = n_pf m /\ odom_ref m' = odom_ref m /\ forall t l, ~ In (OParticles t l) om).
  { intros m now m' om Q. pose proof Q as Q'. apply timer_out in Q. destruct Q as (_ & Q2 & Q3). split; [exact Q2|]. split.
    - unfold cbMapUpdateTimer in Q'. bok Q'. destruct x. injection Q' as <- _. reflexivity.
    - intros t l Hi. destruct (Q3 _ Hi) as (c & Hc). discriminate. }
  destruct ev; cbn [step truthful] in H, Hp.
  - unfold cbMapcloud in H. destruct conv; [unfold loadMapCloud in H; apply T in H; destruct H as (H1 & H2 & H3)|injection H as <- <-]; apply Same'; try discriminate; try reflexivity; try assumption.
    intros tq lq [].
  - unfold cbLoadPCD in H. destruct file; [bok H; destruct x as [n1 oo]; injection H as <- <-; unfold loadMapCloud in E; apply T in E; destruct E as (H1 & H2 & H3)|injection H as <- <-]; apply Same'; try discriminate; try reflexivity; try assumption.
    + intros tq lq Hi. apply in_app_or in Hi. destruct Hi as [Hi|[Hi|[]]]; [exact (H3 _ _ Hi)|discriminate].
    + intros tq lq [Hi|[]]. discriminate.
  - unfold cbMapcloudUpdate in H. destruct conv; injection H as <- <-; apply Same'; try discriminate; try reflexivity; intros tq lq [].
  - apply T in H. destruct H as (H1 & H2 & H3). apply Same'; [discriminate|exact H2|exact H1|exact H3].
  - assert (E : n' = n /\ o = []).
    { unfold cbPosition in H. unfold pose_accepted in Hp. destruct (Rltb (1 / 10) _); [injection H as <- <-; auto|]. cbn [negb andb] in Hp.
      unfold pose_in_map in H. destruct (lk (frame_map p) (pm_frame m) (pm_stamp m)); [discriminate|]. cbn [option_map] in H. injection H as <- <-. auto. }
    destruct E as [-> ->]. apply Same'; try discriminate; try reflexivity. intros tq lq [].
  - unfold cbOdom in H. destruct (odom_apply p n stamp pose) as [q1 go] eqn:Eo. rewrite Kfi, andb_comm in H. cbn [andb] in H. injection H as <- <-.
    apply (keep_odom P) in Eo; try assumption. cbv zeta in *. cbn [odom_msgs flat_map app].
    destruct Eo as (A1 & A2 & A3 & A4 & A5). split; [exact A1|]. split; [exact A2|]. split; [exact A3|]. split; [exact A4|]. split; [exact A5|intros tq lq []].
  - unfold cbImu in H. destruct (imu_apply p n stamp acc orient (imu_tf p lk frame)) as [q1 go] eqn:Ei. apply (keep_imu P) in Ei; try assumption. rewrite Kfo, andb_comm in H. cbn [andb] in H.
    injection H as <- <-. destruct Ei as (A1 & A2 & A3). apply Same; [discriminate|exact A2|exact A1|exact A3|intros tq lq []].
  - destruct (existsb is_pose o) eqn:Ep.
    + assert (Hi : exists t x c, In (OPose t x c) o) by (apply existsb_exists in Ep; destruct Ep as (y & Hy & Ey); destruct y; try discriminate; eauto).
      destruct Hi as (t & x & c & Hi). destruct Hp as (Hp1 & Hp2 & Hp3 & Hp4 & Hp5).
      destruct (pose_localizes caster voxel p _ _ _ _ _ _ _ _ H Hi) as (n1 & h & pc & os & n2 & bp & lp & n3 & M1 & M2 & M3 & M4 & M5 & M6 & M7 & M8 & M9 & M10 & M11 & M12 & M13).
      assert (Hm : has_map (n_map n) = true) by (inversion M1; assumption).
      pose proof (inv_reach caster voxel p _ _ _ _ _ H0) as [I1 I2 I3 I4]. rewrite Hm in I1. symmetry in I1.
      destruct (I4 I1) as (l & cl & B1 & B2 & B3 & B4 & B5 & B6 & B7 & B8 & B9 & B10).
      assert (Hcl : map_cloud n = Ok cl) by (unfold map_cloud; rewrite B3; cbn; rewrite B4; reflexivity).
      assert (Hsr : forall q r, radiusSearch (setInputCloud (to_pts (cl_pts cl)) (configured_kdtree p)) q r 1 (e_search e q r)) by (intros q r; rewrite B6, <- B7; apply Hp1).
      destruct (Hp5 _ _ _ _ _ _ _ cl M1 M2 Hcl) as [F1 F2].
      assert (Sz2 : psize n2 = psize n) by (unfold psize; rewrite M9; reflexivity).
      assert (K2 : lid_kept p n2).
      { eapply lid_filters; [exact M2|]. apply lid_eq with (n := n); [eapply mw_lid; exact M1|]. eapply lid_run; [exact H0|apply lid_configure]. }
      destruct (keep_localize caster p P n2 e h os (voxel (ds_x p, ds_y p, ds_z p) pc) bp lp cl n3 o Hk U K2) as (L1 & L2 & L3); try assumption.
      * unfold map_cloud. rewrite M12. exact Hcl.
      * unfold good_offset. rewrite Sz2. exact Hp4.
      * rewrite Sz2. exact Hsz.
      * rewrite M9. exact Hn.
      * apply Same; [discriminate| |rewrite M5; exact L1|unfold psize at 1; rewrite M5; fold (psize n3); congruence|exact L3].
        pose proof (localize_frame _ _ _ _ _ _ _ _ _ _ _ M4) as (_ & _ & F3 & _). unfold odom_ref. rewrite M8, F3, M10. reflexivity.
    + pose proof H as H'. apply cloud_quiet in H; [|apply no_pose_existsb; exact Ep]. destruct H as (_ & H & _).
      assert (Q : n_odom n' = n_odom n /\ forall t l, ~ In (OParticles t l) o).
      { clear - H' Ep. unfold cbCloud in H'. destruct (has_map (n_map n)); [|injection H' as <- <-; split; [reflexivity|intros tq lq []]].
        bok H'. destruct x as [a cs]. bok H'. destruct x as [n5 o5]. injection H' as <- <-. cbn [set_acc n_odom].
        pose proof (push_calls_once _ _ _ _ _ E) as Hc. destruct (nproc cs) as [|[|k]] eqn:En; [|clear Hc|lia].
        { apply callbacks_none in E0; [|exact En]. destruct E0 as (_ & _ & E0 & _ & _ & _ & ->). split; [exact E0|intros tq lq []]. }
        destruct (callbacks_one _ _ _ _ _ _ _ _ En E0) as (na & nb & B0 & B1 & B2 & B3 & B4 & B5 & B6 & B7 & B8 & B9 & B10 & B11 & B12 & B13).
        rewrite B10. change (n_odom (set_stat n status0)) with (n_odom n) in B3. rewrite <- B3. clear - B7 Ep. unfold measure in B7. bok B7. destruct x as [n0 go]. apply gate_ok in E. destruct E as (_ & _ & G3 & _).
        destruct go; cbn [negb] in B7; [|injection B7 as <- <-; split; [exact G3|intros tq lq []]]. bok B7. destruct x as [n1 ready]. apply prepare_ok in E. destruct E as (_ & P2 & _).
        destruct ready as [[[h pc] os]|]; [|injection B7 as <- <-; split; [congruence|intros tq lq []]]. bok B7. clear E x.
        destruct (filters p n1 e (voxel (ds_x p, ds_y p, ds_z p) pc)) as [[n2 bp] lp] eqn:E2. apply filters_ok in E2. destruct E2 as (_ & _ & F3 & _).
        destruct lp as [|l0 lp].
        - unfold force_update in B7. injection B7 as <- <-. split; [cbn; congruence|]. intros tq lq [A|[]]. discriminate.
        - exfalso. destruct (localize_parts _ _ _ _ _ _ _ _ _ _ _ B7) as (cl & s1 & res & est0 & est' & c0 & o1 & o2 & f4 & k & A1 & A2 & A3 & (A4 & A5 & A6) & _).
          rewrite A5 in Ep. rewrite !existsb_app in Ep. cbn in Ep. rewrite !orb_true_r in Ep. discriminate. }
      destruct Q as [Q1 Q2]. apply Same'; [discriminate|unfold odom_ref; rewrite Q1; reflexivity|exact H|exact Q2].
  - unfold cbLandmark in H. bok H. apply of_option_ok in E. injection H as <- <-. destruct Hp as (Hp1 & Hp2 & Hp3 & Hp4 & Hp5).
    set (L := fun s => landmark_like (pm_cov m) inverse (diff6 (state_pr (pm_pos m) (pm_rot m)) s)) in *.
    assert (HL : forall s s', at_pose P s -> 0 <= L s' <= L s).
    { intros s s' Hs. subst P. exact (landmark_best (pm_cov m) inverse (pm_pos m, pm_rot m) s s' Hp2 Hp3 U Hs). }
    assert (T1 : tracked P (PfModel.measure RA (fun _ s => L s) (n_pf n))).
    { destruct Hn as (N1 & N2 & N3 & i0 & s0 & w0 & N4 & N5 & N6 & N7). apply tracked_measure; [intros i s _; apply (HL s0 s N6)|intros i s j s' _ Hs _ _; apply (HL s s' Hs)|].
      split; [exact N1|]. split; [exact N2|]. split; [exact N3|]. exists i0, s0, w0. auto. }
    assert (Ho : 0 < offset < / INR (length (PfModel.parts RA (PfModel.measure RA (fun _ s => L s) (n_pf n))))) by (rewrite measure_len; exact Hp5).
    destruct (tracked_resample p P offset z srt (PfModel.measure RA (fun _ s => L s) (n_pf n)) x Krv U Hp4 Ho E T1) as [T2 Len].
    rewrite measure_len in Len. apply Same; [discriminate|reflexivity|exact T2|exact Len|]. intros tq lq [Hi|[]]. unfold publishParticles in Hi. injection Hi as _ <-. cbn [set_pf n_pf].
    destruct T2 as (_ & _ & _ & i & s & w & D1 & _ & D3 & _). destruct (at_parts _ _ D3) as [Ep Er].
    replace P with (pos s, qnormalized (rot s)) by (rewrite Ep, Er, normalized_unit by exact U; destruct P; reflexivity).
    eapply parts_in; [exact D1|]. intros q ->. reflexivity.
  - destruct Hp.
  - destruct Hp.
  - destruct Hp.
Qed.

Lemma steps_snoc n evs n1 o1 ev n2 o2 : run n evs = Ok (n1, o1) -> step caster voxel p n1 ev = Ok (n2, o2) -> run n (evs ++ [ev]) = Ok (n2, o1 ++ o2).
Proof.
  revert n o1. induction evs as [|e r IH]; intros n o1 H H1; cbn [steps app] in *.
  - injection H as <- <-. rewrite H1. cbn [bind]. rewrite app_nil_r. reflexivity.
  - bok H. destruct x as [n3 o3]. bok H. destruct x as [n4 o4]. injection H as <- <-. rewrite E. cbn [bind]. rewrite (IH _ _ E0 H1). cbn [bind]. rewrite app_assoc. reflexivity.
Qed.
Lemma keep_run evs : forall evs0 gen rc0 o0 P n n' out, keep_settings p -> run (configure p gen rc0) evs0 = Ok (n, o0) -> truthful_run caster voxel p P n evs ->
  unit_quat (snd P) -> ref_unit n -> tracked P (n_pf n) -> (Z.of_nat (psize n) <= num_particles p)%Z -> run n evs = Ok (n', out) ->
  let Q := comp_pose P (travelled (applied (odom_ref n) (odom_msgs evs))) in
  tracked Q (n_pf n') /\ unit_quat (snd Q) /\ ref_unit n' /\ psize n' = psize n /\ odom_ref n' = reference (odom_ref n) (odom_msgs evs)
  /\ exists o', run (configure p gen rc0) (evs0 ++ evs) = Ok (n', o').
Proof.
  induction evs as [|ev r IH]; intros evs0 gen rc0 o0 P n n' out Hk H0 Ht U Hr Hn Hs H; cbn [steps] in H.
  - injection H as <- <-. cbn [odom_msgs flat_map applied reference]. unfold travelled. cbn [fold_left]. rewrite comp_id_r, app_nil_r. repeat (split; [assumption||reflexivity|]). exists o0. exact H0.
  - bok H. destruct x as [n1 o1]. bok H. destruct x as [n2 o2]. injection H as <- <-. cbn [truthful_run] in Ht. destruct Ht as [Ht1 Ht2]. specialize (Ht2 _ _ E).
    destruct (keep_event _ _ _ _ P n ev n1 o1 Hk H0 Ht1 U Hr Hn Hs E) as (A1 & A2 & A3 & A4 & A5 & _).
    pose proof (steps_snoc _ _ _ _ _ _ _ H0 E) as H0'. rewrite <- A5 in Hs.
    destruct (IH _ _ _ _ _ n1 n2 o2 Hk H0' Ht2 A2 A4 A1 Hs E0) as (B1 & B2 & B3 & B4 & B5 & B6). cbv zeta in *.
    assert (Em : odom_msgs (ev :: r) = odom_msgs [ev] ++ odom_msgs r) by (unfold odom_msgs; cbn [flat_map]; rewrite app_nil_r; reflexivity).
    assert (Eq : comp_pose P (travelled (applied (odom_ref n) (odom_msgs (ev :: r)))) = comp_pose (moved P n ev) (travelled (applied (odom_ref n1) (odom_msgs r)))).
    { unfold moved. rewrite Em, applied_app, travelled_app, <- comp_assoc, <- A3. reflexivity. }
    rewrite Eq. split; [exact B1|]. split; [exact B2|]. split; [exact B3|]. split; [congruence|]. split; [rewrite Em, reference_app, <- A3; exact B5|].
    rewrite <- app_assoc in B6. exact B6.
Qed.

(** C108: start from any state the node can be in in which one particle stands at the true pose P,
    with a largest weight and a smallest odometry error.  As long as every sensor message is
    truthful, some particle stands at the true pose - P moved by exactly the odometry that was applied -
    after every message, and has a largest weight. *)
Theorem C108_true_pose_is_kept evs0 gen rc0 o0 evs P n n' out :
  keep_settings p -> run (configure p gen rc0) evs0 = Ok (n, o0) -> unit_quat (snd P) -> ref_unit n ->
  tracked P (n_pf n) -> (Z.of_nat (psize n) <= num_particles p)%Z ->
  truthful_run caster voxel p P n evs -> run n evs = Ok (n', out) ->
  tracked (comp_pose P (travelled (applied (odom_ref n) (odom_msgs evs)))) (n_pf n') /\ psize n' = psize n.
Proof. intros Hk H0 U Hr Hn Hs Ht H. destruct (keep_run _ _ _ _ _ _ _ _ _ Hk H0 Ht U Hr Hn Hs H) as (A & _ & _ & B & _). split; assumption. Qed.
(** every published particle cloud then contains exactly this pose *)
Theorem C108_published_particles evs0 gen rc0 o0 evs ev P n n1 o1 n' out t l :
  keep_settings p -> run (configure p gen rc0) evs0 = Ok (n, o0) -> unit_quat (snd P) -> ref_unit n ->
  tracked P (n_pf n) -> (Z.of_nat (psize n) <= num_particles p)%Z ->
  truthful_run caster voxel p P n (evs ++ [ev]) -> run n evs = Ok (n1, o1) -> step caster voxel p n1 ev = Ok (n', out) -> In (OParticles t l) out ->
  In (comp_pose P (travelled (applied (odom_ref n) (odom_msgs (evs ++ [ev]))))) l.
Proof.
  intros Hk H0 U Hr Hn Hs Ht H H1 Hi.
  assert (G : forall evs P n, truthful_run caster voxel p P n (evs ++ [ev]) -> forall n1 o1, run n evs = Ok (n1, o1) -> odom_ref n1 = reference (odom_ref n) (odom_msgs evs) ->
    (forall k a b, (k <= length evs)%nat -> run n (firstn k evs) = Ok (a, b) -> odom_ref a = reference (odom_ref n) (odom_msgs (firstn k evs))) ->
    truthful_run caster voxel p P n evs /\ truthful caster voxel p (comp_pose P (travelled (applied (odom_ref n) (odom_msgs evs)))) n1 ev).
  { clear. induction evs as [|e r IH]; intros P n Ht n1 o1 H Hr Hp; cbn [app truthful_run steps] in *.
    - injection H as <- <-. cbn [odom_msgs flat_map applied]. unfold travelled. cbn [fold_left]. rewrite comp_id_r. split; [exact I|tauto].
    - destruct Ht as [Ht1 Ht2]. bok H. destruct x as [n2 o2]. bok H. destruct x as [n3 o3]. injection H as <- <-. 
      assert (R1 : odom_ref n2 = reference (odom_ref n) (odom_msgs [e])).
      { apply (Hp 1%nat n2 (o2 ++ [])); [cbn; lia|]. cbn [firstn steps]. rewrite E. reflexivity. }
      assert (Em : forall l, odom_msgs (e :: l) = odom_msgs [e] ++ odom_msgs l) by (intro l; unfold odom_msgs; cbn [flat_map]; rewrite app_nil_r; reflexivity).
      destruct (IH (moved P n e) n2 (Ht2 _ _ E) n3 o3 E0) as [I1 I2].
      + rewrite R1, <- reference_app, <- Em. exact Hr.
      + intros k a b Hk Ha. rewrite R1, <- reference_app, <- Em. apply (Hp (Datatypes.S k) a (o2 ++ b)); [cbn; lia|]. cbn [firstn steps]. rewrite E. cbn [bind]. rewrite Ha. reflexivity.
      + split; [split; [exact Ht1|intros n' o' Hn'; rewrite E in Hn'; injection Hn' as <- <-; exact I1]|].
        rewrite Em, applied_app, travelled_app, <- comp_assoc, <- R1. exact I2. }
  assert (Rf : forall k a b, (k <= length evs)%nat -> run n (firstn k evs) = Ok (a, b) -> odom_ref a = reference (odom_ref n) (odom_msgs (firstn k evs))).
  { assert (Tk : forall evs P n k, truthful_run caster voxel p P n (evs ++ [ev]) -> truthful_run caster voxel p P n (firstn k evs)).
    { clear. induction evs as [|e r IH]; intros P n [|k] Ht; cbn [firstn truthful_run app] in *; auto. destruct Ht as [Ht1 Ht2]. split; [exact Ht1|]. intros n' o Hn'. apply IH. exact (Ht2 _ _ Hn'). }
    intros k a b _ Ha. destruct (keep_run _ _ _ _ _ _ _ _ _ Hk H0 (Tk _ _ _ k Ht) U Hr Hn Hs Ha) as (_ & _ & _ & _ & A & _). exact A. }
  assert (Rf1 : odom_ref n1 = reference (odom_ref n) (odom_msgs evs)).
  { pose proof (Rf (length evs) n1 o1 (Nat.le_refl _)) as A. rewrite firstn_all in A. exact (A H). }
  destruct (G evs P n Ht n1 o1 H Rf1 Rf) as [G1 G2].
  destruct (keep_run _ _ _ _ _ _ _ _ _ Hk H0 G1 U Hr Hn Hs H) as (B1 & B2 & B3 & B4 & B5 & (o' & B6)). cbv zeta in *. rewrite <- B4 in Hs.
  destruct (keep_event _ _ _ _ _ n1 ev n' out Hk B6 G2 B2 B3 B1 Hs H1) as (_ & _ & _ & _ & _ & A).
  assert (Em : odom_msgs (evs ++ [ev]) = odom_msgs evs ++ odom_msgs [ev]) by (unfold odom_msgs; rewrite flat_map_app; reflexivity).
  rewrite Em, applied_app, travelled_app, <- comp_assoc, <- Rf1. exact (A _ _ Hi).
Qed.
(** The start: a node one of whose particles was drawn without displacement stands at the configured
    initial pose (its rotation passed through roll, pitch and yaw), provided no other particle was
    drawn nearer to the origin of the map (the accumulated odometry error starts as the position). *)
Theorem C108_start gen rc0 i : (i < Z.to_nat (num_particles p))%nat -> (forall k, gen i k = 0) ->
  (forall s, In s (PfSpec.poses RA (n_pf (configure p gen rc0 : node))) -> vnorm (pos (initial_pose p)) <= vnorm (pos s)) ->
  let P := (pos (initial_pose p), setRPY (getRPY (rot (initial_pose p)))) in
  tracked P (n_pf (configure p gen rc0 : node)) /\ unit_quat (snd P) /\ ref_unit (configure p gen rc0 : node)
  /\ (Z.of_nat (psize (configure p gen rc0 : node)) <= num_particles p)%Z.
Proof.
  intros Hi Hg Hm P.
  assert (D : forall m sg, diag_noise m sg (gen i) = noise_state (set_mean m) (set_mean m)).
  { intros m sg. unfold diag_noise, generateNoise.
    assert (G : forall l sl z, (forall k, z k = 0) -> length l = length sl -> fst (diagonal next_normal l sl z) = l).
    { clear. induction l as [|a l IH]; intros [|b sl] z Hz Hl; try discriminate; [reflexivity|]. cbn [diagonal]. injection Hl as Hl. destruct (Req_EM_T b 0) as [_|_].
      - specialize (IH sl z Hz Hl). destruct (diagonal next_normal l sl z). cbn [fst] in *. rewrite IH. reflexivity.
      - cbn [next_normal]. specialize (IH sl (fun k => z (k + 1)%nat) (fun k => Hz _) Hl). destruct (diagonal next_normal l sl _). cbn [fst] in *. rewrite IH, Hz. f_equal. ring. }
    specialize (G (set_mean m) (set_sigma sg) (gen i) Hg eq_refl). destruct (diagonal next_normal _ _ _). cbn [fst] in *. rewrite G. reflexivity. }
  set (f := n_pf (configure p gen rc0 : node)) in *.
  set (N := Z.to_nat (num_particles p)) in *. assert (HN : 0 < INR N) by (apply lt_0_INR; lia).
  assert (Hn : forall j, nth_error (PfSpec.poses RA f) j = if (j <? N)%nat then Some (diag_noise (initial_pose p) (initial_pose_std p) (gen j)) else None).
  { intro j. unfold f, configure. cbn [n_pf]. unfold PfSpec.poses, PfModel.init. cbn [PfModel.parts]. rewrite nth_error_map, PfProofs.mapi_nth. unfold PfModel.new_filter. cbn [PfModel.parts].
    fold N. destruct (Nat.ltb_spec j N) as [L|L]; [rewrite nth_error_repeat by exact L; reflexivity|].
    rewrite (proj2 (nth_error_None _ _)) by (rewrite repeat_length; exact L). reflexivity. }
  assert (Hw : PfSpec.weights RA f = repeat (1 / INR N) N).
  { unfold f, configure. cbn [n_pf]. unfold PfSpec.weights, PfModel.init, PfModel.new_filter. cbn [PfModel.parts]. fold N. rewrite repeat_length.
    apply NnProofs.nth_error_ext. intro j. rewrite nth_error_map, PfProofs.mapi_nth. destruct (Nat.ltb_spec j N) as [L|L].
    - rewrite !nth_error_repeat by exact L. reflexivity.
    - rewrite !(proj2 (nth_error_None _ _)) by (rewrite repeat_length; exact L). reflexivity. }
  split; [|split; [apply QuatProofs2.setRPY_unit|split; [intros t o Ho; discriminate Ho|]]].
  - assert (Hl : 0 < 1 / INR N) by (apply Rdiv_lt_0_compat; lra). split; [|split; [|split]].
    + rewrite Hw, RsumLemmas.Rsum_repeat. field. lra.
    + rewrite Hw. apply Forall_forall. intros w H. apply repeat_spec in H. subst w. lra.
    + apply Forall_forall. intros s H. apply In_nth_error in H. destruct H as [j H]. rewrite Hn in H. destruct (j <? N)%nat; [|discriminate]. injection H as <-. apply diag_noise_free.
    + exists i, (diag_noise (initial_pose p) (initial_pose_std p) (gen i)), (1 / INR N).
      assert (Hi' : (i <? N)%nat = true) by (apply Nat.ltb_lt; exact Hi).
      split; [rewrite Hn, Hi'; reflexivity|]. split; [rewrite Hw; apply nth_error_repeat; exact Hi|]. split; [|split].
      * rewrite D, noise_state_zero. split; [reflexivity|]. split; [repeat split|reflexivity].
      * intros w' H. rewrite Hw in H. apply repeat_spec in H. subst w'. lra.
      * intros s' H. rewrite D, noise_state_zero. cbn [err_lin]. pose proof (Hm s' H) as H'.
        apply In_nth_error in H. destruct H as [j H]. rewrite Hn in H. destruct (j <? N)%nat; [|discriminate]. injection H as <-.
        unfold diag_noise in *. destruct (generateNoise next_normal (initial_pose p) (initial_pose_std p) (gen j)) as [s e] eqn:E. unfold generateNoise in E.
        destruct (diagonal _ _ _ _) as [org e']. injection E as <- _. exact H'.
  - unfold psize. assert (L : length (PfModel.parts RA f) = N). { apply (f_equal (@length _)) in Hw. unfold PfSpec.weights in Hw. rewrite map_length, repeat_length in Hw. exact Hw. }
    fold f. rewrite L. unfold N. destruct (num_particles p); cbn; try lia.
Qed.
End KeepProps.
