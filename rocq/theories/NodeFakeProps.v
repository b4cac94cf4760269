(** Property theorems C111: what the "fake" sensors do.  Everywhere the ray caster, the voxel
    filter, the parameters, the node and all inputs of the outside world are arbitrary. *)
From Coq Require Import String Reals ZArith List Bool Arith Lia Lra.
From Verif Require PfModel FilterModel AccumModel.
From Verif Require Import Arith KdModel QuatModel QuatSpec QuatProofs StateModel StateSpec RayModel LidarModel NdModel NdSpec NdProps ParamModel
  NodeModel NodeSpec NodeFrame NodeMapProofs NodeMotionProps.
Import ListNotations.
Open Scope R_scope.
Open Scope list_scope.

(** the same settings, but with real sensors *)
Definition real_sensors (p : params) : params :=
  {| fake_imu := false; fake_odom := false; frame_map := frame_map p; frame_base := frame_base p; frame_odom
     := frame_odom p; frame_floor := frame_floor p; map_ds_x := map_ds_x p; map_ds_y := map_ds_y p; map_ds_z
     := map_ds_z p; ds_x := ds_x p; ds_y := ds_y p; ds_z := ds_z p; upd_ds_x := upd_ds_x p; upd_ds_y :=
     upd_ds_y p; upd_ds_z := upd_ds_z p; map_grid_min := map_grid_min p; map_grid_max := map_grid_max p;
     map_update_interval := map_update_interval p; dist_weight := dist_weight p; glob_grid := glob_grid p;
     glob_div_yaw := glob_div_yaw p; num_particles := num_particles p; resample_var := resample_var p;
     expansion_var := expansion_var p; match_ratio_thresh := match_ratio_thresh p; odom_err_ll := odom_err_ll
     p; odom_err_la := odom_err_la p; odom_err_al := odom_err_al p; odom_err_aa := odom_err_aa p; integ_lin_tc
     := integ_lin_tc p; integ_lin_sigma := integ_lin_sigma p; integ_ang_tc := integ_ang_tc p; integ_ang_sigma
     := integ_ang_sigma p; lpf_step := lpf_step p; acc_lpf_step := acc_lpf_step p; acc_var := acc_var p;
     jump_dist := jump_dist p; jump_ang := jump_ang p; fix_dist := fix_dist p; fix_ang := fix_ang p;
     bias_var_dist := bias_var_dist p; bias_var_ang := bias_var_ang p; skip_measure := skip_measure p;
     accum_cloud := accum_cloud p; total_accum_max := total_accum_max p; match_output_interval :=
     match_output_interval p; tf_tolerance := tf_tolerance p; match_output_dist := match_output_dist p;
     unmatch_output_dist := unmatch_output_dist p; publish_tf := publish_tf p; output_pcd := output_pcd p;
     std_warn := std_warn p; map_chunk := map_chunk p; initial_pose := initial_pose p; initial_pose_std :=
     initial_pose_std p; use_sampler_normal := use_sampler_normal p; sampler_normal := sampler_normal p;
     p_like := p_like p; p_beam := p_beam p; use_dda := use_dda p; ray_angle_half := ray_angle_half p;
     dda_grid := dda_grid p |}.

Section FakeProps.
Context {S : Type} (caster : cloud -> (pt -> R -> search) -> raycaster S)
        (voxel : R * R * R -> list lpt -> list lpt) (p : params).
Notation node := (node (S := S)).
Implicit Types n : node.
Notation run q n evs := (steps caster voxel q n evs).

(** ** fake_imu *)
(** A history with every odometry message that does not (re)initialise the odometry followed by
    an IMU message with the same header and orientation, whose acceleration is the vertical
    rotated by that orientation.  [ref]: the last odometry message that was applied. *)
Fixpoint with_imu (ref : option stamped) (evs : list event) : list event :=
  match evs with
  | [] => []
  | EOdom fr t o lk :: r =>
      EOdom fr t o lk
      :: (match ref with
          | Some (t0, _) => if Rlt_dec (t - t0) 0 then [] else if Rlt_dec 5 (t - t0) then []
                            else [EImu fr t (qrot (rot o) (V3 0 0 1)) (rot o) lk]
          | None => []
          end) ++ with_imu (reference ref [(t, o)]) r
  | ev :: r => ev :: with_imu ref r
  end.
(** ** fake_odom *)
(** A history with every applied IMU message followed by an odometry message of the same time,
    with the position 0 and the orientation of the IMU, its axis turned into the robot's frame.
    [ref]: the time of the last IMU message that was applied. *)
Fixpoint with_odom (ref : option R) (evs : list event) : list event :=
  match evs with
  | [] => []
  | EImu fr t a q lk :: r =>
      match ref with
      | None => EImu fr t a q lk :: with_odom (Some t) r
      | Some t0 =>
          if Rlt_dec (t - t0) 0 then EImu fr t a q lk :: with_odom None r
          else if Rlt_dec 5 (t - t0) then EImu fr t a q lk :: with_odom None r
          else if Rlt_dec (5 / 100) (t - t0) then
            match lk (frame_base p) fr 0 with
            | None => EImu fr t a q lk :: with_odom (Some t0) r
            | Some (_, tr) =>
                EImu fr t a q lk
                :: EOdom (frame_base p) t (state_pr (V3 0 0 0) (let '(ax, an) := getAxisAng q in setAxisAng (qrot tr ax) an)) lk
                :: with_odom (Some t) r
            end
          else EImu fr t a q lk :: with_odom (Some t0) r
      end
  | ev :: r => ev :: with_odom ref r
  end.
Definition is_odom (ev : event) : bool := match ev with EOdom _ _ _ _ => true | _ => false end.
Definition is_imu (ev : event) : bool := match ev with EImu _ _ _ _ _ => true | _ => false end.
Lemma step_real n ev : is_odom ev = false -> is_imu ev = false -> step caster voxel (real_sensors p) n ev = step caster voxel p n ev.
Proof. destruct ev; intros A B; try discriminate; reflexivity. Qed.
Lemma step_keeps_sensors n ev n' o : step caster voxel p n ev = Ok (n', o) -> is_odom ev = false -> is_imu ev = false ->
  n_odom n' = n_odom n /\ n_imu n' = n_imu n.
Proof.
  intros H A B. destruct ev; try discriminate; try (apply service_frame in H; [tauto|exact I]); cbn [step] in H.
  - unfold cbMapcloud in H. destruct conv; [|injection H as <- _; split; reflexivity]. unfold loadMapCloud, cbMapUpdateTimer in H. bok H. destruct x. injection H as <- _. split; reflexivity.
  - unfold cbLoadPCD in H. destruct file; [|injection H as <- _; split; reflexivity]. bok H. destruct x as [n1 o1]. injection H as <- _.
    unfold loadMapCloud, cbMapUpdateTimer in E. bok E. destruct x. injection E as <- _. split; reflexivity.
  - unfold cbMapcloudUpdate in H. destruct conv; injection H as <- _; split; reflexivity.
  - unfold cbMapUpdateTimer in H. bok H. destruct x. injection H as <- _. split; reflexivity.
  - apply cbPosition_frame in H. tauto.
  - apply cbCloud_frame in H. tauto.
Qed.
Lemma cons_steps q n ev r : run q n (ev :: r) = (do (n1, o1) <- step caster voxel q n ev; do (n2, o2) <- run q n1 r; Ok (n2, o1 ++ o2)).
Proof. reflexivity. Qed.

Lemma odom_apply_ref n t o : snd (odom_apply p n t o) = match odom_ref n with
    | Some (t0, _) => if Rlt_dec (t - t0) 0 then false else if Rlt_dec 5 (t - t0) then false else true
    | None => false end
  /\ odom_ref (fst (odom_apply p n t o)) = reference (odom_ref n) [(t, o)].
Proof.
  unfold odom_apply, odom_ref. destruct (has_odom (n_odom n)); cbn [negb reference]; [|split; reflexivity].
  unfold Rltb. destruct (Rlt_dec (t - odom_last (n_odom n)) 0); [split; reflexivity|]. destruct (Rlt_dec 5 (t - odom_last (n_odom n))); [split; reflexivity|]. cbn [orb].
  destruct (Rlt_dec (5 / 100) (t - odom_last (n_odom n))); split; reflexivity.
Qed.
Lemma imu_apply_keeps_odom n t a q tf : odom_ref (fst (imu_apply p n t a q tf)) = odom_ref n.
Proof. destruct (imu_apply p n t a q tf) as [n1 b] eqn:E. apply imu_apply_frame in E. cbn. unfold odom_ref. destruct E as (_ & _ & -> & _). reflexivity. Qed.

(** C111: with fake_imu, every history does exactly what the same history does with a real IMU
    that sends these messages: same node, same published messages, same failures. *)
Theorem C111_fake_imu evs : fake_imu p = true -> fake_odom p = false -> forall n,
  run p n evs = run (real_sensors p) n (with_imu (odom_ref n) evs).
Proof.
  intros Hi Ho. induction evs as [|ev r IH]; intro n; [reflexivity|].
  destruct (is_odom ev) eqn:Eo; [|destruct (is_imu ev) eqn:Ei].
  - destruct ev; try discriminate. cbn [with_imu]. rewrite !cons_steps. cbn [step].
    unfold cbOdom at 1 2. rewrite Hi, Ho. cbn [fake_imu real_sensors]. change (odom_apply (real_sensors p) n stamp pose) with (odom_apply p n stamp pose).
    destruct (odom_apply_ref n stamp pose) as [A B]. destruct (odom_apply p n stamp pose) as [n1 go]. cbn [fst snd] in A, B.
    rewrite andb_true_r, andb_false_r. cbn [bind]. rewrite <- B.
    destruct (odom_ref n) as [[t0 o0]|]; [|subst go; cbn [bind]; rewrite IH; reflexivity].
    destruct (Rlt_dec (stamp - t0) 0); [subst go; cbn [bind]; rewrite IH; reflexivity|].
    destruct (Rlt_dec 5 (stamp - t0)); subst go; [cbn [bind]; rewrite IH; reflexivity|].
    cbn [app]. rewrite cons_steps. cbn [step]. unfold cbImu. cbn [fake_odom real_sensors].
    change (imu_apply (real_sensors p) n1 stamp (qrot (rot pose) (V3 0 0 1)) (rot pose) (imu_tf (real_sensors p) lk frame))
      with (imu_apply p n1 stamp (qrot (rot pose) (V3 0 0 1)) (rot pose) (imu_tf p lk frame)).
    pose proof (imu_apply_keeps_odom n1 stamp (qrot (rot pose) (V3 0 0 1)) (rot pose) (imu_tf p lk frame)) as C.
    destruct (imu_apply p n1 stamp _ _ _) as [n9 go2]. cbn [fst] in C. rewrite andb_false_r. cbn [bind]. rewrite IH, C.
    destruct (steps caster voxel (real_sensors p) n9 _) as [[n3 o3]| | |]; reflexivity.
  - destruct ev; try discriminate. cbn [with_imu]. rewrite !cons_steps. cbn [step]. unfold cbImu. rewrite Ho. cbn [fake_odom real_sensors].
    change (imu_apply (real_sensors p) n stamp acc orient (imu_tf (real_sensors p) lk frame)) with (imu_apply p n stamp acc orient (imu_tf p lk frame)).
    pose proof (imu_apply_keeps_odom n stamp acc orient (imu_tf p lk frame)) as C.
    destruct (imu_apply p n stamp acc orient _) as [n1 go]. cbn [fst] in C. rewrite andb_false_r. cbn [bind]. rewrite IH, C. reflexivity.
  - replace (with_imu (odom_ref n) (ev :: r)) with (ev :: with_imu (odom_ref n) r) by (destruct ev; [reflexivity ..|discriminate| | | | | | ]; reflexivity).
    rewrite !cons_steps, step_real by assumption. destruct (step caster voxel p n ev) as [[n1 o1]| | |] eqn:Es; [|reflexivity ..].
    destruct (step_keeps_sensors _ _ _ _ Es Eo Ei) as [A _]. cbn [bind]. rewrite IH. unfold odom_ref at 1. rewrite A. reflexivity.
Qed.

Lemma odom_apply_keeps_imu n t o : imu_ref (fst (odom_apply p n t o)) = imu_ref n.
Proof. destruct (odom_apply p n t o) as [n1 b] eqn:E. apply odom_apply_frame in E. cbn. unfold imu_ref. destruct E as (_ & _ & -> & _). reflexivity. Qed.
(** C111: with fake_odom, every history does exactly what the same history does with real
    odometry that sends these messages. *)
Theorem C111_fake_odom evs : fake_odom p = true -> fake_imu p = false -> forall n,
  run p n evs = run (real_sensors p) n (with_odom (imu_ref n) evs).
Proof.
  intros Hi Ho. induction evs as [|ev r IH]; intro n; [reflexivity|].
  destruct (is_imu ev) eqn:Ei; [|destruct (is_odom ev) eqn:Eo].
  - destruct ev; try discriminate. rewrite cons_steps. cbn [step]. unfold cbImu. rewrite Hi, Ho.
    assert (G : forall n1 l, imu_apply p n stamp acc orient (imu_tf p lk frame) = (n1, false) -> with_odom (imu_ref n) (EImu frame stamp acc orient lk :: r) = EImu frame stamp acc orient lk :: l ->
      l = with_odom (imu_ref n1) r ->
      (let '(n2, go) := imu_apply p n stamp acc orient (imu_tf p lk frame) in
       bind (if go && true then let '(n3, go2) := odom_apply p n2 stamp (state_pr v0 (imu_quat (n_imu n2))) in if go2 && false then Undef else Ok (n3, []) else Ok (n2, []))
         (fun '(n2, o1) => bind (run p n2 r) (fun '(n3, o2) => Ok (n3, o1 ++ o2))))
      = run (real_sensors p) n (with_odom (imu_ref n) (EImu frame stamp acc orient lk :: r))).
    { intros n1 l A B C. rewrite A, B, C, cons_steps. cbn [step]. unfold cbImu. cbn [fake_odom real_sensors].
      change (imu_apply (real_sensors p) n stamp acc orient (imu_tf (real_sensors p) lk frame)) with (imu_apply p n stamp acc orient (imu_tf p lk frame)).
      rewrite A. cbn [andb bind]. rewrite IH. reflexivity. }
    assert (K : forall X (f : node * bool -> outcome X) g, (let '(n1, go) := imu_apply p n stamp acc orient (imu_tf p lk frame) in f (n1, go)) = g -> f (imu_apply p n stamp acc orient (imu_tf p lk frame)) = g).
    { intros X f g. destruct (imu_apply p n stamp acc orient (imu_tf p lk frame)). auto. } clear K.
    destruct (imu_apply p n stamp acc orient (imu_tf p lk frame)) as [n1 go] eqn:E. pose proof E as E1. unfold imu_apply in E1.
    destruct (has_imu (n_imu n)) eqn:Hh; cbn [negb] in E1.
    2:{ injection E1 as <- <-. eapply G; [reflexivity| |reflexivity]. cbn [with_odom]. unfold imu_ref. rewrite Hh. reflexivity. }
    unfold Rltb in E1.
    destruct (Rlt_dec (stamp - imu_last (n_imu n)) 0) as [r1|r1].
    { injection E1 as <- <-. eapply G; [reflexivity| |reflexivity]. cbn [with_odom]. unfold imu_ref. rewrite Hh. destruct (Rlt_dec (stamp - imu_last (n_imu n)) 0); [reflexivity|contradiction]. }
    destruct (Rlt_dec 5 (stamp - imu_last (n_imu n))) as [r2|r2]; cbn [orb] in E1.
    { injection E1 as <- <-. eapply G; [reflexivity| |reflexivity]. cbn [with_odom]. unfold imu_ref. rewrite Hh.
      destruct (Rlt_dec (stamp - imu_last (n_imu n)) 0); [contradiction|]. destruct (Rlt_dec 5 (stamp - imu_last (n_imu n))); [reflexivity|contradiction]. }
    destruct (Rlt_dec (5 / 100) (stamp - imu_last (n_imu n))) as [r3|r3].
    2:{ injection E1 as <- <-. eapply G; [reflexivity| |reflexivity]. cbn [with_odom]. unfold imu_ref. rewrite Hh. cbn [set_imu n_imu has_imu imu_last].
      destruct (Rlt_dec (stamp - imu_last (n_imu n)) 0); [contradiction|]. destruct (Rlt_dec 5 (stamp - imu_last (n_imu n))); [contradiction|].
      destruct (Rlt_dec (5 / 100) (stamp - imu_last (n_imu n))); [contradiction|reflexivity]. }
    assert (W : with_odom (imu_ref n) (EImu frame stamp acc orient lk :: r) =
      match lk (frame_base p) frame 0 with
      | None => EImu frame stamp acc orient lk :: with_odom (Some (imu_last (n_imu n))) r
      | Some (_, tr) => EImu frame stamp acc orient lk :: EOdom (frame_base p) stamp (state_pr (V3 0 0 0) (let '(ax, an) := getAxisAng orient in setAxisAng (qrot tr ax) an)) lk :: with_odom (Some stamp) r
      end).
    { cbn [with_odom]. unfold imu_ref. rewrite Hh.
      destruct (Rlt_dec (stamp - imu_last (n_imu n)) 0); [contradiction|]. destruct (Rlt_dec 5 (stamp - imu_last (n_imu n))); [contradiction|].
      destruct (Rlt_dec (5 / 100) (stamp - imu_last (n_imu n))); [reflexivity|contradiction]. }
    unfold imu_tf in E1. destruct (lk (frame_base p) frame 0) as [[tt tr]|] eqn:El; cbn [option_map snd] in E1.
    2:{ injection E1 as <- <-. eapply G; [reflexivity|exact W|]. unfold imu_ref. reflexivity. }
    apply pair_equal_spec in E1. destruct E1 as [E1 <-]. cbn [andb bind]. rewrite W, !cons_steps. cbn [step]. unfold cbImu, cbOdom. cbn [fake_odom fake_imu real_sensors].
    change (imu_apply (real_sensors p) n stamp acc orient (imu_tf (real_sensors p) lk frame)) with (imu_apply p n stamp acc orient (imu_tf p lk frame)).
    rewrite E. cbn [andb bind]. rewrite cons_steps. cbn [step]. unfold cbOdom. cbn [fake_imu real_sensors].
    assert (Q : imu_quat (n_imu n1) = (let '(ax, an) := getAxisAng orient in setAxisAng (qrot tr ax) an) /\ imu_ref n1 = Some stamp) by (rewrite <- E1; split; reflexivity).
    destruct Q as [Q1 Q2]. rewrite Q1. change v0 with (V3 0 0 0).
    set (s := state_pr (V3 0 0 0) _). change (odom_apply (real_sensors p) n1 stamp s) with (odom_apply p n1 stamp s).
    pose proof (odom_apply_keeps_imu n1 stamp s) as C. destruct (odom_apply p n1 stamp s) as [n2 go2]. cbn [fst] in C.
    rewrite !andb_false_r. cbn [bind]. rewrite IH, C, Q2. destruct (run (real_sensors p) n2 _) as [[n3 o3]| | |]; reflexivity.
  - destruct ev; try discriminate. cbn [with_odom]. rewrite !cons_steps. cbn [step]. unfold cbOdom. rewrite Ho. cbn [fake_imu real_sensors].
    change (odom_apply (real_sensors p) n stamp pose) with (odom_apply p n stamp pose).
    pose proof (odom_apply_keeps_imu n stamp pose) as C.
    destruct (odom_apply p n stamp pose) as [n1 go]. cbn [fst] in C. rewrite andb_false_r. cbn [bind]. rewrite IH, C. reflexivity.
  - replace (with_odom (imu_ref n) (ev :: r)) with (ev :: with_odom (imu_ref n) r) by (destruct ev; first [reflexivity|discriminate]).
    rewrite !cons_steps, step_real by assumption. destruct (step caster voxel p n ev) as [[n1 o1]| | |] eqn:Es; [|reflexivity ..].
    destruct (step_keeps_sensors _ _ _ _ Es Eo Ei) as [_ A]. cbn [bind]. rewrite IH. unfold imu_ref at 1. rewrite A. reflexivity.
Qed.
End FakeProps.

(** C111: the acceleration of the faked IMU message is that of the opposite attitude: a robot
    that is tilted as the odometry says feels the vertical rotated by the inverse of its
    orientation, not by the orientation.  Scored against the faked message, a particle with the
    attitude of the odometry loses against one that is tilted the opposite way. *)
Theorem C111_fake_acceleration_refuted acc_var q s s' : acc_var <> 0 -> unit_quat q ->
  qrot q (V3 0 0 1) <> qrot (QuatModel.inv q) (V3 0 0 1) -> rot s = q -> rot s' = QuatModel.inv q ->
  let g := gravity_set (gravity_new acc_var) (qrot q (V3 0 0 1)) in
  gravity_measure g s < gravity_measure g s'.
Proof.
  intros Hv U Hne Hs Hs' g.
  assert (Ui : unit_quat (QuatModel.inv q)) by (apply unit_inv; exact U).
  assert (Ea : forall r, unit_quat r -> gravity_arg g {| pos := v0; rot := r; diff := diff s; noise_ll := 0; noise_la := 0; noise_al := 0; noise_aa := 0; err_lin := v0; err_ang := v0; rpy := rpy s |}
     = vdot (qrot (QuatModel.inv r) (V3 0 0 1)) (qrot q (V3 0 0 1))).
  { intros r Ur. unfold gravity_arg, g. cbn [gr_acc gr_norm gravity_set rot]. rewrite up_norm by exact Ur.
    replace (vnorm (qrot q (V3 0 0 1))) with 1; [unfold Rdiv; rewrite Rmult_1_l, Rinv_1; ring|].
    rewrite qrot_norm by exact U. unfold vnorm, vdot. cbn [vx vy vz]. replace (0 * 0 + 0 * 0 + 1 * 1) with 1 by ring. symmetry. apply sqrt_1. }
  assert (Eg : forall x, unit_quat (rot x) -> gravity_measure g x = gauss acc_var (acos (vdot (qrot (QuatModel.inv (rot x)) (V3 0 0 1)) (qrot q (V3 0 0 1))))).
  { intros x Ux. unfold gravity_measure. rewrite <- (Ea _ Ux). unfold g at 1. cbn [gr_nd gravity_set gravity_new]. rewrite C69_density by exact Hv. reflexivity. }
  rewrite (Eg s), (Eg s') by congruence. rewrite Hs, Hs'. 
  assert (D1 : vdot (qrot q (V3 0 0 1)) (qrot q (V3 0 0 1)) = 1) by (rewrite qrot_dot by exact U; unfold vdot; cbn [vx vy vz]; ring).
  assert (D2 : vdot (qrot (QuatModel.inv q) (V3 0 0 1)) (qrot (QuatModel.inv q) (V3 0 0 1)) = 1) by (rewrite qrot_dot by exact Ui; unfold vdot; cbn [vx vy vz]; ring).
  assert (Ei : qrot (QuatModel.inv (QuatModel.inv q)) (V3 0 0 1) = qrot q (V3 0 0 1)).
  { rewrite (inv_unit _ Ui), (inv_unit _ U). f_equal. destruct q. unfold conj. cbn. f_equal; ring. }
  rewrite Ei, D1, acos_1. apply gauss_decreasing; [exact Hv|]. rewrite Rabs_R0. apply Rabs_pos_lt.
  destruct (qrot q (V3 0 0 1)) as [a b c] eqn:Eq. destruct (qrot (QuatModel.inv q) (V3 0 0 1)) as [a' b' c'] eqn:Eq'. unfold vdot in *. cbn [vx vy vz] in *.
  assert (Q : (a - a') * (a - a') + (b - b') * (b - b') + (c - c') * (c - c') = 2 - 2 * (a' * a + b' * b + c' * c)).
  { transitivity ((a * a + b * b + c * c) + (a' * a' + b' * b' + c' * c') - 2 * (a' * a + b' * b + c' * c)); [ring|lra]. }
  assert (Q' : (a + a') * (a + a') + (b + b') * (b + b') + (c + c') * (c + c') = 2 + 2 * (a' * a + b' * b + c' * c)).
  { transitivity ((a * a + b * b + c * c) + (a' * a' + b' * b' + c' * c') + 2 * (a' * a + b' * b + c' * c)); [ring|lra]. }
  pose proof (Rle_0_sqr (a - a')) as P1. pose proof (Rle_0_sqr (b - b')) as P2. pose proof (Rle_0_sqr (c - c')) as P3.
  pose proof (Rle_0_sqr (a + a')) as P4. pose proof (Rle_0_sqr (b + b')) as P5. pose proof (Rle_0_sqr (c + c')) as P6. unfold Rsqr in *.
  assert (L : a' * a + b' * b + c' * c < 1).
  { destruct (Req_dec a a') as [->|N1]; [destruct (Req_dec b b') as [->|N2]; [destruct (Req_dec c c') as [->|N3]; [exfalso; apply Hne; reflexivity|]|]|].
    - assert (0 < (c - c') * (c - c')) by (apply Rsqr_pos_lt; lra). lra.
    - assert (0 < (b - b') * (b - b')) by (apply Rsqr_pos_lt; lra). lra.
    - assert (0 < (a - a') * (a - a')) by (apply Rsqr_pos_lt; lra). lra. }
  intro H0. assert (Lb : -1 <= a' * a + b' * b + c' * c <= 1) by lra.
  pose proof (cos_acos _ Lb) as C. rewrite H0, cos_0 in C. lra.
Qed.
(** non-vacuity: rolled by 90 degrees *)
Example C111_tilted : let q := Q4 (/ sqrt 2) 0 0 (/ sqrt 2) in
  unit_quat q /\ qrot q (V3 0 0 1) <> qrot (QuatModel.inv q) (V3 0 0 1).
Proof.
  intro q. assert (S2 : / sqrt 2 * / sqrt 2 = / 2) by (rewrite <- Rinv_mult, sqrt_sqrt by lra; reflexivity).
  assert (U : unit_quat q) by (unfold unit_quat, q; cbn [qx qy qz qw]; lra). split; [exact U|].
  intro E. assert (F : qrot q (qrot q (V3 0 0 1)) = V3 0 0 1) by (rewrite E; apply qrot_inv_r; exact U).
  unfold q in F. rewrite !qrot_closed in F. injection F as F1 F2 F3. revert F3. set (h := / sqrt 2) in *. intro F3.
  ring_simplify in F3. assert (h ^ 2 = / 2) by (rewrite <- S2; ring). replace (h ^ 4) with (h ^ 2 * h ^ 2) in F3 by ring. rewrite H in F3. lra.
Qed.
(** non-vacuity: the settings exist; a message one second after the reference is followed by a
    faked one, a first message and a message after a time jump are not *)
Example C111_nonvacuous (cfg : R * R * R) (sv : server) fr o0 o lk :
  (exists p, fake_imu p = true /\ fake_odom p = false) /\ (exists p, fake_odom p = true /\ fake_imu p = false)
  /\ with_imu (Some (0, o0)) [EOdom fr 1 o lk] = [EOdom fr 1 o lk; EImu fr 1 (qrot (rot o) (V3 0 0 1)) (rot o) lk]
  /\ with_imu None [EOdom fr 1 o lk] = [EOdom fr 1 o lk]
  /\ with_imu (Some (0, o0)) [EOdom fr 6 o lk] = [EOdom fr 6 o lk].
Proof.
  split; [|split; [|split; [|split]]].
  - exists (load_params (fun x => x) true false cfg sv). unfold load_params. destruct cfg as [[? ?] ?]. destruct (load_dda _ _ _) as [[? ?] ?]. split; reflexivity.
  - exists (load_params (fun x => x) false true cfg sv). unfold load_params. destruct cfg as [[? ?] ?]. destruct (load_dda _ _ _) as [[? ?] ?]. split; reflexivity.
  - cbn [with_imu]. destruct (Rlt_dec (1 - 0) 0); [lra|]. destruct (Rlt_dec 5 (1 - 0)); [lra|]. reflexivity.
  - reflexivity.
  - cbn [with_imu]. destruct (Rlt_dec (6 - 0) 0); [reflexivity|]. destruct (Rlt_dec 5 (6 - 0)); [reflexivity|lra].
Qed.
