(** A concrete history for C107: the settings of [demo] without noise and without initial spread,
    one map, two clouds and, in between, two odometry messages one metre apart. *)
From Coq Require Import String Reals ZArith NArith List Bool Arith Lra Lia Permutation.
From Verif Require PfModel FilterModel AccumModel PfSpec.
From Verif Require Import Arith KdModel KdSpec KdProofs KdProps QuatModel QuatSpec QuatProofs StateModel StateSpec RayModel RaySpec RayProofs KRayProofs LidarModel LidarSpec LidarProofs LidarProofs2
  NdModel ParamModel ParamProps NodeModel NodeSpec NodeFrame NodeLocProofs NodeStepProofs NodeMapProofs NodeAliveSpec NodeAliveProofs NodeAliveProofs2 NodeAliveProps NodeAccProps NodeGlobProps
  NodeHistProps NodeMotionProps NodeTrackSpec NodeTrackProps NodeDemo.
Import ListNotations.
Open Scope R_scope.
Open Scope list_scope.

Definition still_names : list string :=
  ["resample_var_x"; "resample_var_y"; "resample_var_z"; "resample_var_roll"; "resample_var_pitch"; "resample_var_yaw";
   "expansion_var_x"; "expansion_var_y"; "expansion_var_z"; "expansion_var_roll"; "expansion_var_pitch"; "expansion_var_yaw";
   "odom_err_lin_lin"; "odom_err_lin_ang"; "odom_err_ang_lin"; "odom_err_ang_ang";
   "init_var_x"; "init_var_y"; "init_var_z"; "init_var_roll"; "init_var_pitch"; "init_var_yaw"]%string.
Definition still : params := load_params (fun x => x) false false (0, 0, 0) (fun k => if existsb (String.eqb k) still_names then Some (PDouble 0) else None).
Lemma still_quiet : no_noise still /\ initial_pose_std still = state_rpy v0 v0 /\ fake_odom still = false /\ fake_imu still = false.
Proof. split; [|repeat split]. split; [repeat constructor|]. split; [repeat constructor|]. repeat split. Qed.
Lemma still_fields : num_particles still = 64%Z /\ skip_measure still = 1%Z /\ accum_cloud still = 1%Z /\ total_accum_max still = 10%Z
  /\ map_chunk still = 20 /\ dist_weight still = (1, 1, 5, 0) /\ lp_dist_min (p_like still) = 2 / 10 /\ lpf_step still = 16.
Proof. repeat split; reflexivity. Qed.
Lemma still_ok : settings_ok still.
Proof.
  constructor.
  - cbn; lia.
  - cbn; lia.
  - reflexivity.
  - right. cbn; lia.
  - cbn; lra.
  - cbn; lra.
  - cbn; lra.
  - cbn; lra.
  - cbn. pose proof PI_RGT_0. repeat split; lra.
  - change (glob_div_yaw still) with (lround (2 * PI / (524 / 1000))).
    pose proof PI2_3_2 as HPI. pose proof PI_4 as HP4. unfold PI2 in HPI.
    assert (H : 11 <= 2 * PI / (524 / 1000) <= 16) by lra. unfold lround.
    destruct (Rltb (2 * PI / (524 / 1000)) 0) eqn:E; [apply Rltb_true in E; lra|].
    pose proof (Rfloor_spec (2 * PI / (524 / 1000) + / 2)) as [F1 F2]. split.
    + apply Z.lt_succ_r, lt_IZR. rewrite succ_IZR. lra.
    + apply lt_IZR. apply Rle_lt_trans with 17; [lra|]. apply IZR_lt. lia.
Qed.

Definition still_kd : kdt := setInputCloud (to_pts demo_map) (configured_kdtree still).
Definition still_env : menv :=
  {| e_lookup := fun _ _ _ => Some (v0, q1); e_lookup5 := fun _ _ _ _ _ => Some (v0, q1); e_stat_shuffle := fun l => l; e_beam := fun l _ => l; e_like := fun l _ => l;
     e_search := linear_search still_kd; e_fuel := 0; e_now := 1; e_shuffle := fun l => l; e_subs := (true, true);
     e_sort := isort; e_offset := 0; e_noise := fun _ _ => 0; e_noise4 := fun _ => (0, 0, 0, 0); e_expand := fun _ _ => 0;
     e_sort2 := isort |}.
Lemma still_pts t : cm_pts still (demo_cloud t) = Some [V3 1 0 0; V3 2 0 0].
Proof.
  assert (G : forall v, tf_point (v0, q1) v = v) by (intros [x y z]; unfold tf_point; cbn [fst snd]; rewrite QuatProofs.qrot_1; unfold vadd, v0; cbn; f_equal; ring).
  unfold cm_pts. cbn [demo_cloud cm_lookup cm_conv option_map map]. rewrite !G. reflexivity.
Qed.
Definition still_caster := node_kd_caster still.
Definition still_rc : kray := k_setRay (new_kray 1 1 1 0) v0 v0.
Definition still_init : node := configure still (fun _ _ => 0) still_rc.

Lemma still_search q r : radiusSearch still_kd q r 1 (e_search still_env q r).
Proof.
  refine (linear_search_legal [CEps (map_grid_min still / 16); CRep (1, 1, 5); CLoad (to_pts demo_map)] (map_chunk still) (configured_radius still) false (to_pts demo_map) q r eq_refl _).
  cbn [last_eps eps_of]. change (map_grid_min still) with (fmin (fmin (1/10) (1/10)) (1/10)). unfold fmin. destruct (Rltb_spec (1/10) (1/10)); [lra|].
  destruct (Rltb_spec (1/10) (1/10)); lra.
Qed.
Lemma still_one : exists n1 o1, step still_caster demo_voxel still still_init (EMap (Some demo_map) 1 1) = Ok (n1, o1)
  /\ kd (n_map n1) = still_kd /\ n_pf n1 = n_pf still_init /\ has_map (n_map n1) = true
  /\ get_obj (n_map n1) (pc_map2 (n_map n1)) = Ok {| cl_id := 0; cl_stamp := 1; cl_pts := demo_map |} /\ local (n_acc n1) = Some [] /\ ac (n_acc n1) = AccumModel.accum_init
  /\ headers (n_acc n1) = [] /\ n_lid n1 = n_lid still_init /\ cnt_measure (n_out n1) = 0%Z /\ existsb is_pose o1 = false.
Proof. cbn [step cbMapcloud]. unfold loadMapCloud. eexists _, _. split; [reflexivity|]. repeat split; try reflexivity. Qed.
Lemma still_two k n1 : has_map (n_map n1) = true -> ac (n_acc n1) = AccumModel.accum_init -> local (n_acc n1) = Some [] -> headers (n_acc n1) = [] ->
  exists n2, step still_caster demo_voxel still n1 (ECloud (demo_cloud 1) (with_fuel k still_env)) = Ok (n2, [])
  /\ n_map n2 = n_map n1 /\ n_pf n2 = n_pf n1 /\ n_lid n2 = n_lid n1 /\ ac (n_acc n2) = {| AccumModel.cnt_accum := 1; AccumModel.keys := ["laser"%string] |}
  /\ cnt_measure (n_out n2) = cnt_measure (n_out n1)
  /\ local (n_acc n2) = Some [{| p3 := V3 1 0 0; lab := 0 |}; {| p3 := V3 2 0 0; lab := 0 |}] /\ headers (n_acc n2) = [{| h_frame := "laser"; h_stamp := 1 |}].
Proof.
  intros H1 H2 H3 H4. cbn [step]. unfold cbCloud. rewrite H1. change (n_acc (set_stat n1 status0)) with (n_acc n1). rewrite H2.
  assert (E : push_calls still AccumModel.accum_init (demo_cloud 1) = Ok ({| AccumModel.cnt_accum := 1; AccumModel.keys := ["laser"%string] |}, [AccumModel.Accumulate (demo_cloud 1) true])) by reflexivity.
  rewrite E. cbn [bind callbacks callback]. unfold accumCloud. rewrite still_pts. cbn [demo_cloud cm_frame cm_stamp]. change (n_acc (set_stat n1 status0)) with (n_acc n1). rewrite H3, H4. cbn [bind].
  eexists. split; [reflexivity|]. repeat split; reflexivity.
Qed.
Lemma still_env_legal (n : node (S := kray)) : kd (n_map n) = still_kd -> legal_env n still_env.
Proof.
  intros H1. split; [intros q r; rewrite H1; apply still_search|]. split; [intros l k q H; exact H|]. split; [intros l k q H; exact H|].
  split; [intro l; apply Permutation_refl|]. split; [intro l; apply Permutation_refl|]. split; exact isort_sorts.
Qed.
Lemma still_castable c : castable still_caster still (fun _ _ => True) c.
Proof.
  apply C93_kdtree_casts_with_every_map; [cbn; lra|cbn; lra|cbn; lra|].
  change (4 * Rmax (1/10) (Rmax (1/10) (1/10)) <= 20). rewrite (Rmax_left (1/10) (1/10)) by lra. rewrite Rmax_left by lra. lra.
Qed.
(** the second cloud is measured *)
Lemma still_three k n2 n3 o3 : step still_caster demo_voxel still n2 (ECloud (demo_cloud 2) (with_fuel k still_env)) = Ok (n3, o3) ->
  has_map (n_map n2) = true -> n_lid n2 = n_lid still_init -> ac (n_acc n2) = {| AccumModel.cnt_accum := 1; AccumModel.keys := ["laser"%string] |} ->
  cnt_measure (n_out n2) = 0%Z -> local (n_acc n2) = Some [{| p3 := V3 1 0 0; lab := 0 |}; {| p3 := V3 2 0 0; lab := 0 |}] ->
  headers (n_acc n2) = [{| h_frame := "laser"; h_stamp := 1 |}] ->
  existsb is_pose o3 = true
  /\ exists n1 h pc os n4 bp lp, measures_with demo_voxel still still_caster n2 (demo_cloud 2) (with_fuel k still_env) n1 h pc os
     /\ length pc = 2%nat /\ filters still n1 (with_fuel k still_env) (demo_voxel (ds_x still, ds_y still, ds_z still) pc) = (n4, bp, lp) /\ lp <> [].
Proof.
  intros H H1 H2 H3 H4 H5 H6. cbn [step] in H. unfold cbCloud in H. rewrite H1 in H. change (n_acc (set_stat n2 status0)) with (n_acc n2) in H.
  assert (E : push_calls still (ac (n_acc n2)) (demo_cloud 2) = Ok ({| AccumModel.cnt_accum := 1; AccumModel.keys := ["laser"%string] |},
     [AccumModel.Process; AccumModel.Clear; AccumModel.Accumulate (demo_cloud 2) true])) by (rewrite H3; reflexivity).
  rewrite E in H. cbn [bind] in H. bok H. destruct x as [nb ob]. injection H as <- <-.
  apply callbacks_one in E0; [|reflexivity]. destruct E0 as (na & nc & B0 & _ & _ & _ & _ & _ & _ & B7 & _).
  assert (na = set_stat n2 status0) as -> by (cbn [at_process] in B0; injection B0; auto).
  unfold measure in B7. bok B7. destruct x as [n0 go]. pose proof E0 as Eg. apply gate_ok in E0.
  destruct E0 as (_ & G2 & _ & _ & G6 & _ & _ & _ & _ & _ & _ & _ & _ & _ & _ & G16 & _ & Gb).
  change (cnt_measure (n_out (set_stat n2 status0))) with (cnt_measure (n_out n2)) in G16. rewrite H4 in G16. change ((0 + 1) mod 2 ^ 64)%Z with 1%Z in G16. rewrite G16 in Gb.
  assert (go = true) as ->. { rewrite Gb. unfold skip_size. replace (skip_measure still) with 1%Z by (symmetry; apply still_fields). reflexivity. }
  cbn [negb] in B7. change (n_acc (set_stat n2 status0)) with (n_acc n2) in G2. change (n_lid (set_stat n2 status0)) with (n_lid n2) in G6. rewrite H2 in G6.
  assert (Ep : exists n1 pc, prepare still n0 (with_fuel k still_env) = Ok (n1, Some ({| h_frame := "laser"; h_stamp := 1 |}, pc, [v0])) /\ n_lid n1 = n_lid still_init
    /\ pc = to_base (v0, q1) [{| p3 := V3 1 0 0; lab := 0 |}; {| p3 := V3 2 0 0; lab := 0 |}]).
  { unfold prepare. rewrite G2, H6, H5. cbn [rev app with_fuel base_tf origin_of e_lookup e_lookup5 still_env get_origins option_map fst]. eexists _, _. split; [reflexivity|]. split; [|reflexivity]. cbn [n_lid set_acc]. exact G6. }
  destruct Ep as (n1 & pc & Ep & El & Epc). rewrite Ep in B7. cbn [bind] in B7. bok B7.
  destruct (filters still n1 (with_fuel k still_env) (demo_voxel (ds_x still, ds_y still, ds_z still) pc)) as [[n4 bp] lp] eqn:Ef.
  assert (Hlp : lp <> []).
  { assert (Hin : In {| p3 := vadd (qrot q1 (V3 1 0 0)) v0; lab := 0 |} lp); [|intros ->; destruct Hin].
    unfold filters in Ef. injection Ef as _ _ <-. cbn [e_like with_fuel still_env like_filter fst]. unfold clip, like_set_global. rewrite El.
    cbn [n_lid still_init configure l_like l_far_sq l_near_sq l_par]. apply filter_In. split; [rewrite Epc; left; reflexivity|].
    change (lp_zmin (l_par (like_refresh (p_like still)))) with (-2). change (lp_zmax (l_par (like_refresh (p_like still)))) with 2.
    change (l_far_sq (like_refresh (p_like still))) with (10 * 10). change (l_near_sq (like_refresh (p_like still))) with (1/2 * (1/2)).
    assert (Hv : vadd (qrot q1 (V3 1 0 0)) v0 = V3 1 0 0) by (unfold vadd, qrot, q1, v0; cbn; f_equal; ring).
    cbn [p3]. rewrite Hv. cbn [vx vy vz]. unfold clip_removes. cbn [flt fadd fmul RA].
    destruct (Rltb_spec (10 * 10) (1 * 1 + 0 * 0)); [lra|]. destruct (Rltb_spec (1 * 1 + 0 * 0) (1/2 * (1/2))); [lra|].
    destruct (Rltb_spec 0 (-2)); [lra|]. destruct (Rltb_spec 2 0); [lra|]. reflexivity. }
  split.
  - destruct lp as [|l lp]; [congruence|]. apply localize_spec in B7.
    2:{ replace (lpf_step still) with 16 by (symmetry; apply still_fields). pose proof (Rceil_spec 16) as [_ C]. apply le_IZR. lra. }
    destruct (lz_ex _ _ _ _ _ _ B7) as (est & ratio & m1 & m2 & est' & c & o1 & o2 & parts & _ & _ & _ & _ & _ & _ & _ & -> & _).
    rewrite !existsb_app. cbn. rewrite !orb_true_r. reflexivity.
  - exists n1, {| h_frame := "laser"; h_stamp := 1 |}, pc, [v0], n4, bp, lp. split; [|split; [rewrite Epc; reflexivity|split; [exact Ef|exact Hlp]]].
    apply (mw_intro _ _ _ _ _ _ _ _ _ _ _ _ (set_stat n2 status0) n0 H1 E); [reflexivity|exact Eg|exact Ep].
Qed.
Definition still_moved : state := state_pr (V3 1 0 0) q1.
Definition still_events : list event :=
  [EMap (Some demo_map) 1 1; ECloud (demo_cloud 1) still_env;
   EOdom "odom" 1 (state_pr v0 q1) (fun _ _ _ => None); EOdom "odom" 2 still_moved (fun _ _ _ => None); ECloud (demo_cloud 2) still_env].
Lemma still_odom t o lk (n : node (S := kray)) : exists n', step still_caster demo_voxel still n (EOdom "odom" t o lk) = Ok (n', [])
  /\ n_map n' = n_map n /\ n_lid n' = n_lid n /\ n_acc n' = n_acc n /\ n_out n' = n_out n.
Proof.
  cbn [step]. unfold cbOdom. destruct (odom_apply still n t o) as [n1 go] eqn:E. replace (fake_imu still) with false by (symmetry; apply still_quiet). rewrite andb_false_r.
  exists n1. split; [reflexivity|]. unfold odom_apply in E. repeat match type of E with (if ?c then _ else _) = _ => destruct c end; injection E as <- _; repeat split.
Qed.
Lemma still_legal : legal_run still_caster demo_voxel still (fun _ _ => True) still_init still_events.
Proof.
  cbn [legal_run still_events]. split; [intros c H; discriminate H|]. intros k0 n1 o1 E1. cbn [with_fuel_ev] in E1.
  destruct still_one as (n1' & o1' & E1' & A1 & A2 & A3 & A4 & A5 & A6 & A7 & A8 & A9 & _). rewrite E1' in E1. injection E1 as -> ->.
  split; [split; [apply still_env_legal; assumption|intros c _; apply still_castable]|].
  intros k n2 o2 E2. cbn [with_fuel_ev] in E2. destruct (still_two k n1 A3 A6 A5 A7) as (n2' & E2' & B1 & B2 & B3 & B4 & B5 & _). rewrite E2' in E2. injection E2 as <- <-.
  split; [exact I|]. intros k3 n3 o3 E3. cbn [with_fuel_ev] in E3.
  destruct (still_odom 1 (state_pr v0 q1) (fun _ _ _ => None) n2') as (n3' & E3' & C1 & C2 & C3 & C4). rewrite E3' in E3. injection E3 as <- <-.
  split; [exact I|]. intros k4 n4 o4 E4. cbn [with_fuel_ev] in E4.
  destruct (still_odom 2 still_moved (fun _ _ _ => None) n3') as (n4' & E4' & D1 & D2 & D3 & D4). rewrite E4' in E4. injection E4 as <- <-.
  split; [|intros; exact I]. split; [|intros c _; apply still_castable]. apply still_env_legal; congruence.
Qed.
(** The hypotheses of C107 hold for a history with odometry and a measured cloud: the node
    runs to its end, localizes there, and its particles have moved by one metre. *)
Example C107_nonvacuous : exists evs n o t x c, 
  no_noise still /\ initial_pose_std still = state_rpy v0 v0 /\ fake_odom still = false /\ Forall (passive still) evs
  /\ steps still_caster demo_voxel still still_init evs = Ok (n, o) /\ In (OPose t x c) o /\ (0 < length (PfModel.parts RA (n_pf n)))%nat
  /\ all_at still_init (v0, q1) /\ all_at n (V3 1 0 0, q1).
Proof.
  assert (Hv : keeps_labels (demo_voxel (ds_x still, ds_y still, ds_z still))) by (intros l q Hq; exists q; split; [exact Hq|lia]).
  destruct (C93_node_never_fails _ still_caster demo_voxel still (fun _ _ => True) (fun _ _ => 0) still_rc still_events still_ok Hv (fun _ _ _ _ _ => I) (fun _ => I) still_legal)
    as (n & o & K & H & _). specialize (H K (Nat.le_refl K)). fold still_init in H.
  destruct still_quiet as (Q1 & Q2 & Q3 & Q4).
  assert (Hp : Forall (passive still) (map (with_fuel_ev K) still_events)).
  { cbn [map still_events with_fuel_ev]. constructor; [exact I|]. constructor; [split; exact isort_sorts|]. constructor; [unfold passive, unit_pose, unit_quat; cbn; ring|].
    constructor; [unfold passive, unit_pose, unit_quat; cbn; ring|]. constructor; [split; exact isort_sorts|]. constructor. }
  assert (Ip : (pos (initial_pose still), setRPY (getRPY (rot (initial_pose still)))) = (v0, q1)).
  { change (pos (initial_pose still)) with v0. change (rot (initial_pose still)) with (setRPY v0). rewrite StateProofs.setRPY_0, StateProofs.getRPY_q1, StateProofs.setRPY_0. reflexivity. }
  pose proof (C107_from_start still_caster demo_voxel still _ (fun _ _ => 0) still_rc n o Q1 Q2 Q3 Hp H) as A. rewrite Ip in A.
  destruct (C107_start still (fun _ _ => 0) still_rc Q2) as (A0 & _). cbv zeta in A0. rewrite Ip in A0.
  assert (Em : odom_msgs (map (with_fuel_ev K) still_events) = [(1, state_pr v0 q1); (2, still_moved)]) by reflexivity.
  rewrite Em in A. cbn [applied reference] in A. destruct (Rlt_dec (2 - 1) 0) as [X|_]; [lra|]. destruct (Rlt_dec 5 (2 - 1)) as [X|_]; [lra|]. destruct (Rlt_dec (5 / 100) (2 - 1)) as [_|X]; [|lra].
  assert (Ec : comp_pose (v0, q1) (travelled [(state_pr v0 q1, still_moved, 2 - 1)]) = (V3 1 0 0, q1)).
  { unfold travelled. cbn [fold_left]. rewrite !StateProofs.comp_id_l. unfold comp_pose, inv_pose, pose_of. cbn [fst snd pos rot state_pr still_moved].
    unfold QuatModel.inv, q1, v0, vadd, vscale, qrot, qmul, qdiv, qdot, conj. cbn. f_equal; f_equal; field. }
  rewrite Ec in A.
  assert (P : existsb is_pose o = true).
  { change (map (with_fuel_ev K) still_events) with [EMap (Some demo_map) 1 1; ECloud (demo_cloud 1) (with_fuel K still_env);
      EOdom "odom" 1 (state_pr v0 q1) (fun _ _ _ => None); EOdom "odom" 2 still_moved (fun _ _ _ => None); ECloud (demo_cloud 2) (with_fuel K still_env)] in H.
    destruct still_one as (n1 & o1 & E1 & A1 & A2 & A3 & A4 & A5 & A6 & A7 & A8 & A9 & A10).
    destruct (still_two K n1 A3 A6 A5 A7) as (n2 & E2 & B1 & B2 & B3 & B4 & B5 & B6 & B7).
    destruct (still_odom 1 (state_pr v0 q1) (fun _ _ _ => None) n2) as (n3 & E3 & C1 & C2 & C3 & C4).
    destruct (still_odom 2 still_moved (fun _ _ _ => None) n3) as (n4 & E4 & D1 & D2 & D3 & D4).
    revert H E1 E2 E3 E4. generalize (EMap (Some demo_map) 1 1) as ev1. generalize (ECloud (demo_cloud 1) (with_fuel K still_env)) as ev2.
    generalize (EOdom "odom" 1 (state_pr v0 q1) (fun _ _ _ => None)) as ev3. generalize (EOdom "odom" 2 still_moved (fun _ _ _ => None)) as ev4. intros ev4 ev3 ev2 ev1 H E1 E2 E3 E4.
    remember (ECloud (demo_cloud 2) (with_fuel K still_env)) as ev5 eqn:H5. cbn [steps] in H. rewrite E1 in H. cbn [bind] in H. rewrite E2 in H. cbn [bind] in H. rewrite E3 in H. cbn [bind] in H. rewrite E4 in H. cbn [bind] in H.
    destruct (step still_caster demo_voxel still n4 ev5) as [[n5 o5]| | |] eqn:E5; cbn [bind] in H; try discriminate. injection H as _ <-. subst ev5.
    destruct (still_three K n4 n5 o5 E5) as [P _]; try congruence.
    rewrite !existsb_app, P. rewrite !orb_true_r. reflexivity. }
  assert (L : (0 < length (PfModel.parts RA (n_pf n)))%nat).
  { destruct (steps_trace _ _ _ _ _ _ _ H) as (tr & Ht).
    assert (T1 : (0 <= Rceil (lpf_step still))%Z).
    { destruct still_fields as (_ & _ & _ & _ & _ & _ & _ & ->). pose proof (Rceil_spec 16) as [_ C]. apply le_IZR. lra. }
    pose proof (C79_history still_caster demo_voxel still T1 ltac:(cbn; lia) _ _ _ _ _ Ht H eq_refl) as L.
    change (psize n) with (length (PfModel.parts RA (n_pf n))) in L. rewrite L.
    assert (L0 : psize still_init = 64%nat) by (unfold psize, still_init, configure; cbn [n_pf]; unfold PfModel.init, PfModel.new_filter; cbn [PfModel.parts]; rewrite mapi_len, repeat_length; reflexivity).
    rewrite L0. assert (G : forall k, Nat.iter k (shrink still) 64%nat = 64%nat) by (induction k as [|k IH]; [reflexivity|]; cbn [Nat.iter nat_rect]; unfold Nat.iter in IH; cbn [nat_rect]; rewrite IH; reflexivity).
    rewrite G. lia. }
  apply existsb_exists in P. destruct P as (y & Hy & Py). destruct y as [ | | |t0 x0 c0| | | ]; try discriminate.
  exists (map (with_fuel_ev K) still_events), n, o, t0, x0, c0. repeat match goal with |- _ /\ _ => split end; assumption.
Qed.
