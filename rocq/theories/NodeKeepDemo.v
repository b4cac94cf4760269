(** A concrete history for C108: the settings of [still], but with the particles spread along x, one
    of them at the initial pose; a map of one point, two odometry messages one metre apart and
    two clouds that show that point. *)
From Coq Require Import String Reals ZArith NArith List Bool Arith Lra Lia Permutation.
From Verif Require PfModel FilterModel AccumModel PfSpec PfProofs.
From Verif Require Import Arith KdModel KdSpec KdProofs KdProps QuatModel QuatSpec QuatProofs StateModel StateSpec StateProofs RayModel RaySpec RayProofs KRayProofs LidarModel LidarSpec LidarProofs LidarProofs2
  NdModel ParamModel ParamProps NodeModel NodeSpec NodeFrame NodeLocProofs NodeStepProofs NodeMapProofs NodeAliveSpec NodeAliveProofs NodeAliveProofs2 NodeAliveProps NodeAccProps NodeGlobProps
  NodeHistProps NodeMotionProps NodePostSpec NodeTrackSpec NodeTrackProps NodeDemo NodeKeepSpec NodeKeepProps.
Import ListNotations.
Open Scope R_scope.
Open Scope list_scope.

Definition spread_names : list string :=
  ["resample_var_x"; "resample_var_y"; "resample_var_z"; "resample_var_roll"; "resample_var_pitch"; "resample_var_yaw";
   "odom_err_lin_lin"; "odom_err_lin_ang"; "odom_err_ang_lin"; "odom_err_ang_ang";
   "init_var_y"; "init_var_z"; "init_var_roll"; "init_var_pitch"; "init_var_yaw"]%string.
Definition spread : params := load_params (fun x => x) false false (0, 0, 0) (fun k => if existsb (String.eqb k) spread_names then Some (PDouble 0) else None).
Lemma spread_fields : num_particles spread = 64%Z /\ skip_measure spread = 1%Z /\ accum_cloud spread = 1%Z /\ total_accum_max spread = 10%Z
  /\ map_chunk spread = 20 /\ lpf_step spread = 16 /\ fake_imu spread = false /\ bp_short_only (p_beam spread) = true /\ bp_hit_range (p_beam spread) = 3 / 10.
Proof. repeat split; reflexivity. Qed.
Lemma spread_ok : settings_ok spread.
Proof.
  constructor.
  - cbn; lia.
  - cbn; lia.
  - reflexivity.
  - right. cbn; lia.
  - cbn; lra.
  - cbn; lra.
  - cbn; lra.
  - cbn; lra.
  - cbn. pose proof PI_RGT_0. repeat split; lra.
  - change (glob_div_yaw spread) with (lround (2 * PI / (524 / 1000))).
    pose proof PI2_3_2 as HPI. pose proof PI_4 as HP4. unfold PI2 in HPI.
    assert (H : 11 <= 2 * PI / (524 / 1000) <= 16) by lra. unfold lround.
    destruct (Rltb (2 * PI / (524 / 1000)) 0) eqn:E; [apply Rltb_true in E; lra|].
    pose proof (Rfloor_spec (2 * PI / (524 / 1000) + / 2)) as [F1 F2]. split.
    + apply Z.lt_succ_r, lt_IZR. rewrite succ_IZR. lra.
    + apply lt_IZR. apply Rle_lt_trans with 17; [lra|]. apply IZR_lt. lia.
Qed.
Lemma spread_keep : keep_settings spread.
Proof.
  assert (Hr : configured_radius spread = 4 / 10).
  { change (configured_radius spread) with (fmax (fmax 0 (Rmax (1/10) (Rmax (1/10) (1/10)) * 4)) (2/10)). rewrite (Rmax_left (1/10) (1/10)) by lra. rewrite Rmax_left by lra. unfold fmax.
    destruct (Rltb_spec 0 (1/10 * 4)); [|lra]. destruct (Rltb_spec (1/10*4) (2/10)); lra. }
  assert (Ht : search_tol spread = fmin (fmin (1/10) (1/10)) (1/10) / 16) by reflexivity.
  assert (Hf : forall a, fmin a a = a) by (intro; unfold fmin; destruct (Rltb _ _); reflexivity). rewrite !Hf in Ht.
  pose proof PI_RGT_0 as HP. unfold keep_settings.
  split; [repeat constructor|]. do 4 (split; [reflexivity|]). split; [reflexivity|]. split; [reflexivity|].
  split; [cbn; lra|]. split; [cbn; lra|]. split; [cbn; lra|]. split; [cbn; lra|]. split; [cbn; lia|].
  change (lp_dist_min (p_like spread)) with (2 / 10).
  split; [unfold covers; rewrite Hr, Ht; change (map_chunk spread) with 20; change (search_weights spread) with (1, 1, 5); repeat split; lra|].
  split; [lra|]. split; [cbn; lra|]. cbn; lra.
Qed.

Definition spread_pt : lpt := {| p3 := V3 2 0 0; lab := 0 |}.
Definition spread_map : list lpt := [spread_pt].
Definition spread_kd : kdt := setInputCloud (to_pts spread_map) (configured_kdtree spread).
Definition spread_env : menv :=
  {| e_lookup := fun _ _ _ => Some (v0, q1); e_lookup5 := fun _ _ _ _ _ => Some (v0, q1); e_stat_shuffle := fun l => l; e_beam := fun l _ => l; e_like := fun l _ => l;
     e_search := linear_search spread_kd; e_fuel := 0; e_now := 1; e_shuffle := fun l => l; e_subs := (true, true);
     e_sort := isort; e_offset := / 128; e_noise := fun _ _ => 0; e_noise4 := fun _ => (0, 0, 0, 0); e_expand := fun _ _ => 0;
     e_sort2 := isort |}.
Definition spread_cloud (t : R) : cloud_msg := {| cm_frame := "laser"; cm_stamp := t; cm_conv := Some [V3 1 0 0]; cm_lookup := fun _ _ _ => Some (v0, q1) |}.
Lemma tf_point_id v : tf_point (v0, q1) v = v.
Proof. destruct v as [x y z]; unfold tf_point; cbn [fst snd]; rewrite QuatProofs.qrot_1; unfold vadd, v0; cbn; f_equal; ring. Qed.
Lemma spread_pts t : cm_pts spread (spread_cloud t) = Some [V3 1 0 0].
Proof. unfold cm_pts. cbn [spread_cloud cm_lookup cm_conv option_map map]. rewrite !tf_point_id. reflexivity. Qed.
Definition spread_caster := node_kd_caster spread.
Definition spread_rc : kray := k_setRay (new_kray 1 1 1 0) v0 v0.
(** the draws: nothing for the first particle, a displacement along x for the others *)
Definition spread_gen (i k : nat) : R := if (k =? 0)%nat then INR i else 0.
Definition spread_init : node := configure spread spread_gen spread_rc.

Lemma spread_search q r : radiusSearch spread_kd q r 1 (e_search spread_env q r).
Proof.
  refine (linear_search_legal [CEps (map_grid_min spread / 16); CRep (1, 1, 5); CLoad (to_pts spread_map)] (map_chunk spread) (configured_radius spread) false (to_pts spread_map) q r eq_refl _).
  cbn [last_eps eps_of]. change (map_grid_min spread) with (fmin (fmin (1/10) (1/10)) (1/10)). unfold fmin. destruct (Rltb_spec (1/10) (1/10)); [lra|].
  destruct (Rltb_spec (1/10) (1/10)); lra.
Qed.
Lemma spread_one : exists n1 o1, step spread_caster demo_voxel spread spread_init (EMap (Some spread_map) 1 1) = Ok (n1, o1)
  /\ kd (n_map n1) = spread_kd /\ n_pf n1 = n_pf spread_init /\ has_map (n_map n1) = true
  /\ map_cloud n1 = Ok {| cl_id := 0; cl_stamp := 1; cl_pts := spread_map |} /\ local (n_acc n1) = Some [] /\ ac (n_acc n1) = AccumModel.accum_init
  /\ headers (n_acc n1) = [] /\ n_lid n1 = n_lid spread_init /\ cnt_measure (n_out n1) = 0%Z /\ n_odom n1 = n_odom spread_init.
Proof. cbn [step cbMapcloud]. unfold loadMapCloud. eexists _, _. split; [reflexivity|]. repeat split; try reflexivity. Qed.
Lemma spread_two k n1 : has_map (n_map n1) = true -> ac (n_acc n1) = AccumModel.accum_init -> local (n_acc n1) = Some [] -> headers (n_acc n1) = [] ->
  exists n2, step spread_caster demo_voxel spread n1 (ECloud (spread_cloud 1) (with_fuel k spread_env)) = Ok (n2, [])
  /\ n_map n2 = n_map n1 /\ n_pf n2 = n_pf n1 /\ n_lid n2 = n_lid n1 /\ ac (n_acc n2) = {| AccumModel.cnt_accum := 1; AccumModel.keys := ["laser"%string] |}
  /\ cnt_measure (n_out n2) = cnt_measure (n_out n1)
  /\ local (n_acc n2) = Some [{| p3 := V3 1 0 0; lab := 0 |}] /\ headers (n_acc n2) = [{| h_frame := "laser"; h_stamp := 1 |}] /\ n_odom n2 = n_odom n1.
Proof.
  intros H1 H2 H3 H4. cbn [step]. unfold cbCloud. rewrite H1. change (n_acc (set_stat n1 status0)) with (n_acc n1). rewrite H2.
  assert (E : push_calls spread AccumModel.accum_init (spread_cloud 1) = Ok ({| AccumModel.cnt_accum := 1; AccumModel.keys := ["laser"%string] |}, [AccumModel.Accumulate (spread_cloud 1) true])) by reflexivity.
  rewrite E. cbn [bind callbacks callback]. unfold accumCloud. rewrite spread_pts. cbn [spread_cloud cm_frame cm_stamp]. change (n_acc (set_stat n1 status0)) with (n_acc n1). rewrite H3, H4. cbn [bind].
  eexists. split; [reflexivity|]. repeat split; reflexivity.
Qed.
Lemma spread_env_legal (n : node (S := kray)) : kd (n_map n) = spread_kd -> legal_env n spread_env.
Proof.
  intros H1. split; [intros q r; rewrite H1; apply spread_search|]. split; [intros l k q H; exact H|]. split; [intros l k q H; exact H|].
  split; [intro l; apply Permutation_refl|]. split; [intro l; apply Permutation_refl|]. split; exact isort_sorts.
Qed.
Lemma spread_castable c : castable spread_caster spread (fun _ _ => True) c.
Proof.
  apply C93_kdtree_casts_with_every_map; [cbn; lra|cbn; lra|cbn; lra|].
  change (4 * Rmax (1/10) (Rmax (1/10) (1/10)) <= 20). rewrite (Rmax_left (1/10) (1/10)) by lra. rewrite Rmax_left by lra. lra.
Qed.
Lemma isort_stable : stable isort.
Proof. split; [exact isort_sorts|exact isort_id]. Qed.
(** a node in the state in which the second cloud arrives *)
Definition before_last (n2 : node (S := kray)) : Prop :=
  has_map (n_map n2) = true /\ n_lid n2 = n_lid spread_init /\ ac (n_acc n2) = {| AccumModel.cnt_accum := 1; AccumModel.keys := ["laser"%string] |}
  /\ cnt_measure (n_out n2) = 0%Z /\ local (n_acc n2) = Some [{| p3 := V3 1 0 0; lab := 0 |}] /\ headers (n_acc n2) = [{| h_frame := "laser"; h_stamp := 1 |}].
Lemma spread_prepare k n2 na n0 : before_last n2 -> na = set_stat n2 status0 -> gate spread na = Ok (n0, true) ->
  exists n1, prepare spread n0 (with_fuel k spread_env) = Ok (n1, Some ({| h_frame := "laser"; h_stamp := 1 |}, [{| p3 := V3 1 0 0; lab := 0 |}], [v0])) /\ n_lid n1 = n_lid spread_init.
Proof.
  intros (H1 & H2 & H3 & H4 & H5 & H6) -> E0. apply gate_ok in E0.
  destruct E0 as (_ & G2 & _ & _ & G6 & _ & _ & _ & _ & _ & _ & _ & _ & _ & _ & G16 & _ & Gb).
  change (n_acc (set_stat n2 status0)) with (n_acc n2) in G2. change (n_lid (set_stat n2 status0)) with (n_lid n2) in G6. rewrite H2 in G6.
  unfold prepare. rewrite G2, H6, H5. cbn [rev app with_fuel base_tf origin_of e_lookup e_lookup5 spread_env get_origins option_map fst to_base map p3 lab]. rewrite tf_point_id. eexists. split; [reflexivity|]. cbn [n_lid set_acc]. exact G6.
Qed.
Lemma spread_push n2 : before_last n2 -> push_calls spread (ac (n_acc n2)) (spread_cloud 2) = Ok ({| AccumModel.cnt_accum := 1; AccumModel.keys := ["laser"%string] |},
     [AccumModel.Process; AccumModel.Clear; AccumModel.Accumulate (spread_cloud 2) true]).
Proof. intros (_ & _ & H3 & _). rewrite H3. reflexivity. Qed.
Lemma spread_filters k n1 n4 bp lp : n_lid n1 = n_lid spread_init -> filters spread n1 (with_fuel k spread_env) [{| p3 := V3 1 0 0; lab := 0 |}] = (n4, bp, lp) ->
  (forall q, In q bp -> q = {| p3 := V3 1 0 0; lab := 0 |}) /\ lp = [{| p3 := V3 1 0 0; lab := 0 |}] /\ b_hit_sq (l_beam (n_lid n4)) = (3 / 10) ^ 2.
Proof.
  intros El Ef. unfold filters in Ef. apply pair_equal_spec in Ef. destruct Ef as [Ef Hl]. apply pair_equal_spec in Ef. destruct Ef as [Hn Hb]. split; [|split].
  - subst bp. intros q Hq. cbn [e_beam with_fuel spread_env beam_filter fst] in Hq. unfold clip in Hq. apply filter_In in Hq. destruct Hq as [[Hq|[]] _]. symmetry. exact Hq.
  - subst lp. cbn [e_like with_fuel spread_env like_filter fst]. unfold clip, like_set_global. rewrite El.
    cbn [n_lid spread_init configure l_like l_far_sq l_near_sq l_par filter p3 vx vy vz].
    change (lp_zmin (l_par (like_refresh (p_like spread)))) with (-2). change (lp_zmax (l_par (like_refresh (p_like spread)))) with 2.
    change (l_far_sq (like_refresh (p_like spread))) with (10 * 10). change (l_near_sq (like_refresh (p_like spread))) with (1/2 * (1/2)).
    unfold clip_removes. cbn [flt fadd fmul RA].
    destruct (Rltb_spec (10 * 10) (1 * 1 + 0 * 0)); [lra|]. destruct (Rltb_spec (1 * 1 + 0 * 0) (1/2 * (1/2))); [lra|].
    destruct (Rltb_spec 0 (-2)); [lra|]. destruct (Rltb_spec 2 0); [lra|]. reflexivity.
  - subst n4. cbn [n_lid set_lid l_beam beam_set_global b_hit_sq]. rewrite El. reflexivity.
Qed.
(** the second cloud is measured *)
Lemma spread_three k n2 n3 o3 : step spread_caster demo_voxel spread n2 (ECloud (spread_cloud 2) (with_fuel k spread_env)) = Ok (n3, o3) -> before_last n2 ->
  existsb is_pose o3 = true.
Proof.
  intros H HB. pose proof (spread_push n2 HB) as E. pose proof HB as (H1 & H2 & H3 & H4 & H5 & H6).
  cbn [step] in H. unfold cbCloud in H. rewrite H1 in H. change (n_acc (set_stat n2 status0)) with (n_acc n2) in H.
  rewrite E in H. cbn [bind] in H. bok H. destruct x as [nb ob]. injection H as <- <-.
  apply callbacks_one in E0; [|reflexivity]. destruct E0 as (na & nc & B0 & _ & _ & _ & _ & _ & _ & B7 & _).
  assert (na = set_stat n2 status0) as Hna by (cbn [at_process] in B0; injection B0; auto).
  unfold measure in B7. bok B7. destruct x as [n0 go]. pose proof E0 as Eg. apply gate_ok in E0.
  destruct E0 as (_ & _ & _ & _ & _ & _ & _ & _ & _ & _ & _ & _ & _ & _ & _ & G16 & _ & Gb).
  rewrite Hna in G16. change (cnt_measure (n_out (set_stat n2 status0))) with (cnt_measure (n_out n2)) in G16. rewrite H4 in G16. change ((0 + 1) mod 2 ^ 64)%Z with 1%Z in G16. rewrite G16 in Gb.
  assert (go = true) as ->. { rewrite Gb. unfold skip_size. replace (skip_measure spread) with 1%Z by (symmetry; apply spread_fields). reflexivity. }
  cbn [negb] in B7. destruct (spread_prepare k n2 na n0 HB Hna Eg) as (n1 & Ep & El). rewrite Ep in B7. cbn [bind] in B7. bok B7. unfold demo_voxel in B7.
  destruct (filters spread n1 (with_fuel k spread_env) [{| p3 := V3 1 0 0; lab := 0 |}]) as [[n4 bp] lp] eqn:Ef. destruct (spread_filters _ _ _ _ _ El Ef) as (_ & Hl & _). rewrite Hl in B7.
  apply localize_spec in B7.
  2:{ replace (lpf_step spread) with 16 by (symmetry; apply spread_fields). pose proof (Rceil_spec 16) as [_ C]. apply le_IZR. lra. }
  destruct (lz_ex _ _ _ _ _ _ B7) as (est & ratio & m1 & m2 & est' & c & o1 & o2 & parts & _ & _ & _ & _ & _ & _ & _ & -> & _).
  rewrite !existsb_app. cbn. rewrite !orb_true_r. reflexivity.
Qed.
(** a ray towards the only point of the map never ends short of it *)
Lemma never_short bm c f pts k scan : (forall q, In q pts -> p3 q = scan) -> 0 < b_hit_sq bm -> forall s s', beam_loop bm (kd_caster c f pts) scan k s = Done (s', SHORT) -> False.
Proof.
  intros Hp Hh. induction k as [|k IH]; intros s s' H; cbn [beam_loop] in H; [discriminate|]. cbn [rc_next kd_caster] in H.
  assert (Hc : forall r y q, k_next c f pts s = Some (r, Some y) -> c_point y = Some q -> In q pts).
  { clear. intros r y q H Hy. unfold k_next in H. destruct (_ <=? _)%Z; [discriminate|]. destruct (f _ _) as [| |[|[i d] l]]; try discriminate; try (injection H as _ <-; discriminate Hy).
    destruct (nth_error pts i) as [x|] eqn:E; [|discriminate]. apply nth_error_In in E. destruct (f _ _) as [| |[|[i' d'] l']]; try discriminate; injection H as _ <-; injection Hy as <-; exact E. }
  destruct (k_next c f pts s) as [[r [y|]]|]; try discriminate. destruct (negb (c_coll y)); [exact (IH _ _ H)|]. destruct (c_point y) as [q|] eqn:Eq; [|discriminate].
  destruct (_ <? _)%nat; [exact (IH _ _ H)|]. destruct (Rltb (b_sin_ref bm) (c_sin y)); [|discriminate].
  rewrite (Hp q (Hc _ _ _ eq_refl Eq)) in H. destruct (Rltb_spec (dist3_sq scan scan) (b_hit_sq bm)) as [_|X]; [discriminate|]. apply X. unfold dist3_sq. replace (_ - _) with 0 by ring. replace (vy scan - vy scan) with 0 by ring. replace (vz scan - vz scan) with 0 by ring. lra.
Qed.
Definition spread_moved : state := state_pr (V3 1 0 0) q1.
Definition spread_events : list event :=
  [EMap (Some spread_map) 1 1; ECloud (spread_cloud 1) spread_env;
   EOdom "odom" 1 (state_pr v0 q1) (fun _ _ _ => None); EOdom "odom" 2 spread_moved (fun _ _ _ => None); ECloud (spread_cloud 2) spread_env].
Lemma spread_odom t o lk (n : node (S := kray)) : exists n', step spread_caster demo_voxel spread n (EOdom "odom" t o lk) = Ok (n', [])
  /\ n_map n' = n_map n /\ n_lid n' = n_lid n /\ n_acc n' = n_acc n /\ n_out n' = n_out n /\ psize n' = psize n /\ odom_ref n' = reference (odom_ref n) [(t, o)].
Proof.
  cbn [step]. unfold cbOdom. destruct (odom_apply spread n t o) as [n1 go] eqn:E. replace (fake_imu spread) with false by (symmetry; apply spread_fields). rewrite andb_false_r.
  exists n1. split; [reflexivity|]. assert (O : odom_ref n1 = reference (odom_ref n) [(t, o)]).
  { unfold odom_ref at 2. unfold odom_apply in E. destruct (has_odom (n_odom n)); cbn [negb] in E; cbn [reference].
    2:{ injection E as <- _. reflexivity. }
    destruct (Rltb_spec (t - odom_last (n_odom n)) 0) as [X|X], (Rlt_dec (t - odom_last (n_odom n)) 0) as [Y|Y]; try lra; cbn [orb] in E; [injection E as <- _; reflexivity|].
    destruct (Rltb_spec 5 (t - odom_last (n_odom n))) as [X1|X1], (Rlt_dec 5 (t - odom_last (n_odom n))) as [Y1|Y1]; try lra; cbn [orb] in E; [injection E as <- _; reflexivity|].
    destruct (Rltb_spec (5 / 100) (t - odom_last (n_odom n))) as [X2|X2], (Rlt_dec (5 / 100) (t - odom_last (n_odom n))) as [Y2|Y2]; try lra; injection E as <- _; reflexivity. }
  unfold odom_apply in E. repeat match type of E with (if ?c then _ else _) = _ => destruct c end; injection E as <- _; repeat split; try exact O.
  unfold psize. cbn [n_pf set_pf set_odom]. unfold PfModel.predict. cbn [PfModel.parts]. apply mapi_len.
Qed.
Lemma spread_legal : legal_run spread_caster demo_voxel spread (fun _ _ => True) spread_init spread_events.
Proof.
  cbn [legal_run spread_events]. split; [intros c H; discriminate H|]. intros k0 n1 o1 E1. cbn [with_fuel_ev] in E1.
  destruct spread_one as (n1' & o1' & E1' & A1 & A2 & A3 & A4 & A5 & A6 & A7 & A8 & A9 & _). rewrite E1' in E1. injection E1 as -> ->.
  split; [split; [apply spread_env_legal; assumption|intros c _; apply spread_castable]|].
  intros k n2 o2 E2. cbn [with_fuel_ev] in E2. destruct (spread_two k n1 A3 A6 A5 A7) as (n2' & E2' & B1 & B2 & B3 & B4 & B5 & _). rewrite E2' in E2. injection E2 as <- <-.
  split; [exact I|]. intros k3 n3 o3 E3. cbn [with_fuel_ev] in E3.
  destruct (spread_odom 1 (state_pr v0 q1) (fun _ _ _ => None) n2') as (n3' & E3' & C1 & C2 & C3 & C4 & _). rewrite E3' in E3. injection E3 as <- <-.
  split; [exact I|]. intros k4 n4 o4 E4. cbn [with_fuel_ev] in E4.
  destruct (spread_odom 2 spread_moved (fun _ _ _ => None) n3') as (n4' & E4' & D1 & D2 & D3 & D4 & _). rewrite E4' in E4. injection E4 as <- <-.
  split; [|intros; exact I]. split; [|intros c _; apply spread_castable]. apply spread_env_legal; congruence.
Qed.
Lemma spread_size : psize spread_init = 64%nat.
Proof. unfold psize, spread_init, configure; cbn [n_pf]; unfold PfModel.init, PfModel.new_filter; cbn [PfModel.parts]; rewrite mapi_len, repeat_length; reflexivity. Qed.
Lemma spread_offset (n : node (S := kray)) : psize n = 64%nat -> good_offset n (/ 128).
Proof. intro H. unfold good_offset. rewrite H. replace (INR 64) with 64 by (cbn; lra). lra. Qed.
Lemma moved_quiet P (n : node (S := kray)) ev : odom_msgs [ev] = [] -> moved P n ev = P.
Proof. intro H. unfold moved. rewrite H. cbn [applied]. unfold travelled. cbn [fold_left]. apply comp_id_r. Qed.
Lemma spread_truthful K : truthful_run spread_caster demo_voxel spread (v0, q1) spread_init (map (with_fuel_ev K) spread_events).
Proof.
  cbn [map spread_events with_fuel_ev truthful_run]. split; [exact I|]. intros n1 o1 E1.
  destruct spread_one as (n1' & o1' & E1' & A1 & A2 & A3 & A4 & A5 & A6 & A7 & A8 & A9 & A10). rewrite E1' in E1. injection E1 as -> ->.
  rewrite moved_quiet by reflexivity. assert (S1 : psize n1 = 64%nat) by (unfold psize; rewrite A2; exact spread_size). split.
  { cbn [truthful]. cbn [with_fuel e_search e_sort e_sort2 e_offset spread_env]. split; [intros q r; rewrite A1; apply spread_search|]. split; [exact isort_stable|]. split; [exact isort_sorts|].
    split; [apply spread_offset, S1|]. intros m1 h pc os m2 bp lp cl Hm. exfalso. destruct Hm as [a cs na n0 _ M2 M3 _ _]. rewrite A6 in M2.
    assert (E : push_calls spread AccumModel.accum_init (spread_cloud 1) = Ok ({| AccumModel.cnt_accum := 1; AccumModel.keys := ["laser"%string] |}, [AccumModel.Accumulate (spread_cloud 1) true])) by reflexivity.
    rewrite E in M2. injection M2 as <- <-. cbn [at_process] in M3. bok M3. destruct x as [na1 oa1]. discriminate M3. }
  intros n2 o2 E2. destruct (spread_two K n1 A3 A6 A5 A7) as (n2' & E2' & B1 & B2 & B3 & B4 & B5 & B6 & B7 & B8). rewrite E2' in E2. injection E2 as <- <-.
  rewrite moved_quiet by reflexivity. split; [unfold truthful, unit_pose, unit_quat; cbn; ring|]. intros n3 o3 E3.
  destruct (spread_odom 1 (state_pr v0 q1) (fun _ _ _ => None) n2') as (n3' & E3' & C1 & C2 & C3 & C4 & C5 & C6). rewrite E3' in E3. injection E3 as <- <-.
  assert (R2 : odom_ref n2' = None) by (unfold odom_ref; rewrite B8, A10; reflexivity). rewrite R2 in C6. cbn [reference] in C6.
  assert (M : moved (v0, q1) n2' (EOdom "odom" 1 (state_pr v0 q1) (fun _ _ _ => None)) = (v0, q1)).
  { unfold moved. rewrite R2. cbn [odom_msgs flat_map app applied]. unfold travelled. cbn [fold_left]. apply comp_id_r. }
  rewrite M. split; [unfold truthful, unit_pose, unit_quat; cbn; ring|]. intros n4 o4 E4.
  destruct (spread_odom 2 spread_moved (fun _ _ _ => None) n3') as (n4' & E4' & D1 & D2 & D3 & D4 & D5 & D6). rewrite E4' in E4. injection E4 as <- <-.
  assert (M2 : moved (v0, q1) n3' (EOdom "odom" 2 spread_moved (fun _ _ _ => None)) = (V3 1 0 0, q1)).
  { unfold moved. rewrite C6. cbn [odom_msgs flat_map app applied]. destruct (Rlt_dec (2 - 1) 0) as [X|_]; [lra|]. destruct (Rlt_dec 5 (2 - 1)) as [X|_]; [lra|]. destruct (Rlt_dec (5 / 100) (2 - 1)) as [_|X]; [|lra].
    unfold travelled. cbn [fold_left]. rewrite !StateProofs.comp_id_l. unfold comp_pose, inv_pose, pose_of. cbn [fst snd pos rot state_pr spread_moved].
    unfold QuatModel.inv, q1, v0, vadd, vscale, qrot, qmul, qdiv, qdot, conj. cbn. f_equal; f_equal; field. }
  rewrite M2. split; [|intros; exact I].
  assert (HB : before_last n4') by (unfold before_last; rewrite D1, D2, D3, D4, C1, C2, C3, C4, B1, B3; repeat split; congruence).
  assert (S4 : psize n4' = 64%nat) by (rewrite D5, C5; unfold psize; rewrite B2, A2; exact spread_size).
  cbn [truthful]. cbn [with_fuel e_search e_sort e_sort2 e_offset e_fuel spread_env]. split; [intros q r; replace (kd (n_map n4')) with spread_kd by congruence; apply spread_search|]. split; [exact isort_stable|].
  split; [exact isort_sorts|]. split; [apply spread_offset, S4|]. intros m1 h pc os m2 bp lp cl Hm Hf Hc.
  destruct Hm as [a cs na n0 _ X2 X3 X4 X5]. rewrite (spread_push _ HB) in X2. injection X2 as <- <-. cbn [at_process] in X3. injection X3 as <-.
  destruct (spread_prepare K n4' _ n0 HB eq_refl X4) as (n1' & Ep & El). rewrite Ep in X5. injection X5 as -> <- <- <-. unfold demo_voxel in Hf.
  destruct (spread_filters _ _ _ _ _ El Hf) as (F1 & F2 & F3).
  assert (Ec : cl_pts cl = spread_map). { unfold map_cloud in Hc, A4. rewrite D1, C1, B1, A4 in Hc. injection Hc as <-. reflexivity. }
  assert (Ev : vadd (qrot q1 (V3 1 0 0)) (V3 1 0 0) = V3 2 0 0) by (unfold vadd, qrot, q1; cbn; f_equal; ring).
  split.
  - intros q Hq. rewrite F2 in Hq. destruct Hq as [<-|[]]. exists spread_pt. rewrite Ec. split; [left; reflexivity|]. cbn [p3 fst snd spread_pt]. symmetry. exact Ev.
  - intros q o sa sb st Hq Ho Hs. rewrite (F1 q Hq) in Hs. cbn [p3 fst snd] in Hs. rewrite Ev in Hs. destruct st; try exact I; [|apply spread_fields].
    unfold getBeamStatus, spread_caster, node_kd_caster in Hs. cbn [rc_set kd_caster] in Hs. rewrite Ec in Hs.
    refine (never_short _ _ _ _ _ _ _ _ _ _ Hs); [intros x [<-|[]]; reflexivity|]. rewrite F3. lra.
Qed.
(** The hypotheses of C108 hold for a history with odometry and a measured cloud in which the
    particles stand at different places: the node runs to its end, localizes there, and still
    tracks the true pose, one metre ahead of the initial one. *)
Example C108_nonvacuous : exists evs n o t x c,
  keep_settings spread /\ truthful_run spread_caster demo_voxel spread (v0, q1) spread_init evs /\ tracked (v0, q1) (n_pf spread_init)
  /\ (exists s, In s (PfSpec.poses RA (n_pf spread_init)) /\ ~ at_pose (v0, q1) s)
  /\ steps spread_caster demo_voxel spread spread_init evs = Ok (n, o) /\ In (OPose t x c) o /\ tracked (V3 1 0 0, q1) (n_pf n).
Proof.
  assert (Hv : keeps_labels (demo_voxel (ds_x spread, ds_y spread, ds_z spread))) by (intros l q Hq; exists q; split; [exact Hq|lia]).
  destruct (C93_node_never_fails _ spread_caster demo_voxel spread (fun _ _ => True) spread_gen spread_rc spread_events spread_ok Hv (fun _ _ _ _ _ => I) (fun _ => I) spread_legal)
    as (n & o & K & H & _). specialize (H K (Nat.le_refl K)). fold spread_init in H.
  assert (Ip : (pos (initial_pose spread), setRPY (getRPY (rot (initial_pose spread)))) = (v0, q1)).
  { change (pos (initial_pose spread)) with v0. change (rot (initial_pose spread)) with (setRPY v0). rewrite StateProofs.setRPY_0, StateProofs.getRPY_q1, StateProofs.setRPY_0. reflexivity. }
  destruct (C108_start (S := kray) spread spread_gen spread_rc 0) as (T1 & T2 & T3 & T4).
  { change (Z.to_nat (num_particles spread)) with 64%nat. lia. }
  { intro k. unfold spread_gen. destruct (k =? 0)%nat; reflexivity. }
  { intros s _. change (pos (initial_pose spread)) with v0. unfold vnorm at 1. replace (vdot v0 v0) with 0 by (unfold vdot, v0; cbn; ring). rewrite sqrt_0. apply sqrt_pos. }
  cbv zeta in T1, T2. rewrite Ip in T1, T2. fold spread_init in T1, T3, T4.
  pose proof (C108_true_pose_is_kept spread_caster demo_voxel spread [] spread_gen spread_rc [] _ _ _ _ _ spread_keep eq_refl T2 T3 T1 T4 (spread_truthful K) H) as [A _].
  assert (R0 : odom_ref (configure spread spread_gen spread_rc) = None) by reflexivity. rewrite R0 in A.
  assert (Em : odom_msgs (map (with_fuel_ev K) spread_events) = [(1, state_pr v0 q1); (2, spread_moved)]) by reflexivity.
  rewrite Em in A. cbn [applied reference] in A. destruct (Rlt_dec (2 - 1) 0) as [X|_]; [lra|]. destruct (Rlt_dec 5 (2 - 1)) as [X|_]; [lra|]. destruct (Rlt_dec (5 / 100) (2 - 1)) as [_|X]; [|lra].
  assert (Ec : comp_pose (v0, q1) (travelled [(state_pr v0 q1, spread_moved, 2 - 1)]) = (V3 1 0 0, q1)).
  { unfold travelled. cbn [fold_left]. rewrite !StateProofs.comp_id_l. unfold comp_pose, inv_pose, pose_of. cbn [fst snd pos rot state_pr spread_moved].
    unfold QuatModel.inv, q1, v0, vadd, vscale, qrot, qmul, qdiv, qdot, conj. cbn. f_equal; f_equal; field. }
  rewrite Ec in A.
  assert (P : existsb is_pose o = true).
  { change (map (with_fuel_ev K) spread_events) with [EMap (Some spread_map) 1 1; ECloud (spread_cloud 1) (with_fuel K spread_env);
      EOdom "odom" 1 (state_pr v0 q1) (fun _ _ _ => None); EOdom "odom" 2 spread_moved (fun _ _ _ => None); ECloud (spread_cloud 2) (with_fuel K spread_env)] in H.
    destruct spread_one as (n1 & o1 & E1 & A1 & A2 & A3 & A4 & A5 & A6 & A7 & A8 & A9 & A10).
    destruct (spread_two K n1 A3 A6 A5 A7) as (n2 & E2 & B1 & B2 & B3 & B4 & B5 & B6 & B7 & _).
    destruct (spread_odom 1 (state_pr v0 q1) (fun _ _ _ => None) n2) as (n3 & E3 & C1 & C2 & C3 & C4 & _).
    destruct (spread_odom 2 spread_moved (fun _ _ _ => None) n3) as (n4 & E4 & D1 & D2 & D3 & D4 & _).
    revert H E1 E2 E3 E4. generalize (EMap (Some spread_map) 1 1) as ev1. generalize (ECloud (spread_cloud 1) (with_fuel K spread_env)) as ev2.
    generalize (EOdom "odom" 1 (state_pr v0 q1) (fun _ _ _ => None)) as ev3. generalize (EOdom "odom" 2 spread_moved (fun _ _ _ => None)) as ev4. intros ev4 ev3 ev2 ev1 H E1 E2 E3 E4.
    remember (ECloud (spread_cloud 2) (with_fuel K spread_env)) as ev5 eqn:H5. cbn [steps] in H. rewrite E1 in H. cbn [bind] in H. rewrite E2 in H. cbn [bind] in H. rewrite E3 in H. cbn [bind] in H. rewrite E4 in H. cbn [bind] in H.
    destruct (step spread_caster demo_voxel spread n4 ev5) as [[n5 o5]| | |] eqn:E5; cbn [bind] in H; try discriminate. injection H as _ <-. subst ev5.
    rewrite !existsb_app, (spread_three K n4 n5 o5 E5). { rewrite !orb_true_r. reflexivity. }
    unfold before_last; rewrite D1, D2, D3, D4, C1, C2, C3, C4, B1, B3; repeat split; congruence. }
  apply existsb_exists in P. destruct P as (y & Hy & Py). destruct y as [ | | |t0 x0 c0| | | ]; try discriminate.
  exists (map (with_fuel_ev K) spread_events), n, o, t0, x0, c0. split; [exact spread_keep|]. split; [apply spread_truthful|]. split; [exact T1|]. split; [|split; [exact H|split; [exact Hy|exact A]]].
  exists (diag_noise (initial_pose spread) (initial_pose_std spread) (spread_gen 1)). split.
  - unfold spread_init, configure. cbn [n_pf]. unfold PfSpec.poses, PfModel.init. cbn [PfModel.parts]. apply (nth_error_In _ 1%nat). rewrite nth_error_map, PfProofs.mapi_nth. reflexivity.
  - intros (Q & _). apply (f_equal fst) in Q. cbn [fst pose_of] in Q. unfold diag_noise, generateNoise in Q.
    change (set_sigma (initial_pose_std spread)) with [2; 0; 0; 0; 0; 0] in Q. unfold set_mean in Q. cbn [diagonal] in Q.
    destruct (Req_EM_T 2 0) as [X|_]; [lra|]. destruct (Req_EM_T 0 0) as [_|X]; [|lra]. cbn [next_normal fst noise_state nth pos] in Q. apply (f_equal vx) in Q. cbn [vx] in Q.
    change (vx (pos (initial_pose spread))) with 0 in Q. unfold spread_gen in Q. cbn in Q. lra.
Qed.
