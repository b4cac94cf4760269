(** The hypotheses of C119 hold: the default settings with the weighted sampler and without
    accumulation, a map of two cells, a global localization, one cloud. *)
From Coq Require Import String Reals ZArith NArith List Bool Arith Lra Lia Permutation.
From Verif Require PfModel FilterModel AccumModel.
From Verif Require Import Arith KdModel KdSpec QuatModel StateModel StateSpec RayModel RaySpec LidarModel LidarSpec SamplerModel
  ParamModel MatModel NodeModel NodeSpec NodeFrame NodeLocProofs NodeStepProofs NodeMapProofs NodeMapProps NodeAliveSpec NodeAliveProofs NodeAliveProofs2 NodeAliveProps NodeAccProps NodeGlobProps
  NodeSampModel NodeSampSpec NodeSampProps NodeSampGlobProps NodeDemo.
Import ListNotations.
Open Scope R_scope.
Open Scope list_scope.
Definition demo_w : params := load_params (fun x => x) false false (0, 0, 0)
  (set_param "use_random_sampler_with_normal" (PBool true) (set_param "accum_cloud" (PInt 0) (fun _ => None))).
Lemma demo_w_ok : settings_ok demo_w.
Proof.
  constructor.
  - cbn; lia.
  - cbn; lia.
  - reflexivity.
  - left. reflexivity.
  - cbn; lra.
  - cbn; lra.
  - cbn; lra.
  - cbn; lra.
  - cbn. pose proof PI_RGT_0. repeat split; lra.
  - exact (so_headings demo demo_ok).
Qed.
Definition w_caster := node_kd_caster demo_w.
Definition w_init : node (S := kray) := configure demo_w (fun _ _ => 0) demo_rc.
Lemma w_pts : cm_pts demo_w (demo_cloud 1) = Some [V3 1 0 0; V3 2 0 0].
Proof.
  assert (G : forall v, tf_point (v0, q1) v = v) by (intros [x y z]; unfold tf_point; cbn [fst snd]; rewrite QuatProofs.qrot_1; unfold vadd, v0; cbn; f_equal; ring).
  unfold cm_pts. cbn [demo_cloud cm_lookup cm_conv option_map map]. rewrite !G. reflexivity.
Qed.
Lemma w_one : exists n1 o1, step w_caster demo_voxel demo_w w_init (EMap (Some demo_map) 1 1) = Ok (n1, o1)
  /\ n_pf n1 = n_pf w_init /\ has_map (n_map n1) = true
  /\ get_obj (n_map n1) (pc_map2 (n_map n1)) = Ok {| cl_id := 0; cl_stamp := 1; cl_pts := demo_map |} /\ cnt_measure (n_out n1) = 0%Z.
Proof. cbn [step cbMapcloud]. unfold loadMapCloud. eexists _, _. split; [reflexivity|]. repeat split; reflexivity. Qed.
Lemma w_measures (n : node (S := kray)) : has_map (n_map n) = true -> cnt_measure (n_out n) = 0%Z ->
  exists n1 h pc os, measures_with demo_voxel demo_w w_caster n (demo_cloud 1) demo_env n1 h pc os.
Proof.
  intros Hm Hc.
  assert (Hp : push_calls demo_w (ac (n_acc n)) (demo_cloud 1) = Ok (ac (n_acc n), [AccumModel.Clear; AccumModel.Accumulate (demo_cloud 1) true; AccumModel.Process])).
  { unfold push_calls. rewrite w_pts. reflexivity. }
  destruct (gate demo_w (set_acc (set_acc (set_stat n status0) (accumClear (n_acc (set_stat n status0))))
     {| ac := ac (accumClear (n_acc n)); local := Some (map (fun v => {| p3 := v; lab := 0 |}) [V3 1 0 0; V3 2 0 0]); headers := [{| h_frame := "laser"; h_stamp := 1 |}] |})) as [[n0 go]| | |] eqn:Eg.
  2-4: unfold gate in Eg; discriminate Eg.
  pose proof (gate_ok _ _ _ _ Eg) as (_ & G2 & _ & _ & _ & _ & _ & _ & _ & _ & _ & _ & _ & _ & _ & G16 & _ & Gb).
  cbn [set_acc n_out] in G16. change (cnt_measure (n_out (set_stat n status0))) with (cnt_measure (n_out n)) in G16. rewrite Hc in G16. change ((0 + 1) mod 2 ^ 64)%Z with 1%Z in G16. rewrite G16 in Gb.
  assert (go = true) as -> by (rewrite Gb; reflexivity).
  cbn [set_acc n_acc] in G2.
  assert (Ep : exists n1 pc, prepare demo_w n0 demo_env = Ok (n1, Some ({| h_frame := "laser"; h_stamp := 1 |}, pc, [v0]))).
  { unfold prepare. rewrite G2. cbn [rev app headers local base_tf origin_of e_lookup e_lookup5 demo_env get_origins option_map fst]. eexists _, _. reflexivity. }
  destruct Ep as (n1 & pc & Ep). exists n1, {| h_frame := "laser"; h_stamp := 1 |}, pc, [v0].
  eapply mw_intro; [exact Hm|exact Hp| |exact Eg|exact Ep].
  cbn [at_process callback bind]. unfold accumCloud. rewrite w_pts. cbn [set_acc n_acc accumClear local headers bind demo_cloud cm_frame cm_stamp app length]. reflexivity.
Qed.
Example C119_nonvacuous :
  let evs := [EMap (Some demo_map) 1 1] in
  let hits := demo_hits demo_w in
  exists n o n' o' n1 h pc os, steps w_caster demo_voxel demo_w w_init evs = Ok (n, o) /\ avail (expect_run demo_voxel demo_w evs) = true
    /\ step w_caster demo_voxel demo_w n (EGlobal hits isort) = Ok (n', o') /\ sorts isort /\ PfModel.parts RA (n_pf n) <> [] /\ (1 <= glob_div_yaw demo_w)%Z
    /\ legal_hits demo_w (demo_voxel (glob_grid demo_w, glob_grid demo_w, glob_grid demo_w) (content (expect_run demo_voxel demo_w evs))) hits
    /\ keeps (free_above (metric demo_w) (glob_grid demo_w) demo_map) demo_map demo_map /\ demo_map <> [] /\ (Z.of_nat (length demo_map) * glob_div_yaw demo_w < 2 ^ 64)%Z
    /\ measures_with demo_voxel demo_w w_caster n' (demo_cloud 1) demo_env n1 h pc os
    /\ use_sampler_normal demo_w = true /\ (forall l, Permutation l (e_stat_shuffle demo_env l))
    (* and most of the particles are not seen *)
    /\ (length demo_map + 1 < length (PfModel.parts RA (n_pf n')))%nat.
Proof.
  intros evs hits. destruct w_one as (n1 & o1 & E1 & A2 & A3 & A4 & A9).
  assert (Hst : steps w_caster demo_voxel demo_w w_init evs = Ok (n1, o1)).
  { unfold evs. remember (EMap (Some demo_map) 1 1) as ev1. cbn [steps]. rewrite E1. cbn [bind]. rewrite app_nil_r. reflexivity. }
  assert (Hk : keeps (free_above (metric demo_w) (glob_grid demo_w) demo_map) demo_map demo_map).
  { assert (Hf : forall c, In c demo_map -> free_above (metric demo_w) (glob_grid demo_w) demo_map c).
    { change (metric demo_w) with (1, 1, 5). change (glob_grid demo_w) with (3 / 10). intros c Hc c' Hc'.
      assert (Z1 : vz (p3 c) = 0) by (destruct Hc as [<-|[<-|[]]]; reflexivity). assert (Z2 : vz (p3 c') = 0) by (destruct Hc' as [<-|[<-|[]]]; reflexivity).
      unfold dist_sq, above, to_pt. cbn [px py pz]. rewrite Z1, Z2.
      pose proof (Rle_0_sqr (1 * vx (p3 c') - 1 * vx (p3 c))). pose proof (Rle_0_sqr (1 * vy (p3 c') - 1 * vy (p3 c))). unfold Rsqr in *. lra. }
    unfold demo_map at 2 3. apply keeps_yes; [apply Hf; left; reflexivity|]. apply keeps_yes; [apply Hf; right; left; reflexivity|]. constructor. }
  pose proof (so_headings demo_w demo_w_ok) as Hh.
  assert (Hb : (Z.of_nat (length demo_map) * glob_div_yaw demo_w < 2 ^ 64)%Z) by (cbn [length demo_map]; lia).
  pose proof (inv_reach w_caster demo_voxel demo_w _ _ _ _ _ Hst) as Hinv.
  assert (Hlen : length (PfModel.parts RA (n_pf w_init)) = 64%nat).
  { unfold w_init, configure. cbn [n_pf]. unfold PfModel.init, PfModel.new_filter. cbn [PfModel.parts]. rewrite mapi_len, repeat_length. reflexivity. }
  assert (Hne : PfModel.parts RA (n_pf n1) <> []) by (intro Hx; rewrite A2 in Hx; rewrite Hx in Hlen; discriminate).
  destruct (global_total w_caster demo_voxel demo_w demo_w_ok (fun _ _ => True) n1 hits isort _ _ Hinv) as (n' & o' & E & _).
  - split; [exact isort_sorts|]. intros c Hc. destruct (iv_map _ _ _ _ Hinv eq_refl) as (l & c0 & C1 & C2 & C3 & C4 & _). unfold get_obj in Hc, A4. rewrite C2 in A4. rewrite C1, A4 in Hc.
    injection Hc as <-. cbn [cl_pts]. unfold demo_voxel. rewrite <- (keeps_unique _ _ _ _ Hk (C78_kept_cells demo_w demo_map hits (demo_hits_legal demo_w demo_map))).
    split; [discriminate|exact Hb].
  - rewrite A2. unfold w_init, configure. cbn [n_pf]. apply init_usable. cbn [PfModel.new_filter PfModel.parts]. rewrite repeat_length. cbn. lia.
  - change (step w_caster demo_voxel demo_w n1 (EGlobal hits isort) = Ok (n', o')) in E. pose proof E as E'. apply service_frame in E'; [|exact I]. destruct E' as (F1 & F2 & F3 & F4 & F5 & _).
    destruct (w_measures n') as (m1 & h & pc & os & Hw); [rewrite F1; exact A3|rewrite F5; exact A9|].
    exists n1, o1, n', o', m1, h, pc, os. split; [exact Hst|]. split; [reflexivity|]. split; [exact E|]. split; [exact isort_sorts|]. split; [exact Hne|]. split; [lia|].
    split; [exact (demo_hits_legal demo_w demo_map)|]. split; [exact Hk|]. split; [discriminate|]. split; [exact Hb|]. split; [exact Hw|]. split; [reflexivity|]. split; [intro; apply Permutation_refl|].
    destruct (C78_one_particle_per_cell_and_heading w_caster demo_voxel demo_w evs (fun _ _ => 0) demo_rc n1 o1 hits isort n' o' Hst eq_refl E isort_sorts Hne ltac:(lia) (demo_hits_legal demo_w demo_map) demo_map Hk Hb) as (_ & HL & _).
    rewrite HL. assert (Hd : (2 <= Z.to_nat (glob_div_yaw demo_w))%nat); [|cbn [length demo_map]; lia].
    assert (2 <= glob_div_yaw demo_w)%Z; [|lia]. change (glob_div_yaw demo_w) with (lround (2 * PI / (524 / 1000))).
    pose proof PI2_3_2 as HPI. unfold PI2 in HPI. unfold lround. destruct (Rltb (2 * PI / (524 / 1000)) 0) eqn:E2; [apply Rltb_true in E2; lra|].
    pose proof (Rfloor_spec (2 * PI / (524 / 1000) + / 2)) as [G1 G2]. apply Z.lt_succ_r, lt_IZR. rewrite succ_IZR. lra.
Qed.
