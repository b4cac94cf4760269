(** C122: from the parameter server to a node that never fails. *)
From Coq Require Import String.
From Coq Require Import Reals ZArith NArith List Bool Arith Lra Lia.
From Verif Require PfModel FilterModel AccumModel.
From Verif Require Import Arith KdModel QuatModel StateModel RayModel LidarModel ParamModel ParamProps ParamTabProps NodeModel NodeSpec NodeMapProofs NodeAliveSpec NodeAliveProps.
Import ListNotations.
Open Scope string_scope.
Open Scope R_scope.
Open Scope list_scope.

(** Values on the parameter server with which the node runs; a parameter that is not there has
    its default value.  [rf]: narrowing to float. *)
Record runs_with (rf : R -> R) (s : server) : Prop := {
  rw_particles : (1 <= param to_int s "num_particles" 64)%Z;
  rw_skip : (1 <= param to_int s "skip_measure" 1 < 2 ^ 31)%Z;
  rw_accum : let n := param to_int s "accum_cloud" 1%Z in n = 0%Z \/ (1 <= param to_int s "total_accum_cloud_max" (n * 10) < 2 ^ 31)%Z;
  rw_beam : 0 <= rf (param to_double s "beam/beam_likelihood" (2 / 10));
  rw_weight : 0 <= rf (param to_double s "likelihood/match_weight" 5);
  rw_match : rf (param to_double s "likelihood/match_dist_min" (2 / 10)) <= param to_double s "map_chunk" 20;
  rw_unmatch : param to_double s "unmatch_output_dist" (5 / 10) <= param to_double s "map_chunk" 20;
  rw_sigma : param to_double s "odom_err_integ_lin_sigma" 100 <> 0 /\ param to_double s "acc_var" (PI / 4) <> 0
             /\ param to_double s "bias_var_dist" 2 <> 0 /\ param to_double s "bias_var_ang" (157 / 100) <> 0;
  rw_headings : / 100000000 <= param to_double s "global_localization_grid_ang" (524 / 1000) <= 12 }.

Lemma headings a : / 100000000 <= a <= 12 -> (1 <= lround (2 * PI / a) < 2 ^ 31)%Z.
Proof.
  intros [H1 H2]. pose proof PI2_3_2 as HP. unfold PI2 in HP. pose proof PI_4 as HP4. assert (Ha : 0 < a) by lra.
  assert (B1 : 1 / 2 <= 2 * PI / a) by (apply Rmult_le_reg_r with a; [lra|]; unfold Rdiv at 2; rewrite Rmult_assoc, Rinv_l by lra; lra).
  assert (B2 : 2 * PI / a <= 800000000).
  { apply Rmult_le_reg_r with a; [lra|]. unfold Rdiv. rewrite Rmult_assoc, Rinv_l by lra. lra. }
  unfold lround. destruct (Rltb (2 * PI / a) 0) eqn:E; [apply Rltb_true in E; lra|].
  pose proof (Rfloor_spec (2 * PI / a + / 2)) as [G1 G2]. split.
  - apply Z.lt_succ_r, lt_IZR. rewrite succ_IZR. lra.
  - apply lt_IZR. apply Rle_lt_trans with (2 * PI / a + / 2); [exact G1|]. lra.
Qed.
(** Every history of events in legal surroundings is processed to its end, if the node starts at
    all (see C71) and the server has such values. *)
Theorem C122_started_node_never_fails : forall rf junk cfg s p s' S (caster : cloud -> (pt -> R -> search) -> raycaster S) voxel Inv gen rc0 evs,
  load rf junk cfg s = Some (p, s') -> runs_with rf s' ->
  keeps_labels (voxel (ds_x p, ds_y p, ds_z p)) -> survives_newer Inv -> (forall c, Inv c rc0) -> legal_run caster voxel p Inv (configure p gen rc0) evs ->
  exists n o K,
    (forall k, (K <= k)%nat -> steps caster voxel p (configure p gen rc0) (map (with_fuel_ev k) evs) = Ok (n, o))
    /\ usable_particles (n_pf n).
Proof.
  intros rf junk cfg s p s' S caster voxel Inv gen rc0 evs HL HR Hv Hnew H0 Hleg.
  assert (Hp : settings_ok p).
  { destruct (C116_settings _ _ _ _ _ _ HL) as (A1 & A2 & A3 & _ & _ & _ & A7 & A8). destruct (C116_other_settings _ _ _ _ _ _ HL) as (_ & B2 & B3 & _).
    rewrite Forall_forall in A1, A2, A3. destruct HR as [R1 R2 R3 R4 R5 R6 R7 R8 R9].
    assert (D : forall k d get, In (k, d, get) doubles -> get p = param to_double s' k d) by (intros k d get Hin; exact (A1 _ Hin)).
    assert (F : forall k d get, In (k, d, get) floats -> get p = rf (param to_double s' k d)) by (intros k d get Hin; exact (A2 _ Hin)).
    assert (G : forall k d get, In (k, d, get) ints -> get p = param to_int s' k d) by (intros k d get Hin; exact (A3 _ Hin)).
    constructor.
    - rewrite (G "num_particles" 64%Z num_particles); [exact R1|unfold ints; cbn; tauto].
    - rewrite (G "skip_measure" 1%Z skip_measure); [exact R2|unfold ints; cbn; tauto].
    - rewrite A7, A8. unfold load in HL. destruct (param to_bool s "fake_imu" false && param to_bool s "fake_odom" false); [discriminate|reflexivity].
    - rewrite B3, (G "accum_cloud" 1%Z accum_cloud); [exact R3|unfold ints; cbn; tauto].
    - rewrite (F "beam/beam_likelihood" (2 / 10) (fun q => bp_alpha (p_beam q))); [exact R4|unfold floats; cbn; tauto].
    - rewrite (F "likelihood/match_weight" 5 (fun q => lp_weight (p_like q))); [exact R5|unfold floats; cbn; tauto].
    - rewrite (F "likelihood/match_dist_min" (2 / 10) (fun q => lp_dist_min (p_like q))), (D "map_chunk" 20 map_chunk); [exact R6|unfold doubles; cbn; tauto|unfold floats; cbn; tauto].
    - rewrite (D "unmatch_output_dist" (5 / 10) unmatch_output_dist), (D "map_chunk" 20 map_chunk); [exact R7|unfold doubles; cbn; tauto|unfold doubles; cbn; tauto].
    - rewrite (D "odom_err_integ_lin_sigma" 100 integ_lin_sigma), (D "acc_var" (PI / 4) acc_var), (D "bias_var_dist" 2 bias_var_dist), (D "bias_var_ang" (157 / 100) bias_var_ang);
        [exact R8|unfold doubles; cbn; tauto|unfold doubles; cbn; tauto|unfold doubles; cbn; tauto|unfold doubles; cbn; tauto].
    - rewrite B2. exact (headings _ R9). }
  destruct (C93_node_never_fails S caster voxel p Inv gen rc0 evs Hp Hv Hnew H0 Hleg) as (n & o & K & H1 & _).
  exists n, o, K. split; [exact H1|]. exact (C94_particles_stay_usable S caster voxel p Inv gen rc0 evs K n o Hp Hv Hnew H0 Hleg (H1 K (Nat.le_refl K))).
Qed.
(** The default parameters are such values. *)
Theorem C122_defaults_run : forall rf, rf 0 = 0 -> (forall x y, x <= y -> rf x <= rf y) -> rf 20 = 20 -> runs_with rf (fun _ => None).
Proof.
  intros rf R0 Rm R20. pose proof PI_RGT_0. constructor; unfold param; cbv beta iota zeta; try lia; try lra.
  - rewrite <- R0. apply Rm. lra.
  - rewrite <- R0. apply Rm. lra.
  - rewrite <- R20. apply Rm. lra.
Qed.
