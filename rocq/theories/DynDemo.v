(** A concrete history with reconfigurations that meets the hypotheses of C115: the history of
    NodeDemo.v, with two requests before its last cloud. *)
From Coq Require Import String Reals ZArith NArith List Bool Arith Lra Lia.
From Verif Require PfModel FilterModel AccumModel.
From Verif Require Import Arith KdModel QuatModel StateModel RayModel LidarModel ParamModel NodeModel NodeSpec NodeAliveSpec NodeDemo DynModel DynProps.
Import ListNotations.
Open Scope R_scope.
Open Scope list_scope.

Definition req1 : request := [("std_warn_thresh_z", 3); ("std_warn_thresh_xy", -1)]%string.
Definition req2 : request := [("std_warn_thresh_z", 1 / 2)]%string.
Lemma forget_pose o : existsb is_pose (map forget_out o) = existsb is_pose o.
Proof. induction o as [|[] t IH]; cbn; rewrite ?IH; reflexivity. Qed.
Example C115_nonvacuous : exists es ev d1 o1 d2 o t pose c,
  dsteps demo_caster demo_voxel (fun x => x) demo (dconfigure demo (fun _ => None) (fun _ _ => 0) demo_rc) es = Ok (d1, o1)
  /\ dstep demo_caster demo_voxel (fun x => x) demo d1 (DEvent ev) = Ok (d2, o) /\ In (OPose t pose c) o
  /\ c_xy (d_config d1) = 0 /\ c_z (d_config d1) = 1 / 2 /\ c_yaw (d_config d1) = dbl_max.
Proof.
  destruct demo_trace as (k & n & o & tr & x & _ & _ & _ & _ & _ & W & _ & L & (o2 & H9) & H10 & _).
  rewrite W in H10.
  change (map (with_fuel_ev k) [EMap (Some demo_map) 1 1; ECloud (demo_cloud 1) demo_env]) with [EMap (Some demo_map) 1 1; ECloud (demo_cloud 1) (with_fuel k demo_env)] in H9.
  revert H9 H10. generalize (EMap (Some demo_map) 1 1) as ev1. generalize (ECloud (demo_cloud 1) (with_fuel k demo_env)) as ev2.
  generalize (ECloud (demo_cloud 2) (with_fuel k demo_env)) as ev3. intros ev3 ev2 ev1 H9 H10.
  set (d0 := dconfigure demo (fun _ => None) (fun _ _ => 0) demo_rc).
  pose proof (C115_transparent demo_caster demo_voxel (fun x => x) demo d0 [DEvent ev1; DReconfigure req1; DEvent ev2; DReconfigure req2]) as T.
  change (erase [DEvent ev1; DReconfigure req1; DEvent ev2; DReconfigure req2]) with [ev1; ev2] in T. change (d_node d0) with demo_init in T. rewrite H9 in T.
  destruct (dsteps _ _ _ _ d0 _) as [[d1 o1]| | |] eqn:E1; try contradiction. destruct T as [T1 _].
  pose proof (C115_transparent demo_caster demo_voxel (fun x => x) demo d1 [DEvent ev3]) as T.
  destruct (forget_conv _ _ T1) as [c0 Ec]. rewrite Ec in H10. pose proof (event_same demo_caster demo_voxel demo (d_node d1) c0 ev3) as K. rewrite H10 in K.
  change (erase [DEvent ev3]) with [ev3] in T. cbn [steps dsteps] in T.
  destruct (step demo_caster demo_voxel demo (d_node d1) ev3) as [[n3 o3]| | |]; try contradiction. destruct K as [_ ->]. cbn [bind] in T.
  destruct (dstep _ _ _ _ d1 (DEvent ev3)) as [[d2 o4]| | |] eqn:E2; try contradiction. cbn [bind] in T. destruct T as [_ T].
  rewrite !app_nil_r in T. assert (P : existsb is_pose o4 = true) by (rewrite <- forget_pose, T, forget_pose; exact L).
  apply existsb_exists in P. destruct P as (p & P1 & P2). destruct p as [| | |t pose c| | |]; try discriminate.
  exists [DEvent ev1; DReconfigure req1; DEvent ev2; DReconfigure req2], ev3, d1, o1, d2, o4, t, pose, c.
  split; [exact E1|]. split; [exact E2|]. split; [exact P1|].
  assert (D : 3 <= dbl_max) by (unfold dbl_max; apply (IZR_le 3); lia).
  assert (F : config_first (fun _ => None) = config_default).
  { unfold config_first, config_clamp, config_from_server, param. cbn [c_xy c_z c_yaw config_default]. rewrite !clampd_spec, !clamped_id by lra. reflexivity. }
  assert (V : valid_config (d_config d0)).
  { unfold d0. cbn [dconfigure d_config]. rewrite F. unfold valid_config. cbn [config_default c_xy c_z c_yaw]. lra. }
  destruct (C115_values _ _ _ _ _ _ _ _ V E1) as (X & Y & Z & _).
  cbn zeta in X, Y, Z. rewrite X, Y, Z. clear X Y Z. unfold d0. cbn [dconfigure d_config]. rewrite F.
  cbn [last_named]. unfold named, req1, req2. cbn [find fst snd String.eqb Ascii.eqb Bool.eqb option_map config_default c_yaw].
  split; [|split; [apply clamped_id; lra|reflexivity]]. unfold clamped. rewrite Rmin_left by lra. rewrite Rmax_left by lra. reflexivity.
Qed.
