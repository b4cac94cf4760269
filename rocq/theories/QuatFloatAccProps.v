(** C126, accuracy: the computed rotation stays near the exact one. *)
From Coq Require Import Reals ZArith List Bool Lra Lia Psatz.
From Flocq Require Import Core.Core IEEE754.BinarySingleNaN.
From Verif Require Import Arith Ieee QuatModel QuatSpec QuatProofs StateModel NdModel LikeFloatProofs KdFloatProofs IeeeErr QuatFloatModel QuatFloatSpec QuatFloatProofs QuatFloatAcc QuatFloatProps.
Import ListNotations.
Local Open Scope R_scope.

(** After n steps the computed rotation is at most n/12000 farther (Euclidean distance of unit quaternions) from the
    exact one than it was at the start. *)
Theorem C126_tracks_exact : forall sinf cosf, trig_good sinf cosf -> forall history rot q,
  Forall usable_in history -> nearly_unit (/ 500000) rot -> unit_quat q ->
  qdist (value (fold_left (rot_step32 sinf cosf) history rot)) (fold_left exact_step history q)
    <= qdist (value rot) q + INR (length history) / 12000.
Proof. intros s c G l rot q H N U. exact (steps_acc s c G l rot q H N U). Qed.

(** The exact step is what the model of C47, C48 and C125 computes in real arithmetic. *)
Theorem C126_exact_is_the_model : forall tl ta (po co s : state) dt yd prev cur,
  rot po = value prev -> rot co = value cur ->
  f2r yd = noise_la s * StateModel.rel_norm (setOdoms tl ta po co dt) + noise_aa s * rel_ang (setOdoms tl ta po co dt) ->
  rot (motion_predict (setOdoms tl ta po co dt) s) = exact_step (rot s) (Odometry yd prev cur).
Proof.
  intros tl ta po co s dt yd prev cur P C Y. cbn [exact_step motion_predict rot]. rewrite <- Y, <- P, <- C. reflexivity.
Qed.

(** a library that meets the requirement: multiples of 2^-24 *)
Definition tick : f32 := @B754_finite 24 128 false 8388608 (-47) eq_refl.
Definition grid (x : R) : f32 := fmult32 (f32_of_Z (Rfloor (x * 16777216))) tick.
Lemma tick_val : f2r tick = / 16777216.
Proof. rewrite (val32f tick (SpecFloat.S754_finite false 8388608 (-47)) eq_refl). unfold SF2R, F2R. cbn. lra. Qed.
Lemma grid_ok x : Rabs x <= 1 -> is_finite (grid x) = true /\ Rabs (f2r (grid x) - x) <= / 8000000.
Proof.
  intro H. apply abs2 in H. pose proof (Rfloor_spec (x * 16777216)) as [A B]. unfold grid. set (n := Rfloor (x * 16777216)) in *.
  assert (N : (-16777216 <= n <= 16777216)%Z) by (split; [|apply le_IZR; lra]; assert (-16777216 < n + 1)%Z by (apply lt_IZR; rewrite plus_IZR; lra); lia).
  destruct (of_Z_exact n ltac:(lia)) as [F1 F2].
  assert (NR : -16777216 <= IZR n <= 16777216) by (split; apply IZR_le; lia).
  destruct (mul_e (f32_of_Z n) tick 1 F1 eq_refl) as [M1 M2]; [rewrite F2, tick_val; apply abs2; lra|lra|].
  split; [exact M1|]. rewrite F2, tick_val in M2. apply abs2 in M2. apply abs2. unfold ulp32, e0 in M2. lra.
Qed.
Definition sin_grid (x : f32) : f32 := grid (sin (f2r x)).
Definition cos_grid (x : f32) : f32 := grid (cos (f2r x)).
Example C126_accuracy_nonvacuous : trig_good sin_grid cos_grid
  /\ Forall usable_in [Odometry (f32_of_Z 1) one4 turned4; Resampled (f32_of_Z 1, f32_of_Z 0, f32_of_Z 1); Odometry (f32_of_Z 0) turned4 one4]
  /\ nearly_unit (/ 500000) one4 /\ unit_quat q1 /\ qdist (value one4) q1 = 0.
Proof.
  destruct C126_nonvacuous as (_ & N1 & N2 & _).
  split; [|split; [|split; [|split]]].
  - intros x _. destruct (trig_abs1 (f2r x)) as [S C]. destruct (grid_ok _ S) as [A1 A2], (grid_ok _ C) as [B1 B2]. unfold sin_grid, cos_grid. auto.
  - repeat apply Forall_cons; [split; [reflexivity|split; assumption]|repeat split; reflexivity|split; [reflexivity|split; assumption]|constructor].
  - split; [repeat split|]. unfold length2. cbn [value one4 QuatModel.qx QuatModel.qy QuatModel.qz QuatModel.qw]. rewrite (proj2 zero_fin), (proj2 one_fin). apply abs2. lra.
  - apply unit_1.
  - replace (value one4) with q1; [apply self_dist|]. unfold one4. cbn [value]. rewrite (proj2 zero_fin), (proj2 one_fin). reflexivity.
Qed.
