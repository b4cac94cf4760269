(** Property theorems C75-C77: odometry, IMU and initial pose of the node. *)
From Coq Require Import String Reals ZArith List Bool Arith Lia Lra.
From Flocq Require Import Core.Core IEEE754.BinarySingleNaN.
From Verif Require PfModel FilterModel AccumModel.
From Verif Require Import Arith Ieee KdModel QuatModel QuatSpec QuatProofs StateModel StateSpec StateProofs StateProps RayModel LidarModel NdModel ParamModel MatModel
  NodeModel NodeSpec NodeFrame.
Import ListNotations.
Open Scope nat_scope.
Open Scope R_scope.
Open Scope list_scope.

(** ** Specification of the odometry stream *)
(** A message is (stamp, pose).  [ref] is the message the next displacement is measured
    from ([None] before the first message and after a time jump). *)
Definition stamped : Type := R * state.
(** the displacements that are applied, as (from, to, time difference) *)
Fixpoint applied (ref : option stamped) (msgs : list stamped) : list (state * state * R) :=
  match msgs with
  | [] => []
  | (t, o) :: r =>
      match ref with
      | None => applied (Some (t, o)) r                        (* initialise *)
      | Some (t0, o0) =>
          if Rlt_dec (t - t0) 0 then applied None r            (* time jump *)
          else if Rlt_dec 5 (t - t0) then applied None r
          else if Rlt_dec (5 / 100) (t - t0) then (o0, o, t - t0) :: applied (Some (t, o)) r
          else applied ref r                                   (* merged with a later one *)
      end
  end.
(** the reference message after the stream *)
Fixpoint reference (ref : option stamped) (msgs : list stamped) : option stamped :=
  match msgs with
  | [] => ref
  | (t, o) :: r =>
      match ref with
      | None => reference (Some (t, o)) r
      | Some (t0, o0) =>
          if Rlt_dec (t - t0) 0 then reference None r
          else if Rlt_dec 5 (t - t0) then reference None r
          else if Rlt_dec (5 / 100) (t - t0) then reference (Some (t, o)) r
          else reference ref r
      end
  end.
(** no time jump occurs: every message is at most 5 s after the last applied one *)
Fixpoint continuous (ref : stamped) (msgs : list stamped) : Prop :=
  match msgs with
  | [] => True
  | (t, o) :: r => 0 <= t - fst ref <= 5
                   /\ continuous (if Rlt_dec (5 / 100) (t - fst ref) then (t, o) else ref) r
  end.
Definition apply_all (p : params) (ds : list (state * state * R)) (s : state) : state :=
  fold_left (fun s d => let '(a, b, dt) := d in predict1 (integ_lin_tc p) (integ_ang_tc p) a b dt s) ds s.

Lemma Rltb_dec {X} a b (x y : X) : (if Rltb a b then x else y) = if Rlt_dec a b then x else y.
Proof. unfold Rltb. destruct (Rlt_dec a b); reflexivity. Qed.
Lemma mapi_from_map {X Y Z} (f : nat -> X -> Y) (g : Y -> Z) (h : X -> Z) l : (forall i x, g (f i x) = h x) ->
  forall k, map g (PfModel.mapi_from k f l) = map h l.
Proof. intro H. induction l as [|a l IH]; intro k; cbn; [reflexivity|]. rewrite H, IH. reflexivity. Qed.
Lemma measure_states (f : PfModel.filter RA state) lk :
  map (PfModel.st RA) (PfModel.parts RA (PfModel.measure RA lk f)) = map (PfModel.st RA) (PfModel.parts RA f).
Proof.
  unfold PfModel.measure. match goal with |- context [if ?b then _ else _] => destruct b end; [|reflexivity].
  cbn [PfModel.parts]. rewrite map_map. cbn. apply (mapi_from_map _ _ (PfModel.st RA)). reflexivity.
Qed.
Lemma predict_states (f : PfModel.filter RA state) m :
  map (PfModel.st RA) (PfModel.parts RA (PfModel.predict RA (fun _ => m) f)) = map (fun q => m (PfModel.st RA q)) (PfModel.parts RA f).
Proof. unfold PfModel.predict. cbn. apply mapi_from_map. reflexivity. Qed.

Section Motion.
Context {S : Type} (caster : cloud -> (pt -> R -> search) -> raycaster S)
        (voxel : R * R * R -> list lpt -> list lpt) (p : params).
Notation node := (node (S := S)).
Notation run n evs := (steps caster voxel p n evs).
Definition poses (n : node) : list state := map (PfModel.st RA) (PfModel.parts RA (n_pf n)).
Definition odom_ref (n : node) : option stamped :=
  if has_odom (n_odom n) then Some (odom_last (n_odom n), odom_prev (n_odom n)) else None.
Definition odom_events (msgs : list stamped) (src : nat -> string * tf_buffer) : list event :=
  map (fun im => EOdom (fst (src (fst im))) (fst (snd im)) (snd (snd im)) (snd (src (fst im)))) (combine (seq 0 (length msgs)) msgs).

Lemma imu_poses (n : node) t a q tf : poses (fst (imu_apply p n t a q tf)) = poses n.
Proof.
  unfold imu_apply, poses. repeat match goal with |- context [if ?c then _ else _] => destruct c end; try reflexivity.
  destruct tf; [|reflexivity]. cbn [fst n_pf set_pf set_imu]. apply measure_states.
Qed.
Lemma imu_odom (n : node) t a q tf : n_odom (fst (imu_apply p n t a q tf)) = n_odom n.
Proof. destruct (imu_apply p n t a q tf) as [n' b] eqn:E. apply imu_apply_frame in E. cbn. tauto. Qed.
Lemma odom_poses (n : node) fr t o lk n' out : step caster voxel p n (EOdom fr t o lk) = Ok (n', out) ->
  poses n' = map (apply_all p (applied (odom_ref n) [(t, o)])) (poses n)
  /\ odom_ref n' = reference (odom_ref n) [(t, o)].
Proof.
  cbn [step]. unfold cbOdom. intro H.
  assert (E : poses n' = poses (fst (odom_apply p n t o)) /\ n_odom n' = n_odom (fst (odom_apply p n t o))).
  { destruct (odom_apply p n t o) as [n1 go]. destruct (go && fake_imu p).
    - pose proof (imu_poses n1 t (qrot (rot o) (V3 0 0 1)) (rot o) (imu_tf p lk fr)) as A. pose proof (imu_odom n1 t (qrot (rot o) (V3 0 0 1)) (rot o) (imu_tf p lk fr)) as B.
      destruct (imu_apply p n1 t (qrot (rot o) (V3 0 0 1)) (rot o) (imu_tf p lk fr)) as [n2 go2].
      destruct (go2 && fake_odom p); [discriminate|]. injection H as <- <-. split; assumption.
    - injection H as <- <-. split; reflexivity. }
  destruct E as [E1 E2]. rewrite E1. unfold odom_ref at 2. rewrite E2. clear E1 E2 H n' out.
  unfold odom_ref, odom_apply. destruct (has_odom (n_odom n)) eqn:Eh; cbn [negb applied reference fst snd].
  2:{ unfold poses. cbn. split; [rewrite <- (map_id (map _ _)) at 1; reflexivity|reflexivity]. }
  rewrite !Rltb_dec.
  assert (Id : forall l : list state, l = map (apply_all p []) l) by (intro l; symmetry; apply map_id).
  unfold Rltb. destruct (Rlt_dec (t - odom_last (n_odom n)) 0) as [H0|H0]; cbn [orb].
  { unfold poses. cbn. split; [apply Id|reflexivity]. }
  destruct (Rlt_dec 5 (t - odom_last (n_odom n))) as [H5|H5].
  { unfold poses. cbn. split; [apply Id|reflexivity]. }
  destruct (Rlt_dec (5 / 100) (t - odom_last (n_odom n))) as [H1|H1].
  - unfold poses. cbn [fst n_pf set_pf]. split; [|reflexivity]. rewrite predict_states, map_map. reflexivity.
  - unfold poses. cbn. split; [apply Id|reflexivity].
Qed.
Lemma applied_app ref a b : applied ref (a ++ b) = applied ref a ++ applied (reference ref a) b.
Proof.
  revert ref. induction a as [|[t o] a IH]; intro ref; [reflexivity|]. cbn [app applied reference]. destruct ref as [[t0 o0]|]; [|apply IH].
  destruct (Rlt_dec (t - t0) 0); [apply IH|]. destruct (Rlt_dec 5 (t - t0)); [apply IH|].
  destruct (Rlt_dec (5 / 100) (t - t0)); [cbn; rewrite IH; reflexivity|apply IH].
Qed.
Lemma reference_app ref a b : reference ref (a ++ b) = reference (reference ref a) b.
Proof.
  revert ref. induction a as [|[t o] a IH]; intro ref; [reflexivity|]. cbn [app reference]. destruct ref as [[t0 o0]|]; [|apply IH].
  destruct (Rlt_dec (t - t0) 0); [apply IH|]. destruct (Rlt_dec 5 (t - t0)); [apply IH|].
  destruct (Rlt_dec (5 / 100) (t - t0)); apply IH.
Qed.

(** C75: every particle of every node, after every odometry stream (whatever frames the messages name and
    whatever transforms a simulated IMU uses): exactly the displacements of [applied] are applied, in order. *)
Theorem C75_applied_displacements msgs src (n : node) n' out :
  run n (odom_events msgs src) = Ok (n', out) ->
  poses n' = map (apply_all p (applied (odom_ref n) msgs)) (poses n)
  /\ odom_ref n' = reference (odom_ref n) msgs.
Proof.
  unfold odom_events. generalize 0%nat as k. revert n n' out. induction msgs as [|[t o] r IH]; intros n n' out k H.
  { cbn in H. injection H as <- <-. cbn. split; [symmetry; apply map_id|reflexivity]. }
  cbn [length seq combine map fst snd] in H. cbn [steps] in H. bok H. destruct x as [n1 o1]. bok H. destruct x as [n2 o2]. injection H as <- <-.
  apply odom_poses in E. destruct E as [A1 A2]. apply IH in E0. destruct E0 as [B1 B2].
  rewrite B1, B2, A1, A2. change ((t, o) :: r) with ([(t, o)] ++ r). rewrite applied_app, reference_app, map_map. split; [|reflexivity].
  apply map_ext. intro s. unfold apply_all. rewrite fold_left_app. reflexivity.
Qed.
(** C75: no motion is lost or applied twice: as long as no time jump occurs a noise free
    particle has moved by exactly (first reference)^-1 o (last applied pose), no matter how
    many messages came and which of them were merged. *)
Theorem C75_telescopes msgs src (n : node) n' out t0 o0 :
  run n (odom_events msgs src) = Ok (n', out) -> odom_ref n = Some (t0, o0) -> continuous (t0, o0) msgs ->
  unit_pose o0 -> Forall (fun m => unit_pose (snd m)) msgs ->
  Forall (fun s => noise_free s /\ unit_pose s) (poses n) ->
  exists tl ol, odom_ref n' = Some (tl, ol)
    /\ map pose_of (poses n') = map (fun s => comp_pose (pose_of s) (comp_pose (inv_pose (pose_of o0)) (pose_of ol))) (poses n)
    /\ (forall t o, In (t, o) [(t0, o0)] \/ In (t, o) msgs -> t - tl <= 5 / 100).
Proof.
  intros H Hr Hc Hu Hm Hs. apply C75_applied_displacements in H. destruct H as [A B]. rewrite Hr in A, B.
  assert (G : forall msgs t0 o0, continuous (t0, o0) msgs -> unit_pose o0 -> Forall (fun m => unit_pose (snd m)) msgs ->
    exists tl ol, reference (Some (t0, o0)) msgs = Some (tl, ol) /\ t0 <= tl /\ unit_pose ol
      /\ (forall t o, In (t, o) [(t0, o0)] \/ In (t, o) msgs -> t - tl <= 5 / 100)
      /\ (forall s, noise_free s -> unit_pose s ->
            let s' := apply_all p (applied (Some (t0, o0)) msgs) s in
            pose_of s' = comp_pose (pose_of s) (comp_pose (inv_pose (pose_of o0)) (pose_of ol)))).
  { clear. induction msgs as [|[t o] r IH]; intros t0 o0 Hc Hu Hm.
    - exists t0, o0. split; [reflexivity|]. split; [lra|]. split; [exact Hu|]. split.
      + intros t o [[E|[]]|[]]. injection E as <- <-. lra.
      + intros s N U. cbn. rewrite comp_inv_l by exact Hu. rewrite comp_id_r. reflexivity.
    - cbn [continuous fst] in Hc. destruct Hc as [Hc1 Hc2]. inversion Hm as [|? ? Hm1 Hm2]; subst. cbn [snd] in Hm1.
      cbn [reference applied]. destruct (Rlt_dec (t - t0) 0); [lra|]. destruct (Rlt_dec 5 (t - t0)); [lra|].
      destruct (Rlt_dec (5 / 100) (t - t0)) as [Hd|Hd].
      + destruct (IH t o Hc2 Hm1 Hm2) as (tl & ol & I1 & I2 & I3 & I4 & I5). exists tl, ol.
        split; [exact I1|]. split; [lra|]. split; [exact I3|]. split.
        * intros t' o' [[E|[]]|[E|E]].
          -- injection E as <- <-. lra.
          -- injection E as <- <-. lra.
          -- apply (I4 t' o'). right. exact E.
        * intros s N U. cbv zeta. unfold apply_all in *. cbn [fold_left].
          rewrite (I5 (predict1 (integ_lin_tc p) (integ_ang_tc p) o0 o (t - t0) s)); [|apply predict_noise_free; exact N|apply predict_unit; assumption].
          rewrite predict_pose by assumption. rewrite !comp_assoc. f_equal. f_equal. rewrite <- (comp_assoc (pose_of o)), comp_inv_r, comp_id_l by exact Hm1. reflexivity.
      + destruct (IH t0 o0 Hc2 Hu Hm2) as (tl & ol & I1 & I2 & I3 & I4 & I5). exists tl, ol.
        split; [exact I1|]. split; [lra|]. split; [exact I3|]. split; [|exact I5].
        intros t' o' [E|[E|E]]; [apply (I4 t' o'); left; exact E| |apply (I4 t' o'); right; exact E].
        injection E as <- <-. lra. }
  destruct (G msgs t0 o0 Hc Hu Hm) as (tl & ol & G1 & G2 & G3 & G4 & G5). exists tl, ol. rewrite B, G1, A.
  split; [reflexivity|]. split; [|exact G4]. rewrite map_map. apply map_ext_in. intros s Hin. rewrite Forall_forall in Hs.
  destruct (Hs s Hin). apply G5; assumption.
Qed.
(** C75: a message at most 0.05 s after the last applied one moves no particle now *)
Theorem C75_close_message_is_merged fr t o lk (n : node) n' out t0 o0 :
  step caster voxel p n (EOdom fr t o lk) = Ok (n', out) -> odom_ref n = Some (t0, o0) -> 0 <= t - t0 <= 5 / 100 ->
  poses n' = poses n /\ odom_ref n' = Some (t0, o0).
Proof.
  intros H Hr Ht. apply odom_poses in H. destruct H as [A B]. rewrite Hr in A, B. cbn [applied reference] in A, B.
  destruct (Rlt_dec (t - t0) 0); [lra|]. destruct (Rlt_dec 5 (t - t0)); [lra|]. destruct (Rlt_dec (5 / 100) (t - t0)); [lra|].
  rewrite A, B. split; [apply map_id|reflexivity].
Qed.
(** C75: a time jump discards the motion; the next message re-initialises without motion *)
Theorem C75_time_jump_reinitialises fr t o lk fr1 t1 o1 lk1 (n : node) n1 n2 out1 out2 t0 o0 :
  step caster voxel p n (EOdom fr t o lk) = Ok (n1, out1) -> step caster voxel p n1 (EOdom fr1 t1 o1 lk1) = Ok (n2, out2) ->
  odom_ref n = Some (t0, o0) -> (t - t0 < 0 \/ 5 < t - t0) ->
  poses n2 = poses n /\ odom_ref n1 = None /\ odom_ref n2 = Some (t1, o1).
Proof.
  intros H1 H2 Hr Ht. apply odom_poses in H1, H2. destruct H1 as [A1 B1], H2 as [A2 B2]. rewrite Hr in A1, B1.
  assert (E : odom_ref n1 = None /\ poses n1 = poses n).
  { cbn [applied reference] in A1, B1. destruct (Rlt_dec (t - t0) 0).
    - rewrite A1, B1. split; [reflexivity|apply map_id].
    - destruct (Rlt_dec 5 (t - t0)); [|lra]. rewrite A1, B1. split; [reflexivity|apply map_id]. }
  destruct E as [E1 E2]. rewrite E1 in A2, B2. cbn in A2, B2. rewrite A2, E2. split; [apply map_id|]. split; [exact E1|exact B2].
Qed.

(** the hypotheses are met: two messages, the first merged with the second, on a node with
    particles at the origin that has received the origin as its first odometry *)
Example C75_nonvacuous gen rc0 fr0 lk0 src : fake_imu p = false -> (forall i, diag_noise (initial_pose p) (initial_pose_std p) (gen i) = state0) ->
  let o x := state_pr (V3 x 0 0) q1 in
  let n := configure p gen rc0 in
  exists n1 n2 out1 out2, step caster voxel p n (EOdom fr0 0 (o 0) lk0) = Ok (n1, out1) /\ odom_ref n1 = Some (0, o 0)
    /\ run n1 (odom_events [(4 / 100, o 1); (8 / 100, o 2)] src) = Ok (n2, out2)
    /\ continuous (0, o 0) [(4 / 100, o 1); (8 / 100, o 2)]
    /\ Forall (fun m => unit_pose (snd m)) [(4 / 100, o 1); (8 / 100, o 2)]
    /\ Forall (fun s => noise_free s /\ unit_pose s) (poses n1)
    /\ Forall (fun s => pos s = V3 2 0 0) (poses n2).
Proof.
  intros Hf Hg o n.
  assert (Hu : forall x, unit_pose (o x)) by (intro x; unfold unit_pose, unit_quat, o; cbn; qunf; lra).
  assert (St : forall (m : node) fr t x lk, exists m' out', step caster voxel p m (EOdom fr t x lk) = Ok (m', out')).
  { intros m fr t x lk. cbn [step]. unfold cbOdom. destruct (odom_apply p m t x) as [m' go]. rewrite Hf, andb_comm. cbn [andb]. eauto. }
  destruct (St n fr0 0 (o 0) lk0) as (n1 & out1 & E1). pose proof (odom_poses _ _ _ _ _ _ _ E1) as [P1 R1].
  change (odom_ref n) with (@None stamped) in P1, R1. cbn [applied reference] in P1, R1.
  destruct (St n1 (fst (src 0%nat)) (4 / 100) (o 1) (snd (src 0%nat))) as (n2 & out2 & E2). destruct (St n2 (fst (src 1%nat)) (8 / 100) (o 2) (snd (src 1%nat))) as (n3 & out3 & E3).
  assert (Er : run n1 (odom_events [(4 / 100, o 1); (8 / 100, o 2)] src) = Ok (n3, out2 ++ out3 ++ [])).
  { unfold odom_events. cbn [length seq combine map fst snd steps]. rewrite E2. cbn [bind]. rewrite E3. reflexivity. }
  assert (Fs : Forall (fun s => s = state0) (poses n1)).
  { rewrite P1. apply Forall_map. apply Forall_map. unfold n, configure. cbn [n_pf PfModel.init PfModel.parts]. unfold PfModel.mapi.
    assert (G : forall l k v, Forall (fun x : PfModel.particle RA state => apply_all p [] (PfModel.st RA x) = state0)
       (PfModel.mapi_from k (fun i q => PfModel.set_w RA (PfModel.set_st RA q (diag_noise (initial_pose p) (initial_pose_std p) (gen i))) v) l)).
    { clear - Hg. induction l as [|a l IH]; intros k v; cbn; constructor; [cbn; apply Hg|apply IH]. }
    apply G. }
  exists n1, n3, out1, (out2 ++ out3 ++ []). split; [exact E1|]. split; [exact R1|]. split; [exact Er|].
  assert (Cn : continuous (0, o 0) [(4 / 100, o 1); (8 / 100, o 2)]).
  { cbn. destruct (Rlt_dec (5 / 100) (4 / 100 - 0)); [lra|]. cbn. repeat split; lra. }
  assert (Fu : Forall (fun m : stamped => unit_pose (snd m)) [(4 / 100, o 1); (8 / 100, o 2)]) by (repeat constructor; apply Hu).
  assert (Fn : Forall (fun s => noise_free s /\ unit_pose s) (poses n1)).
  { eapply Forall_impl; [|exact Fs]. intros s ->. split; [repeat split; reflexivity|]. unfold unit_pose, unit_quat. cbn. qunf. lra. }
  split; [exact Cn|]. split; [exact Fu|]. split; [exact Fn|].
  destruct (C75_applied_displacements _ _ _ _ _ Er) as [A _]. rewrite R1 in A. cbn [applied] in A.
  repeat match type of A with context [Rlt_dec ?a ?b] => destruct (Rlt_dec a b); try lra end.
  rewrite A. apply Forall_map. eapply Forall_impl; [|exact Fs]. intros s ->.
  pose proof (predict_pose (integ_lin_tc p) (integ_ang_tc p) (o 0) (o 2) (8 / 100 - 0) state0) as Q.
  assert (Q' : pose_of (predict1 (integ_lin_tc p) (integ_ang_tc p) (o 0) (o 2) (8 / 100 - 0) state0) =
               comp_pose (pose_of state0) (comp_pose (inv_pose (pose_of (o 0))) (pose_of (o 2)))).
  { apply Q; [repeat split; reflexivity|apply Hu|apply Hu|]. unfold unit_pose, unit_quat. cbn. qunf. lra. }
  apply (f_equal fst) in Q'. cbn [fst pose_of] in Q'. unfold apply_all. cbn [fold_left]. rewrite Q'.
  assert (Eq : inv q1 = q1) by (unfold inv, q1; qunf; f_equal; field).
  unfold comp_pose, inv_pose, pose_of, o. cbn [fst snd pos rot state_pr state0]. rewrite Eq, !qrot_1. unfold v0. qunf. f_equal; ring.
Qed.

(** ** C76: IMU *)
Record imu_msg := { i_frame : string; i_stamp : R; i_acc : vec3; i_rot : quat; i_lookup : tf_buffer }.
(** the newest known rotation from the frame of the message to the robot frame *)
Definition i_tf (m : imu_msg) : option quat :=
  match i_lookup m (frame_base p) (i_frame m) 0 with Some (_, r) => Some r | None => None end.
Lemma i_tf_eq m : imu_tf p (i_lookup m) (i_frame m) = i_tf m.
Proof. unfold imu_tf, i_tf. destruct (i_lookup m _ _ _) as [[]|]; reflexivity. Qed.
Definition imu_ref (n : node) : option R := if has_imu (n_imu n) then Some (imu_last (n_imu n)) else None.
(** C76: one message: the particles are weighted only if more than 0.05 s (and at most 5 s)
    passed since the last applied message and the transform is available; they are then
    weighted with the IMU likelihood; poses never change. *)
Theorem C76_when_applied (n : node) fr t a q lk n' out :
  fake_odom p = false -> step caster voxel p n (EImu fr t a q lk) = Ok (n', out) ->
  (exists t0 tr tfr f am, imu_ref n = Some t0 /\ 5 / 100 < t - t0 <= 5 /\ lk (frame_base p) fr 0 = Some (tr, tfr)
     /\ f = FilterModel.input3 (f_acc (n_imu n)) (tup a) /\ am = qrot tfr (vnormalized (v3 (FilterModel.v_out f)))
     /\ n_pf n' = PfModel.measure RA (fun _ s => gravity_measure (gravity_set (gravity_new (acc_var p)) am) s) (n_pf n)
     /\ imu_ref n' = Some t)
  \/ (n_pf n' = n_pf n /\
      match imu_ref n with
      | None => imu_ref n' = Some t                                           (* (re)initialised *)
      | Some t0 => if Rlt_dec (t - t0) 0 then imu_ref n' = None               (* time jump *)
                   else if Rlt_dec 5 (t - t0) then imu_ref n' = None
                   else imu_ref n' = Some t0 /\ (t - t0 <= 5 / 100 \/ lk (frame_base p) fr 0 = None)
      end).
Proof.
  intros Hf H. cbn [step] in H. unfold cbImu in H.
  destruct (imu_apply p n t a q (imu_tf p lk fr)) as [n1 go] eqn:E. rewrite Hf, andb_comm in H. cbn [andb] in H.
  assert (En : n1 = n') by (destruct go; injection H as <- <-; reflexivity). subst n1. clear H.
  unfold imu_apply in E. unfold imu_ref at 1 3. destruct (has_imu (n_imu n)) eqn:Eh; cbn [negb] in E.
  2:{ right. injection E as <- <-. cbn. split; reflexivity. }
  destruct (Rltb (t - imu_last (n_imu n)) 0 || Rltb 5 (t - imu_last (n_imu n))) eqn:Ej.
  { right. injection E as <- <-. cbn. split; [reflexivity|]. apply orb_prop in Ej. destruct Ej as [Ej|Ej]; apply Rltb_true in Ej.
    - destruct (Rlt_dec (t - imu_last (n_imu n)) 0); [reflexivity|lra].
    - destruct (Rlt_dec (t - imu_last (n_imu n)) 0); [reflexivity|]. destruct (Rlt_dec 5 (t - imu_last (n_imu n))); [reflexivity|lra]. }
  apply orb_false_elim in Ej. destruct Ej as [J1 J2]. apply Rltb_false in J1, J2.
  destruct (Rlt_dec (t - imu_last (n_imu n)) 0); [lra|]. destruct (Rlt_dec 5 (t - imu_last (n_imu n))); [lra|].
  destruct (Rltb (5 / 100) (t - imu_last (n_imu n))) eqn:E5.
  - apply Rltb_true in E5. unfold imu_tf in E. destruct (lk (frame_base p) fr 0) as [[tr tfr]|]; cbn [option_map snd] in E.
    + left. injection E as <- <-. exists (imu_last (n_imu n)), tr, tfr. do 2 eexists. repeat split; try reflexivity; lra.
    + right. injection E as <- <-. cbn. auto.
  - apply Rltb_false in E5. right. injection E as <- <-. cbn. auto.
Qed.
(** C76 over streams: applied measurements are more than 0.05 s apart.  [times n ms] are the
    stamps at which the particles of [n] are weighted. *)
Fixpoint imu_times (ref : option R) (ms : list imu_msg) : list R :=
  match ms with
  | [] => []
  | m :: r =>
      match ref with
      | None => imu_times (Some (i_stamp m)) r
      | Some t0 =>
          if Rlt_dec (i_stamp m - t0) 0 then imu_times None r
          else if Rlt_dec 5 (i_stamp m - t0) then imu_times None r
          else if Rlt_dec (5 / 100) (i_stamp m - t0)
               then match i_tf m with Some _ => i_stamp m :: imu_times (Some (i_stamp m)) r | None => imu_times ref r end
               else imu_times ref r
      end
  end.
(** the likelihoods applied by a stream, one per element of [imu_times] *)
Fixpoint imu_weights (f : FilterModel.filt3) (ref : option R) (ms : list imu_msg) : list (state -> R) :=
  match ms with
  | [] => []
  | m :: r =>
      let f1 := FilterModel.input3 f (tup (i_acc m)) in
      match ref with
      | None => imu_weights (FilterModel.set3 f1 (0, 0, 0)) (Some (i_stamp m)) r
      | Some t0 =>
          if Rlt_dec (i_stamp m - t0) 0 then imu_weights f1 None r
          else if Rlt_dec 5 (i_stamp m - t0) then imu_weights f1 None r
          else if Rlt_dec (5 / 100) (i_stamp m - t0)
               then match i_tf m with
                    | Some tfr => (fun s => gravity_measure (gravity_set (gravity_new (acc_var p)) (qrot tfr (vnormalized (v3 (FilterModel.v_out f1))))) s)
                                    :: imu_weights f1 (Some (i_stamp m)) r
                    | None => imu_weights f1 ref r
                    end
               else imu_weights f1 ref r
      end
  end.
Definition imu_events (ms : list imu_msg) : list event := map (fun m => EImu (i_frame m) (i_stamp m) (i_acc m) (i_rot m) (i_lookup m)) ms.
Theorem C76_stream ms : forall (n : node) n' out,
  fake_odom p = false -> run n (imu_events ms) = Ok (n', out) ->
  n_pf n' = fold_left (fun f lk => PfModel.measure RA (fun _ s => lk s) f) (imu_weights (f_acc (n_imu n)) (imu_ref n) ms) (n_pf n)
  /\ length (imu_weights (f_acc (n_imu n)) (imu_ref n) ms) = length (imu_times (imu_ref n) ms).
Proof.
  induction ms as [|m r IH]; intros n n' out Hf H.
  { cbn in H. injection H as <- <-. split; reflexivity. }
  cbn [imu_events map steps] in H. bok H. destruct x as [n1 o1]. bok H. destruct x as [n2 o2]. injection H as <- <-.
  specialize (IH n1 n2 o2 Hf E0). clear E0. destruct IH as [IH1 IH2]. rewrite IH1. clear IH1.
  cbn [step] in E. unfold cbImu in E. rewrite i_tf_eq in E.
  destruct (imu_apply p n (i_stamp m) (i_acc m) (i_rot m) (i_tf m)) as [n3 go] eqn:Ea. rewrite Hf, andb_comm in E. cbn [andb] in E.
  assert (En : n3 = n1) by (destruct go; injection E as <- <-; reflexivity). subst n3. clear E.
  unfold imu_apply in Ea. cbn [imu_weights imu_times]. unfold imu_ref in *. destruct (has_imu (n_imu n)) eqn:Eh; cbn [negb] in Ea.
  2:{ injection Ea as <- <-. cbn in *. split; [reflexivity|exact IH2]. }
  destruct (Rltb (i_stamp m - imu_last (n_imu n)) 0 || Rltb 5 (i_stamp m - imu_last (n_imu n))) eqn:Ej.
  { injection Ea as <- <-. cbn in *. apply orb_prop in Ej. destruct (Rlt_dec (i_stamp m - imu_last (n_imu n)) 0); [split; [reflexivity|exact IH2]|].
    destruct (Rlt_dec 5 (i_stamp m - imu_last (n_imu n))); [split; [reflexivity|exact IH2]|]. destruct Ej as [Ej|Ej]; apply Rltb_true in Ej; lra. }
  apply orb_false_elim in Ej. destruct Ej as [J1 J2]. apply Rltb_false in J1, J2.
  destruct (Rlt_dec (i_stamp m - imu_last (n_imu n)) 0); [lra|]. destruct (Rlt_dec 5 (i_stamp m - imu_last (n_imu n))); [lra|].
  destruct (Rltb (5 / 100) (i_stamp m - imu_last (n_imu n))) eqn:E5.
  - apply Rltb_true in E5. destruct (Rlt_dec (5 / 100) (i_stamp m - imu_last (n_imu n))); [|lra]. destruct (i_tf m) as [tfr|].
    + injection Ea as <- <-. cbn in *. split; [reflexivity|]. f_equal. exact IH2.
    + injection Ea as <- <-. cbn in *. split; [reflexivity|exact IH2].
  - apply Rltb_false in E5. destruct (Rlt_dec (5 / 100) (i_stamp m - imu_last (n_imu n))); [lra|].
    injection Ea as <- <-. cbn in *. split; [reflexivity|exact IH2].
Qed.
(** both cases of C76 occur: after an initial message at 0, a message at 1 s with a transform
    is applied, one without is not *)
Example C76_nonvacuous (n : node) a q tfr : let known : tf_buffer := fun _ _ _ => Some tfr in let unknown : tf_buffer := fun _ _ _ => None in fake_odom p = false -> has_imu (n_imu n) = true -> imu_last (n_imu n) = 0 ->
  (exists n' out, step caster voxel p n (EImu "imu" 1 a q known) = Ok (n', out) /\ imu_ref n' = Some 1)
  /\ (exists n' out, step caster voxel p n (EImu "imu" 1 a q unknown) = Ok (n', out) /\ n_pf n' = n_pf n /\ imu_ref n' = Some 0)
  /\ imu_times (Some 0) [{| i_frame := "imu"; i_stamp := 1; i_acc := a; i_rot := q; i_lookup := known |}; {| i_frame := "imu"; i_stamp := 1; i_acc := a; i_rot := q; i_lookup := known |}] = [1].
Proof.
  intros known unknown Hf Hh Hl.
  assert (St : forall (m : node) fr t x y lk, exists m' out', step caster voxel p m (EImu fr t x y lk) = Ok (m', out')).
  { intros m fr t x y lk. cbn [step]. unfold cbImu. destruct (imu_apply p m t x y (imu_tf p lk fr)) as [m' go]. rewrite Hf, andb_comm. cbn [andb]. eauto. }
  assert (Hr : imu_ref n = Some 0) by (unfold imu_ref; rewrite Hh, Hl; reflexivity).
  split; [|split].
  - destruct (St n "imu"%string 1 a q known) as (n' & out & E). exists n', out. split; [exact E|].
    destruct (C76_when_applied _ _ _ _ _ _ _ _ Hf E) as [(t0 & ? & ? & ? & ? & _ & _ & _ & _ & _ & _ & G)|[_ G]]; [exact G|].
    rewrite Hr in G. destruct (Rlt_dec (1 - 0) 0); [lra|]. destruct (Rlt_dec 5 (1 - 0)); [lra|]. destruct G as [_ [G|G]]; [lra|discriminate].
  - destruct (St n "imu"%string 1 a q unknown) as (n' & out & E). exists n', out. split; [exact E|].
    destruct (C76_when_applied _ _ _ _ _ _ _ _ Hf E) as [(t0 & ? & ? & ? & ? & _ & _ & G & _)|[G0 G]]; [discriminate|].
    rewrite Hr in G. destruct (Rlt_dec (1 - 0) 0); [lra|]. destruct (Rlt_dec 5 (1 - 0)); [lra|]. split; [exact G0|tauto].
  - cbn. repeat match goal with |- context [Rlt_dec ?a ?b] => destruct (Rlt_dec a b); try lra end. destruct tfr; reflexivity.
Qed.

(** ** C77: initial pose *)
(** C77: rejected poses change nothing at all *)
Theorem C77_rejected (n : node) m lk solver z now :
  1 / 10 < Rabs (qdot (pm_rot m) (pm_rot m) - 1) \/ lk (frame_map p) (pm_frame m) (pm_stamp m) = None ->
  step caster voxel p n (EPosition m lk solver z now) = Ok (n, []).
Proof.
  intro H. cbn [step]. unfold cbPosition, pose_in_map. destruct (Rltb (1 / 10) (Rabs (qdot (pm_rot m) (pm_rot m) - 1))) eqn:E; [reflexivity|].
  apply Rltb_false in E. destruct H as [H|H]; [lra|]. rewrite H. reflexivity.
Qed.
(** C77: accepted ones re-initialise all particles with the states generated around the pose in
    the map frame (integrated odometry error zero, equal weights) and are published *)
Theorem C77_accepted (n : node) m lk tr tq solver z now :
  Rabs (qdot (pm_rot m) (pm_rot m) - 1) <= 1 / 10 -> lk (frame_map p) (pm_frame m) (pm_stamp m) = Some (tr, tq) ->
  exists n' o mean, step caster voxel p n (EPosition m lk solver z now) = Ok (n', [o])
    /\ pos mean = vadd (qrot tq (pm_pos m)) tr
    /\ (unit_quat tq -> unit_quat (pm_rot m) -> rot mean = qmul tq (pm_rot m))
    /\ length (poses n') = length (poses n)
    /\ (forall i s, nth_error (poses n') i = Some s -> s = reset_err (initial_state solver mean (pm_cov m) (z i)))
    /\ Forall (fun q => PfModel.w RA q = 1 / INR (length (poses n))) (PfModel.parts RA (n_pf n'))
    /\ n_odom n' = n_odom n /\ n_imu n' = n_imu n /\ n_acc n' = n_acc n.
Proof.
  intros H Hk. cbn [step]. unfold cbPosition, pose_in_map. rewrite Hk. cbn [option_map].
  replace (Rltb (1 / 10) (Rabs (qdot (pm_rot m) (pm_rot m) - 1))) with false by (symmetry; apply Rltb_false; exact H).
  set (mean := state_pr _ _). do 2 eexists. exists mean. split; [reflexivity|]. split; [reflexivity|].
  split; [intros U1 U2; unfold mean; cbn [rot state_pr snd]; apply normalized_unit, unit_mul; assumption|].
  unfold poses. cbn [n_pf set_pf n_odom n_imu n_acc set_map PfModel.predict PfModel.init PfModel.parts].
  split; [rewrite !map_length, !mapi_len; reflexivity|]. split.
  { intros i s. unfold PfModel.mapi.
    assert (G : forall l k i s, nth_error (map (PfModel.st RA)
       (PfModel.mapi_from k (fun _ (q0 : PfModel.particle RA state) => PfModel.set_st RA q0 (reset_err (PfModel.st RA q0)))
         (PfModel.mapi_from k (fun i0 q0 => PfModel.set_w RA (PfModel.set_st RA q0 (initial_state solver mean (pm_cov m) (z i0))) (frecip (length (PfModel.parts RA (n_pf n))))) l))) i = Some s ->
       s = reset_err (initial_state solver mean (pm_cov m) (z (k + i)%nat))).
    { clear. induction l as [|a l IH]; intros k [|i] s; cbn; try discriminate.
      - intro E. injection E as <-. rewrite Nat.add_0_r. reflexivity.
      - intro E. apply IH in E. rewrite E. f_equal. f_equal. f_equal. lia. }
    intro E. apply G in E. exact E. }
  split; [|repeat split; reflexivity]. unfold PfModel.mapi. rewrite Forall_forall. intros x Hx.
  assert (G : forall l k (x : PfModel.particle RA state) v, In x (PfModel.mapi_from k (fun _ (q0 : PfModel.particle RA state) => PfModel.set_st RA q0 (reset_err (PfModel.st RA q0)))
         (PfModel.mapi_from k (fun i0 q0 => PfModel.set_w RA (PfModel.set_st RA q0 (initial_state solver mean (pm_cov m) (z i0))) v) l)) -> PfModel.w RA x = v).
  { clear. induction l as [|a l IH]; intros k x v; cbn; [tauto|]. intros [<-|Hi]; [reflexivity|]. eapply IH. exact Hi. }
  apply G in Hx. rewrite Hx. rewrite map_length. reflexivity.
Qed.
End Motion.

(** C77, IEEE: the check of lines 157-162 in binary64.  [check64] is true when the message is
    discarded. *)
Definition add64 : f64 -> f64 -> f64 := Bplus mode_NE.
Definition sub64 : f64 -> f64 -> f64 := Bminus mode_NE.
(** the double nearest to 0.1 *)
Definition tenth64 : f64 := Bdiv mode_NE (f64_of_Z 1) (f64_of_Z 10).
Definition len2_64 (x y z w : f64) : f64 := add64 (add64 (add64 (mul64 x x) (mul64 y y)) (mul64 z z)) (mul64 w w).
Definition check64 (x y z w : f64) : bool := Bltb tenth64 (Babs (sub64 (len2_64 x y z w) (f64_of_Z 1))).
Lemma sub_nan a : sub64 B754_nan a = B754_nan. Proof. destruct a; reflexivity. Qed.
Lemma add_nan_l a : add64 B754_nan a = B754_nan. Proof. destruct a; reflexivity. Qed.
Lemma add_nan_r a : add64 a B754_nan = B754_nan. Proof. destruct a; reflexivity. Qed.
(** C77: a quaternion with a NaN component is never discarded *)
Theorem C77_nan_passes_refuted x y z w : x = B754_nan \/ y = B754_nan \/ z = B754_nan \/ w = B754_nan -> check64 x y z w = false.
Proof.
  intro H. assert (E : len2_64 x y z w = B754_nan).
  { unfold len2_64. destruct H as [->|[->|[->| ->]]].
    - cbn [mul64 Bmult]. rewrite !add_nan_l. reflexivity.
    - change (mul64 B754_nan B754_nan) with (@B754_nan 53 1024). rewrite add_nan_r, !add_nan_l. reflexivity.
    - change (mul64 B754_nan B754_nan) with (@B754_nan 53 1024). rewrite add_nan_r, add_nan_l. reflexivity.
    - change (mul64 B754_nan B754_nan) with (@B754_nan 53 1024). apply add_nan_r. }
  unfold check64. rewrite E, sub_nan. reflexivity.
Qed.
(** whereas an infinite component together with non-NaN ones is discarded *)
Theorem C77_infinity_is_discarded s y z w : is_nan y = false -> is_nan z = false -> is_nan w = false ->
  check64 (B754_infinity s) y z w = true.
Proof.
  intros Hy Hz Hw.
  assert (Sq : forall a : f64, is_nan a = false -> is_nan (mul64 a a) = false /\ (forall c, add64 (B754_infinity false) (mul64 a a) = c -> c = B754_infinity false)).
  { intros a Ha. assert (Hs : is_nan (mul64 a a) = false /\ Bsign (mul64 a a) = false).
    { destruct a as [b|b| |b m e Hb]; try discriminate; try (destruct b; split; reflexivity).
      pose proof (Bmult_correct 53 1024 _ _ mode_NE (B754_finite b m e Hb) (B754_finite b m e Hb)) as M.
      cbn zeta in M. unfold mul64. match type of M with if ?c then _ else _ => destruct c end.
      - destruct M as (_ & M2 & M3). split.
        + destruct (Bmult mode_NE (B754_finite b m e Hb) (B754_finite b m e Hb)); try reflexivity; discriminate.
        + rewrite M3; [cbn; apply xorb_nilpotent|]. destruct (Bmult mode_NE (B754_finite b m e Hb) (B754_finite b m e Hb)); try reflexivity; discriminate.
      - cbn [Bsign] in M. rewrite xorb_nilpotent in M. change (binary_overflow 53 1024 mode_NE false) with (SpecFloat.S754_infinity false) in M.
        destruct (Bmult mode_NE (B754_finite b m e Hb) (B754_finite b m e Hb)) as [b'|b'| |b' m' e' H']; cbn [B2SF] in M; try discriminate M; injection M as ->; split; reflexivity. }
    destruct Hs as [Hs1 Hs2]. split; [exact Hs1|]. intros c <-.
    destruct (mul64 a a) as [b|b| |b m e Hb]; try discriminate; cbn in Hs2; subst b; reflexivity. }
  unfold check64, len2_64.
  replace (mul64 (B754_infinity s) (B754_infinity s)) with (@B754_infinity 53 1024 false) by (destruct s; reflexivity).
  rewrite (proj2 (Sq y Hy) _ eq_refl), (proj2 (Sq z Hz) _ eq_refl), (proj2 (Sq w Hw) _ eq_refl).
  vm_compute. reflexivity.
Qed.
