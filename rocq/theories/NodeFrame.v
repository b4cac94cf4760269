(** Frame lemmas: which parts of the node each callback can change. *)
From Coq Require Import String Reals ZArith List Bool Arith Lia.
From Verif Require PfModel FilterModel AccumModel.
From Verif Require Import Arith KdModel QuatModel StateModel StateSpec RayModel LidarModel NdModel ParamModel NodeModel NodeSpec.
Import ListNotations.
Open Scope list_scope.

Lemma bind_ok {X Y} (a : outcome X) (f : X -> outcome Y) y : bind a f = Ok y -> exists x, a = Ok x /\ f x = Ok y.
Proof. destruct a; cbn; try discriminate. intro H. exists x. auto. Qed.
Lemma of_option_ok {X} (a : option X) x : of_option a = Ok x -> a = Some x.
Proof. destruct a; cbn; intro H; inversion H; reflexivity. Qed.
Lemma of_run_ok {X} (a : run X) x : of_run a = Ok x -> a = Done x.
Proof. destruct a; cbn; intro H; inversion H; reflexivity. Qed.
Lemma bind_not_null {X Y} (a : outcome X) (f : X -> outcome Y) :
  a <> Null -> (forall x, a = Ok x -> f x <> Null) -> bind a f <> Null.
Proof. destruct a; cbn; intros H1 H2; try discriminate; [apply H2; reflexivity|congruence]. Qed.
Lemma of_option_not_null {X} (a : option X) : of_option a <> Null.
Proof. destruct a; discriminate. Qed.
Lemma of_run_not_null {X} (a : run X) : of_run a <> Null.
Proof. destruct a; discriminate. Qed.

Lemma mapi_from_len {X Y} (f : nat -> X -> Y) l : forall k, length (PfModel.mapi_from k f l) = length l.
Proof. induction l as [|a l IH]; intro k; cbn; [reflexivity|]. rewrite IH. reflexivity. Qed.
Lemma mapi_len {X Y} (f : nat -> X -> Y) l : length (PfModel.mapi f l) = length l.
Proof. apply mapi_from_len. Qed.

Ltac bok H := let x := fresh "x" in let E := fresh "E" in
  apply bind_ok in H; destruct H as (x & E & H).

Section Frame.
Context {S : Type} (caster : cloud -> (pt -> R -> search) -> raycaster S)
        (voxel : R * R * R -> list lpt -> list lpt) (p : params).
Notation node := (node (S := S)).
Implicit Types n : node.

(** everything but the collected cloud, which stays present *)
Definition same_map (m m' : mapst) : Prop :=
  heap m' = heap m /\ pc_map m' = pc_map m /\ pc_map2 m' = pc_map2 m /\ pc_update m' = pc_update m
  /\ kd_ptr m' = kd_ptr m /\ kd m' = kd m /\ has_map m' = has_map m /\ (pc_all m <> None -> pc_all m' <> None).
Lemma same_map_refl m : same_map m m.
Proof. unfold same_map. repeat split; auto. Qed.
Lemma same_map_trans a b c : same_map a b -> same_map b c -> same_map a c.
Proof. clear caster voxel p. unfold same_map. intuition congruence. Qed.
Definition no_map_out (o : list output) : Prop := forall c, ~ In (OMap c) o.
Lemma no_map_last o acc : no_map_out o -> last_map o acc = acc.
Proof.
  revert acc. induction o as [|x t IH]; cbn; intros acc H; [reflexivity|].
  assert (Ht : no_map_out t) by (intros c Hc; apply (H c); right; exact Hc).
  destruct x; try (apply IH; exact Ht). exfalso. apply (H c). left. reflexivity.
Qed.
Lemma last_map_app a b acc : last_map (a ++ b) acc = last_map b (last_map a acc).
Proof. revert acc. induction a as [|x t IH]; cbn; intros acc; [reflexivity|]. destruct x; apply IH. Qed.
Lemma no_map_app a b : no_map_out a -> no_map_out b -> no_map_out (a ++ b).
Proof. intros H1 H2 c Hc. apply in_app_or in Hc. destruct Hc; [eapply H1|eapply H2]; eassumption. Qed.
Lemma no_map_nil : no_map_out []. Proof. intros c []. Qed.

(** ** Stages of the measurement *)
Lemma gate_ok n n' b : gate p n = Ok (n', b) ->
  n_map n' = n_map n /\ n_acc n' = n_acc n /\ n_odom n' = n_odom n /\ n_imu n' = n_imu n /\ n_lid n' = n_lid n /\ n_pf n' = n_pf n
  /\ stat (n_out n') = stat (n_out n) /\ fix_cnt (n_out n') = fix_cnt (n_out n)
  /\ rate (n_out n') = rate (n_out n) /\ tf_base (n_out n') = tf_base (n_out n) /\ localized_last (n_out n') = localized_last (n_out n)
  /\ f_pos (n_out n') = f_pos (n_out n) /\ f_ang (n_out n') = f_ang (n_out n) /\ state_prev (n_out n') = state_prev (n_out n)
  /\ match_last (n_out n') = match_last (n_out n)
  /\ cnt_measure (n_out n') = ((cnt_measure (n_out n) + 1) mod 2 ^ 64)%Z
  /\ skip_size p <> 0%Z /\ b = (cnt_measure (n_out n') mod skip_size p =? 0)%Z.
Proof.
  unfold gate. destruct (skip_size p =? 0)%Z eqn:E; [discriminate|]. intro H. injection H as <- <-.
  apply Z.eqb_neq in E. cbn. repeat split; auto.
Qed.
Lemma prepare_ok n e n' r : prepare p n e = Ok (n', r) ->
  n_map n' = n_map n /\ n_odom n' = n_odom n /\ n_imu n' = n_imu n /\ n_out n' = n_out n /\ n_lid n' = n_lid n /\ n_pf n' = n_pf n
  /\ ac (n_acc n') = ac (n_acc n) /\ headers (n_acc n') = headers (n_acc n)
  /\ (local (n_acc n) <> None -> local (n_acc n') <> None).
Proof.
  unfold prepare. destruct (rev (headers (n_acc n))) as [|h t] eqn:Er.
  { intro H. injection H as <- <-. repeat split; auto. }
  destruct (local (n_acc n)) as [pc|] eqn:El; [|discriminate].
  destruct (base_tf p e h) as [tf|]; [|intro H; injection H as <- <-; repeat split; auto; congruence].
  destruct (get_origins (origin_of p e h) (headers (n_acc n))) as [os|]; intro H; injection H as <- <-; cbn; repeat split; auto; discriminate.
Qed.
Lemma filters_ok n e full n' bp lp : filters p n e full = (n', bp, lp) ->
  n_map n' = n_map n /\ n_acc n' = n_acc n /\ n_odom n' = n_odom n /\ n_imu n' = n_imu n /\ n_out n' = n_out n /\ n_pf n' = n_pf n
  /\ l_rc (n_lid n') = l_rc (n_lid n).
Proof. unfold filters. intro H. injection H as <- <- <-. cbn. repeat split; reflexivity. Qed.
Lemma estimate_ok n e os bp lp n' est r : estimate caster p n e os bp lp = Ok (n', est, r) ->
  n_map n' = n_map n /\ n_acc n' = n_acc n /\ n_odom n' = n_odom n /\ n_imu n' = n_imu n /\ n_out n' = n_out n
  /\ l_beam (n_lid n') = l_beam (n_lid n) /\ l_like (n_lid n') = l_like (n_lid n).
Proof.
  unfold estimate. intro H. bok H. bok H. destruct x0 as [s1 res]. bok H. bok H. bok H. destruct x2 as [s2 z].
  injection H as <- <- <-. cbn. repeat split; reflexivity.
Qed.
Lemma after_jump_ok n est : let n' := after_jump p n est in
  n_map n' = n_map n /\ n_acc n' = n_acc n /\ n_odom n' = n_odom n /\ n_imu n' = n_imu n /\ n_lid n' = n_lid n
  /\ length (PfModel.parts RA (n_pf n')) = length (PfModel.parts RA (n_pf n))
  /\ PfModel.entropy RA (n_pf n') = PfModel.entropy RA (n_pf n)
  /\ state_prev (n_out n') = est /\ f_pos (n_out n') = f_pos (n_out n) /\ f_ang (n_out n') = f_ang (n_out n)
  /\ rate (n_out n') = rate (n_out n) /\ tf_base (n_out n') = tf_base (n_out n) /\ localized_last (n_out n') = localized_last (n_out n)
  /\ fix_cnt (n_out n') = fix_cnt (n_out n) /\ stat (n_out n') = stat (n_out n) /\ cnt_measure (n_out n') = cnt_measure (n_out n)
  /\ match_last (n_out n') = match_last (n_out n).
Proof.
  unfold after_jump. destruct (negb (too_many p n) && far_off p (state_prev (n_out n)) est) eqn:E; cbn; repeat split; auto.
  apply mapi_len.
Qed.
(** the transform step without the values of the filters *)
Lemma publish_tf_step_shape n e est n' est' o : publish_tf_step p n e est = (n', est', o) ->
  exists fp fa mp mr, let r := n_out (after_jump p n est) in
    n' = set_out (after_jump p n est) {| f_pos := fp; f_ang := fa; rate := rate r; localized_last := localized_last r; tf_base := tf_base r;
                          match_last := match_last r; state_prev := state_prev r; cnt_measure := cnt_measure r; fix_cnt := fix_cnt r; stat := stat r |}
    /\ pos est' = vadd mp (qrot mr (pos (odom (n_odom n)))) /\ rot est' = qmul mr (rot (odom (n_odom n)))
    /\ o = if publish_tf p then [OTf ((if has_odom (n_odom n) then odom_last (n_odom n) else e_now e) + tf_base r + tf_tolerance p)%R (mp, mr) (vz (pos est'))] else [].
Proof.
  unfold publish_tf_step. destruct (map_odom est (odom (n_odom n))) as [mp mr]. set (n1 := after_jump p n est). clearbody n1. cbv zeta.
  match goal with |- context [setRPY (v3 (FilterModel.v_out ?x))] => generalize x as fa end.
  intro fa. generalize (setRPY (v3 (FilterModel.v_out fa))) as mr'.
  intro mr'. match goal with |- context [v3 (FilterModel.v_out ?x)] => generalize x as fp end.
  intro fp. generalize (v3 (FilterModel.v_out fp)) as mp'. intro mp'.
  intro H. apply pair_equal_spec in H. destruct H as [H Ho]. apply pair_equal_spec in H. destruct H as [Hn He].
  exists fp, fa, mp', mr'. rewrite <- He, <- Hn, <- Ho. split; [reflexivity|]. split; [reflexivity|]. split; [reflexivity|reflexivity].
Qed.
Lemma publish_tf_step_ok n e est n' est' o : publish_tf_step p n e est = (n', est', o) ->
  n_map n' = n_map n /\ n_acc n' = n_acc n /\ n_odom n' = n_odom n /\ n_imu n' = n_imu n /\ n_lid n' = n_lid n
  /\ n_pf n' = n_pf (after_jump p n est)
  /\ rate (n_out n') = rate (n_out n) /\ tf_base (n_out n') = tf_base (n_out n) /\ localized_last (n_out n') = localized_last (n_out n)
  /\ fix_cnt (n_out n') = fix_cnt (n_out n) /\ stat (n_out n') = stat (n_out n) /\ cnt_measure (n_out n') = cnt_measure (n_out n)
  /\ match_last (n_out n') = match_last (n_out n) /\ state_prev (n_out n') = est
  /\ no_map_out o.
Proof.
  intro H. apply publish_tf_step_shape in H. destruct H as (fp & fa & mp & mr & -> & _ & _ & ->).
  pose proof (after_jump_ok n est) as A. cbv zeta in A.
  set (n1 := after_jump p n est) in *. clearbody n1.
  destruct A as (? & ? & ? & ? & ? & ? & ? & ? & ? & ? & ? & ? & ? & ? & ? & ? & ?).
  repeat (split; [assumption|]). split; [reflexivity|]. repeat (split; [assumption|]).
  destruct (publish_tf p); intros c Hc; [destruct Hc as [Hc|[]]; discriminate|destruct Hc].
Qed.
Lemma collect_pcd_ok n est lp n' : collect_pcd p n est lp = Ok n' ->
  same_map (n_map n) (n_map n') /\ n_acc n' = n_acc n /\ n_odom n' = n_odom n /\ n_imu n' = n_imu n /\ n_lid n' = n_lid n
  /\ n_pf n' = n_pf n /\ n_out n' = n_out n.
Proof.
  unfold collect_pcd. destruct (output_pcd p).
  - destruct (pc_all (n_map n)) as [l|] eqn:El; [|discriminate]. intro H. injection H as <-. cbn.
    repeat split; auto; discriminate.
  - intro H. injection H as <-. repeat split; auto using same_map_refl.
Qed.
Lemma match_output_ok n e h est full n' o : match_output p n e h est full = Ok (n', o) ->
  n_map n' = n_map n /\ n_acc n' = n_acc n /\ n_odom n' = n_odom n /\ n_imu n' = n_imu n /\ n_lid n' = n_lid n /\ n_pf n' = n_pf n
  /\ rate (n_out n') = rate (n_out n) /\ tf_base (n_out n') = tf_base (n_out n) /\ localized_last (n_out n') = localized_last (n_out n)
  /\ fix_cnt (n_out n') = fix_cnt (n_out n) /\ stat (n_out n') = stat (n_out n) /\ cnt_measure (n_out n') = cnt_measure (n_out n)
  /\ f_pos (n_out n') = f_pos (n_out n) /\ f_ang (n_out n') = f_ang (n_out n) /\ state_prev (n_out n') = state_prev (n_out n)
  /\ no_map_out o.
Proof.
  unfold match_output.
  match goal with |- (if ?b then _ else _) = _ -> _ => destruct b end.
  - intro H. bok H. destruct x as [m u]. injection H as <- <-. cbn. repeat split; auto. intros c [Hc|[]]; discriminate.
  - intro H. injection H as <- <-. repeat split; auto using no_map_nil.
Qed.
Lemma expansion_ok n e r : let n' := expansion p n e r in
  n_map n' = n_map n /\ n_acc n' = n_acc n /\ n_odom n' = n_odom n /\ n_imu n' = n_imu n /\ n_lid n' = n_lid n
  /\ length (PfModel.parts RA (n_pf n')) = length (PfModel.parts RA (n_pf n))
  /\ PfModel.entropy RA (n_pf n') = PfModel.entropy RA (n_pf n)
  /\ rate (n_out n') = rate (n_out n) /\ tf_base (n_out n') = tf_base (n_out n) /\ localized_last (n_out n') = localized_last (n_out n)
  /\ fix_cnt (n_out n') = fix_cnt (n_out n) /\ cnt_measure (n_out n') = cnt_measure (n_out n).
Proof.
  unfold expansion. destruct (Rltb r (match_ratio_thresh p)); cbn; repeat split; auto.
  apply mapi_len.
Qed.
Lemma shrink_step_ok n e n' : shrink_step p n e = Ok n' ->
  n_map n' = n_map n /\ n_acc n' = n_acc n /\ n_odom n' = n_odom n /\ n_imu n' = n_imu n /\ n_lid n' = n_lid n
  /\ rate (n_out n') = rate (n_out n) /\ tf_base (n_out n') = tf_base (n_out n) /\ localized_last (n_out n') = localized_last (n_out n)
  /\ cnt_measure (n_out n') = cnt_measure (n_out n).
Proof.
  unfold shrink_step. intro H. bok H. rename x into n1.
  assert (A : n_map n1 = n_map n /\ n_acc n1 = n_acc n /\ n_odom n1 = n_odom n /\ n_imu n1 = n_imu n /\ n_lid n1 = n_lid n
    /\ rate (n_out n1) = rate (n_out n) /\ tf_base (n_out n1) = tf_base (n_out n) /\ localized_last (n_out n1) = localized_last (n_out n)
    /\ cnt_measure (n_out n1) = cnt_measure (n_out n)).
  { destruct (too_many p n); [bok E|]; injection E as <-; cbn; repeat split; reflexivity. }
  clear E. destruct (fix_cnt (n_out n1)); injection H as <-; cbn; exact A.
Qed.

(** the measurement leaves the map alone and publishes no map *)
Lemma localize_frame n e h os full bp lp n' o : localize caster p n e h os full bp lp = Ok (n', o) ->
  same_map (n_map n) (n_map n') /\ n_acc n' = n_acc n /\ n_odom n' = n_odom n /\ n_imu n' = n_imu n
  /\ cnt_measure (n_out n') = cnt_measure (n_out n) /\ no_map_out o.
Proof.
  unfold localize. intro H. bok H. destruct x as [[n1 est] ratio].
  destruct (publish_tf_step p n1 e est) as [[n2 est'] o1] eqn:E2. bok H.
  set (n3 := with_conv n2 _) in H. bok H. rename x0 into n4. bok H. destruct x0 as [n5 o2]. bok H. rename x0 into f. bok H. rename x0 into n8.
  destruct (force_update (final_status n8 ratio)) as [n9 o4] eqn:E9.
  injection H as <- <-.
  apply estimate_ok in E. apply publish_tf_step_ok in E2. apply collect_pcd_ok in E1. apply match_output_ok in E3.
  apply shrink_step_ok in E5.
  match type of E5 with context [clock_step (expansion p ?a ?b ?c) _] => pose proof (expansion_ok a b c) as E6; cbv zeta in E6;
    set (n7 := expansion p a b c) in * end.
  unfold force_update in E9. injection E9 as <- <-.
  cbn in *. clearbody n7.
  destruct E as (A1 & A2 & A3 & A4 & A5 & _), E2 as (B1 & B2 & B3 & B4 & _ & _ & _ & _ & _ & _ & _ & B5 & _ & _ & B6).
  destruct E1 as (C1 & C2 & C3 & C4 & _ & _ & C5), E3 as (D1 & D2 & D3 & D4 & _ & _ & _ & _ & _ & _ & _ & D5 & _ & _ & _ & D6).
  destruct E5 as (F1 & F2 & F3 & F4 & _ & _ & _ & _ & F5), E6 as (G1 & G2 & G3 & G4 & _ & _ & _ & _ & _ & _ & _ & G5).
  apply (f_equal cnt_measure) in C5. cbn in C5.
  repeat split; try congruence.
  1-7: destruct C1 as (K1 & K2 & K3 & K4 & K5 & K6 & K7 & K8); congruence.
  - intro Ha. rewrite F1, G1, D1. apply C1. congruence.
  - apply no_map_app; [assumption|]. intros c [Hc|Hc]; [discriminate|]. apply in_app_or in Hc. destruct Hc as [Hc|[Hc|[Hc|[]]]]; try discriminate.
    exact (D6 c Hc).
Qed.
Lemma measure_frame n e n' o : measure caster voxel p n e = Ok (n', o) ->
  same_map (n_map n) (n_map n') /\ n_odom n' = n_odom n /\ n_imu n' = n_imu n
  /\ ac (n_acc n') = ac (n_acc n) /\ headers (n_acc n') = headers (n_acc n) /\ (local (n_acc n) <> None -> local (n_acc n') <> None)
  /\ no_map_out o.
Proof.
  unfold measure. intro H. bok H. destruct x as [n0 go]. apply gate_ok in E.
  destruct E as (G1 & G2 & G3 & G4 & G5 & G6 & _).
  destruct (negb go).
  { injection H as <- <-. rewrite G1, G2, G3, G4. auto 10 using same_map_refl, no_map_nil. }
  bok H. destruct x as [n1 ready]. apply prepare_ok in E. destruct E as (P1 & P2 & P3 & P4 & P5 & P6 & P7 & P8 & P9).
  rewrite G2 in *. destruct ready as [[[h pc] os]|].
  2:{ injection H as <- <-. rewrite P1, P2, P3, P7, P8, G1, G3, G4. auto 10 using same_map_refl, no_map_nil. }
  bok H. clear E x. destruct (filters p n1 e (voxel (ds_x p, ds_y p, ds_z p) pc)) as [[n2 bp] lp] eqn:E2. apply filters_ok in E2.
  destruct E2 as (F1 & F2 & F3 & F4 & F5 & F6 & F7).
  destruct lp as [|l lp].
  - destruct (force_update (points_lost n2)) as [n3 o3] eqn:E3. unfold force_update in E3. injection E3 as <- <-.
    injection H as <- <-. cbn. rewrite F1, F2, F3, F4, P1, P2, P3, P7, P8, G1, G3, G4. repeat split; auto using same_map_refl.
    intros c [Hc|[]]; discriminate.
  - apply localize_frame in H. destruct H as (L1 & L2 & L3 & L4 & L5 & L6).
    rewrite L2, L3, L4, F2, F3, F4, P2, P3, P7, P8, G3, G4. replace (n_map n) with (n_map n2) by congruence. repeat split; auto; apply L1.
Qed.

(** ** Callbacks *)
Definition mapev (ev : event) : bool :=
  match ev with EMap _ _ _ | ELoadPcd _ _ | EUpdate _ | ETimer _ | EPosition _ _ _ _ _ => true | _ => false end.

Lemma callback_frame e n c n' o : callback caster voxel p e n c = Ok (n', o) ->
  same_map (n_map n) (n_map n') /\ n_odom n' = n_odom n /\ n_imu n' = n_imu n
  /\ (local (n_acc n) <> None -> local (n_acc n') <> None) /\ no_map_out o.
Proof.
  destruct c as [|m ok|]; cbn.
  - intro H. apply measure_frame in H. tauto.
  - intro H. bok H. destruct x as [n1 b]. injection H as <- <-. unfold accumCloud in E.
    destruct (cm_pts p m); [|injection E as <- <-; auto 10 using same_map_refl, no_map_nil].
    destruct (local (n_acc n)); [|discriminate]. injection E as <- <-. cbn. repeat split; auto using same_map_refl, no_map_nil; discriminate.
  - intro H. injection H as <- <-. cbn. repeat split; auto using same_map_refl, no_map_nil; discriminate.
Qed.
Lemma callbacks_frame e cs : forall n n' o, callbacks caster voxel p e n cs = Ok (n', o) ->
  same_map (n_map n) (n_map n') /\ n_odom n' = n_odom n /\ n_imu n' = n_imu n
  /\ (local (n_acc n) <> None -> local (n_acc n') <> None) /\ no_map_out o.
Proof.
  induction cs as [|c t IH]; cbn; intros n n' o H.
  - injection H as <- <-. auto 10 using same_map_refl, no_map_nil.
  - bok H. destruct x as [n1 o1]. bok H. destruct x as [n2 o2]. injection H as <- <-.
    apply callback_frame in E. apply IH in E0. destruct E as (A1 & A2 & A3 & A4 & A5), E0 as (B1 & B2 & B3 & B4 & B5).
    split; [eapply same_map_trans; eassumption|]. repeat split; try congruence; auto using no_map_app.
Qed.
Lemma cbCloud_frame n m e n' o : cbCloud caster voxel p n m e = Ok (n', o) ->
  same_map (n_map n) (n_map n') /\ n_odom n' = n_odom n /\ n_imu n' = n_imu n
  /\ (local (n_acc n) <> None -> local (n_acc n') <> None) /\ no_map_out o.
Proof.
  unfold cbCloud. destruct (has_map (n_map n)).
  - intro H. bok H. destruct x as [a cs]. bok H. destruct x as [n1 o1]. injection H as <- <-.
    apply callbacks_frame in E0. cbn in *. destruct E0 as (A1 & A2 & A3 & A4 & A5). repeat split; auto; apply A1.
  - intro H. injection H as <- <-. cbn. auto 10 using same_map_refl, no_map_nil.
Qed.
Lemma odom_apply_frame n t x n' b : odom_apply p n t x = (n', b) ->
  n_map n' = n_map n /\ n_acc n' = n_acc n /\ n_imu n' = n_imu n /\ n_out n' = n_out n /\ n_lid n' = n_lid n.
Proof.
  unfold odom_apply. repeat match goal with |- (if ?c then _ else _) = _ -> _ => destruct c end;
    intro H; injection H as <- <-; cbn; repeat split; reflexivity.
Qed.
Lemma imu_apply_frame n t a q tf n' b : imu_apply p n t a q tf = (n', b) ->
  n_map n' = n_map n /\ n_acc n' = n_acc n /\ n_odom n' = n_odom n /\ n_out n' = n_out n /\ n_lid n' = n_lid n.
Proof.
  unfold imu_apply. repeat match goal with |- (if ?c then _ else _) = _ -> _ => destruct c end; try destruct tf;
    intro H; injection H as <- <-; cbn; repeat split; reflexivity.
Qed.
Lemma cbOdom_frame n fr t x lk n' o : cbOdom p n fr t x lk = Ok (n', o) ->
  n_map n' = n_map n /\ n_acc n' = n_acc n /\ n_out n' = n_out n /\ n_lid n' = n_lid n /\ o = [].
Proof.
  unfold cbOdom. destruct (odom_apply p n t x) as [n1 go] eqn:E. apply odom_apply_frame in E.
  destruct (go && fake_imu p).
  - destruct (imu_apply p n1 t _ (rot x) (imu_tf p lk fr)) as [n2 go2] eqn:E2. apply imu_apply_frame in E2.
    destruct (go2 && fake_odom p); [discriminate|]. intro H. injection H as <- <-. intuition congruence.
  - intro H. injection H as <- <-. intuition congruence.
Qed.
Lemma cbImu_frame n fr t a q lk n' o : cbImu p n fr t a q lk = Ok (n', o) ->
  n_map n' = n_map n /\ n_acc n' = n_acc n /\ n_out n' = n_out n /\ n_lid n' = n_lid n /\ o = [].
Proof.
  unfold cbImu. destruct (imu_apply p n t a q (imu_tf p lk fr)) as [n1 go] eqn:E. apply imu_apply_frame in E.
  destruct (go && fake_odom p).
  - destruct (odom_apply p n1 t _) as [n2 go2] eqn:E2. apply odom_apply_frame in E2.
    destruct (go2 && fake_imu p); [discriminate|]. intro H. injection H as <- <-. intuition congruence.
  - intro H. injection H as <- <-. intuition congruence.
Qed.
Lemma cbPosition_frame n m lk sv z now n' o : cbPosition p n m lk sv z now = Ok (n', o) ->
  n_acc n' = n_acc n /\ n_odom n' = n_odom n /\ n_imu n' = n_imu n /\ n_out n' = n_out n /\ n_lid n' = n_lid n
  /\ no_map_out o
  /\ (pose_accepted p m lk = true /\ n_map n' = drop_update (n_map n) \/ pose_accepted p m lk = false /\ n' = n /\ o = []).
Proof.
  unfold cbPosition, pose_accepted, pose_in_map. destruct (Rltb (1 / 10) (Rabs (qdot (pm_rot m) (pm_rot m) - 1))).
  { cbn. intro H. injection H as <- <-. repeat split; auto using no_map_nil. }
  destruct (lk (frame_map p) (pm_frame m) (pm_stamp m)); cbn; intro H; injection H as <- <-; cbn; repeat split; auto using no_map_nil.
  intros c [Hc|[]]; discriminate.
Qed.
Lemma service_frame n ev n' o : step caster voxel p n ev = Ok (n', o) ->
  match ev with ELandmark _ _ _ _ _ _ | EResize _ _ _ | EExpansion _ _ | EGlobal _ _ => True | _ => False end ->
  n_map n' = n_map n /\ n_acc n' = n_acc n /\ n_odom n' = n_odom n /\ n_imu n' = n_imu n /\ n_out n' = n_out n /\ n_lid n' = n_lid n
  /\ no_map_out o.
Proof.
  destruct ev; cbn; intros H; try (intros []; fail); intros _.
  - unfold cbLandmark in H. bok H. injection H as <- <-. cbn. repeat split; auto. intros c [Hc|[]]; discriminate.
  - unfold cbResizeParticle in H. bok H. injection H as <- <-. cbn. repeat split; auto. intros c [Hc|[Hc|[]]]; discriminate.
  - unfold cbExpansionReset in H. injection H as <- <-. cbn. repeat split; auto. intros c [Hc|[Hc|[]]]; discriminate.
  - unfold cbGlobalLocalization in H. destruct (has_map (n_map n)).
    + bok H. bok H. bok H. injection H as <- <-. cbn. repeat split; auto. intros c [Hc|[]]; discriminate.
    + injection H as <- <-. repeat split; auto. intros c [Hc|[]]; discriminate.
Qed.
(** all events that are not about the map *)
Lemma other_frame n ev n' o : mapev ev = false -> step caster voxel p n ev = Ok (n', o) ->
  same_map (n_map n) (n_map n') /\ (local (n_acc n) <> None -> local (n_acc n') <> None) /\ no_map_out o.
Proof.
  destruct ev; cbn [mapev]; intros Hm H; try discriminate.
  - cbn [step] in H. apply cbOdom_frame in H. destruct H as (-> & -> & _ & _ & ->). auto using same_map_refl, no_map_nil.
  - cbn [step] in H. apply cbImu_frame in H. destruct H as (-> & -> & _ & _ & ->). auto using same_map_refl, no_map_nil.
  - cbn [step] in H. apply cbCloud_frame in H. tauto.
  - apply service_frame in H; [|exact I]. destruct H as (-> & -> & _ & _ & _ & _ & H). auto using same_map_refl.
  - apply service_frame in H; [|exact I]. destruct H as (-> & -> & _ & _ & _ & _ & H). auto using same_map_refl.
  - apply service_frame in H; [|exact I]. destruct H as (-> & -> & _ & _ & _ & _ & H). auto using same_map_refl.
  - apply service_frame in H; [|exact I]. destruct H as (-> & -> & _ & _ & _ & _ & H). auto using same_map_refl.
Qed.
End Frame.
