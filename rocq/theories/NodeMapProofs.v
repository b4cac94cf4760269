(** Map handling of the node: invariant over all histories. *)
From Coq Require Import String Reals ZArith List Bool Arith Lia.
From Verif Require PfModel FilterModel AccumModel.
From Verif Require Import Arith KdModel QuatModel StateModel StateSpec RayModel LidarModel NdModel ParamModel NodeModel NodeSpec NodeFrame.
Import ListNotations.
Open Scope nat_scope.
Open Scope list_scope.

Lemma setInput_twice c c' k : setInputCloud c (setInputCloud c' k) = setInputCloud c k.
Proof.
  unfold setInputCloud at 2.
  destruct (place (getChunkId (chunk_length k)) (bounds (chunk_length k) (max_search_radius k)) 0 c' [] []) as [a b].
  reflexivity.
Qed.
Lemma setInput_input c k : input_cloud (setInputCloud c k) = Some c.
Proof.
  unfold setInputCloud. destruct (place (getChunkId (chunk_length k)) (bounds (chunk_length k) (max_search_radius k)) 0 c [] []). reflexivity.
Qed.
Lemma nth_replace h : forall i c, i < length h -> nth_error (replace h i c) i = Some c.
Proof. induction h as [|x t IH]; intros [|i] c Hi; cbn in *; try lia; [reflexivity|]. apply IH. lia. Qed.
Lemma nth_app_new {X} (h : list X) c : nth_error (h ++ [c]) (length h) = Some c.
Proof. rewrite nth_error_app2 by lia. rewrite Nat.sub_diag. reflexivity. Qed.
Lemma nth_app_old {X} (h : list X) c i x : nth_error h i = Some x -> nth_error (h ++ [c]) i = Some x.
Proof. intro H. rewrite nth_error_app1; [exact H|]. apply nth_error_Some. congruence. Qed.

Section Map.
Context {S : Type} (caster : cloud -> (pt -> R -> search) -> raycaster S)
        (voxel : R * R * R -> list lpt -> list lpt) (p : params).
Notation node := (node (S := S)).
Implicit Types n : node.

Record inv (n : node) (os : list output) (x : expected) : Prop := {
  iv_has : has_map (n_map n) = avail x;
  iv_pend : match pc_update (n_map n) with
            | None => pending x = None
            | Some i => exists c, nth_error (heap (n_map n)) i = Some c /\ pending x = Some (cl_pts c)
            end;
  iv_kd : forall c, setInputCloud c (kd (n_map n)) = setInputCloud c (configured_kdtree p);
  iv_map : avail x = true -> exists l c,
    pc_map (n_map n) = Some l /\ pc_map2 (n_map n) = Some l /\ kd_ptr (n_map n) = Some l
    /\ nth_error (heap (n_map n)) l = Some c /\ cl_id c = l /\ cl_pts c = content x
    /\ kd (n_map n) = setInputCloud (to_pts (content x)) (configured_kdtree p)
    /\ last_map os None = Some c
    /\ local (n_acc n) <> None /\ pc_all (n_map n) <> None }.

Lemma inv_init gen rc0 : inv (configure p gen rc0) [] expected0.
Proof. constructor; cbn; auto; discriminate. Qed.

(** events that leave the map alone *)
Lemma inv_same n os x n' o : inv n os x -> same_map (n_map n) (n_map n') ->
  (local (n_acc n) <> None -> local (n_acc n') <> None) -> no_map_out o -> inv n' (os ++ o) x.
Proof.
  intros [H1 H2 H3 H4] (E1 & E2 & E3 & E4 & E5 & E6 & E7 & E8) Hl Ho. constructor.
  - congruence.
  - rewrite E4, E1. exact H2.
  - rewrite E6. exact H3.
  - intro Ha. destruct (H4 Ha) as (l & c & A1 & A2 & A3 & A4 & A5 & A6 & A7 & A8 & A9 & A10).
    exists l, c. rewrite E1, E2, E3, E5, E6, last_map_app, (no_map_last _ _ Ho). repeat split; auto.
Qed.
Lemma inv_timer n os x now n' o : inv n os x -> cbMapUpdateTimer n now = Ok (n', o) ->
  inv n' (os ++ o) (expect_step voxel p (fun cur u => cur ++ u) x (ETimer now)) /\ n_acc n' = n_acc n.
Proof.
  intros [H1 H2 H3 H4] H. unfold cbMapUpdateTimer in H. bok H. destruct x0 as [m o']. injection H as <- <-.
  unfold timer_map in E. cbn [expect_step]. rewrite <- H1. destruct (has_map (n_map n)) eqn:Eh.
  - symmetry in H1. destruct (H4 H1) as (l & c & A1 & A2 & A3 & A4 & A5 & A6 & A7 & A8 & A9 & A10).
    destruct (pc_update (n_map n)) as [i|] eqn:Eu.
    + destruct H2 as (cu & B1 & B2). rewrite B2. rewrite A2, A1 in E. cbn in E. rewrite A4, B1 in E. cbn in E. injection E as <- <-.
      split; [|reflexivity]. constructor; cbn; auto.
      * intro c'. rewrite <- H3, setInput_twice. reflexivity.
      * intros _. exists l. eexists. split; [reflexivity|]. split; [reflexivity|]. split; [reflexivity|].
        split; [apply nth_replace; apply nth_error_Some; congruence|]. cbn. split; [reflexivity|].
        split; [rewrite A6; reflexivity|]. split; [rewrite A6; apply H3|]. split; [rewrite last_map_app; reflexivity|].
        split; assumption.
    + rewrite H2. rewrite A2 in E. injection E as <- <-. split; [|reflexivity]. rewrite app_nil_r.
      constructor; cbn; rewrite ?Eu, ?Eh; auto.
  - injection E as <- <-. split; [|reflexivity]. rewrite app_nil_r. constructor; cbn; rewrite ?Eh; auto.
Qed.
(** a valid map is loaded *)
Lemma inv_load n os x stamp pts now n' o : inv n os x -> loadMapCloud voxel p n stamp pts now = Ok (n', o) ->
  inv n' (os ++ o) {| content := voxel (map_leaf p) pts; pending := None; avail := true |}
  /\ local (n_acc n') = Some [] /\ headers (n_acc n') = [].
Proof.
  intros [H1 H2 H3 H4] H. unfold loadMapCloud, cbMapUpdateTimer, timer_map in H. cbn in H. rewrite nth_app_new in H. cbn in H.
  injection H as <- <-. cbn. split; [|split; reflexivity]. constructor; cbn; auto.
  - intro c'. rewrite <- H3, setInput_twice. reflexivity.
  - intros _. do 2 eexists. split; [reflexivity|]. split; [reflexivity|]. split; [reflexivity|].
    split; [apply nth_app_new|]. cbn. split; [reflexivity|]. split; [reflexivity|]. split; [apply H3|].
    split; [rewrite last_map_app; reflexivity|]. split; discriminate.
Qed.
Lemma inv_drop n os x : inv n os x -> inv (drop_map n) os {| content := content x; pending := pending x; avail := false |}.
Proof. intros [H1 H2 H3 H4]. constructor; cbn; auto; discriminate. Qed.

Lemma inv_step n os x ev n' o : inv n os x -> step caster voxel p n ev = Ok (n', o) ->
  inv n' (os ++ o) (expect_step voxel p (fun cur u => cur ++ u) x ev).
Proof.
  intros Hi H. destruct (mapev ev) eqn:Em.
  2:{ destruct (other_frame caster voxel p n ev n' o Em H) as (A & B & C). pose proof (inv_same n os x n' o Hi A B C) as G.
      destruct ev; cbn in Em; try discriminate Em; exact G. }
  destruct ev; cbn in Em; try discriminate Em; clear Em; cbn [step] in H.
  - unfold cbMapcloud in H. destruct conv as [b|].
    + apply (inv_load n os x _ b now n' o Hi H).
    + injection H as <- <-. rewrite app_nil_r. apply inv_drop. exact Hi.
  - unfold cbLoadPCD in H. destruct file as [b|].
    + bok H. destruct x0 as [n1 o1]. injection H as <- <-. pose proof (inv_load n os x _ b now n1 o1 Hi E) as (G & _).
      rewrite app_assoc. apply (inv_same n1 _ _ n1); auto using same_map_refl. intros c [Hc|[]]; discriminate.
    + injection H as <- <-. pose proof (inv_drop n os x Hi) as G.
      apply (inv_same _ _ _ _ _ G); auto using same_map_refl. intros c [Hc|[]]; discriminate.
  - unfold cbMapcloudUpdate in H. destruct conv as [u|]; injection H as <- <-; rewrite app_nil_r; [|destruct Hi; constructor; auto].
    destruct Hi as [H1 H2 H3 H4]. constructor; cbn; auto.
    + eexists. rewrite nth_app_new. split; reflexivity.
    + intro Ha. destruct (H4 Ha) as (l & c & A1 & A2 & A3 & A4 & A5 & A6 & A7 & A8 & A9 & A10).
      exists l, c. repeat split; auto. apply nth_app_old. exact A4.
  - apply (inv_timer n os x now n' o Hi H).
  - apply cbPosition_frame in H. destruct H as (B1 & B2 & B3 & B4 & B5 & B6 & [[B7 B8]|(B7 & -> & ->)]); cbn [expect_step]; rewrite B7.
    + destruct Hi as [H1 H2 H3 H4]. constructor; rewrite ?B8; cbn; auto.
      intro Ha. destruct (H4 Ha) as (l & c & A1 & A2 & A3 & A4 & A5 & A6 & A7 & A8 & A9 & A10).
      exists l, c. rewrite B1, last_map_app, (no_map_last _ _ B6). repeat split; auto.
    + rewrite app_nil_r. exact Hi.
Qed.
Lemma inv_steps evs : forall n os x n' o, inv n os x -> steps caster voxel p n evs = Ok (n', o) ->
  inv n' (os ++ o) (fold_left (expect_step voxel p (fun cur u => cur ++ u)) evs x).
Proof.
  induction evs as [|ev t IH]; cbn; intros n os x n' o Hi H.
  - injection H as <- <-. rewrite app_nil_r. exact Hi.
  - bok H. destruct x0 as [n1 o1]. bok H. destruct x0 as [n2 o2]. injection H as <- <-.
    rewrite app_assoc. eapply IH; [|exact E0]. eapply inv_step; eassumption.
Qed.
Lemma inv_reach evs gen rc0 n o : steps caster voxel p (configure p gen rc0) evs = Ok (n, o) -> inv n o (expect_run voxel p evs).
Proof. intro H. apply (inv_steps evs _ [] _ _ _ (inv_init gen rc0) H). Qed.

(** ** No null pointer is dereferenced *)
(** what cloud handling relies on *)
Definition usable n : Prop :=
  (exists l c, kd_ptr (n_map n) = Some l /\ nth_error (heap (n_map n)) l = Some c)
  /\ local (n_acc n) <> None /\ pc_all (n_map n) <> None.
Lemma usable_same n n' : usable n -> same_map (n_map n) (n_map n') -> (local (n_acc n) <> None -> local (n_acc n') <> None) -> usable n'.
Proof.
  intros ((l & c & A1 & A2) & B & C) (E1 & E2 & E3 & E4 & E5 & E6 & E7 & E8) Hl.
  split; [exists l, c; rewrite E1, E5; auto|]. split; auto.
Qed.
Lemma usable_eq n n' : usable n -> n_map n' = n_map n -> n_acc n' = n_acc n -> usable n'.
Proof. intros U E1 E2. apply (usable_same n); [exact U|rewrite E1; apply same_map_refl|rewrite E2; intro X; exact X]. Qed.
Lemma localize_not_null n e h os full bp lp : usable n -> localize caster p n e h os full bp lp <> Null.
Proof.
  intro U. unfold localize. apply bind_not_null.
  { unfold estimate, map_cloud. destruct U as ((l & c & A1 & A2) & _). rewrite A1. unfold get_obj. rewrite A2. cbn [of_option bind].
    apply bind_not_null.
    { generalize (map (PfModel.st RA) (PfModel.parts RA (n_pf n))) as ss. intro ss. generalize (l_rc (n_lid n)). induction ss as [|s ss IH]; intro rc; cbn; [discriminate|].
      apply bind_not_null; [apply of_run_not_null|]. intros [s1 rb] _. apply bind_not_null; [apply of_option_not_null|]. intros rl _.
      apply bind_not_null; [apply IH|]. intros [s2 r] _. discriminate. }
    intros [s1 res] _. apply bind_not_null; [apply of_option_not_null|]. intros est _. apply bind_not_null; [apply of_option_not_null|]. intros z _.
    apply bind_not_null; [apply of_run_not_null|]. intros [s2 z'] _. discriminate. }
  intros [[n1 est] ratio] E1. apply estimate_ok in E1.
  assert (U1 : usable n1) by (apply (usable_eq n); tauto).
  destruct (publish_tf_step p n1 e est) as [[n2 est'] o1] eqn:E2. apply publish_tf_step_ok in E2.
  assert (U2 : usable n2) by (apply (usable_eq n1); tauto).
  apply bind_not_null; [apply of_option_not_null|]. intros c _.
  apply bind_not_null.
  { unfold collect_pcd. destruct (output_pcd p); [|discriminate]. cbn. destruct U2 as (_ & _ & U3).
    destruct (pc_all (n_map n2)); [discriminate|congruence]. }
  intros n4 _. apply bind_not_null.
  { unfold match_output. match goal with |- (if ?b then _ else _) <> _ => destruct b end; [|discriminate].
    apply bind_not_null; [|intros [m u] _; discriminate].
    generalize (transform est' full) as l. induction l as [|q t IH]; cbn; [discriminate|].
    apply bind_not_null; [exact IH|]. intros [m u] _. destruct (e_search e (to_pt (p3 q)) (unmatch_output_dist p)) as [| |[|[i d] l]]; try discriminate.
    destruct (Rltb d (match_output_dist p * match_output_dist p)); discriminate. }
  intros [n5 o2] _. apply bind_not_null; [apply of_option_not_null|]. intros f _. apply bind_not_null.
  { unfold shrink_step. apply bind_not_null.
    - match goal with |- (if ?b then _ else _) <> _ => destruct b end; [|discriminate].
      apply bind_not_null; [apply of_option_not_null|]. intros; discriminate.
    - intros x _. destruct (fix_cnt (n_out x)); discriminate. }
  intros n8 _. destruct (force_update (final_status n8 ratio)). discriminate.
Qed.
Lemma measure_not_null n e : usable n -> measure caster voxel p n e <> Null.
Proof.
  intro U. unfold measure. apply bind_not_null.
  { unfold gate. destruct (skip_size p =? 0)%Z; discriminate. }
  intros [n0 go] E. apply gate_ok in E.
  assert (U0 : usable n0) by (apply (usable_eq n); tauto).
  destruct (negb go); [discriminate|]. apply bind_not_null.
  { unfold prepare. destruct (rev (headers (n_acc n0))) as [|h t0]; [discriminate|]. destruct U0 as (_ & U0 & _).
    destruct (local (n_acc n0)); [|congruence]. destruct (base_tf p e h); [|discriminate].
    destruct (get_origins (origin_of p e h) (headers (n_acc n0))); discriminate. }
  intros [n1 ready] E1. apply prepare_ok in E1.
  assert (U1 : usable n1).
  { apply (usable_same n0); auto; [|tauto]. destruct E1 as (-> & _). apply same_map_refl. }
  destruct ready as [[[h pc] os]|]; [|discriminate]. apply bind_not_null.
  { unfold statistics. destruct (use_sampler_normal p); [|discriminate].
    apply bind_not_null; [apply of_option_not_null|]. intros s _. apply bind_not_null; [apply of_option_not_null|]. intros; discriminate. }
  intros _ _. destruct (filters p n1 e (voxel (ds_x p, ds_y p, ds_z p) pc)) as [[n2 bp] lp] eqn:E2. apply filters_ok in E2.
  assert (U2 : usable n2) by (apply (usable_eq n1); tauto).
  destruct lp as [|q lp]; [|apply localize_not_null; exact U2].
  destruct (force_update (points_lost n2)). discriminate.
Qed.
Lemma callbacks_not_null e cs : forall n, usable n -> callbacks caster voxel p e n cs <> Null.
Proof.
  induction cs as [|c t IH]; intros n U; cbn [callbacks]; [discriminate|]. apply bind_not_null.
  { destruct c as [|m ok|]; cbn [callback].
    - apply measure_not_null. exact U.
    - apply bind_not_null; [|intros [n' b] _; discriminate]. unfold accumCloud. destruct (cm_pts p m); [|discriminate].
      destruct U as (_ & U & _). destruct (local (n_acc n)); [discriminate|congruence].
    - discriminate. }
  intros [n1 o1] E. apply callback_frame in E. apply bind_not_null; [|intros [n2 o2] _; discriminate].
  apply IH. apply (usable_same n); tauto.
Qed.
Lemma step_not_null n os x ev : inv n os x -> step caster voxel p n ev <> Null.
Proof.
  intros Hi.
  assert (T : forall now, cbMapUpdateTimer n now <> Null).
  { destruct Hi as [H1 H2 H3 H4]. intro now. unfold cbMapUpdateTimer, timer_map. destruct (has_map (n_map n)) eqn:Eh; [|discriminate].
    symmetry in H1. destruct (H4 H1) as (l & c & A1 & A2 & A3 & A4 & _). destruct (pc_update (n_map n)) as [i|].
    - destruct H2 as (cu & B1 & _). rewrite A1, A2. cbn. rewrite A4, B1. discriminate.
    - rewrite A2. discriminate. }
  assert (L : forall st pts now, loadMapCloud voxel p n st pts now <> Null).
  { intros st pts now. unfold loadMapCloud, cbMapUpdateTimer, timer_map. cbn. rewrite nth_app_new. discriminate. }
  destruct ev; cbn [step].
  - unfold cbMapcloud. destruct conv; [apply L|discriminate].
  - unfold cbLoadPCD. destruct file; [|discriminate]. apply bind_not_null; [apply L|]. intros [n' o'] _. discriminate.
  - unfold cbMapcloudUpdate. destruct conv; discriminate.
  - apply T.
  - unfold cbPosition. destruct (Rltb (1 / 10)%R _); [discriminate|]. destruct (pose_in_map p lk m); discriminate.
  - unfold cbOdom. destruct (odom_apply p n stamp pose) as [n1 go]. destruct (go && fake_imu p); [|discriminate].
    destruct (imu_apply p n1 stamp _ _ (imu_tf p lk frame)) as [n2 go2]. destruct (go2 && fake_odom p); discriminate.
  - unfold cbImu. destruct (imu_apply p n stamp acc orient (imu_tf p lk frame)) as [n1 go]. destruct (go && fake_odom p); [|discriminate].
    destruct (odom_apply p n1 stamp _) as [n2 go2]. destruct (go2 && fake_imu p); discriminate.
  - unfold cbCloud. destruct (has_map (n_map n)) eqn:Eh; [|discriminate].
    apply bind_not_null.
    { unfold push_calls. destruct (accum_cloud p =? 0)%Z; [discriminate|apply of_option_not_null]. }
    intros [a cs] _. apply bind_not_null; [|intros [n1 o1] _; discriminate].
    apply callbacks_not_null. destruct Hi as [H1 H2 H3 H4]. rewrite Eh in H1. symmetry in H1.
    destruct (H4 H1) as (l & c & A1 & A2 & A3 & A4 & A5 & A6 & A7 & A8 & A9 & A10).
    split; [exists l, c; split; assumption|]. split; assumption.
  - unfold cbLandmark. apply bind_not_null; [apply of_option_not_null|]. intros; discriminate.
  - unfold cbResizeParticle. apply bind_not_null; [apply of_option_not_null|]. intros; discriminate.
  - discriminate.
  - unfold cbGlobalLocalization. destruct (has_map (n_map n)) eqn:Eh; [|discriminate].
    destruct Hi as [H1 H2 H3 H4]. rewrite Eh in H1. symmetry in H1.
    destruct (H4 H1) as (l & c & A1 & A2 & A3 & A4 & _). rewrite A1. cbn. rewrite A4. cbn.
    apply bind_not_null; [apply of_option_not_null|]. intros f _. apply bind_not_null; [apply of_option_not_null|]. intros; discriminate.
Qed.
Lemma steps_not_null evs : forall n os x, inv n os x -> steps caster voxel p n evs <> Null.
Proof.
  induction evs as [|ev t IH]; intros n os x Hi; cbn; [discriminate|].
  apply bind_not_null; [eapply step_not_null; exact Hi|]. intros [n1 o1] E.
  apply bind_not_null; [|intros [n2 o2] _; discriminate]. eapply IH. eapply inv_step; eassumption.
Qed.
End Map.
