(** Property theorems C30-C33: map handling of the node.  Everywhere the ray caster, the
    voxel filter, the parameters, the initial particles and all inputs of the outside world
    are arbitrary. *)
From Coq Require Import String Reals ZArith List Bool Arith Lia Lra.
From Verif Require PfModel FilterModel AccumModel.
From Verif Require Import Arith KdModel KdSpec KdProofs KdProps QuatModel StateModel StateSpec RayModel LidarModel NdModel ParamModel
  NodeModel NodeSpec NodeFrame NodeMapProofs.
Import ListNotations.
Open Scope nat_scope.
Open Scope list_scope.

Section Props.
Context {S : Type} (caster : cloud -> (pt -> R -> search) -> raycaster S)
        (voxel : R * R * R -> list lpt -> list lpt) (p : params).
Notation node := (node (S := S)).
Notation run n evs := (steps caster voxel p n evs).

(** the cloud object that is searched, as the rest of the node sees it *)
Definition searched (n : node) : option (list lpt) :=
  if has_map (n_map n) then match map_cloud n with Ok c => Some (cl_pts c) | _ => None end else None.

(** C30: after every history the searched map is exactly what the messages say, where
    applying an update means appending it to what is searched at that moment. *)
Theorem C30_map_history evs gen rc0 n out :
  run (configure p gen rc0) evs = Ok (n, out) ->
  let x := expect_run voxel p evs in
  searched n = (if avail x then Some (content x) else None)
  /\ (avail x = true -> input_cloud (kd (n_map n)) = Some (to_pts (content x))).
Proof.
  intros H x. apply inv_reach in H. fold x in H. destruct H as [H1 H2 H3 H4]. unfold searched. rewrite H1.
  destruct (avail x) eqn:Ea; [|split; [reflexivity|discriminate]].
  destruct (H4 eq_refl) as (l & c & A1 & A2 & A3 & A4 & A5 & A6 & A7 & A8 & A9 & A10).
  unfold map_cloud. rewrite A3. cbn. rewrite A4. cbn. rewrite A6, A7. split; [reflexivity|]. intros _. apply setInput_input.
Qed.

(** the events of one update: the message, then the timer *)
Definition update_now (ut : list lpt * Z) : list event := [EUpdate (Some (fst ut)); ETimer (snd ut)].
(** C30: updates accumulate, and the base map object itself grows (it is what global
    localization samples from) *)
Theorem C30_updates_accumulate base stamp now us gen rc0 n out :
  run (configure p gen rc0) (EMap (Some base) stamp now :: flat_map update_now us) = Ok (n, out) ->
  let all := voxel (map_leaf p) base ++ flat_map (fun ut => voxel (upd_leaf p) (fst ut)) us in
  searched n = Some all /\ exists c, get_obj (n_map n) (pc_map (n_map n)) = Ok c /\ cl_pts c = all.
Proof.
  intros H all.
  assert (E : expect_run voxel p (EMap (Some base) stamp now :: flat_map update_now us) = {| content := all; pending := None; avail := true |}).
  { unfold expect_run, all. cbn [fold_left expect_step]. generalize (voxel (map_leaf p) base) as b. clear. induction us as [|u us IH]; intro b; cbn.
    - rewrite app_nil_r. reflexivity.
    - etransitivity; [apply IH|]. rewrite <- app_assoc. reflexivity. }
  split.
  - pose proof (C30_map_history _ _ _ _ _ H) as C. cbv zeta in C. rewrite E in C. exact (proj1 C).
  - apply inv_reach in H. rewrite E in H. destruct H as [H1 H2 H3 H4]. destruct (H4 eq_refl) as (l & c & A1 & A2 & A3 & A4 & A5 & A6 & _).
    exists c. rewrite A1. cbn. rewrite A4. split; [reflexivity|exact A6].
Qed.
(** C30: so the claim "base plus the latest update only" fails whenever the first of two
    updates is not empty *)
Theorem C30_latest_only_refuted base stamp now u1 t1 u2 t2 gen rc0 n out :
  voxel (upd_leaf p) u1 <> [] ->
  run (configure p gen rc0) [EMap (Some base) stamp now; EUpdate (Some u1); ETimer t1; EUpdate (Some u2); ETimer t2] = Ok (n, out) ->
  searched n <> Some (voxel (map_leaf p) base ++ voxel (upd_leaf p) u2).
Proof.
  intros Hne H. destruct (C30_updates_accumulate base stamp now [(u1, t1); (u2, t2)] gen rc0 n out H) as [-> _]. cbn. rewrite app_nil_r.
  intro E. injection E as E. apply app_inv_head in E. destruct (voxel (upd_leaf p) u1) as [|a l]; [congruence|].
  apply (f_equal (@length lpt)) in E. cbn in E. rewrite app_length in E. lia.
Qed.
(** the hypotheses hold for every history of that form (the steps never fail) *)
Example C30_nonvacuous base stamp now us gen rc0 :
  exists n out, run (configure p gen rc0) (EMap (Some base) stamp now :: flat_map update_now us) = Ok (n, out).
Proof.
  assert (G : forall us (n : node) l c, has_map (n_map n) = true -> pc_map (n_map n) = Some l -> pc_map2 (n_map n) = Some l ->
    nth_error (heap (n_map n)) l = Some c -> exists n' out, run n (flat_map update_now us) = Ok (n', out)).
  { clear. induction us as [|[u t] us IH]; intros n l c H1 H2 H3 H4; cbn [flat_map update_now app].
    - exists n, []. reflexivity.
    - cbn [steps step fst snd]. unfold cbMapcloudUpdate, cbMapUpdateTimer, timer_map. cbn [bind n_map set_map has_map pc_update heap pc_map2 pc_map].
      rewrite H1, H2, H3. cbn [get_obj heap]. rewrite (nth_app_old _ _ _ _ H4), nth_app_new. cbn [of_option bind].
      match goal with |- context [steps caster voxel p ?m (flat_map update_now us)] =>
        destruct (IH m l {| cl_id := l; cl_stamp := t; cl_pts := cl_pts c ++ voxel (upd_ds_x p, upd_ds_y p, upd_ds_z p) u |}) as (n' & out & E) end.
      + reflexivity. + reflexivity. + reflexivity.
      + cbn. apply nth_replace. rewrite app_length. assert (l < length (heap (n_map n))) by (apply nth_error_Some; congruence). lia.
      + rewrite E. cbn [bind]. eauto. }
  cbn [steps step]. unfold cbMapcloud, loadMapCloud, cbMapUpdateTimer, timer_map. cbn.
  match goal with |- context [steps caster voxel p ?m (flat_map update_now us)] =>
    destruct (G us m 0 {| cl_id := 0; cl_stamp := if (stamp =? 0)%Z then now else stamp; cl_pts := voxel (map_leaf p) base |}) as (n' & out & E); try reflexivity end.
  rewrite E. cbn. eauto.
Qed.

(** C31: whenever a map is available, the cloud object the search structure was built on is
    the one published last, the ids it returns are indices into that published cloud, and
    the accumulation buffer exists. *)
Theorem C31_search_and_published_agree evs gen rc0 n out :
  run (configure p gen rc0) evs = Ok (n, out) -> has_map (n_map n) = true ->
  exists c, last_map out None = Some c /\ map_cloud n = Ok c
    /\ input_cloud (kd (n_map n)) = Some (to_pts (cl_pts c))
    /\ local (n_acc n) <> None
    /\ (forall q r num found i d, radiusSearch (kd (n_map n)) q r num (Found found) -> In (i, d) found ->
         exists pt, nth_error (cl_pts c) i = Some pt
           /\ d = dist_sq (let '(wx, wy, wz, _) := dist_weight p in (wx, wy, wz)) (to_pt (p3 pt)) q /\ (d < r * r)%R).
Proof.
  intros H Hm. apply inv_reach in H. destruct H as [H1 H2 H3 H4]. rewrite Hm in H1. symmetry in H1.
  destruct (H4 H1) as (l & c & A1 & A2 & A3 & A4 & A5 & A6 & A7 & A8 & A9 & A10).
  exists c. split; [exact A8|]. unfold map_cloud. rewrite A3. cbn. rewrite A4. split; [reflexivity|]. rewrite A7, A6.
  split; [apply setInput_input|]. split; [exact A9|]. intros q r num found i d Hs Hi.
  unfold configured_kdtree in Hs. destruct (dist_weight p) as [[[wx wy] wz] ww].
  change (setInputCloud (to_pts (content (expect_run voxel p evs)))
           (setPointRepresentation (wx, wy, wz) (setEpsilon (map_grid_min p / 16)%R (new_kdt (map_chunk p) (configured_radius p) false))))
    with (kd_after [CEps (map_grid_min p / 16)%R; CRep (wx, wy, wz); CLoad (to_pts (content (expect_run voxel p evs)))]
            (map_chunk p) (configured_radius p) false) in Hs.
  destruct (C25_ids_are_cloud_ids [CEps (map_grid_min p / 16)%R; CRep (wx, wy, wz); CLoad (to_pts (content (expect_run voxel p evs)))] (map_chunk p) (configured_radius p) false (to_pts (content (expect_run voxel p evs))) q r num _ found eq_refl Hs eq_refl) as (_ & G & _).
  destruct (G i d Hi) as (pt & G1 & G2 & G3). unfold to_pts in G1. rewrite nth_error_map in G1.
  destruct (nth_error (content (expect_run voxel p evs)) i) as [y|]; [|discriminate]. injection G1 as <-.
  exists y. cbn in G2. auto.
Qed.
(** C31: no event of any history dereferences a null pointer *)
Theorem C31_no_null_dereference evs gen rc0 : run (configure p gen rc0) evs <> Null.
Proof. eapply steps_not_null. apply inv_init. Qed.

(** C32: an event that discards a pending update *)
Definition discards (ev : event) : Prop :=
  match ev with
  | EMap (Some _) _ _ | ELoadPcd (Some _) _ => True
  | EPosition m lk _ _ _ => (Rabs (qdot (pm_rot m) (pm_rot m) - 1) <= 1 / 10)%R /\ lk (frame_map p) (pm_frame m) (pm_stamp m) <> None
  | _ => False
  end.
Definition is_timer (ev : event) : bool := match ev with ETimer _ => true | _ => false end.
(** C32: deleting an update that has not been applied (no timer tick since) before a
    discarding event does not change the map that is searched at any later time *)
Theorem C32_pending_update_dropped before u between ev later gen rc0 n out n' out' :
  forallb (fun x => negb (is_timer x)) between = true -> discards ev ->
  run (configure p gen rc0) (before ++ EUpdate (Some u) :: between ++ ev :: later) = Ok (n, out) ->
  run (configure p gen rc0) (before ++ between ++ ev :: later) = Ok (n', out') ->
  searched n = searched n' /\ kd (n_map n) = kd (n_map n') \/ has_map (n_map n) = false /\ has_map (n_map n') = false.
Proof.
  intros Hb Hd H H'. apply inv_reach in H. apply inv_reach in H'.
  assert (E : expect_run voxel p (before ++ EUpdate (Some u) :: between ++ ev :: later) = expect_run voxel p (before ++ between ++ ev :: later)).
  { unfold expect_run. rewrite fold_left_app. cbn [fold_left]. rewrite fold_left_app, fold_left_app, fold_left_app. cbn [fold_left]. f_equal.
    set (st := expect_step voxel p (fun cur u0 => cur ++ u0)).
    set (x := fold_left st before expected0).
    assert (G : forall bs a b, forallb (fun x => negb (is_timer x)) bs = true -> content a = content b -> avail a = avail b ->
                 content (fold_left st bs a) = content (fold_left st bs b) /\ avail (fold_left st bs a) = avail (fold_left st bs b)).
    { clear. induction bs as [|e bs IH]; intros a b Hf Hc Ha; cbn; [auto|]. cbn in Hf. apply andb_prop in Hf. destruct Hf as [Hf1 Hf2].
      apply IH; auto; destruct e; cbn in *; try discriminate Hf1; auto;
        try (destruct conv; cbn; auto); try (destruct file; cbn; auto);
        destruct (pose_accepted p m lk); auto. }
    destruct (G between (st x (EUpdate (Some u))) x Hb eq_refl eq_refl) as [G1 G2].
    generalize dependent (fold_left st between (st x (EUpdate (Some u)))). generalize (fold_left st between x). intros b a G1 G2.
    unfold st. destruct ev; cbn in Hd; try contradiction; cbn [expect_step].
    - destruct conv; [reflexivity|contradiction].
    - destruct file; [reflexivity|contradiction].
    - destruct Hd as [Hd Hk]. unfold pose_accepted. destruct (lk _ _ _); [|congruence]. replace (Rltb (1 / 10) (Rabs (qdot (pm_rot m) (pm_rot m) - 1))) with false by (symmetry; apply Rltb_false; exact Hd).
      cbn. rewrite G1, G2. reflexivity. }
  rewrite E in H. destruct H as [H1 H2 H3 H4], H' as [H1' H2' H3' H4'].
  destruct (avail (expect_run voxel p (before ++ between ++ ev :: later))) eqn:Ea; [left|right; auto].
  destruct (H4 eq_refl) as (l & c & A1 & A2 & A3 & A4 & A5 & A6 & A7 & _).
  destruct (H4' eq_refl) as (l' & c' & B1 & B2 & B3 & B4 & B5 & B6 & B7 & _).
  unfold searched, map_cloud. rewrite H1, H1', A3, B3. cbn. rewrite A4, B4. cbn. split; [congruence|congruence].
Qed.

(** C33: whether the last attempt to load a map succeeded *)
Fixpoint map_loaded (evs : list event) (acc : bool) : bool :=
  match evs with
  | [] => acc
  | EMap m _ _ :: t => map_loaded t (match m with Some _ => true | None => false end)
  | ELoadPcd f _ :: t => map_loaded t (match f with Some _ => true | None => false end)
  | _ :: t => map_loaded t acc
  end.
(** C33: without a valid map a cloud is neither accumulated nor measured: only the status
    message that would be sent next is reset, nothing is published; global localization
    answers success=false and changes nothing. *)
Theorem C33_no_localization_without_map evs gen rc0 n out :
  run (configure p gen rc0) evs = Ok (n, out) -> map_loaded evs false = false ->
  (forall m e, step caster voxel p n (ECloud m e) = Ok (set_stat n status0, []))
  /\ (forall hits d, step caster voxel p n (EGlobal hits d) = Ok (n, [OService (RTrigger false MNoMap)])).
Proof.
  intros H Hm. apply inv_reach in H. destruct H as [H1 _ _ _].
  assert (E : avail (expect_run voxel p evs) = map_loaded evs false).
  { unfold expect_run. change false with (avail expected0) at 1. generalize expected0 as x.
    clear. induction evs as [|e t IH]; intro x; cbn; [reflexivity|]. rewrite IH.
    destruct e; cbn; try reflexivity; try (destruct conv; reflexivity); try (destruct file; reflexivity);
      try (destruct (pose_accepted p m lk); reflexivity); try (destruct (avail x) eqn:Ea, (pending x); cbn; rewrite ?Ea; reflexivity). }
  rewrite E, Hm in H1. split; intros; cbn.
  - unfold cbCloud. rewrite H1. reflexivity.
  - unfold cbGlobalLocalization. rewrite H1. reflexivity.
Qed.
(** [set_stat] touches nothing but the status message: particles, accumulation, odometry,
    IMU, map and lidar models are the same *)
Theorem C33_only_the_status_message (n : node) s :
  n_pf (set_stat n s) = n_pf n /\ n_acc (set_stat n s) = n_acc n /\ n_map (set_stat n s) = n_map n
  /\ n_odom (set_stat n s) = n_odom n /\ n_imu (set_stat n s) = n_imu n /\ n_lid (set_stat n s) = n_lid n
  /\ cnt_measure (n_out (set_stat n s)) = cnt_measure (n_out n).
Proof. repeat split. Qed.
(** and conversely, with a loaded map clouds are handled *)
Theorem C33_map_loaded_iff evs gen rc0 n out :
  run (configure p gen rc0) evs = Ok (n, out) -> has_map (n_map n) = map_loaded evs false.
Proof.
  intros H. apply inv_reach in H. destruct H as [H1 _ _ _]. rewrite H1.
  unfold expect_run. change false with (avail expected0) at 1. generalize expected0 as x.
  clear. induction evs as [|e t IH]; intro x; cbn; [reflexivity|]. rewrite IH.
  destruct e; cbn; try reflexivity; try (destruct conv; reflexivity); try (destruct file; reflexivity);
    try (destruct (pose_accepted p m lk); reflexivity); try (destruct (avail x) eqn:Ea, (pending x); cbn; rewrite ?Ea; reflexivity).
Qed.
(** the hypotheses of C32 and C33 are met: a map, an unapplied update, a new map; a map and
    then an invalid map *)
Example C32_C33_nonvacuous b u s t gen rc0 :
  (exists n out, run (configure p gen rc0) ([EMap (Some b) s t] ++ EUpdate (Some u) :: [] ++ EMap (Some b) s t :: [ETimer t]) = Ok (n, out))
  /\ (exists n out, run (configure p gen rc0) ([EMap (Some b) s t] ++ [] ++ EMap (Some b) s t :: [ETimer t]) = Ok (n, out))
  /\ (exists n out, run (configure p gen rc0) [EMap (Some b) s t; EMap None s t] = Ok (n, out)
        /\ map_loaded [EMap (Some b) s t; EMap None s t] false = false).
Proof.
  repeat split.
  - eexists. eexists. cbn. reflexivity.
  - eexists. eexists. cbn. reflexivity.
  - eexists. eexists. cbn. split; reflexivity.
Qed.
End Props.
