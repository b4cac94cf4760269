(** The node never fails: events and histories. *)
From Coq Require Import String Reals ZArith NArith List Bool Arith Lra Lia Permutation.
From Verif Require PfModel FilterModel AccumModel.
From Verif Require Import Arith KdModel KdSpec KdProofs KdProps QuatModel StateModel StateSpec RayModel LidarModel LidarProofs NdModel NdProps ParamModel MatModel NodeModel NodeSpec
  NodeFrame NodeLocProofs NodeStepProofs NodeMapProofs NodeAccProofs NodeAliveSpec NodeAliveProofs.
Import ListNotations.
Open Scope R_scope.
Open Scope list_scope.

Section Alive.
Context {S : Type} (caster : cloud -> (pt -> R -> search) -> raycaster S)
        (voxel : R * R * R -> list lpt -> list lpt) (p : params) (Hp : settings_ok p)
        (Inv : cloud -> S -> Prop) (Hnew : survives_newer Inv) (Hv : keeps_labels (voxel (ds_x p, ds_y p, ds_z p))).
Notation node := (node (S := S)).
Implicit Types n : node.

Definition rc_ok n : Prop :=
  match pc_map2 (n_map n) with
  | None => forall c, Inv c (l_rc (n_lid n))
  | Some l => exists c, nth_error (heap (n_map n)) l = Some c /\ Inv c (l_rc (n_lid n))
  end.
Record alive n : Prop := {
  al_ok : exists os x acc, node_ok p n os x acc;
  al_pf : usable_particles (n_pf n);
  al_beam : b_par (l_beam (n_lid n)) = p_beam p; al_like : l_par (l_like (n_lid n)) = p_like p;
  al_rc : rc_ok n }.
(** everything but the history part *)
Definition core n : Prop :=
  usable_particles (n_pf n) /\ b_par (l_beam (n_lid n)) = p_beam p /\ l_par (l_like (n_lid n)) = p_like p /\ rc_ok n.
Lemma alive_step n ev n' o : alive n -> step caster voxel p n ev = Ok (n', o) -> core n' -> alive n'.
Proof.
  intros [(os & x & acc & H) _ _ _ _] E (C1 & C2 & C3 & C4). constructor; auto.
  eexists _, _, _. eapply node_step; eassumption.
Qed.
(** core is kept when the lidar part and the map part stay *)
Lemma core_same n n' : core n -> n_lid n' = n_lid n -> heap (n_map n') = heap (n_map n) -> pc_map2 (n_map n') = pc_map2 (n_map n) ->
  usable_particles (n_pf n') -> core n'.
Proof. intros (C1 & C2 & C3 & C4) E1 E2 E3 Hu. unfold core, rc_ok in *. rewrite E1, E2, E3. auto. Qed.

(** ** Clouds *)
Lemma callbacks_quiet e n cs : local (n_acc n) <> None -> nproc cs = O ->
  exists n', (forall k, callbacks caster voxel p (with_fuel k e) n cs = Ok (n', [])).
Proof.
  revert n. induction cs as [|c t IH]; intros n Hl Hn; cbn [callbacks]; [eauto|].
  assert (H : exists n1, (forall k, callback caster voxel p (with_fuel k e) n c = Ok (n1, [])) /\ local (n_acc n1) <> None).
  { destruct c as [|m ok|]; [discriminate Hn| |]; cbn [callback].
    - unfold accumCloud. destruct (cm_pts p m) as [pts|]; [|exists n; split; [reflexivity|exact Hl]]. destruct (local (n_acc n)); [|congruence].
      eexists. split; [reflexivity|]. discriminate.
    - eexists. split; [reflexivity|]. discriminate. }
  destruct H as (n1 & H1 & H2). destruct (IH n1 H2) as (n' & H'); [destruct c; [discriminate|exact Hn|exact Hn]|].
  exists n'. intro k. rewrite H1. cbn [bind]. rewrite H'. reflexivity.
Qed.
Lemma at_none e cs : forall n na, nproc cs = O -> at_process voxel p caster e n cs = Ok (Some na) -> False.
Proof.
  induction cs as [|c t IH]; intros n na Hn H; cbn in H; [discriminate|]. destruct c; [discriminate Hn| |]; cbn [nproc] in Hn; bok H; destruct x; eapply IH; eassumption.
Qed.
Lemma callbacks_settle e c cs : (nproc cs <= 1)%nat -> forall n,
  (forall na, at_process voxel p caster e n cs = Ok (Some na) -> exists buf, holds p (n_acc na) buf) ->
  map_cloud n = Ok c -> casts_finish (Inv c) (caster c (e_search e)) -> (forall q r, r <= map_chunk p -> e_search e q r <> Throws) ->
  picks_members (e_beam e) -> lid_ok p (Inv c) n -> usable_particles (n_pf n) -> pc_all (n_map n) <> None -> local (n_acc n) <> None ->
  (forall l, Permutation l (e_shuffle e l)) /\ (forall l, Permutation l (e_stat_shuffle e l)) -> sorts (e_sort e) -> sorts (e_sort2 e) ->
  settles (fun k => callbacks caster voxel p (with_fuel k e) n cs) (fun x => usable_particles (n_pf (fst x)) /\ lid_ok p (Inv c) (fst x)).
Proof.
  induction cs as [|cl t IH]; intros Hn n Hproc Hc Hf Hs Hb Hl Hu Hpc Hloc Hi H1 H2; cbn [callbacks]; [apply settles_ret; split; assumption|].
  destruct cl as [|m ok|].
  - destruct (Hproc n eq_refl) as (buf & Hbuf). cbn [nproc] in Hn.
    eapply settles_bind.
    { assert (Hm : settles (fun k => callback caster voxel p (with_fuel k e) n AccumModel.Process)
        (fun x => (usable_particles (n_pf (fst x)) /\ lid_ok p (Inv c) (fst x)) /\ local (n_acc (fst x)) <> None)).
      { destruct (measure_settles caster voxel p Hp (Inv c) n e c buf Hv Hc Hf Hs Hb Hbuf Hl Hu Hpc Hi H1 H2) as ([n1 o1] & K & Q1 & Q2 & Q3).
        exists (n1, o1), K. split; [|split; assumption]. split; [exact Q1|]. cbn [fst]. specialize (Q3 K (Nat.le_refl K)). apply measure_frame in Q3.
        destruct Q3 as (_ & _ & _ & _ & _ & Q & _). apply Q, Hloc. }
      exact Hm. }
    intros [n1 o1] [[Hu1 Hl1] Hloc1]. cbn [fst] in *. destruct (callbacks_quiet e n1 t Hloc1 ltac:(lia)) as (n2 & E2).
    apply (settles_ext (fun _ => Ok (n2, o1 ++ []))); [intro k; rewrite E2; reflexivity|]. apply settles_ret. cbn [fst].
    pose proof (E2 O) as E3. apply callbacks_none in E3; [|lia]. destruct E3 as (_ & F1 & _ & _ & _ & F2 & _). unfold lid_ok in *. rewrite F1, F2. split; assumption.
  - assert (H : exists n1, (forall k, callback caster voxel p (with_fuel k e) n (AccumModel.Accumulate m ok) = Ok (n1, [])) /\ callback caster voxel p e n (AccumModel.Accumulate m ok) = Ok (n1, []) /\ local (n_acc n1) <> None).
    { cbn [callback]. unfold accumCloud. destruct (cm_pts p m) as [pts|]; [|exists n; repeat split; exact Hloc]. destruct (local (n_acc n)); [|congruence].
      eexists. split; [reflexivity|]. split; [reflexivity|discriminate]. }
    destruct H as (n1 & E1 & E2 & Hloc1). pose proof E2 as E3. apply callback_other in E3; [|discriminate]. destruct E3 as (_ & F1 & _ & _ & F2 & F3 & _).
    apply (settles_ext (fun k => do (n2, o2) <- callbacks caster voxel p (with_fuel k e) n1 t; Ok (n2, [] ++ o2))); [intro k; rewrite E1; reflexivity|].
    eapply settles_bind; [apply (IH Hn n1); try assumption|].
    + intros na Hna. apply Hproc. cbn [at_process]. rewrite E2. cbn [bind]. exact Hna.
    + unfold map_cloud in *. rewrite F2. exact Hc.
    + unfold lid_ok. rewrite F3. exact Hl.
    + rewrite F1. exact Hu.
    + rewrite F2. exact Hpc.
    + intros [n2 o2] Q. apply settles_ret. exact Q.
  - assert (H : exists n1, (forall k, callback caster voxel p (with_fuel k e) n AccumModel.Clear = Ok (n1, [])) /\ callback caster voxel p e n AccumModel.Clear = Ok (n1, []) /\ local (n_acc n1) <> None).
    { cbn [callback]. eexists. split; [reflexivity|]. split; [reflexivity|discriminate]. }
    destruct H as (n1 & E1 & E2 & Hloc1). pose proof E2 as E3. apply callback_other in E3; [|discriminate]. destruct E3 as (_ & F1 & _ & _ & F2 & F3 & _).
    apply (settles_ext (fun k => do (n2, o2) <- callbacks caster voxel p (with_fuel k e) n1 t; Ok (n2, [] ++ o2))); [intro k; rewrite E1; reflexivity|].
    eapply settles_bind; [apply (IH Hn n1); try assumption|].
    + intros na Hna. apply Hproc. cbn [at_process]. rewrite E2. cbn [bind]. exact Hna.
    + unfold map_cloud in *. rewrite F2. exact Hc.
    + unfold lid_ok. rewrite F3. exact Hl.
    + rewrite F1. exact Hu.
    + rewrite F2. exact Hpc.
    + intros [n2 o2] Q. apply settles_ret. exact Q.
Qed.
Lemma push_total a m : exists x, push_calls p a m = Ok x.
Proof.
  unfold push_calls. destruct (accum_cloud p =? 0)%Z eqn:Ez; [eauto|]. apply Z.eqb_neq in Ez.
  destruct (so_accum p Hp) as [H|H]; [congruence|]. unfold AccumModel.push.
  assert (Hm : (0 < AccumModel.accum_max (acc_cfg p))%nat) by (cbn; rewrite Z.mod_small by lia; lia).
  destruct (AccumModel.keys a) as [|f ks] eqn:Ek.
  - cbn [length]. destruct (0 <? AccumModel.accum_max (acc_cfg p))%nat eqn:E; [|apply Nat.ltb_ge in E; lia]. destruct (cm_pts p m); eexists; reflexivity.
  - destruct (length (f :: ks) <? AccumModel.accum_max (acc_cfg p))%nat; [|unfold AccumModel.push_process; destruct (AccumModel.push_tail _ _ _ _); eexists; reflexivity].
    destruct (negb (String.eqb f (cm_frame m))); [destruct (cm_pts p m); eexists; reflexivity|]. destruct (AccumModel.cnt_accum a <? AccumModel.accum (acc_cfg p))%nat; [destruct (cm_pts p m); eexists; reflexivity|].
    unfold AccumModel.push_process; destruct (AccumModel.push_tail _ _ _ _); eexists; reflexivity.
Qed.
Lemma cloud_settles n m e : alive n -> legal caster voxel p Inv n (ECloud m e) ->
  settles (fun k => cbCloud caster voxel p n m (with_fuel k e)) (fun x => core (fst x)).
Proof.
  intros [(os & x & acc & Hok) Hu Hb Hl Hrc] [Hlegal Hcast]. destruct Hok as [Hm Ha].
  unfold cbCloud. destruct (has_map (n_map n)) eqn:Eh.
  2:{ apply settles_ret. cbn [fst]. unfold core. auto. }
  pose proof (iv_has _ _ _ _ Hm) as Hav. rewrite Eh in Hav. symmetry in Hav.
  destruct (iv_map _ _ _ _ Hm Hav) as (l & c & A1 & A2 & A3 & A4 & A5 & A6 & A7 & A8 & A9 & A10).
  destruct (push_total (ac (n_acc (set_stat n status0))) m) as ([a cs] & Ep). rewrite Ep. cbn [bind].
  destruct Hlegal as (L1 & L2 & L3 & L4a & L4b & L5 & L6).
  assert (Hc : get_obj (n_map n) (pc_map2 (n_map n)) = Ok c) by (unfold get_obj; rewrite A2, A4; reflexivity).
  specialize (Hcast c Hc (e_search e)). rewrite A6 in Hcast. rewrite A7 in L1. specialize (Hcast L1).
  assert (Hi : Inv c (l_rc (n_lid n))).
  { unfold rc_ok in Hrc. rewrite A2 in Hrc. destruct Hrc as (c' & E & Hi). rewrite A4 in E. injection E as <-. exact Hi. }
  assert (Hset : settles (fun k => callbacks caster voxel p (with_fuel k e) (set_stat n status0) cs)
      (fun x => usable_particles (n_pf (fst x)) /\ lid_ok p (Inv c) (fst x))).
  { apply callbacks_settle; try assumption.
    - eapply push_calls_once. exact Ep.
    - intros na Hna. destruct (Z.eq_dec (accum_cloud p) 0) as [Hz|Hz].
      + destruct (cloud_pass caster voxel p (set_stat n status0) e m a cs Hz Ep na Hna) as [_ H]. eauto.
      + destruct (accum_process caster voxel p (set_stat n status0) e m acc a cs Hz Ha Ep A9 na Hna) as (_ & buf & _ & H & _). eauto.
    - unfold map_cloud. change (n_map (set_stat n status0)) with (n_map n). rewrite A3. cbn [get_obj]. rewrite A4. reflexivity.
    - apply (search_no_throw p (to_pts (content x))). exact L1.
    - split; [exact Hb|]. split; [exact Hl|exact Hi].
    - split; assumption. }
  destruct Hset as ([n1 o1] & K & [Q1 (Q2 & Q3 & Q4)] & Q5 & Q6). cbn [fst] in *.
  pose proof (Q6 K (Nat.le_refl K)) as E. apply callbacks_frame in E. destruct E as ((F1 & F2 & F3 & _) & _).
  exists (set_acc n1 {| ac := a; local := local (n_acc n1); headers := headers (n_acc n1) |}, o1), K. split; [|split].
  - cbn [fst]. split; [exact Q1|]. split; [exact Q2|]. split; [exact Q3|]. unfold rc_ok. cbn [n_map n_lid set_acc]. rewrite F1, F3.
    change (n_map (set_stat n status0)) with (n_map n). rewrite A2. exists c. split; [exact A4|exact Q4].
  - intro k. destruct (Q5 k) as [E|E]; rewrite E; cbn [bind]; auto.
  - intros k Hk. rewrite Q6 by exact Hk. reflexivity.
Qed.

(** ** The other events *)
Lemma timer_core n now os x : inv p n os x -> rc_ok n -> (pc_update (n_map n) <> None -> newer n now) ->
  exists n' o, cbMapUpdateTimer n now = Ok (n', o) /\ rc_ok n' /\ n_lid n' = n_lid n /\ n_pf n' = n_pf n.
Proof.
  intros [H1 H2 H3 H4] Hrc Hn. unfold cbMapUpdateTimer, timer_map. destruct (has_map (n_map n)) eqn:Eh; [|eexists _, _; split; [reflexivity|]; repeat split; exact Hrc].
  symmetry in H1. destruct (H4 H1) as (l & c & A1 & A2 & A3 & A4 & _). destruct (pc_update (n_map n)) as [i|] eqn:Eu.
  - destruct H2 as (cu & B1 & _). rewrite A1, A2. cbn [get_obj heap pc_map pc_update of_option bind]. rewrite A4. cbn [of_option bind]. rewrite B1. cbn [of_option bind].
    eexists _, _. split; [reflexivity|]. split; [|split; reflexivity]. unfold rc_ok. cbn [n_map set_map pc_map2 heap n_lid].
    eexists. split; [apply nth_replace; apply nth_error_Some; congruence|]. unfold rc_ok in Hrc. rewrite A2 in Hrc. destruct Hrc as (c' & E & Hi). rewrite A4 in E. injection E as <-.
    apply (Hnew c); [|exact Hi]. cbn [cl_stamp]. apply (Hn ltac:(congruence)). unfold get_obj. rewrite A2, A4. reflexivity.
  - rewrite A2. eexists _, _. split; [reflexivity|]. split; [exact Hrc|split; reflexivity].
Qed.
Lemma load_core n stamp pts now : rc_ok n -> newer n stamp ->
  exists n' o, loadMapCloud voxel p n stamp pts now = Ok (n', o) /\ rc_ok n' /\ n_lid n' = n_lid n /\ n_pf n' = n_pf n.
Proof.
  intros Hrc Hn. unfold loadMapCloud, cbMapUpdateTimer, timer_map. cbn [n_map set_acc set_map has_map pc_update pc_map2 pc_map heap]. cbn [get_obj]. cbn [heap]. rewrite nth_app_new. cbn [of_option bind].
  eexists _, _. split; [reflexivity|]. split; [|split; reflexivity]. unfold rc_ok. cbn [n_map set_map pc_map2 heap n_lid set_acc]. eexists. split; [apply nth_app_new|].
  unfold rc_ok in Hrc. destruct (pc_map2 (n_map n)) as [l|] eqn:E2; [|apply Hrc]. destruct Hrc as (c & Ec & Hi). apply (Hnew c); [|exact Hi]. cbn [cl_stamp].
  apply Hn. unfold get_obj. rewrite E2, Ec. reflexivity.
Qed.
Lemma odom_usable n t x n' b : odom_apply p n t x = (n', b) -> usable_particles (n_pf n) -> usable_particles (n_pf n').
Proof.
  unfold odom_apply. repeat match goal with |- (if ?c then _ else _) = _ -> _ => destruct c end; intros H Hu; injection H as <- <-; try exact Hu.
  cbn [n_pf set_pf]. eapply usable_ws; [apply predict_ws|exact Hu].
Qed.
Lemma imu_usable n t a q tf n' b : imu_apply p n t a q tf = (n', b) -> usable_particles (n_pf n) -> usable_particles (n_pf n').
Proof.
  unfold imu_apply. repeat match goal with |- (if ?c then _ else _) = _ -> _ => destruct c end; try destruct tf; intros H Hu; injection H as <- <-; try exact Hu.
  cbn [n_pf set_pf]. apply measure_usable; [|exact Hu]. intros i s. left. unfold gravity_measure. destruct (so_sigma p Hp) as (_ & Hs & _).
  destruct (C69_shape _ Hs) as (G & _). apply G.
Qed.
Lemma odom_total n fr t x lk : usable_particles (n_pf n) -> exists n', cbOdom p n fr t x lk = Ok (n', []) /\ usable_particles (n_pf n').
Proof.
  intro Hu. unfold cbOdom. destruct (odom_apply p n t x) as [n1 go] eqn:E. apply odom_usable in E; [|exact Hu].
  destruct (go && fake_imu p) eqn:Eg; [|eauto]. destruct (imu_apply p n1 t _ (rot x) (imu_tf p lk fr)) as [n2 go2] eqn:E2. apply imu_usable in E2; [|exact E].
  assert (Hx : go2 && fake_odom p = false); [|rewrite Hx; eauto]. pose proof (so_fake p Hp). destruct (fake_imu p), (fake_odom p), go, go2; try reflexivity; discriminate.
Qed.
Lemma imu_total n fr t a q lk : usable_particles (n_pf n) -> exists n', cbImu p n fr t a q lk = Ok (n', []) /\ usable_particles (n_pf n').
Proof.
  intro Hu. unfold cbImu. destruct (imu_apply p n t a q (imu_tf p lk fr)) as [n1 go] eqn:E. apply imu_usable in E; [|exact Hu].
  destruct (go && fake_odom p) eqn:Eg; [|eauto]. destruct (odom_apply p n1 t _) as [n2 go2] eqn:E2. apply odom_usable in E2; [|exact E].
  assert (Hx : go2 && fake_imu p = false); [|rewrite Hx; eauto]. pose proof (so_fake p Hp). destruct (fake_imu p), (fake_odom p), go, go2; try reflexivity; discriminate.
Qed.
(** enough cells for the particles *)
Lemma fill_total iq prob dir : (1 <= dir)%Z -> forall ps pts cnt, (0 <= cnt < dir)%Z ->
  (Z.of_nat (length ps) <= Z.of_nat (length pts) * dir - cnt)%Z ->
  exists qs, fill iq prob dir ps pts cnt = Some qs /\ map wt qs = repeat prob (length ps).
Proof.
  intros Hd. induction ps as [|q ps IH]; intros pts cnt Hc Hl; cbn [fill]; [exists []; split; reflexivity|].
  destruct pts as [|c cs]; [cbn [length] in Hl; lia|].
  destruct (dir <=? cnt + 1)%Z eqn:E.
  - apply Z.leb_le in E. destruct (IH cs 0%Z) as (qs & -> & Hq); [lia|cbn [length] in Hl; nia|]. cbn [option_map]. eexists. split; [reflexivity|]. cbn [map length repeat]. rewrite Hq. reflexivity.
  - apply Z.leb_gt in E. destruct (IH (c :: cs) (cnt + 1)%Z) as (qs & -> & Hq); [lia|cbn [length] in *; lia|]. cbn [option_map]. eexists. split; [reflexivity|]. cbn [map length repeat]. rewrite Hq. reflexivity.
Qed.
Lemma global_total n hits d os x : inv p n os x -> legal caster voxel p Inv n (EGlobal hits d) -> usable_particles (n_pf n) ->
  exists n' o, cbGlobalLocalization voxel p n hits d = Ok (n', o) /\ usable_particles (n_pf n').
Proof.
  intros Hm [Hd Hcells] Hu. unfold cbGlobalLocalization. destruct (has_map (n_map n)) eqn:Eh; [|eauto].
  pose proof (iv_has _ _ _ _ Hm) as Hav. rewrite Eh in Hav. symmetry in Hav.
  destruct (iv_map _ _ _ _ Hm Hav) as (l & c & A1 & A2 & A3 & A4 & _).
  assert (Hc : get_obj (n_map n) (pc_map (n_map n)) = Ok c) by (unfold get_obj; rewrite A1, A4; reflexivity).
  destruct (Hcells c Hc) as [H1 H2]. rewrite Hc. cbn [bind]. cbv zeta. set (pts := keep_floor p _ _) in *.
  assert (Hpos : (0 < length pts)%nat) by (destruct pts; [congruence|cbn; lia]). pose proof (so_headings p Hp) as Hh.
  destruct (resize_total (sorted_dup d (n_pf n)) (glob_num p (length pts)) (n_pf n) (sorted_dup_ne _ _ Hd (usable_pos _ Hu))) as (f & Ef & Hlen & _). rewrite Ef. cbn [of_option bind].
  assert (Hg : Z.of_nat (glob_num p (length pts)) = (Z.of_nat (length pts) * glob_div_yaw p)%Z).
  { unfold glob_num. rewrite Z.mod_small by nia. rewrite Z2Nat.id by nia. reflexivity. }
  destruct (fill_total (imu_quat (n_imu n)) (1 / INR (length pts)) (glob_div_yaw p) ltac:(lia) (PfModel.parts RA f) pts 0) as (qs & Eq & Hq); [lia|rewrite Hlen, Hg; lia|].
  rewrite Eq. cbn [of_option bind]. eexists _, _. split; [reflexivity|]. apply usable_iff. cbn [n_pf set_pf]. unfold ws. cbn [PfModel.parts].
  assert (H : 0 < 1 / INR (length pts)) by (apply Rdiv_lt_0_compat; [lra|apply lt_0_INR, Hpos]). rewrite Hq. split.
  - apply Forall_forall. intros z Hz. apply repeat_spec in Hz. lra.
  - rewrite RsumLemmas.Rsum_repeat. apply Rmult_lt_0_compat; [|exact H]. apply lt_0_INR. rewrite Hlen. nia.
Qed.

(** the likelihood of a landmark is positive if the determinant of its covariance is *)
Lemma landmark_pos cov inverse d : 0 < det 6 (landmark_sigma cov) -> 0 < landmark_like cov inverse d.
Proof. intro H. 
  unfold landmark_like, ndn_eval, ndn_new. cbn [ndn_a]. apply Rmult_lt_0_compat; [|apply exp_pos].
  apply Rdiv_lt_0_compat; [lra|]. apply Rmult_lt_0_compat; [apply exp_pos|apply sqrt_lt_R0; exact H].
Qed.
(** ** Every event, every history *)
Lemma step_settles n ev : alive n -> legal caster voxel p Inv n ev ->
  settles (fun k => step caster voxel p n (with_fuel_ev k ev)) (fun x => alive (fst x)).
Proof.
  intros Hal Hleg.
  assert (H : settles (fun k => step caster voxel p n (with_fuel_ev k ev)) (fun x => core (fst x))).
  { pose proof Hal as [(os & x & acc & [Hm Ha]) Hu Hb Hl Hrc].
    assert (Hcore : core n) by (unfold core; auto).
    destruct ev; cbn [step with_fuel_ev]; cbn [legal] in Hleg.
    - unfold cbMapcloud. destruct conv as [b|]; [|apply settles_ret; cbn [fst]; exact Hcore].
      destruct (load_core n (if (stamp =? 0)%Z then now else stamp) b now Hrc Hleg) as (n' & o & E & G1 & G2 & G3). rewrite E. apply settles_ret. cbn [fst]. unfold core. rewrite G2, G3. auto.
    - unfold cbLoadPCD. destruct file as [b|]; [|apply settles_ret; cbn [fst]; exact Hcore].
      destruct (load_core n now b now Hrc Hleg) as (n' & o & E & G1 & G2 & G3). rewrite E. cbn [bind]. apply settles_ret. cbn [fst]. unfold core. rewrite G2, G3. auto.
    - unfold cbMapcloudUpdate. destruct conv as [b|]; apply settles_ret; cbn [fst]; [|exact Hcore]. destruct Hcore as (C1 & C2 & C3 & C4).
      split; [exact C1|]. split; [exact C2|]. split; [exact C3|]. unfold rc_ok in *. cbn [n_map set_map pc_map2 heap n_lid]. destruct (pc_map2 (n_map n)) as [l|]; [|exact C4].
      destruct C4 as (c & Ec & Hi). exists c. split; [apply nth_app_old; exact Ec|exact Hi].
    - destruct (timer_core n now os x Hm Hrc Hleg) as (n' & o & E & G1 & G2 & G3). rewrite E. apply settles_ret. cbn [fst]. unfold core. rewrite G2, G3. auto.
    - unfold cbPosition. destruct (Rltb (1 / 10) _); [apply settles_ret; exact Hcore|]. destruct (pose_in_map p lk m); [|apply settles_ret; exact Hcore].
      apply settles_ret. cbn [fst]. apply (core_same n); try reflexivity; [exact Hcore|]. cbn [n_pf set_pf]. eapply usable_ws; [apply predict_ws|]. apply init_usable, usable_pos, Hu.
    - destruct (odom_total n frame stamp pose lk Hu) as (n' & E & Hu'). rewrite E. apply settles_ret. cbn [fst]. apply (cbOdom_frame voxel) in E. destruct E as (E1 & _ & _ & E2 & _).
      apply (core_same n); try assumption; rewrite E1; reflexivity.
    - destruct (imu_total n frame stamp acc0 orient lk Hu) as (n' & E & Hu'). rewrite E. apply settles_ret. cbn [fst]. apply (cbImu_frame voxel) in E. destruct E as (E1 & _ & _ & E2 & _).
      apply (core_same n); try assumption; rewrite E1; reflexivity.
    - apply cloud_settles; assumption.
    - destruct Hleg as [Hlk Hd]. unfold cbLandmark.
      assert (Hu1 : usable_particles (PfModel.measure RA (fun _ s => landmark_like (pm_cov m) inverse (diff6 (state_pr (pm_pos m) (pm_rot m)) s)) (n_pf n))) by (apply measure_usable; [intros; apply Rlt_le, landmark_pos, Hlk|exact Hu]).
      destruct (resample_total normalize (offset : RA) (resample_noise p z) _ _ (sorted_dup_ne _ _ Hd (usable_pos _ Hu1)) (usable_pos _ Hu1)) as (f & Ef & Hf). rewrite Ef. cbn [of_option bind]. apply settles_ret. cbn [fst].
      apply (core_same n); try reflexivity; assumption.
    - destruct Hleg as [Hk Hd]. unfold cbResizeParticle. destruct (resize_total (sorted_dup srt (n_pf n)) size (n_pf n) (sorted_dup_ne _ _ Hd (usable_pos _ Hu))) as (f & Ef & _ & Hf). rewrite Ef. cbn [of_option bind]. apply settles_ret. cbn [fst].
      apply (core_same n); try reflexivity; [exact Hcore|apply Hf; lia].
    - apply settles_ret. cbn [fst]. apply (core_same n); try reflexivity; [exact Hcore|]. cbn [n_pf set_pf]. eapply usable_ws; [apply noise_ws|exact Hu].
    - destruct (global_total n hits srt os x Hm Hleg Hu) as (n' & o & E & Hu'). rewrite E. apply settles_ret. cbn [fst].
      pose proof (service_frame caster voxel p n (EGlobal hits srt) n' o E I) as (F1 & _ & _ & _ & _ & F2 & _).
      apply (core_same n); try assumption; rewrite F1; reflexivity. }
  destruct H as ([n' o] & K & Q1 & Q2 & Q3). exists (n', o), K. split; [|split; assumption]. cbn [fst] in *.
  eapply alive_step; [exact Hal|apply (Q3 K (Nat.le_refl K))|exact Q1].
Qed.
Lemma steps_settle evs : forall n, alive n -> legal_run caster voxel p Inv n evs ->
  settles (fun k => steps caster voxel p n (map (with_fuel_ev k) evs)) (fun x => alive (fst x)).
Proof.
  induction evs as [|ev t IH]; intros n Hal Hleg; cbn [steps map]; [apply settles_ret; exact Hal|]. destruct Hleg as [L1 L2].
  destruct (step_settles n ev Hal L1) as ([n1 o1] & K & Q1 & Q2 & Q3).
  assert (Hs : settles (fun k => step caster voxel p n (with_fuel_ev k ev)) (fun x => alive (fst x) /\ legal_run caster voxel p Inv (fst x) t)).
  { exists (n1, o1), K. split; [|split; assumption]. split; [exact Q1|]. apply (L2 K _ o1), Q3, Nat.le_refl. }
  eapply settles_bind; [exact Hs|]. intros [n2 o2] [G1 G2]. cbn [fst] in *.
  eapply settles_bind; [apply (IH n2 G1 G2)|]. intros [n3 o3] G3. apply settles_ret. exact G3.
Qed.
Lemma alive_init gen rc0 : (forall c, Inv c rc0) -> alive (configure p gen rc0).
Proof.
  intro Hr. constructor; try reflexivity.
  - exists [], expected0, []. split; [apply inv_init|]. intros _. left. repeat split; reflexivity.
  - cbn [configure n_pf]. apply init_usable. cbn [PfModel.new_filter PfModel.parts]. rewrite repeat_length. pose proof (so_particles p Hp). lia.
  - unfold rc_ok. cbn. exact Hr.
Qed.
End Alive.
