(** The localization step keeps the particle at the true pose. *)
From Coq Require Import String Reals ZArith List Bool Arith Lia Lra Permutation.
From Verif Require PfModel FilterModel AccumModel PfSpec PfProofs PfProps.
From Verif Require Import Arith KdModel QuatModel QuatSpec QuatProofs QuatProofs2 StateModel StateSpec StateProofs StateProps RayModel LidarModel LidarSpec LidarProofs LidarProofs2 LidarProps NdModel NdSpec NdProps ParamModel MatModel
  NodeModel NodeSpec NodeFrame NodeLocProofs NodeStepProofs NodeMapProofs NodeMapProps NodeMotionProps NodePostSpec NodePostProofs NodeHistProps NodePostProps NodeOutProps NodeTrackSpec NodeTrackProofs NodeTrackProps NodeKeepSpec NodeKeepProofs NodeKeepSens.
Import ListNotations.
Open Scope nat_scope.
Open Scope R_scope.
Open Scope list_scope.

Section Run.
Context {S : Type} (caster : cloud -> (pt -> R -> search) -> raycaster S)
        (voxel : R * R * R -> list lpt -> list lpt) (p : params).
Notation node := (node (S := S)).
Implicit Types n : node.

(** ** the members of the measurement models that do not change *)
Definition lid_kept n : Prop :=
  b_par (l_beam (n_lid n)) = p_beam p /\ b_beta (l_beam (n_lid n)) = rpow (bp_alpha (p_beam p)) (1 / IZR (Z.of_N (bp_default (p_beam p))))
  /\ l_par (l_like (n_lid n)) = p_like p.
Lemma lid_same n n' : l_beam (n_lid n') = l_beam (n_lid n) -> l_like (n_lid n') = l_like (n_lid n) -> lid_kept n -> lid_kept n'.
Proof. unfold lid_kept. intros -> ->. exact (fun H => H). Qed.
Lemma lid_eq n n' : n_lid n' = n_lid n -> lid_kept n -> lid_kept n'.
Proof. intro E. apply lid_same; rewrite E; reflexivity. Qed.
Lemma lid_configure gen rc0 : lid_kept (configure p gen rc0).
Proof. repeat split. Qed.
Lemma lid_filters n e full n2 bp lp : filters p n e full = (n2, bp, lp) -> lid_kept n -> lid_kept n2.
Proof. unfold filters. intros H (A & B & C). injection H as <- _ _. unfold lid_kept. cbn [set_lid n_lid l_beam l_like beam_set_global like_set_global b_par b_beta l_par]. auto. Qed.
Lemma lid_localize n e h os full bp lp n' o : localize caster p n e h os full bp lp = Ok (n', o) -> lid_kept n -> lid_kept n'.
Proof.
  unfold localize. intros H K. bok H. destruct x as [[n1 est] ratio].
  destruct (publish_tf_step p n1 e est) as [[n2 est'] o1] eqn:E2. bok H.
  set (n3 := with_conv n2 _) in H. bok H. rename x0 into n4. bok H. destruct x0 as [n5 o2]. bok H. rename x0 into f. bok H. rename x0 into n8.
  destruct (force_update (final_status n8 ratio)) as [n9 o4] eqn:E9.
  injection H as <- <-.
  apply estimate_ok in E. apply publish_tf_step_ok in E2. apply collect_pcd_ok in E1. apply match_output_ok in E3.
  apply shrink_step_ok in E5.
  match type of E5 with context [clock_step (expansion p ?a ?b ?c) _] => pose proof (expansion_ok p a b c) as E6; cbv zeta in E6;
    set (n7 := expansion p a b c) in * end.
  unfold force_update in E9. injection E9 as <- <-.
  change (lid_kept n8). clearbody n7. cbn [set_pf n_lid] in E6. change (n_lid (clock_step n7 (e_now e))) with (n_lid n7) in E5. change (n_lid n3) with (n_lid n2) in E1. clearbody n3.
  assert (L : l_beam (n_lid n8) = l_beam (n_lid n) /\ l_like (n_lid n8) = l_like (n_lid n)).
  { replace (n_lid n8) with (n_lid n1); [tauto|]. symmetry. transitivity (n_lid n7); [tauto|]. transitivity (n_lid n5); [tauto|]. transitivity (n_lid n4); [tauto|].
    transitivity (n_lid n2); tauto. }
  destruct L as [L1 L2]. eapply lid_same; [exact L1|exact L2|exact K].
Qed.
Lemma lid_measure n e n' o : measure caster voxel p n e = Ok (n', o) -> lid_kept n -> lid_kept n'.
Proof.
  unfold measure. intros H K. bok H. destruct x as [n0 go]. apply gate_ok in E. assert (K0 : lid_kept n0) by (eapply lid_eq; [apply E|exact K]). clear E.
  destruct go; cbn [negb] in H; [|injection H as <- _; exact K0].
  bok H. destruct x as [n1 ready]. apply prepare_ok in E. assert (K1 : lid_kept n1) by (eapply lid_eq; [apply E|exact K0]). clear E.
  destruct ready as [[[h pc] os]|]; [|injection H as <- _; exact K1]. bok H. clear E x.
  destruct (filters p n1 e (voxel (ds_x p, ds_y p, ds_z p) pc)) as [[n2 bp] lp] eqn:E2. apply lid_filters in E2; [|exact K1].
  destruct lp as [|l lp]; [unfold force_update in H; injection H as <- _; exact E2|]. eapply lid_localize; [exact H|exact E2].
Qed.
Lemma lid_step n ev n' o : step caster voxel p n ev = Ok (n', o) -> lid_kept n -> lid_kept n'.
Proof.
  intros H K.
  assert (T : forall (m : node) now m' om, cbMapUpdateTimer m now = Ok (m', om) -> n_lid m' = n_lid m).
  { intros m now m' om Q. unfold cbMapUpdateTimer in Q. bok Q. destruct x. injection Q as <- _. reflexivity. }
  destruct ev; cbn [step] in H.
  - unfold cbMapcloud in H. destruct conv; [unfold loadMapCloud in H; apply T in H; eapply lid_eq; [exact H|exact K]|injection H as <- _; exact K].
  - unfold cbLoadPCD in H. destruct file; [|injection H as <- _; exact K]. bok H. destruct x as [n0 oo]. injection H as <- _. unfold loadMapCloud in E. apply T in E. eapply lid_eq; [exact E|exact K].
  - unfold cbMapcloudUpdate in H. destruct conv; injection H as <- _; exact K.
  - apply T in H. eapply lid_eq; [exact H|exact K].
  - unfold cbPosition in H. repeat match type of H with (if ?c then _ else _) = _ => destruct c | match ?c with _ => _ end = _ => destruct c end; try (injection H as <- _; exact K); try discriminate.
    all: try (bok H; injection H as <- _; exact K).
  - unfold cbOdom in H. destruct (odom_apply p n stamp pose) as [q1 go] eqn:Eo. apply odom_apply_frame in Eo. destruct (go && fake_imu p).
    + destruct (imu_apply p q1 stamp _ _ _) as [q2 go2] eqn:Ei. apply imu_apply_frame in Ei. destruct (go2 && fake_odom p); [discriminate|]. injection H as <- _.
      eapply lid_eq; [|exact K]. transitivity (n_lid q1); tauto.
    + injection H as <- _. eapply lid_eq; [|exact K]. tauto.
  - unfold cbImu in H. destruct (imu_apply p n stamp _ _ _) as [q1 go] eqn:Eo. apply imu_apply_frame in Eo. destruct (go && fake_odom p).
    + destruct (odom_apply p q1 stamp _) as [q2 go2] eqn:Ei. apply odom_apply_frame in Ei. destruct (go2 && fake_imu p); [discriminate|]. injection H as <- _.
      eapply lid_eq; [|exact K]. transitivity (n_lid q1); tauto.
    + injection H as <- _. eapply lid_eq; [|exact K]. tauto.
  - unfold cbCloud in H. destruct (has_map (n_map n)); [|injection H as <- <-; exact K].
    bok H. destruct x as [a cs]. bok H. destruct x as [n5 o5]. injection H as <- <-. change (lid_kept n5).
    pose proof (push_calls_once _ _ _ _ _ E) as Hc. destruct (nproc cs) as [|[|k]] eqn:En; [|clear Hc|lia].
    { apply callbacks_none in E0; [|exact En]. eapply lid_eq; [|exact K]. tauto. }
    destruct (callbacks_one _ _ _ _ _ _ _ _ En E0) as (na & nb & B0 & B1 & B2 & B3 & B4 & B5 & B6 & B7 & B8 & B9 & B10 & B11 & B12 & B13).
    eapply lid_eq; [exact B13|]. eapply lid_measure; [exact B7|]. eapply lid_eq; [exact B6|exact K].
  - unfold cbLandmark in H. bok H. injection H as <- _. exact K.
  - unfold cbResizeParticle in H. bok H. injection H as <- _. exact K.
  - unfold cbExpansionReset in H. injection H as <- _. exact K.
  - unfold cbGlobalLocalization in H. repeat match type of H with (if ?c then _ else _) = _ => destruct c | match ?c with _ => _ end = _ => destruct c end; try discriminate; try (injection H as <- _; exact K).
    all: repeat bok H; try (injection H as <- _; exact K).
Qed.
Lemma lid_run evs : forall n n' o, steps caster voxel p n evs = Ok (n', o) -> lid_kept n -> lid_kept n'.
Proof.
  induction evs as [|ev evs IH]; intros n n' o H K; cbn [steps] in H; [injection H as <- _; exact K|].
  bok H. destruct x as [n1 o1]. bok H. destruct x as [n2 o2]. injection H as <- _. eapply IH; [exact E0|]. eapply lid_step; [exact E|exact K].
Qed.

(** ** localization *)
Lemma at_parts P s : at_pose P s -> pos s = fst P /\ rot s = snd P.
Proof. intros (A & _). split; rewrite <- A; reflexivity. Qed.
Lemma parts_in f (g : PfModel.particle RA state -> pose) i s : nth_error (ss f) i = Some s -> (forall q, PfModel.st RA q = s -> g q = (pos s, qnormalized (rot s))) ->
  In (pos s, qnormalized (rot s)) (map g (PfModel.parts RA f)).
Proof.
  intros H Hg. unfold PfSpec.poses in H. rewrite nth_error_map in H. destruct (nth_error (PfModel.parts RA f) i) as [q|] eqn:E; [|discriminate].
  cbn [option_map] in H. assert (Es : PfModel.st RA q = s) by (injection H; auto). rewrite <- (Hg q Es). apply in_map. eapply nth_error_In. exact E.
Qed.
Lemma keep_localize P n e h os full bp lp cl n' o : keep_settings p -> unit_quat (snd P) -> lid_kept n -> map_cloud n = Ok cl ->
  (forall q r, radiusSearch (setInputCloud (to_pts (cl_pts cl)) (configured_kdtree p)) q r 1 (e_search e q r)) ->
  stable (e_sort e) -> good_offset n (e_offset e) -> (Z.of_nat (psize n) <= num_particles p)%Z -> lp <> [] ->
  (forall q, In q lp -> exists mp, In mp (cl_pts cl) /\ p3 mp = vadd (qrot (snd P) (p3 q)) (fst P)) ->
  (forall q x sa sb st, In q bp -> nth_error os (lab q) = Some x ->
     getBeamStatus (l_beam (n_lid n)) (caster cl (e_search e)) (e_fuel e) sa (vadd (fst P) (qrot (snd P) x)) (vadd (qrot (snd P) (p3 q)) (fst P)) = Done (sb, st) ->
     match st with SHORT => False | LONG => bp_short_only (p_beam p) = true | _ => True end) ->
  localize caster p n e h os full bp lp = Ok (n', o) -> tracked P (n_pf n) ->
  tracked P (n_pf n') /\ psize n' = psize n /\ forall t l, In (OParticles t l) o -> In P l.
Proof.
  intros (K1 & K2 & K3 & K4 & K5 & K6 & K7 & K8 & K9 & K10 & K11 & K12 & K13 & K14 & K15 & K16) U (L1 & L2 & L3) Hcl Hsr Hst Hoff Hsz Hlp Hf Hb H T.
  destruct (localize_parts _ _ _ _ _ _ _ _ _ _ _ H) as (cl' & s1 & res & est0 & est' & c & o1 & o2 & f4 & k & A1 & A2 & A3 & (A4 & A5 & A6) & A7 & A8 & A9 & A10 & _).
  rewrite Hcl in A1. injection A1 as <-.
  assert (Tm : too_many p n = false) by (unfold too_many, np; apply Z.ltb_ge; exact Hsz).
  destruct (lidar_all_each _ _ _ _ _ _ _ _ _ _ _ A2) as [Len Each]. fold (ss (n_pf n)) in Len, Each.
  set (lc := caster cl (e_search e)) in *. set (bm := l_beam (n_lid n)) in *. set (lk := l_like (n_lid n)) in *.
  assert (Hbeta : 0 <= b_beta bm <= 1) by (rewrite L2; apply beta_unit; assumption).
  assert (Halpha : 0 <= bp_alpha (b_par bm) <= 1) by (rewrite L1; exact K11).
  set (top := (lp_dist_min (p_like p) - lp_dist_flat (p_like p)) * lp_weight (p_like p)).
  assert (LikeR : forall s rl, like_measure lk (e_search e) (Some lp) s = Some rl -> 0 <= fst rl <= INR (length lp) * top).
  { intros s rl. unfold like_measure. destruct lp as [|q0 lp0]; [congruence|]. rewrite L3.
    destruct (like_points _ _ _ _ _) as [[sc nm]|] eqn:El; [|discriminate]. intro Q. injection Q as <-. cbn [fst].
    apply like_points_range in El; try assumption. unfold transform in El. rewrite map_length in El. unfold top. lra. }
  assert (Best : forall s, at_pose P s -> like_measure lk (e_search e) (Some lp) s = Some (INR (length lp) * top, 1)).
  { intros s Hs. destruct (at_parts _ _ Hs) as [Ep Er]. unfold like_measure.
    assert (Q : like_points (l_par lk) (e_search e) (transform s lp) 0 0 = Some (0 + INR (length (transform s lp)) * top, (0 + length (transform s lp))%nat)).
    { rewrite L3. apply like_points_best; try assumption. intros q Hq. unfold transform in Hq. apply in_map_iff in Hq. destruct Hq as (y & <- & Hy). cbn [p3].
      rewrite Ep, Er, normalized_unit by exact U. destruct (Hf _ Hy) as (mp & M1 & M2). rewrite <- M2. apply In_nth_error in M1. destruct M1 as [j Hj].
      assert (D0 : map_dist_sq p mp (p3 mp) = 0) by (unfold map_dist_sq, dist_sq; destruct (search_weights p) as [[wx wy] wz]; cbn; ring).
      destruct (search_nearest p _ _ _ (p3 mp) j mp Hsr K13 Hj) as (i & d & B1 & B2).
      - rewrite D0, Rmult_0_r. apply Rmult_lt_0_compat; exact K14.
      - exists i, d. split; [exact B1|]. rewrite D0, Rmult_0_r in B2. exact B2. }
    rewrite Q. unfold transform at 1 2 3. rewrite !map_length. destruct lp as [|q0 lp0]; [congruence|]. f_equal. f_equal; [ring|]. rewrite Nat.add_0_l. apply Rinv_r. apply not_0_INR. discriminate. }
  assert (BeamR : forall s sa sb rb, beam_measure bm lc (e_fuel e) sa (Some bp) os s = Done (sb, rb) -> 0 <= fst rb <= 1) by (intros s sa sb rb; apply beam_measure_range; assumption).
  assert (BeamB : forall s sa sb rb, at_pose P s -> beam_measure bm lc (e_fuel e) sa (Some bp) os s = Done (sb, rb) -> fst rb = 1).
  { intros s sa sb rb Hs. destruct (at_parts _ _ Hs) as [Ep Er]. apply beam_measure_free; try assumption. intros q x sa' sb' b Hq Hx. rewrite Ep, Er, normalized_unit by exact U. intro Hg.
    pose proof (Hb q x sa' sb' b Hq Hx Hg) as Q. unfold penalised. destruct b; [destruct Q|reflexivity|rewrite L1, Q; reflexivity|reflexivity]. }
  assert (Top0 : 0 <= INR (length lp) * top) by (apply Rmult_le_pos; [apply pos_INR|unfold top; apply Rmult_le_pos; lra]).
  assert (T1 : tracked P (PfModel.measure RA (score_of p res) (n_pf n))).
  { apply tracked_measure; [| |exact T].
    - intros i s Hs. destruct (Each i s Hs) as (sa & sb & rb & rl & E1 & E2 & E3). unfold score_of. rewrite (nth_error_nth _ _ _ E3). cbn [fst].
      apply Rmult_le_pos; [|left; apply nd_pos; exact K9]. apply Rmult_le_pos; [apply (BeamR _ _ _ _ E1)|apply (LikeR _ _ E2)].
    - intros i s j s' Hi Hat Hj Hle. destruct (Each i s Hi) as (sa & sb & rb & rl & E1 & E2 & E3). destruct (Each j s' Hj) as (sa' & sb' & rb' & rl' & E1' & E2' & E3').
      unfold score_of. rewrite (nth_error_nth _ _ _ E3), (nth_error_nth _ _ _ E3'). cbn [fst]. rewrite (BeamB _ _ _ _ Hat E1). rewrite (Best _ Hat) in E2. injection E2 as <-. cbn [fst].
      pose proof (BeamR _ _ _ _ E1') as [B1 B2]. pose proof (LikeR _ _ E2') as [B3 B4].
      apply Rmult_le_compat; [apply Rmult_le_pos; assumption|left; apply nd_pos; exact K9|apply Rmult_le_compat; assumption|].
      apply nd_mono; [exact K9|]. assert (N0 : forall v, 0 <= vnorm v) by (intro v; apply sqrt_pos). rewrite !Rabs_pos_eq by apply N0. exact Hle. }
  assert (T2 : tracked P (posterior p n res)) by (unfold posterior; apply tracked_bias; exact T1).
  set (f3 := jump_reset p n (normalize est0) (posterior p n res)) in *.
  assert (T3 : tracked P f3).
  { unfold f3, jump_reset. destruct (_ && _); [|exact T2]. apply (tracked_predict P P); [intros i s Hs; exact Hs|intros i s Hs; exact Hs| |exact T2].
    intros i j s s' _ _ _. cbn [reset_err err_lin]. apply Rle_refl. }
  assert (Len3 : length (PfModel.parts RA f3) = psize n).
  { unfold f3, jump_reset, posterior. destruct (_ && _); cbn [PfModel.predict PfModel.do_bias PfModel.parts]; rewrite ?mapi_len; apply measure_len. }
  destruct (tracked_resample p P (e_offset e) (e_noise e) (e_sort e) f3 f4 K1 U Hst) as [T4 Len4]; [rewrite Len3; exact Hoff|exact A6|exact T3|].
  set (f5 := PfModel.predict RA (update_noise p (e_noise4 e)) f4) in *.
  assert (T5 : tracked P f5).
  { apply (tracked_predict P P); [| | |exact T4].
    - intros i s (B1 & B2 & B3). unfold update_noise. destruct (e_noise4 e i) as [[[ll la] aa] al]. split; [exact B1|]. split; [|exact B3]. unfold noise_free. cbn. rewrite K2, K3, K4, K5. repeat split; ring.
    - intros i s _. unfold update_noise. destruct (e_noise4 e i) as [[[ll la] aa] al]. unfold noise_free. cbn. rewrite K2, K3, K4, K5. repeat split; ring.
    - intros i j s s' _ _ Hle. unfold update_noise. destruct (e_noise4 e i) as [[[ll la] aa] al], (e_noise4 e j) as [[[ll' la'] aa'] al']. exact Hle. }
  assert (Mx : Rltb (match_max (map snd res)) (match_ratio_thresh p) = false).
  { apply Rltb_false. destruct T as (_ & _ & _ & i & s & w & D1 & _ & D3 & _). destruct (Each i s D1) as (sa & sb & rb & rl & E1 & E2 & E3). rewrite (Best _ D3) in E2. injection E2 as <-.
    assert (Q : 1 <= match_max (map snd res)); [|lra]. apply match_max_spec.
    - intros y Hy. apply in_map_iff in Hy. destruct Hy as (r & <- & Hr). apply In_nth_error in Hr. destruct Hr as [j Hr].
      assert (Hlt : (j < length (ss (n_pf n)))%nat) by (rewrite <- Len; apply nth_error_Some; congruence).
      destruct (nth_error (ss (n_pf n)) j) as [y|] eqn:Ey; [|apply nth_error_None in Ey; lia].
      destruct (Each j y Ey) as (sa' & sb' & rb' & rl' & E1' & E2' & E3'). rewrite Hr in E3'. injection E3' as ->. cbn [snd].
      destruct rl' as [sc rt]. exact (proj1 (proj1 (C63_ratio_in_range _ _ _ _ _ _ Hlp E2'))).
    - apply in_map_iff. eexists. split; [|eapply nth_error_In; exact E3]. reflexivity. }
  cbv zeta in A10. rewrite Mx, Tm in A10. fold f5 in A10. split; [rewrite A10; exact T5|]. split.
  { unfold psize at 1. rewrite A10. unfold f5. cbn [PfModel.predict PfModel.parts]. rewrite mapi_len, Len4. exact Len3. }
  intros t l Hi. rewrite A5 in Hi. apply in_app_or in Hi. destruct Hi as [Hi|Hi]; [destruct A8 as [(? & ? & ? & ->)| ->]; [destruct Hi as [Hi|[]]; discriminate|destruct Hi]|].
  cbn [app] in Hi. destruct Hi as [Hi|Hi]; [discriminate|]. apply in_app_or in Hi. destruct Hi as [Hi|[Hi|[Hi|[]]]]; try discriminate.
  { destruct (due p n e h); [destruct A9 as (? & ? & _ & -> & _); destruct Hi as [Hi|[]]; discriminate|destruct A9 as [-> _]; destruct Hi]. }
  injection Hi as _ <-. destruct T3 as (_ & _ & _ & i & s & w & D1 & _ & D3 & _). destruct (at_parts _ _ D3) as [Ep Er].
  replace P with (pos s, qnormalized (rot s)) by (rewrite Ep, Er, normalized_unit by exact U; destruct P; reflexivity).
  eapply parts_in; [exact D1|]. intros q ->. reflexivity.
Qed.
End Run.
