(** What one localization step does to the particles, and what it publishes about them. *)
From Coq Require Import String Reals ZArith List Bool Arith Lia Lra.
From Verif Require PfModel FilterModel AccumModel.
From Verif Require Import Arith KdModel QuatModel StateModel StateSpec RayModel LidarModel NdModel ParamModel NodeModel NodeSpec NodeFrame NodeLocProofs
  NodeStepProofs.
Import ListNotations.
Open Scope nat_scope.
Open Scope list_scope.

Section Post.
Context {S : Type} (caster : cloud -> (pt -> R -> search) -> raycaster S)
        (voxel : R * R * R -> list lpt -> list lpt) (p : params).
Notation node := (node (S := S)).
Implicit Types n : node.

(** a published pose comes from a measurement that found points *)
Lemma measure_pose n e n' o t x c : measure caster voxel p n e = Ok (n', o) -> In (OPose t x c) o ->
  exists n0 n1 h pc os n2 bp lp, gate p n = Ok (n0, true) /\ prepare p n0 e = Ok (n1, Some (h, pc, os))
    /\ filters p n1 e (voxel (ds_x p, ds_y p, ds_z p) pc) = (n2, bp, lp) /\ lp <> []
    /\ localize caster p n2 e h os (voxel (ds_x p, ds_y p, ds_z p) pc) bp lp = Ok (n', o).
Proof.
  unfold measure. intros H Hi. bok H. destruct x0 as [n0 go]. destruct go; cbn [negb] in H; [|injection H as _ <-; destruct Hi].
  bok H. destruct x0 as [n1 ready]. destruct ready as [[[h pc] os]|]; [|injection H as _ <-; destruct Hi]. bok H. clear E1 x0.
  destruct (filters p n1 e (voxel (ds_x p, ds_y p, ds_z p) pc)) as [[n2 bp] lp] eqn:E2.
  destruct lp as [|l lp].
  - unfold force_update in H. injection H as _ <-. destruct Hi as [Hi|[]]. discriminate.
  - exists n0, n1, h, pc, os, n2, bp, (l :: lp). repeat split; auto. discriminate.
Qed.
Lemma pose_localizes n m e n' o t x c : step caster voxel p n (ECloud m e) = Ok (n', o) -> In (OPose t x c) o ->
  exists n1 h pc os n2 bp lp n3, measures_with voxel p caster n m e n1 h pc os
    /\ filters p n1 e (voxel (ds_x p, ds_y p, ds_z p) pc) = (n2, bp, lp) /\ lp <> []
    /\ localize caster p n2 e h os (voxel (ds_x p, ds_y p, ds_z p) pc) bp lp = Ok (n3, o)
    /\ n_pf n' = n_pf n3 /\ n_out n' = n_out n3 /\ n_map n' = n_map n3 /\ n_odom n' = n_odom n3
    /\ n_pf n2 = n_pf n /\ n_odom n2 = n_odom n /\ n_imu n2 = n_imu n /\ n_map n2 = n_map n
    /\ l_rc (n_lid n2) = l_rc (n_lid n) /\ match_last (n_out n2) = match_last (n_out n) /\ state_prev (n_out n2) = state_prev (n_out n)
    /\ tf_base (n_out n2) = tf_base (n_out n).
Proof.
  cbn [step]. unfold cbCloud. intros H Hi. destruct (has_map (n_map n)) eqn:Hm; [|injection H as _ <-; destruct Hi].
  bok H. destruct x0 as [a cs]. bok H. destruct x0 as [n5 o5]. injection H as <- <-.
  pose proof (push_calls_once _ _ _ _ _ E) as Hc.
  destruct (nproc cs) as [|[|k]] eqn:En; [|clear Hc|lia].
  { apply callbacks_none in E0; [|exact En]. destruct E0 as (_ & _ & _ & _ & _ & _ & ->). destruct Hi. }
  destruct (callbacks_one _ _ _ _ _ _ _ _ En E0) as (na & nb & B0 & B1 & B2 & B3 & B4 & B5 & B6 & B7 & B8 & B9 & B10 & B11 & B12 & B13).
  destruct (measure_pose _ _ _ _ _ _ _ B7 Hi) as (n0 & n1 & h & pc & os & n2 & bp & lp & M1 & M2 & M3 & M4 & M5).
  exists n1, h, pc, os, n2, bp, lp, nb. split; [eapply mw_intro; [exact Hm|exact E|exact B0|exact M1|exact M2]|].
  split; [exact M3|]. split; [exact M4|]. split; [exact M5|]. cbn [set_acc n_pf n_out n_map n_odom].
  apply gate_ok in M1. destruct M1 as (G1 & G2 & G3 & G4 & G5 & G6 & G7 & G8 & G9 & G10 & G11 & G12 & G13 & G14 & G15 & _).
  apply prepare_ok in M2. destruct M2 as (P1 & P2 & P3 & P4 & P5 & P6 & _).
  pose proof M3 as M3'. apply filters_ok in M3. destruct M3 as (F1 & F2 & F3 & F4 & F5 & F6 & F7).
  change (n_pf (set_stat n status0)) with (n_pf n) in *. change (n_odom (set_stat n status0)) with (n_odom n) in *.
  change (n_imu (set_stat n status0)) with (n_imu n) in *. change (n_map (set_stat n status0)) with (n_map n) in *. change (n_lid (set_stat n status0)) with (n_lid n) in *.
  assert (On : same_out n n2).
  { eapply same_out_trans; [|apply same_out_eq; exact F5]. eapply same_out_trans; [|apply same_out_eq; exact P4].
    eapply same_out_trans; [|constructor; [exact G8|exact G9|exact G10|exact G11|exact G12|exact G13|exact G14|exact G15]]. constructor; rewrite B1; reflexivity. }
  repeat split; try congruence; try apply On.
Qed.

(** the likelihood of a particle *)
Definition score_of (res : list (R * R)) (i : nat) (s : state) : R :=
  (fst (nth i res (0, 0)) * nd_eval (nd_new (integ_lin_sigma p)) (vnorm (err_lin s)))%R.
Definition bias_fun n (s : state) : R := if too_many p n then 1%R else bias_of p (state_prev (n_out n)) s.
Definition posterior n (res : list (R * R)) : PfModel.filter RA state :=
  PfModel.do_bias RA (fun _ s _ => (bias_fun n s : RA)) (PfModel.measure RA (score_of res) (n_pf n)).
Definition jump_reset n est (f : PfModel.filter RA state) : PfModel.filter RA state :=
  if negb (too_many p n) && far_off p (state_prev (n_out n)) est then PfModel.predict RA (fun _ => reset_err) f else f.
Definition due n (e : menv) (h : header) : bool :=
  (Rltb (match_last (n_out n) + match_output_interval p) (h_stamp h) || Rltb (h_stamp h + 1) (match_last (n_out n)))
  && (fst (e_subs e) || snd (e_subs e)).
Lemma localize_parts n e h os full bp lp n' out : localize caster p n e h os full bp lp = Ok (n', out) ->
  exists cl s1 res est0 est' c o1 o2 f4 k,
    map_cloud n = Ok cl
    /\ lidar_all (l_beam (n_lid n)) (l_like (n_lid n)) (caster cl (e_search e)) e os bp lp (map (PfModel.st RA) (PfModel.parts RA (n_pf n))) (l_rc (n_lid n)) = Ok (s1, res)
    /\ PfModel.expectation_biased RA pose_mean (posterior n res) = Some est0
    /\ (let f3 := jump_reset n (normalize est0) (posterior n res) in
        PfModel.covariance RA pose_mean cov_el 6 (1%R : RA) (cov_ratio p n : RA) (e_shuffle e) f3 = Some c
        /\ out = o1 ++ [OPose (h_stamp h) (pos est', rot est') c] ++ o2
             ++ [OParticles ((if has_odom (n_odom n) then odom_last (n_odom n) else e_now e) + tf_base (n_out n) + tf_tolerance p)
                   (map (fun q => (pos (PfModel.st RA q), qnormalized (rot (PfModel.st RA q)))) (PfModel.parts RA f3));
                 OStatus (stat (n_out n')) k (has_map (n_map n)) (has_odom (n_odom n)) (has_imu (n_imu n))]
        /\ PfModel.resample RA splus normalize (e_offset e : RA) (resample_noise p (e_noise e)) (sorted_dup (e_sort e) f3) f3 = Some f4)
    /\ s_match (stat (n_out n')) = match_max (map snd res)
    /\ ((exists t x z, o1 = [OTf t x z]) \/ o1 = [])
    /\ (if due n e h then exists m u, match_points p (e_search e) (transform est' full) = Ok (m, u) /\ o2 = [OMatched m u] /\ match_last (n_out n') = h_stamp h
        else o2 = [] /\ match_last (n_out n') = match_last (n_out n))
    /\ (let f5 := PfModel.predict RA (update_noise p (e_noise4 e)) f4 in
        let f6 := if Rltb (match_max (map snd res)) (match_ratio_thresh p) then PfModel.add_noise RA splus (expansion_noise p (e_expand e)) f5 else f5 in
        if too_many p n then PfModel.resize RA state0 (sorted_dup (e_sort2 e) f6) (Z.to_nat (shrunk p (psize n))) f6 = Some (n_pf n') else n_pf n' = f6)
    /\ (if output_pcd p then exists l, pc_all (n_map n) = Some l /\ pc_all (n_map n') = Some (l ++ transform est' lp) else pc_all (n_map n') = pc_all (n_map n))
    /\ state_prev (n_out n') = normalize est0.
Proof.
  intro H. pose proof (localize_frame _ _ _ _ _ _ _ _ _ _ _ H) as (FR1 & FR2 & FR3 & FR4 & FR5 & _).
  unfold localize in H. bok H. destruct x as [[n1 est] ratio].
  destruct (publish_tf_step p n1 e est) as [[n2 est'] o1] eqn:E2. bok H. rename x into c.
  set (n3 := with_conv n2 _) in H. bok H. rename x into n4. bok H. destruct x as [n5 o2]. bok H. rename x into f4. bok H. rename x into n8.
  unfold force_update in H. injection H as <- <-.
  pose proof (estimate_ok caster p _ _ _ _ _ _ _ _ E) as (A1 & A2 & A3 & A4 & A5 & _).
  unfold estimate in E. bok E. rename x into cl. bok E. destruct x as [s1 res]. bok E. rename x into est0. bok E. bok E. destruct x0 as [s2 z].
  apply of_option_ok in E8.
  assert (Ps : forall X (g : PfModel.filter RA state -> X), g (if too_many p n then PfModel.do_bias RA (fun _ _ _ => (1%R : RA)) (PfModel.measure RA (score_of res) (n_pf n))
      else PfModel.do_bias RA (fun _ s _ => (bias_of p (state_prev (n_out n)) s : RA)) (PfModel.measure RA (score_of res) (n_pf n))) = g (posterior n res)).
  { intros X g. unfold posterior, bias_fun. destruct (too_many p n); reflexivity. }
  assert (Pn1 : n_pf n1 = posterior n res). { rewrite <- (Ps _ (fun f => f)). injection E as <- _ _. reflexivity. }
  assert (Pe : PfModel.expectation_biased RA pose_mean (posterior n res) = Some est0). { rewrite <- E8. symmetry. exact (Ps _ (PfModel.expectation_biased RA pose_mean)). }
  assert (Er : est = normalize est0 /\ ratio = match_max (map snd res)) by (injection E as _ <- <-; auto). destruct Er as [-> ->]. clear E E9 E10 Ps E8.
  pose proof (publish_tf_step_ok p n1 e _ n2 est' o1 E2) as (B1 & B2 & B3 & B4 & _ & B5 & B6 & B7 & B8 & B9 & B10 & B11 & B12 & B13 & _).
  assert (Hj : n_pf n2 = jump_reset n (normalize est0) (posterior n res)).
  { rewrite B5. unfold after_jump, jump_reset. assert (Hs : too_many p n1 = too_many p n).
    { unfold too_many, psize. rewrite Pn1. unfold posterior. cbn [PfModel.do_bias PfModel.parts]. rewrite mapi_len, measure_len. reflexivity. }
    rewrite Hs, A5. destruct (negb (too_many p n) && far_off p (state_prev (n_out n)) (normalize est0)); cbn [set_out set_pf n_pf]; rewrite Pn1; reflexivity. }
  assert (Ho1 : (exists t x z, o1 = [OTf t x z]) \/ o1 = []).
  { unfold publish_tf_step in E2. destruct (map_odom (normalize est0) (odom (n_odom n1))). cbv zeta in E2. apply pair_equal_spec in E2. destruct E2 as [_ <-].
    destruct (publish_tf p); [left; eauto|right; reflexivity]. }
  set (f3 := jump_reset n (normalize est0) (posterior n res)) in *.
  pose proof (collect_pcd_ok p _ _ _ _ E1) as (C1 & C2 & C3 & C4 & _ & C5 & C6).
  pose proof (match_output_ok p _ _ _ _ _ _ _ E3) as (D1 & D2 & D3 & D4 & _ & D5 & D6 & D7 & D8 & D9 & D10 & D11 & D12 & D13 & D14 & _).
  apply of_option_ok in E4.
  assert (N3 : n_pf n3 = n_pf n2 /\ n_odom n3 = n_odom n2 /\ tf_base (n_out n3) = tf_base (n_out n2) /\ match_last (n_out n3) = match_last (n_out n2) /\ n_map n3 = n_map n2
               /\ state_prev (n_out n3) = state_prev (n_out n2)) by (unfold n3; repeat split).
  clearbody n3. destruct N3 as (N1 & N2 & N3 & N4 & N5 & N6).
  assert (P5 : n_pf n5 = f3) by congruence.
  match type of E5 with shrink_step _ (clock_step (expansion p ?a ?b ?c) _) _ = _ => set (n6 := a) in * end.
  assert (S6 : state_prev (n_out n6) = normalize est0).
  { unfold n6. cbn [set_pf n_out]. rewrite D14, C6, N6. exact B13. }
  assert (M6 : n_out n6 = n_out n5 /\ n_pf n6 = PfModel.predict RA (update_noise p (e_noise4 e)) f4 /\ n_map n6 = n_map n5) by (unfold n6; repeat split).
  destruct M6 as (M6 & M7 & M8). clearbody n6.
  set (n7 := expansion p n6 e (match_max (map snd res))) in *.
  assert (X : state_prev (n_out n7) = state_prev (n_out n6) /\ match_last (n_out n7) = match_last (n_out n6)
    /\ n_pf n7 = (if Rltb (match_max (map snd res)) (match_ratio_thresh p) then PfModel.add_noise RA splus (expansion_noise p (e_expand e)) (n_pf n6) else n_pf n6)).
  { unfold n7, expansion. destruct (Rltb (match_max (map snd res)) (match_ratio_thresh p)); repeat split. }
  assert (Xm : n_map n7 = n_map n6) by (unfold n7, expansion; destruct (Rltb (match_max (map snd res)) (match_ratio_thresh p)); reflexivity).
  clearbody n7. destruct X as (X1 & X2 & X3).
  pose proof (shrink_step_ok p _ _ _ E5) as (F1 & _).
  assert (R2 : length (PfModel.parts RA f3) = length (PfModel.parts RA (n_pf n))).
  { unfold f3, jump_reset, posterior. destruct (negb (too_many p n) && far_off p (state_prev (n_out n)) (normalize est0)); cbn [PfModel.predict PfModel.do_bias PfModel.parts];
      rewrite ?mapi_len; apply measure_len. }
  assert (Sz : psize n7 = psize n).
  { unfold psize. rewrite X3. apply resample_ok in E4. destruct E4 as [R1 _]. rewrite P5 in R1.
    rewrite <- R2, <- R1. destruct (Rltb (match_max (map snd res)) (match_ratio_thresh p)); rewrite M7; cbn [PfModel.add_noise PfModel.predict PfModel.parts]; rewrite ?mapi_len; reflexivity. }
  assert (Tm : too_many p (clock_step n7 (e_now e)) = too_many p n) by (unfold too_many; change (psize (clock_step n7 (e_now e))) with (psize n7); rewrite Sz; reflexivity).
  assert (Q : (if too_many p n then PfModel.resize RA state0 (sorted_dup (e_sort2 e) (n_pf n7)) (Z.to_nat (shrunk p (psize n))) (n_pf n7) = Some (n_pf n8) else n_pf n8 = n_pf n7)
    /\ match_last (n_out n8) = match_last (n_out n7) /\ state_prev (n_out n8) = state_prev (n_out n7)).
  { unfold shrink_step in E5. rewrite Tm in E5. change (psize (clock_step n7 (e_now e))) with (psize n7) in E5. change (n_pf (clock_step n7 (e_now e))) with (n_pf n7) in E5. rewrite Sz in E5.
    bok E5. destruct (too_many p n).
    - bok E. injection E as <-. apply of_option_ok in E8.
      match type of E5 with match ?k with _ => _ end = _ => destruct k end; injection E5 as <-; repeat split; exact E8.
    - injection E as <-. match type of E5 with match ?k with _ => _ end = _ => destruct k end; injection E5 as <-; repeat split. }
  destruct Q as (Q1 & Q2 & Q3).
  cbn [set_stat set_out n_out n_pf n_odom n_imu n_acc n_map final_status stat state_prev match_last s_match].
  exists cl, s1, res, est0, est', c, o1, o2, f4. eexists.
  split; [exact E6|]. split; [exact E7|]. split; [exact Pe|].
  split; [cbv zeta; fold f3; split; [|split]|].
  - unfold pf_cov in E0. apply of_option_ok in E0. rewrite Hj in E0. refine (eq_trans _ E0). f_equal. unfold cov_ratio. f_equal. f_equal. f_equal.
    unfold psize. rewrite Hj. symmetry. exact R2.
  - unfold publishParticles. rewrite P5, D3, C3, N2, B3, A3, D7, C6, N3, B7, A5.
    destruct FR1 as (_ & _ & _ & _ & _ & _ & G & _).
    cbn [set_stat set_out n_out n_pf n_odom n_imu n_acc n_map final_status] in FR3, FR4, G. rewrite FR3, FR4, G. reflexivity.
  - rewrite <- P5. exact E4.
  - split; [reflexivity|]. split; [exact Ho1|]. split; [|split; [|split]].
    + assert (Du : due n4 e h = due n e h). { unfold due. rewrite C6, N4, B12, A5. reflexivity. }
      unfold match_output in E3. fold (due n4 e h) in E3. rewrite Du in E3. destruct (due n e h).
      * bok E3. destruct x0 as [mm uu]. assert (L5 : match_last (n_out n5) = h_stamp h /\ o2 = [OMatched mm uu]) by (injection E3 as <- <-; split; reflexivity).
        exists mm, uu. split; [exact E|]. destruct L5 as [L5 ->]. split; [reflexivity|]. rewrite Q2, X2, M6. exact L5.
      * injection E3 as <- <-. split; [reflexivity|]. rewrite Q2, X2, M6, C6, N4, B12, A5. reflexivity.
    + cbv zeta. rewrite <- M7, <- X3. exact Q1.
    + assert (Am : pc_all (n_map n8) = pc_all (n_map n4)). { rewrite F1. change (n_map (clock_step n7 (e_now e))) with (n_map n7). rewrite Xm, M8, D1. reflexivity. }
      rewrite Am. unfold collect_pcd in E1. destruct (output_pcd p).
      * rewrite N5, B1, A1 in E1. destruct (pc_all (n_map n)) as [l|]; [|discriminate]. injection E1 as <-. exists l. split; reflexivity.
      * injection E1 as <-. rewrite N5, B1, A1. reflexivity.
    + rewrite Q3, X1. exact S6.
Qed.
End Post.
