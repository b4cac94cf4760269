(** The node never fails: particles stay usable, every call ends. *)
From Coq Require Import String Reals ZArith NArith List Bool Arith Lra Lia Permutation.
From Verif Require PfModel PfSpec PfProofs PfReal RsumLemmas FilterModel AccumModel.
From Verif Require Import Arith KdModel KdSpec KdProofs KdProps QuatModel StateModel StateSpec RayModel LidarModel LidarProofs NdModel NdProps ParamModel NodeModel NodeSpec
  NodeFrame NodeLocProofs NodeStepProofs NodeMapProofs NodeAccProofs NodeAliveSpec.
Import ListNotations.
Open Scope R_scope.
Open Scope list_scope.

(** ** Usable particles *)
Notation flt_ := (PfModel.filter RA state).
Notation part_ := (PfModel.particle RA state).
Definition wt (q : part_) : R := PfModel.w RA q.
Definition good_w (ws : list R) : Prop := Forall (fun x => 0 <= x) ws /\ 0 < PfSpec.Rsum ws.
Definition ws (f : flt_) : list R := map wt (PfModel.parts RA f).
Lemma ws_eq f : PfSpec.weights RA f = ws f. Proof. reflexivity. Qed.
Lemma usable_iff f : usable_particles f <-> good_w (ws f).
Proof.
  unfold usable_particles, good_w, ws. change (@PfModel.w RA state) with wt. split.
  - intros (_ & H & q & Hq & Hp). split.
    + apply Forall_forall. intros x Hx. apply in_map_iff in Hx. destruct Hx as (y & <- & Hy). apply H, Hy.
    + apply Rlt_le_trans with (wt q); [exact Hp|]. apply RsumLemmas.Rsum_in_le.
      * apply Forall_forall. intros x Hx. apply in_map_iff in Hx. destruct Hx as (y & <- & Hy). apply H, Hy.
      * apply in_map. exact Hq.
  - intros [H Hs]. rewrite Forall_forall in H.
    assert (Hn : forall q, In q (PfModel.parts RA f) -> 0 <= wt q) by (intros q Hq; apply H, in_map, Hq).
    assert (He : exists q, In q (PfModel.parts RA f) /\ 0 < wt q).
    { clear H. revert Hs Hn. induction (PfModel.parts RA f) as [|q t IH]; cbn [map PfSpec.Rsum fold_right In]; intros Hs Hn; [unfold PfSpec.Rsum in Hs; cbn in Hs; lra|].
      destruct (Rlt_dec 0 (wt q)) as [Hq|Hq]; [exists q; auto|]. assert (wt q = 0) by (pose proof (Hn q (or_introl eq_refl)); lra).
      destruct IH as (x & Hx & Hp); [unfold PfSpec.Rsum in *; cbn [fold_right] in Hs; lra|auto|exists x; auto]. }
    split; [destruct He as (q & Hq & _); intros E; rewrite E in Hq; destruct Hq|]. split; [exact Hn|exact He].
Qed.
Lemma good_uniform n : (0 < n)%nat -> good_w (repeat (1 / INR n) n).
Proof.
  intros Hn. assert (H : 0 < 1 / INR n) by (apply Rdiv_lt_0_compat; [lra|apply lt_0_INR, Hn]). split.
  - apply Forall_forall. intros x Hx. apply repeat_spec in Hx. lra.
  - rewrite RsumLemmas.Rsum_repeat. apply Rmult_lt_0_compat; [apply lt_0_INR, Hn|exact H].
Qed.
Lemma usable_pos f : usable_particles f -> (0 < length (PfModel.parts RA f))%nat.
Proof. intros (H & _). destruct (PfModel.parts RA f); [congruence|cbn; lia]. Qed.
(** operations that keep the weights *)
Lemma usable_ws f f' : ws f' = ws f -> usable_particles f -> usable_particles f'.
Proof. intros E. rewrite !usable_iff, E. auto. Qed.
Lemma mapi_ws (g : nat -> part_ -> part_) l : (forall i q, wt (g i q) = wt q) -> forall k, map wt (PfModel.mapi_from k g l) = map wt l.
Proof. intros H. induction l as [|q t IH]; intro k; cbn; [reflexivity|]. rewrite H, IH. reflexivity. Qed.
Lemma predict_ws m (f : flt_) : ws (PfModel.predict RA m f) = ws f.
Proof. apply mapi_ws. reflexivity. Qed.
Lemma noise_ws z (f : flt_) : ws (PfModel.add_noise RA splus z f) = ws f.
Proof. apply mapi_ws. reflexivity. Qed.
Lemma bias_ws b (f : flt_) : ws (PfModel.do_bias RA b f) = ws f.
Proof. apply mapi_ws. reflexivity. Qed.
Lemma init_usable g (f : flt_) : (0 < length (PfModel.parts RA f))%nat -> usable_particles (PfModel.init RA g f).
Proof.
  intro H. apply usable_iff.
  assert (E : ws (PfModel.init RA g f) = repeat (1 / INR (length (PfModel.parts RA f))) (length (PfModel.parts RA f))).
  { unfold ws, PfModel.init. cbn [PfModel.parts]. unfold PfModel.mapi. 
    assert (G : forall n l k, map wt (PfModel.mapi_from k (fun i p => PfModel.set_w RA (PfModel.set_st RA p (g i)) (frecip n)) l) = repeat (1 / INR n) (length l)).
    { intros n l. induction l as [|q t IH]; intro k; cbn [PfModel.mapi_from map length repeat]; [reflexivity|]. rewrite IH. reflexivity. }
    apply G. }
  rewrite E. apply good_uniform. exact H.
Qed.
Lemma measure_usable L (f : flt_) : (forall i s, 0 <= L i s) -> usable_particles f -> usable_particles (PfModel.measure RA L f).
Proof.
  intros HL Hu. pose proof (proj1 (usable_iff f) Hu) as [Hw Hs].
  destruct (Rlt_dec 0 (PfSpec.Rsum (PfSpec.scores RA L f))) as [Hp|Hp].
  - apply usable_iff. destruct (PfReal.measure_real L f Hp) as (_ & H2 & _). pose proof (PfReal.measure_weights_range L f Hw HL Hp) as H3.
    rewrite ws_eq in *. split; [|lra]. eapply Forall_impl; [|exact H3]. cbn. intros. lra.
  - assert (E : PfModel.measure RA L f = f); [|rewrite E; exact Hu].
    apply PfProofs.measure_noop. change (Rltb 0 (fold_left Rplus (PfSpec.scores RA L f) 0) = false). rewrite RsumLemmas.fold_left_Rplus. apply Rltb_false. lra.
Qed.
(** resampling and resizing always succeed *)
Lemma assign_ws prob (ps : list part_) ss : length ss = length ps -> map wt (PfModel.assign_states RA prob ps ss) = repeat (prob : R) (length ps).
Proof. intro H. apply (PfProofs.assign_spec RA (T := state) prob ps ss H). Qed.
Lemma resample_total norm off noise d (f : flt_) : d <> [] -> (0 < length (PfModel.parts RA f))%nat ->
  exists f', PfModel.resample RA splus norm off noise d f = Some f' /\ usable_particles f'.
Proof.
  intros Hd Hn. unfold PfModel.resample. pose proof (accumulate_len (PfModel.parts RA f) f0) as Hl.
  destruct (PfModel.accumulate RA f0 (PfModel.parts RA f)) as [ps t]. cbn [fst] in Hl.
  destruct (PfProofs.resample_loop_pool RA splus norm (fdiv t (fofnat (length ps))) off noise d (length ps) 0 0 0 0) as (ss & sel & E & El & _).
  { destruct d; [congruence|cbn; lia]. } { lia. }
  rewrite E. eexists. split; [reflexivity|]. apply usable_iff. unfold ws. cbn [PfModel.parts]. rewrite assign_ws by exact El. apply good_uniform. lia.
Qed.
Lemma resize_total d num (f : flt_) : d <> [] ->
  exists f', PfModel.resize RA state0 d num f = Some f' /\ length (PfModel.parts RA f') = num /\ ((0 < num)%nat -> usable_particles f').
Proof.
  intros Hd. unfold PfModel.resize. destruct (PfModel.accumulate RA f0 (PfModel.parts RA f)) as [ps t].
  destruct (PfProofs.resize_loop_pool RA (fdiv t (fofnat num)) d num f0 0 0) as (ss & sel & E & El & _).
  { destruct d; [congruence|cbn; lia]. } { lia. }
  rewrite E. eexists. split; [reflexivity|]. cbn [PfModel.parts].
  split; [rewrite assign_len; rewrite vec_resize_len; [reflexivity|exact El]|].
  intro Hn. apply usable_iff. unfold ws. cbn [PfModel.parts]. rewrite assign_ws by (rewrite vec_resize_len; exact El). rewrite vec_resize_len. apply good_uniform. exact Hn.
Qed.
(** the means are defined *)
Lemma expectation_total (f : flt_) : usable_particles f -> exists s, PfModel.expectation RA pose_mean (1 : RA) f = Some s.
Proof.
  intro Hu. apply usable_iff in Hu. destruct Hu as [Hw Hs]. unfold PfModel.expectation.
  assert (E : flt (f0 : RA) (PfModel.mean_total RA pose_mean (PfModel.expect_loop RA pose_mean (1 : RA) (PfModel.mean_new RA pose_mean) (PfModel.parts RA f))) = true); [|rewrite E; eauto].
  apply Rltb_true. change (0 < m_sum (PfModel.expect_loop RA pose_mean (1 : RA) qmean0 (PfModel.parts RA f))).
  assert (G : forall ps m, Forall (fun x => 0 <= x) (map wt ps) -> 0 <= m_sum m -> 0 < m_sum m + PfSpec.Rsum (map wt ps) ->
      0 < m_sum (PfModel.expect_loop RA pose_mean (1 : RA) m ps)).
  { induction ps as [|q t IH]; intros m Hf Hm Hp; cbn [PfModel.expect_loop]; [unfold PfSpec.Rsum in Hp; cbn in Hp; lra|].
    cbn [map] in Hf, Hp. inversion Hf as [|a b Ha Hb]; subst.
    change (PfModel.mean_add RA pose_mean m (PfModel.st RA q) (PfModel.w RA q)) with (qmean_add m (PfModel.st RA q) (wt q)).
    change (PfModel.mean_total RA pose_mean (qmean_add m (PfModel.st RA q) (wt q))) with (m_sum m + wt q).
    destruct (flt (1 : RA) (m_sum m + wt q)) eqn:El.
    - apply Rltb_true in El. cbn [qmean_add m_sum]. lra.
    - apply IH; [exact Hb|cbn [qmean_add m_sum]; lra|]. cbn [qmean_add m_sum]. unfold PfSpec.Rsum in Hp |- *. cbn [fold_right] in Hp. lra. }
  apply G; [exact Hw|cbn; lra|cbn [qmean0 m_sum]]. unfold ws in Hs. lra.
Qed.
Lemma biased_total b (f : flt_) : (forall i s x, 0 < b i s x) -> usable_particles f ->
  exists s, PfModel.expectation_biased RA pose_mean (PfModel.do_bias RA b f) = Some s.
Proof.
  intros Hb (Hne & Hn & q & Hq & Hp). unfold PfModel.expectation_biased.
  set (tot := fold_left _ _ _).
  assert (E : flt (f0 : RA) (PfModel.mean_total RA pose_mean tot) = true); [|rewrite E; eauto].
  apply Rltb_true. change (0 < m_sum tot). unfold tot. clear tot Hne. cbn [PfModel.do_bias PfModel.parts].
  assert (G : forall ps k m, (forall x, In x ps -> 0 <= wt x) -> (0 < m_sum m \/ 0 <= m_sum m /\ exists q, In q ps /\ 0 < wt q) ->
     0 < m_sum (fold_left (fun m0 p => PfModel.mean_add RA pose_mean m0 (PfModel.st RA p) (PfModel.biased_weight RA p))
                 (PfModel.mapi_from k (fun i p => PfModel.set_bias RA p (b i (PfModel.st RA p) (PfModel.bias RA p))) ps) m)).
  { induction ps as [|x t IH]; intros k m Hx Hm; cbn [PfModel.mapi_from fold_left]; [destruct Hm as [Hm|(_ & z & [] & _)]; exact Hm|].
    apply IH; [intros y Hy; apply Hx; right; exact Hy|].
    set (bx := b k (PfModel.st RA x) (PfModel.bias RA x)). assert (Hbx : 0 < (bx : R)) by apply Hb.
    match goal with |- 0 < m_sum ?a \/ _ => assert (Ea : m_sum a = m_sum m + wt x * (bx : R)) by reflexivity; rewrite Ea end.
    assert (H0 := Hx x (or_introl eq_refl)). assert (0 <= wt x * (bx : R)) by (apply Rmult_le_pos; lra).
    destruct Hm as [Hm|(Hm & z & [->|Hz] & Hzp)].
    - left. lra.
    - left. assert (0 < wt z * (bx : R)) by (apply Rmult_lt_0_compat; assumption). lra.
    - right. split; [lra|]. exists z. auto. }
  apply (G _ O qmean0); [exact Hn|]. right. split; [cbn; lra|]. exists q. auto.
Qed.
Lemma max_total (f : flt_) : (0 < length (PfModel.parts RA f))%nat -> exists s, PfModel.max RA f = Some s.
Proof. unfold PfModel.max. destruct (PfModel.parts RA f); cbn; [lia|eauto]. Qed.
Lemma cov_total ratio shuffle (f : flt_) : usable_particles f -> (forall l, Permutation l (shuffle l)) ->
  exists m, PfModel.covariance RA pose_mean cov_el 6 (1 : RA) ratio shuffle f = Some m.
Proof.
  intros Hu Hs. destruct (expectation_total f Hu) as (s & E). exact (PfProofs.covariance_total RA pose_mean cov_el 6 _ ratio shuffle f s Hs E).
Qed.

(** ** Computations that settle *)
Lemma settles_ret {X} (x : X) (Q : X -> Prop) : Q x -> settles (fun _ => Ok x) Q.
Proof. intro H. exists x, O. split; [exact H|]. split; [right; reflexivity|reflexivity]. Qed.
Lemma settles_ext {X} (F G : nat -> outcome X) Q : (forall k, F k = G k) -> settles F Q -> settles G Q.
Proof. intros E (x & K & H1 & H2 & H3). exists x, K. split; [exact H1|]. split; intros k; rewrite <- E; auto. Qed.
Lemma settles_weaken {X} (F : nat -> outcome X) (Q Q' : X -> Prop) : (forall x, Q x -> Q' x) -> settles F Q -> settles F Q'.
Proof. intros H (x & K & H1 & H2 & H3). exists x, K. auto. Qed.
Lemma settles_bind {X Y} (F : nat -> outcome X) (G : nat -> X -> outcome Y) Q Q' :
  settles F Q -> (forall x, Q x -> settles (fun k => G k x) Q') -> settles (fun k => bind (F k) (G k)) Q'.
Proof.
  intros (x & K & H1 & H2 & H3) HG. destruct (HG x H1) as (y & K' & G1 & G2 & G3). exists y, (Nat.max K K'). split; [exact G1|]. split.
  - intro k. destruct (H2 k) as [E|E]; rewrite E; cbn; [left; reflexivity|apply G2].
  - intros k Hk. rewrite H3 by lia. cbn. apply G3. lia.
Qed.
Lemma settles_some {X} (a : option X) (Q : X -> Prop) : (exists x, a = Some x /\ Q x) -> settles (fun _ => of_option a) Q.
Proof. intros (x & -> & H). apply settles_ret. exact H. Qed.

(** ** Rays *)
Lemma beam_loop_up {S} bm (rc : raycaster S) scan : forall n s, beam_loop bm rc scan n s = Undefined -> forall m, (n <= m)%nat -> beam_loop bm rc scan m s = Undefined.
Proof.
  induction n as [|n IH]; intros s H [|m] Hm; try discriminate H; try lia. cbn [beam_loop] in *.
  destruct (rc_next rc s) as [[s' [y|]]|]; try assumption; try discriminate H.
  destruct (negb (c_coll y)); [apply IH; [exact H|lia]|]. destruct (c_point y) as [q|]; [|reflexivity].
  destruct (bp_label_max (b_par bm) <? lab q)%nat; [apply IH; [exact H|lia]|].
  destruct (Rltb (b_sin_ref bm) (c_sin y)); discriminate H.
Qed.
Section Cast.
Context {S : Type} (Inv : S -> Prop) (rc : raycaster S) (Hfin : casts_finish Inv rc).
Lemma cast_settles bm s lidar scan : Inv s ->
  settles (fun k => of_run (getBeamStatus bm rc k s lidar scan)) (fun x => Inv (fst x)).
Proof.
  intro Hs. destruct (Hfin bm s lidar scan Hs) as (s' & st & n0 & Hi & H). exists (s', st), n0. split; [exact Hi|]. split; [|intros k Hk; rewrite H by exact Hk; reflexivity].
  intro k. specialize (H (k + n0)%nat ltac:(lia)). unfold getBeamStatus in *. destruct (rc_set rc s lidar scan) as [s1|]; [|discriminate H].
  destruct (beam_loop bm rc scan k s1) as [x| |] eqn:E; cbn [of_run]; [right|exfalso|left; reflexivity].
  - rewrite (beam_loop_mono bm rc scan x k s1 E (k + n0)%nat ltac:(lia)) in H. injection H as ->. reflexivity.
  - rewrite (beam_loop_up bm rc scan k s1 E (k + n0)%nat ltac:(lia)) in H. discriminate H.
Qed.
Lemma points_settle bm os st pts : Forall (fun q => (lab q < length os)%nat) pts -> forall s score, Inv s ->
  settles (fun k => of_run (beam_points bm rc os st k pts s score)) (fun x => Inv (fst x)).
Proof.
  induction pts as [|q t IH]; intros Hl s score Hs; cbn [beam_points]; [apply settles_ret; exact Hs|].
  inversion Hl as [|a b Ha Hb]; subst. destruct (nth_error os (lab q)) as [o|] eqn:E; [|apply nth_error_None in E; lia].
  eapply settles_ext; [|apply (settles_bind _
    (fun k x => of_run (beam_points bm rc os st k t (fst x) (if penalised bm (snd x) then beam_mul (A := RA) score (b_beta bm) else score))) _ _
    (cast_settles bm s (vadd (pos st) (qrot (rot st) o)) (p3 q) Hs))].
  2:{ intros [s' b'] Hs'. apply (IH Hb s' (if penalised bm b' then beam_mul (A := RA) score (b_beta bm) else score) Hs'). }
  intro k. cbn beta. destruct (getBeamStatus bm rc k s (vadd (pos st) (qrot (rot st) o)) (p3 q)) as [[s' b']| |]; reflexivity.
Qed.
Lemma transform_labels st l n : Forall (fun q => (lab q < n)%nat) l -> Forall (fun q => (lab q < n)%nat) (transform st l).
Proof. intro H. unfold transform. apply Forall_forall. intros q Hq. apply in_map_iff in Hq. destruct Hq as (q' & <- & Hq'). rewrite Forall_forall in H. apply (H q' Hq'). Qed.
Lemma beam_settles bm os bp st : 0 <= bp_alpha (b_par bm) -> Forall (fun q => (lab q < length os)%nat) bp -> forall s, Inv s ->
  settles (fun k => of_run (beam_measure bm rc k s (Some bp) os st)) (fun x => Inv (fst x) /\ 0 <= fst (snd x)).
Proof.
  intros Ha Hl s Hs. unfold beam_measure. destruct bp as [|q t]; [apply settles_ret; cbn; split; [exact Hs|lra]|].
  eapply settles_ext; [|apply (settles_bind _ (fun k x => Ok (fst x, (beam_clamp (A := RA) (bp_alpha (b_par bm)) (snd x), 1))) _ _
    (points_settle bm os st (transform st (q :: t)) (transform_labels st _ _ Hl) s 1 Hs))].
  2:{ intros [s' sc] Hs'. apply (settles_ret (s', (beam_clamp (A := RA) (bp_alpha (b_par bm)) sc, 1))). cbn [fst snd]. split; [exact Hs'|].
      unfold beam_clamp. destruct (flt (sc : RA) (bp_alpha (b_par bm) : RA)) eqn:E; [exact Ha|]. apply Rltb_false in E. apply Rle_trans with (bp_alpha (b_par bm)); assumption. }
  intro k. cbn beta. destruct (beam_points bm rc os st k (transform st (q :: t)) s 1) as [[s' sc]| |]; reflexivity.
Qed.
End Cast.

(** ** The searches of the configured map never throw within the chunk length *)
Lemma search_no_throw p cl (f : pt -> R -> search) :
  (forall q r, radiusSearch (setInputCloud cl (configured_kdtree p)) q r 1 (f q r)) ->
  forall q r, r <= map_chunk p -> f q r <> Throws.
Proof.
  intros H q r Hr E. specialize (H q r). unfold configured_kdtree in H. destruct (dist_weight p) as [[[wx wy] wz] ww].
  change (setInputCloud cl (setPointRepresentation (wx, wy, wz) (setEpsilon (map_grid_min p / 16) (new_kdt (map_chunk p) (configured_radius p) false))))
    with (kd_after [CEps (map_grid_min p / 16); CRep (wx, wy, wz); CLoad cl] (map_chunk p) (configured_radius p) false) in H.
  pose proof (proj1 (C27_throws_iff [CEps (map_grid_min p / 16); CRep (wx, wy, wz); CLoad cl] (map_chunk p) (configured_radius p) false cl q r 1 (f q r) eq_refl H) E). lra.
Qed.
Lemma search_ids p cl (f : pt -> R -> search) :
  (forall q r, radiusSearch (setInputCloud cl (configured_kdtree p)) q r 1 (f q r)) ->
  forall q r i d l, f q r = Found ((i, d) :: l) -> (i < length cl)%nat.
Proof.
  intros H q r i d l E. specialize (H q r). unfold configured_kdtree in H. destruct (dist_weight p) as [[[wx wy] wz] ww].
  change (setInputCloud cl (setPointRepresentation (wx, wy, wz) (setEpsilon (map_grid_min p / 16) (new_kdt (map_chunk p) (configured_radius p) false))))
    with (kd_after [CEps (map_grid_min p / 16); CRep (wx, wy, wz); CLoad cl] (map_chunk p) (configured_radius p) false) in H. rewrite E in H.
  destruct (C25_ids_are_cloud_ids [CEps (map_grid_min p / 16); CRep (wx, wy, wz); CLoad cl] (map_chunk p) (configured_radius p) false cl q r 1 _ ((i, d) :: l) eq_refl H eq_refl)
    as (_ & G & _). destruct (G i d (or_introl eq_refl)) as (x & Hx & _). apply nth_error_Some. congruence.
Qed.
Lemma like_total lp f pts : (forall q, f q (lp_dist_min lp) <> Throws) -> 0 <= lp_weight lp -> forall score num, 0 <= score ->
  exists sc k, like_points lp f pts score num = Some (sc, k) /\ 0 <= sc.
Proof.
  intros Hf Hw. induction pts as [|q t IH]; intros score num Hs; cbn [like_points]; [eauto|].
  pose proof (Hf (to_pt (p3 q))) as Hq. destruct (f (to_pt (p3 q)) (lp_dist_min lp)) as [| |[|[i sq] l]]; try congruence; try (apply IH; exact Hs).
  match goal with |- context [Rltb ?a 0] => destruct (Rltb a 0) eqn:E end; [apply IH; exact Hs|]. apply IH.
  apply Rltb_false in E. assert (0 <= (lp_dist_min lp - Rmax (sqrt sq) (lp_dist_flat lp)) * lp_weight lp) by (apply Rmult_le_pos; lra). lra.
Qed.
Lemma like_measure_total l f pts st : (forall q, f q (lp_dist_min (l_par l)) <> Throws) -> 0 <= lp_weight (l_par l) ->
  exists r, like_measure l f (Some pts) st = Some r /\ 0 <= fst r.
Proof.
  intros Hf Hw. unfold like_measure. destruct pts as [|q t]; [exists (1, 0); split; [reflexivity|cbn; lra]|].
  destruct (like_total (l_par l) f (transform st (q :: t)) Hf Hw 0 0%nat (Rle_refl 0)) as (sc & k & -> & H). eexists. split; [reflexivity|exact H].
Qed.

(** ** One measurement *)
Section Meas.
Context {S : Type} (caster : cloud -> (pt -> R -> search) -> raycaster S)
        (voxel : R * R * R -> list lpt -> list lpt) (p : params) (Hp : settings_ok p).
Notation node := (node (S := S)).
Implicit Types n : node.

(** the parts of the node that the measurement models need *)
Definition lid_ok (I : S -> Prop) n : Prop :=
  b_par (l_beam (n_lid n)) = p_beam p /\ l_par (l_like (n_lid n)) = p_like p /\ I (l_rc (n_lid n)).

Lemma lidar_settles (I : S -> Prop) rc e os bp lp b l :
  casts_finish I rc -> (forall q r, r <= map_chunk p -> e_search e q r <> Throws) ->
  b_par b = p_beam p -> l_par l = p_like p -> Forall (fun q => (lab q < length os)%nat) bp ->
  forall ss s, I s -> settles (fun k => lidar_all b l rc (with_fuel k e) os bp lp ss s) (fun x => I (fst x) /\ Forall (fun r => 0 <= fst r) (snd x)).
Proof.
  intros Hf Hs Hb Hl Hlab. induction ss as [|x t IH]; intros s Hi; cbn [lidar_all]; [apply settles_ret; split; [exact Hi|constructor]|].
  apply (settles_bind (fun k => of_run (beam_measure b rc k s (Some bp) os x)) (fun k y => _) _ _
    (beam_settles I rc Hf b os bp x ltac:(rewrite Hb; apply (so_alpha p Hp)) Hlab s Hi)).
  intros [s1 rb] [H1 H2]. cbn [fst snd] in H1, H2.
  destruct (like_measure_total l (e_search e) lp x) as (rl & El & Hrl).
  { intro q. apply Hs. rewrite Hl. apply (so_match_dist p Hp). } { rewrite Hl. apply (so_weight p Hp). }
  cbn [with_fuel e_search]. rewrite El. cbn [of_option bind].
  eapply settles_bind; [apply (IH s1 H1)|]. intros [s2 rest] [H3 H4]. apply settles_ret. cbn [fst snd] in *. split; [exact H3|].
  constructor; [|exact H4]. cbn [fst]. apply Rmult_le_pos; [|exact Hrl]. lra.
Qed.

Lemma bias_of_pos prev s : 0 < bias_of p prev s.
Proof.
  unfold bias_of. destruct (so_sigma p Hp) as (_ & _ & H1 & H2).
  destruct (C69_shape _ H1) as (G1 & _). destruct (C69_shape _ H2) as (G2 & _).
  match goal with |- 0 < ?a * ?b + _ => assert (0 < a * b) by (apply Rmult_lt_0_compat; [apply G1|apply G2]) end. lra.
Qed.
Lemma nth_fst_nonneg (res : list (R * R)) i : Forall (fun r => 0 <= fst r) res -> 0 <= fst (nth i res (0, 0)).
Proof.
  intro H. destruct (le_lt_dec (length res) i) as [Hi|Hi]; [rewrite nth_overflow by exact Hi; cbn; lra|].
  rewrite Forall_forall in H. apply H, nth_In, Hi.
Qed.
Lemma estimate_settles (I : S -> Prop) n e c os bp lp :
  map_cloud n = Ok c -> casts_finish I (caster c (e_search e)) -> (forall q r, r <= map_chunk p -> e_search e q r <> Throws) ->
  lid_ok I n -> usable_particles (n_pf n) -> Forall (fun q => (lab q < length os)%nat) bp ->
  settles (fun k => estimate caster p n (with_fuel k e) os bp lp)
    (fun x => usable_particles (n_pf (fst (fst x))) /\ lid_ok I (fst (fst x))).
Proof.
  intros Hc Hf Hs (Hb & Hl & Hi) Hu Hlab. unfold estimate. rewrite Hc. cbn [bind]. cbn [with_fuel e_search e_fuel].
  eapply settles_bind; [apply (lidar_settles I (caster c (e_search e)) e os bp lp _ _ Hf Hs Hb Hl Hlab _ _ Hi)|].
  intros [s1 res] [H1 H2]. cbn [fst snd] in H1, H2.
  set (f1 := PfModel.measure RA _ (n_pf n)).
  assert (Hu1 : usable_particles f1).
  { apply measure_usable; [|exact Hu]. intros i s. apply Rmult_le_pos; [apply nth_fst_nonneg, H2|].
    left. destruct (so_sigma p Hp) as (H & _). destruct (C69_shape _ H) as (G & _). apply G. }
  set (f2 := if too_many p n then _ else _).
  assert (Hu2 : usable_particles f2) by (unfold f2; destruct (too_many p n); (eapply usable_ws; [apply bias_ws|exact Hu1])).
  assert (Hex : exists s, PfModel.expectation_biased RA pose_mean f2 = Some s).
  { unfold f2. destruct (too_many p n); apply biased_total; try exact Hu1; intros i s x; [apply Rlt_0_1|apply bias_of_pos]. }
  destruct Hex as (est & ->). cbn [of_option bind].
  destruct (max_total f2 (usable_pos _ Hu2)) as (mx & ->). cbn [of_option bind].
  eapply settles_bind; [apply (points_settle I _ Hf (l_beam (n_lid n)) os (normalize est) (transform (normalize est) bp) (transform_labels _ _ _ Hlab) s1 1 H1)|].
  intros [s2 sc] H3. apply settles_ret. cbn [fst snd]. split; [exact Hu2|]. split; [exact Hb|]. split; [exact Hl|exact H3].
Qed.
Lemma match_total f pts : (forall q, f q (unmatch_output_dist p) <> Throws) -> exists m, match_points p f pts = Ok m.
Proof.
  intro Hf. induction pts as [|q t IH]; cbn [match_points]; [eauto|]. destruct IH as ([m u] & ->). cbn [bind].
  pose proof (Hf (to_pt (p3 q))). destruct (f (to_pt (p3 q)) (unmatch_output_dist p)) as [| |[|[i d] l]]; try congruence; eauto.
  destruct (Rltb d (match_output_dist p * match_output_dist p)); eauto.
Qed.
(** a sorted copy of particles is not empty *)
Lemma sorted_dup_ne srt (f : flt_) : sorts srt -> (0 < length (PfModel.parts RA f))%nat -> sorted_dup srt f <> [].
Proof.
  intros Hs Hl He. destruct (Hs (PfModel.dup_of RA (0 : RA) (PfModel.parts RA f))) as [Hq _]. unfold sorted_dup in He. rewrite He in Hq.
  apply Permutation_length in Hq. rewrite PfProofs.dup_length in Hq. cbn in Hq. lia.
Qed.
(** the rest of a localization step *)
Definition loc_tail e h full lp (x : node * state * R) : outcome (node * list output) :=
  let '(n1, est, ratio) := x in
  let '(n2, est', o1) := publish_tf_step p n1 e est in
  do c <- pf_cov p n2 (e_shuffle e);
  let n3 := with_conv n2 (conv_status p (fix_cnt (n_out n2)) c (s_conv (stat (n_out n2)))) in
  do n4 <- collect_pcd p n3 est' lp;
  do (n5, o2) <- match_output p n4 e h est' full;
  let o3 := publishParticles p n5 (e_now e) in
  do f <- of_option (PfModel.resample RA splus normalize (e_offset e : RA) (resample_noise p (e_noise e)) (sorted_dup (e_sort e) (n_pf n5)) (n_pf n5));
  let n6 := set_pf n5 (PfModel.predict RA (update_noise p (e_noise4 e)) f) in
  let n7 := clock_step (expansion p n6 e ratio) (e_now e) in
  do n8 <- shrink_step p n7 e;
  let '(n9, o4) := force_update (final_status n8 ratio) in
  Ok (n9, o1 ++ [OPose (h_stamp h) (pos est', rot est') c] ++ o2 ++ [o3; o4]).
Lemma localize_tail n e h os full bp lp : localize caster p n e h os full bp lp = bind (estimate caster p n e os bp lp) (loc_tail e h full lp).
Proof. unfold localize, loc_tail. destruct (estimate caster p n e os bp lp) as [[[n1 est] r]| | |]; reflexivity. Qed.
Lemma shrunk_pos x : (0 < Z.to_nat (shrunk p x))%nat.
Proof. unfold shrunk, np. pose proof (so_particles p Hp). destruct (num_particles p <? reduced x)%Z eqn:E; [apply Z.ltb_lt in E|]; lia. Qed.
Lemma tail_total n e h full lp est ratio : (forall q r, r <= map_chunk p -> e_search e q r <> Throws) ->
  usable_particles (n_pf n) -> pc_all (n_map n) <> None ->
  (forall l, Permutation l (e_shuffle e l)) -> sorts (e_sort e) -> sorts (e_sort2 e) ->
  exists n' o, loc_tail e h full lp (n, est, ratio) = Ok (n', o) /\ usable_particles (n_pf n') /\ n_lid n' = n_lid n.
Proof.
  intros Hs Hu Hpc Hidx Hs1 Hs2. unfold loc_tail.
  destruct (publish_tf_step p n e est) as [[n2 est'] o1] eqn:E2. apply publish_tf_step_ok in E2.
  destruct E2 as (A1 & _ & _ & _ & A5 & A6 & _).
  assert (Hw2 : ws (n_pf n2) = ws (n_pf n)).
  { rewrite A6. unfold after_jump. destruct (negb (too_many p n) && far_off p (state_prev (n_out n)) est); [|reflexivity]. apply predict_ws. }
  assert (Hu2 : usable_particles (n_pf n2)) by (eapply usable_ws; eassumption).
  assert (Hz2 : length (PfModel.parts RA (n_pf n2)) = psize n).
  { unfold psize. rewrite <- (map_length wt (PfModel.parts RA (n_pf n))). change (map wt (PfModel.parts RA (n_pf n))) with (ws (n_pf n)). rewrite <- Hw2. unfold ws. rewrite map_length. reflexivity. }
  destruct (cov_total (cov_ratio p n2) (e_shuffle e) (n_pf n2) Hu2 Hidx) as (c & Ec). unfold pf_cov. rewrite Ec. cbn [of_option bind].
  set (n3 := with_conv n2 _).
  assert (H4 : exists n4, collect_pcd p n3 est' lp = Ok n4).
  { unfold collect_pcd. destruct (output_pcd p); [|eauto]. change (n_map n3) with (n_map n2). rewrite A1. destruct (pc_all (n_map n)); [eauto|congruence]. }
  destruct H4 as (n4 & E4). rewrite E4. cbn [bind]. apply collect_pcd_ok in E4. destruct E4 as (_ & _ & _ & _ & B5 & B6 & _).
  assert (H5 : exists n5 o2, match_output p n4 e h est' full = Ok (n5, o2)).
  { unfold match_output. match goal with |- context [if ?b then _ else _] => destruct b end; [|eauto].
    destruct (match_total (e_search e) (transform est' full)) as ([m u] & ->); [intro q; apply Hs, (so_unmatch_dist p Hp)|]. cbn [bind]. eauto. }
  destruct H5 as (n5 & o2 & E5). rewrite E5. cbn [bind]. apply match_output_ok in E5. destruct E5 as (_ & _ & _ & _ & C5 & C6 & _).
  assert (Hu5 : usable_particles (n_pf n5)) by (rewrite C6, B6; exact Hu2).
  destruct (resample_total normalize (e_offset e : RA) (resample_noise p (e_noise e)) (sorted_dup (e_sort e) (n_pf n5)) (n_pf n5) (sorted_dup_ne _ _ Hs1 (usable_pos _ Hu5)) (usable_pos _ Hu5)) as (f & Ef & Hf). rewrite Ef. cbn [of_option bind].
  set (n6 := set_pf n5 _). set (n7 := clock_step (expansion p n6 e ratio) (e_now e)).
  assert (Hu7 : usable_particles (n_pf n7)).
  { unfold n7. cbn [clock_step set_out n_pf]. unfold expansion. destruct (Rltb ratio (match_ratio_thresh p)); cbn [with_status set_stat set_out n_pf set_pf n6];
      [eapply usable_ws; [apply noise_ws|]|]; (eapply usable_ws; [apply predict_ws|exact Hf]). }
  assert (Hl7 : n_lid n7 = n_lid n).
  { transitivity (n_lid n5); [unfold n7; cbn [clock_step set_out n_lid]; pose proof (expansion_ok p n6 e ratio) as (_ & _ & _ & _ & D & _); rewrite D; reflexivity|].
    rewrite C5, B5. exact A5. }
  assert (H8 : exists n8, shrink_step p n7 e = Ok n8 /\ usable_particles (n_pf n8)).
  { unfold shrink_step.
    assert (H : exists m, (if too_many p n7 then do f0 <- of_option (PfModel.resize RA state0 (sorted_dup (e_sort2 e) (n_pf n7)) (Z.to_nat (shrunk p (psize n7))) (n_pf n7)); Ok (with_fix (set_pf n7 f0) (fix_steps p)) else Ok n7) = Ok m
       /\ usable_particles (n_pf m)).
    { destruct (too_many p n7); [|eauto]. destruct (resize_total (sorted_dup (e_sort2 e) (n_pf n7)) (Z.to_nat (shrunk p (psize n7))) (n_pf n7) (sorted_dup_ne _ _ Hs2 (usable_pos _ Hu7))) as (f8 & E8 & _ & G8).
      rewrite E8. cbn [of_option bind]. eexists. split; [reflexivity|]. apply G8, shrunk_pos. }
    destruct H as (m & -> & Hm). cbn [bind]. destruct (fix_cnt (n_out m)); eexists; (split; [reflexivity|exact Hm]). }
  destruct H8 as (n8 & E8 & Hu8). rewrite E8. cbn [bind]. apply shrink_step_ok in E8. destruct E8 as (_ & _ & _ & _ & D5 & _).
  destruct (force_update (final_status n8 ratio)) as [n9 o4] eqn:E9. unfold force_update in E9. apply (f_equal fst) in E9. cbn [fst] in E9. subst n9.
  eexists _, _. split; [reflexivity|]. split; [exact Hu8|]. cbn [set_stat final_status set_out n_lid]. congruence.
Qed.
Lemma localize_settles (I : S -> Prop) n e c h os full bp lp :
  map_cloud n = Ok c -> casts_finish I (caster c (e_search e)) -> (forall q r, r <= map_chunk p -> e_search e q r <> Throws) ->
  lid_ok I n -> usable_particles (n_pf n) -> Forall (fun q => (lab q < length os)%nat) bp -> pc_all (n_map n) <> None ->
  (forall l, Permutation l (e_shuffle e l)) -> sorts (e_sort e) -> sorts (e_sort2 e) ->
  settles (fun k => localize caster p n (with_fuel k e) h os full bp lp)
    (fun x => usable_particles (n_pf (fst x)) /\ lid_ok I (fst x)).
Proof.
  intros Hc Hf Hs Hlid Hu Hlab Hpc Hidx Hs1 Hs2.
  assert (He : settles (fun k => estimate caster p n (with_fuel k e) os bp lp)
    (fun x => usable_particles (n_pf (fst (fst x))) /\ lid_ok I (fst (fst x)) /\ n_map (fst (fst x)) = n_map n /\ psize (fst (fst x)) = psize n)).
  { destruct (estimate_settles I n e c os bp lp Hc Hf Hs Hlid Hu Hlab) as ([[n1 est] r] & K & [Q1 Q2] & Q3 & Q4).
    exists (n1, est, r), K. split; [|split; assumption]. cbn [fst] in *. split; [exact Q1|]. split; [exact Q2|].
    specialize (Q4 K (Nat.le_refl K)). split; [apply estimate_ok in Q4; tauto|]. apply estimate_pf in Q4. tauto. }
  eapply settles_ext; [|apply (settles_bind _ (fun k => loc_tail e h full lp) _ _ He)].
  - intro k. rewrite localize_tail. reflexivity.
  - intros [[n1 est] ratio] (Hu1 & Hl1 & Hm1 & Hz1). cbn [fst] in *.
    destruct (tail_total n1 e h full lp est ratio Hs Hu1) as (n' & o & E & Hu' & Hl'); [rewrite Hm1; exact Hpc|exact Hidx|exact Hs1|exact Hs2|].
    rewrite E. apply settles_ret. cbn [fst]. split; [exact Hu'|]. unfold lid_ok in *. rewrite Hl'. exact Hl1.
Qed.
Lemma clip_in a b c d l q : In q (clip a b c d l) -> In q l.
Proof. unfold clip. rewrite filter_In. tauto. Qed.
Lemma measure_settles (I : S -> Prop) n e c buf :
  keeps_labels (voxel (ds_x p, ds_y p, ds_z p)) ->
  map_cloud n = Ok c -> casts_finish I (caster c (e_search e)) -> (forall q r, r <= map_chunk p -> e_search e q r <> Throws) ->
  picks_members (e_beam e) -> holds p (n_acc n) buf ->
  lid_ok I n -> usable_particles (n_pf n) -> pc_all (n_map n) <> None ->
  (forall l, Permutation l (e_shuffle e l)) /\ (forall l, Permutation l (e_stat_shuffle e l)) -> sorts (e_sort e) -> sorts (e_sort2 e) ->
  settles (fun k => NodeModel.measure caster voxel p n (with_fuel k e))
    (fun x => usable_particles (n_pf (fst x)) /\ lid_ok I (fst x)).
Proof.
  intros Hv Hc Hf Hs Hbm [Hb1 Hb2] Hlid Hu Hpc Hidx Hs1 Hs2. unfold measure.
  assert (Hg : exists n0 go, gate p n = Ok (n0, go)).
  { unfold gate. destruct (skip_size p =? 0)%Z eqn:E; [|eauto]. apply Z.eqb_eq in E. unfold skip_size in E. pose proof (so_skip p Hp). rewrite Z.mod_small in E by lia. lia. }
  destruct Hg as (n0 & go & Eg). rewrite Eg. cbn [bind]. unfold gate in Eg. destruct (skip_size p =? 0)%Z; [discriminate|]. injection Eg as <- <-.
  set (n0 := set_out n _). destruct (negb _); [apply settles_ret; split; assumption|].
  assert (P : exists n1 r, prepare p n0 e = Ok (n1, r) /\ n_map n1 = n_map n /\ n_lid n1 = n_lid n /\ n_pf n1 = n_pf n /\
     forall h pc os, r = Some (h, pc, os) -> Forall (fun q => (lab q < length os)%nat) pc).
  { unfold prepare. change (n_acc n0) with (n_acc n). rewrite Hb1. destruct (rev (headers (n_acc n))) as [|h0 t0]; [eexists _, _; split; [reflexivity|]; repeat split; discriminate|].
    destruct (base_tf p e h0) as [tf|]; [|eexists _, _; split; [reflexivity|]; repeat split; discriminate].
    destruct (get_origins (origin_of p e h0) (headers (n_acc n))) as [os|] eqn:Eo; (eexists _, _; split; [reflexivity|]); repeat split; try discriminate.
    intros h' pc os' H. injection H as <- <- <-. apply get_origins_len in Eo. rewrite Hb2, map_length in Eo.
    apply Forall_forall. intros q Hq. apply in_map_iff in Hq. destruct Hq as (q' & <- & Hq'). cbn [lab]. apply labelled_lt in Hq'. lia. }
  destruct P as (n1 & r & E1 & M1 & L1 & F1 & Hlab). change (prepare p n0 (with_fuel ?k e)) with (prepare p n0 e).
  eapply settles_ext; [intro k; change (prepare p n0 (with_fuel k e)) with (prepare p n0 e); rewrite E1; cbn [bind]; reflexivity|].
  destruct r as [[[h pc] os]|]; [|apply settles_ret; cbn [fst]; unfold lid_ok; rewrite L1, F1; split; assumption].
  specialize (Hlab h pc os eq_refl). destruct Hidx as [Hi1 Hi2].
  set (full := voxel (ds_x p, ds_y p, ds_z p) pc).
  assert (St : statistics p n1 e = Ok tt).
  { unfold statistics. destruct (use_sampler_normal p); [|reflexivity]. rewrite F1. destruct (expectation_total (n_pf n) Hu) as (s & ->). cbn [of_option bind].
    unfold pf_cov. rewrite F1. destruct (cov_total (cov_ratio p n1) (e_stat_shuffle e) (n_pf n) Hu Hi2) as (m & ->). reflexivity. }
  assert (Hfull : Forall (fun q => (lab q < length os)%nat) full).
  { apply Forall_forall. intros q Hq. destruct (Hv pc q Hq) as (q0 & Hq0 & Hle). rewrite Forall_forall in Hlab. specialize (Hlab q0 Hq0). cbn beta in Hlab. lia. }
  destruct (filters p n1 e full) as [[n2 bp] lp] eqn:Efl.
  assert (Hbp : Forall (fun q => (lab q < length os)%nat) bp).
  { unfold filters in Efl. apply (f_equal (fun z => snd (fst z))) in Efl. cbn [fst snd] in Efl. rewrite <- Efl. apply Forall_forall. intros q Hq.
    unfold beam_filter in Hq. cbn [fst] in Hq. apply Hbm, clip_in in Hq. rewrite Forall_forall in Hfull. apply Hfull, Hq. }
  assert (L2 : lid_ok I n2).
  { unfold filters in Efl. apply (f_equal (fun z => fst (fst z))) in Efl. cbn [fst snd] in Efl. rewrite <- Efl. unfold lid_ok. cbn [n_lid set_lid l_beam l_like l_rc beam_set_global like_set_global b_par l_par].
    rewrite L1. exact Hlid. }
  pose proof (filters_ok p n1 e full n2 bp lp Efl) as (M2 & _ & _ & _ & _ & F2 & _).
  eapply settles_ext with (F := fun k => match lp with
        | [] => let '(n3, o) := force_update (points_lost n2) in Ok (n3, [o])
        | _ :: _ => localize caster p n2 (with_fuel k e) h os full bp lp
        end).
  { intro k. change (statistics p n1 (with_fuel k e)) with (statistics p n1 e). rewrite St. cbn [bind].
    change (filters p n1 (with_fuel k e) full) with (filters p n1 e full). rewrite Efl. reflexivity. }
  destruct lp as [|q lp].
  - apply settles_ret. cbn [fst set_stat force_update points_lost set_out n_pf]. split; [|exact L2]. change (usable_particles (n_pf n2)). rewrite F2, F1. exact Hu.
  - apply (localize_settles I n2 e c h os full bp (q :: lp)); try assumption.
    + unfold map_cloud in *. rewrite M2, M1. exact Hc.
    + rewrite F2, F1. exact Hu.
    + rewrite M2, M1. exact Hpc.
Qed.
End Meas.
