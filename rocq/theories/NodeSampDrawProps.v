(** C120: the points of a measurement, draw by draw. *)
From Coq Require Import String.
From Coq Require Import Reals ZArith NArith List Bool Arith Permutation Lra Lia.
From Verif Require PfModel FilterModel AccumModel.
From Verif Require Import Arith KdModel QuatModel StateModel StateSpec RayModel LidarModel LidarSpec LidarProofs LidarProps NdModel SamplerModel SamplerSpec SamplerProps SamplerDrawSpec SamplerDrawProps
  ParamModel MatModel NodeModel NodeSpec NodeFrame NodeLocProofs NodeStepProofs NodeMapProofs NodeAccProofs NodeAccProps NodeAliveSpec NodeSampModel NodeSampSpec NodeSampProps.
Import ListNotations.
Open Scope R_scope.
Open Scope list_scope.

(** How the node draws [k] points of the cloud [l] when it has the particles [f].
    Weighted: the sectors of the wheel are the weights of C67, with the settings of the node, the
    square roots of the two largest eigenvalues of the covariance (absolute values) of the
    particles, and the axis of the largest one seen from the mean pose. *)
Definition node_draws {S E} (p : params) (draw_int : nat -> E -> nat * E) (draw_real : R -> E -> R * E) (normals : R -> list lpt -> list (option (R * R * R)))
  (eigen : mat3 -> vec3 * (vec3 * vec3 * vec3)) (n : @node S) (shuffle : list nat -> list nat) (l : list lpt) (k : nat) (g : E) (out : list lpt) (g' : E) : Prop :=
  if use_sampler_normal p then
    exists mean cov,
      PfModel.expectation RA pose_mean (1 : RA) (n_pf n) = Some mean
      /\ PfModel.covariance RA pose_mean cov_el 6 (1 : RA) (cov_ratio p n : RA) shuffle (n_pf n) = Some cov
      /\ let '(ratio, max_ratio, max_w, range) := sampler_normal p in
         let '(values, (_, _, axis)) := eigen (fun i j => Rabs (cov i j)) in
         let d := qrot (QuatModel.inv (rot mean)) axis in
         roulette draw_real (map (point_weight (ratio_weight ratio max_ratio max_w (sqrt (vz values / vy values))) (vx d, vy d, vz d)) (normals range l)) l k g out g'
  else uniform draw_int l k g out g'.

Section Draw.
Context {S E : Type} (caster : cloud -> (pt -> R -> search) -> raycaster S) (voxel : R * R * R -> list lpt -> list lpt) (p : params)
        (draw_int : nat -> E -> nat * E) (draw_real : R -> E -> R * E) (normals : R -> list lpt -> list (option (R * R * R)))
        (eigen : mat3 -> vec3 * (vec3 * vec3 * vec3)) (order : list nat -> list nat).
Notation node := (node (S := S)).
Notation sample := (sample p draw_int draw_real normals order).
Notation measure_s := (measure_s caster voxel p draw_int draw_real normals eigen order).
Notation callbacks_s := (callbacks_s caster voxel p draw_int draw_real normals eigen order).
Notation step_s := (step_s caster voxel p draw_int draw_real normals eigen order).
Notation steps_s := (steps_s caster voxel p draw_int draw_real normals eigen order).
Notation particle_statistics := (particle_statistics (S := S) p eigen).
Notation legal_draws := (draws_ok draw_int draw_real normals order).
Notation node_draws := (node_draws p draw_int draw_real normals eigen).

Lemma sample_draws (n : node) e st fuel l (k : N) g out g' : legal_draws -> particle_statistics n e = Ok st -> sample st fuel l k g = Ok (out, g') ->
  node_draws n (e_stat_shuffle e) l (N.to_nat k) g out g'.
Proof.
  intros [D1 D2 D3 D4] Hst H. unfold NodeSampModel.particle_statistics in Hst. unfold NodeSampDrawProps.node_draws. destruct (use_sampler_normal p).
  - bok Hst. rename x into mean. apply of_option_ok in E0. bok Hst. rename x into cov. unfold pf_cov in E1. apply of_option_ok in E1. injection Hst as <-.
    exists mean, cov. split; [exact E0|]. split; [exact E1|].
    unfold NodeSampModel.sample in H. apply of_run_ok in H. cbv zeta in H.
    unfold normal_par, search_range in H. destruct (sampler_normal p) as [[[lo hi] mw] range]. cbn [snd] in H.
    unfold set_statistics in H. change (abs_cov cov) with (fun i j => Rabs (cov i j)) in H. destruct (eigen (fun i j => Rabs (cov i j))) as [vals [[v1 v2] v3]].
    cbn [s_mean s_e1 s_e2 s_axis] in H. cbv zeta. unfold fpc_local in H.
    exact (C120_weighted_sampler E lpt lo hi mw draw_real order _ _ _ (normals range) fuel l (N.to_nat k) g out g' D2 D3 (D4 range l) H).
  - injection Hst as <-. unfold NodeSampModel.sample in H. apply of_option_ok in H. exact (C120_uniform_sampler _ _ _ _ _ _ _ _ H).
Qed.
Lemma node_draws_frame (n n1 : node) sh l k g out g' : n_pf n1 = n_pf n -> node_draws n1 sh l k g out g' -> node_draws n sh l k g out g'.
Proof. intro H. unfold NodeSampDrawProps.node_draws, cov_ratio, psize. rewrite H. auto. Qed.

(** The points that a measurement uses, and the engine of the sampler from draw to draw: the beam
    model draws first, the likelihood model goes on with the engine as it was left. *)
Theorem C120_points_drawn : forall gen rc0 g0 evs n o g m e n1 h pc os n' o' g',
  legal_draws -> steps_s (configure p gen rc0) g0 evs = Ok (n, o, g) -> measures_with voxel p caster n m e n1 h pc os ->
  step_s n g (ECloud m e) = Ok (n', o', g') ->
  let full := voxel (ds_x p, ds_y p, ds_z p) pc in
  exists bl ll bp lp g1,
    keeps (in_range (bp_near (p_beam p)) (bp_far (p_beam p)) (bp_zmin (p_beam p)) (bp_zmax (p_beam p))) bl full
    /\ keeps (in_range (lp_near (p_like p)) (lp_far (p_like p)) (lp_zmin (p_like p)) (lp_zmax (p_like p))) ll full
    /\ node_draws n (e_stat_shuffle e) bl (asked p (bp_default (p_beam p)) (bp_global (p_beam p)) (psize n)) g bp g1
    /\ node_draws n (e_stat_shuffle e) ll (asked p (lp_default (p_like p)) (lp_global (p_like p)) (psize n)) g1 lp g'
    /\ (lp = [] -> o' = [OStatus {| s_status := NORMAL; s_error := ERROR_POINTS_NOT_FOUND; s_conv := CONV_NORMAL; s_match := 0; s_size := 0;
                                    s_entropy := PfModel.entropy RA (n_pf n) |} true true (has_odom (n_odom n)) (has_imu (n_imu n))])
    /\ (lp <> [] -> exists n2 nb, n_pf n2 = n_pf n /\ n_map n2 = n_map n /\ n_odom n2 = n_odom n /\ n_imu n2 = n_imu n
         /\ l_rc (n_lid n2) = l_rc (n_lid n) /\ localize caster p n2 e h os full bp lp = Ok (nb, o')).
Proof.
  intros gen rc0 g0 evs n o g m e n1 h pc os n' o' g' HD Hr [a cs na n0 Hm Hp Hat Hg Hpr] Hs full.
  destruct (C118_refines _ _ _ _ _ _ _ _ _ _ _ _ _ _ Hr) as (evs' & _ & Hr').
  assert (HL : lid_from p n) by (eapply (steps_lid caster voxel p draw_int draw_real normals eigen); [..|exact Hr'|split; left; reflexivity]).
  cbn [NodeSampModel.step_s] in Hs. unfold NodeSampModel.cbCloud_s in Hs. rewrite Hm in Hs. cbv zeta in Hs.
  change (ac (n_acc (set_stat n status0))) with (ac (n_acc n)) in Hs. rewrite Hp in Hs. cbn [bind] in Hs. bok Hs. destruct x as [[nc oc] gc]. injection Hs as _ <- <-.
  pose proof (push_calls_once _ _ _ _ _ Hp) as Hn1. pose proof (at_process_nproc _ _ _ _ _ _ _ Hat) as Hn2.
  assert (Hn : nproc cs = 1%nat) by lia. destruct (at_process_callbacks_s _ _ _ _ _ _ _ _ _ _ _ g _ Hn Hat _ _ _ E0) as (nb & Hms).
  pose proof (at_process_frame _ _ _ _ _ _ _ Hat) as (F1 & F2 & F3 & F4 & F5 & F6).
  pose proof (gate_ok _ _ _ _ Hg) as (G1 & G2 & G3 & G4 & G5 & G6 & G7 & G8 & G9 & G10 & G11 & G12 & G13 & G14 & G15 & G16 & _).
  pose proof (prepare_ok _ _ _ _ _ Hpr) as (P1 & P2 & P3 & P4 & P5 & P6 & _).
  assert (Hst : exists st, particle_statistics n1 e = Ok st).
  { unfold NodeSampModel.measure_s in Hms. rewrite Hg in Hms. cbn [bind negb] in Hms. rewrite Hpr in Hms. cbn [bind] in Hms. bok Hms. eauto. }
  destruct Hst as (st & Hst).
  rewrite (measure_s_ready _ _ _ _ _ _ _ _ na e g n0 n1 h pc os st Hg Hpr Hst) in Hms. fold full in Hms.
  bok Hms. destruct x as [bp g1]. bok Hms. destruct x as [lp g2]. bok Hms. destruct x as [n3 o3]. injection Hms as _ -> ->.
  assert (Elid : n_lid n1 = n_lid n) by (rewrite P5, G5, F1; reflexivity).
  assert (Epf : n_pf n1 = n_pf n) by (rewrite P6, G6, F2; reflexivity).
  assert (Esz : psize n1 = psize n) by (unfold psize; rewrite Epf; reflexivity).
  pose proof (node_draws_frame n n1 _ _ _ _ _ _ Epf (sample_draws n1 e st _ _ _ _ _ _ HD Hst E1)) as S1.
  pose proof (node_draws_frame n n1 _ _ _ _ _ _ Epf (sample_draws n1 e st _ _ _ _ _ _ HD Hst E2)) as S2.
  exists (beam_cloud p n1 full), (like_cloud p n1 full), bp, lp, g1.
  assert (B : beam_now p n1 = beam_set_global (beam_refresh (p_beam p)) (Z.to_N (num_particles p mod 2 ^ 64)) (N.of_nat (psize n))).
  { unfold beam_now. rewrite Elid, Esz. destruct HL as [[->|(u & v & ->)] _]; reflexivity. }
  assert (L : like_now p n1 = like_set_global (like_refresh (p_like p)) (Z.to_N (num_particles p mod 2 ^ 64)) (N.of_nat (psize n))).
  { unfold like_now. rewrite Elid, Esz. destruct HL as [_ [->|(u & v & ->)]]; reflexivity. }
  split; [unfold beam_cloud; rewrite B; apply clip_keeps|]. split; [unfold like_cloud; rewrite L; apply clip_keeps|].
  split; [rewrite B in S1; exact S1|]. split; [rewrite L in S2; exact S2|].
  split.
  - intros ->. cbn [body] in E3. unfold force_update in E3. injection E3 as _ <-.
    cbn [points_lost set_stat set_out told set_lid n_out stat s_status s_error s_conv s_match s_size n_pf n_map n_odom n_imu].
    rewrite P4, G7, F4, Epf, P1, G1, F3, P2, G3, F5, P3, G4, F6. change (has_map (n_map (set_stat n status0))) with (has_map (n_map n)). rewrite Hm. reflexivity.
  - intro Hne. exists (told p n1), n3. cbn [told set_lid n_pf n_map n_odom n_imu n_lid l_rc]. rewrite Elid, Epf, P1, G1, F3, P2, G3, F5, P3, G4, F6.
    repeat split. destruct lp; [congruence|exact E3].
Qed.
(** The engine is left as it is by everything but a cloud that is measured with, and is carried
    over from event to event. *)
Theorem C120_engine : forall n g evs1 evs2 n' o g', steps_s n g (evs1 ++ evs2) = Ok (n', o, g') ->
  exists n1 o1 g1 o2, steps_s n g evs1 = Ok (n1, o1, g1) /\ steps_s n1 g1 evs2 = Ok (n', o2, g') /\ o = o1 ++ o2.
Proof.
  intros n g evs1. revert n g. induction evs1 as [|ev evs1 IH]; intros n g evs2 n' o g' H.
  - exists n, [], g, o. auto.
  - cbn [app NodeSampModel.steps_s] in H. bok H. destruct x as [[n1 o1] g1]. bok H. destruct x as [[n2 o2] g2]. injection H as <- <- <-.
    destruct (IH _ _ _ _ _ _ E1) as (n3 & o3 & g3 & o4 & A1 & A2 & ->). exists n3, (o1 ++ o3), g3, o4. split; [|split; [exact A2|apply app_assoc]].
    cbn [NodeSampModel.steps_s]. rewrite E0. cbn [bind]. rewrite A1. reflexivity.
Qed.
Lemma engine_callbacks e cs : forall (n : node) g n1 o1 g1, (nproc cs <= 1)%nat -> callbacks_s e n g cs = Ok (n1, o1, g1) ->
  g1 = g \/ exists na nb oo, at_process voxel p caster e n cs = Ok (Some na) /\ measure_s na e g = Ok (nb, oo, g1).
Proof.
  induction cs as [|c cs IH]; intros n g n1 o1 g1 Hn H; [injection H as _ _ ->; auto|].
  assert (HC : c = AccumModel.Process \/ c <> AccumModel.Process) by (destruct c; [left|right|right]; [reflexivity|discriminate|discriminate]).
  cbn [NodeSampModel.callbacks_s] in H. bok H. destruct x as [[n2 o2] g2]. bok H. destruct x as [[n3 o3] g3]. injection H as _ _ ->.
  destruct HC as [->|HC].
  - assert (Z : nproc cs = 0%nat) by (change (nproc (AccumModel.Process :: cs)) with (Datatypes.S (nproc cs)) in Hn; lia).
    rewrite callbacks_quiet in E1 by exact Z. bok E1. destruct x as [nx ox]. injection E1 as _ _ <-. right. exists n, n2, o2. split; [reflexivity|exact E0].
  - rewrite callback_s_other in E0 by exact HC. bok E0. destruct x as [nx ox]. injection E0 as <- <- <-.
    assert (Hn' : (nproc cs <= 1)%nat) by (destruct c; [congruence|exact Hn|exact Hn]).
    destruct (IH _ _ _ _ _ Hn' E1) as [Q|(na & nb & oo & A1 & A2)]; [auto|]. right. exists na, nb, oo. split; [|exact A2].
    assert (Ha : at_process voxel p caster e n (c :: cs) = (do (k, _) <- callback caster voxel p e n c; at_process voxel p caster e k cs)) by (destruct c; [congruence|reflexivity|reflexivity]).
    rewrite Ha, E2. exact A1.
Qed.
Theorem C120_engine_untouched : forall n g ev n' o' g', step_s n g ev = Ok (n', o', g') ->
  (forall m e n1 h pc os, ev = ECloud m e -> ~ measures_with voxel p caster n m e n1 h pc os) -> g' = g.
Proof.
  intros n g ev n' o' g' H Hno. destruct ev; cbn [NodeSampModel.step_s] in H; try (bok H; destruct x as [nx ox]; injection H as _ _ ->; reflexivity).
  unfold NodeSampModel.cbCloud_s in H. destruct (has_map (n_map n)) eqn:Hm; [|injection H as _ _ ->; reflexivity]. cbv zeta in H.
  bok H. destruct x as [a cs]. bok H. destruct x as [[n1 o1] g1]. injection H as _ _ ->.
  change (ac (n_acc (set_stat n status0))) with (ac (n_acc n)) in E0.
  destruct (engine_callbacks _ _ _ _ _ _ _ (push_calls_once _ _ _ _ _ E0) E1) as [Q|(na & nb & oo & Hat & Hms)]; [exact Q|].
  unfold NodeSampModel.measure_s in Hms. bok Hms. destruct x as [n0 go]. destruct go; cbn [negb] in Hms; [|injection Hms as _ _ ->; reflexivity].
  bok Hms. destruct x as [n2 ready]. destruct ready as [[[h pc] os]|]; [|injection Hms as _ _ ->; reflexivity].
  exfalso. exact (Hno m e n2 h pc os eq_refl (mw_intro voxel p caster n m e n2 h pc os a cs na n0 Hm E0 Hat E2 E3)).
Qed.
End Draw.
