(** Property theorems C117: parameters without effect.  Everywhere the ray caster, the voxel
    filter, the other parameters, the node and all inputs of the outside world are arbitrary. *)
From Coq Require Import String Reals ZArith List Bool Arith Lia Lra.
From Verif Require PfModel FilterModel AccumModel.
From Verif Require Import Arith KdModel QuatModel StateModel RayModel LidarModel StateSpec NdModel MatModel ParamModel ParamProps ParamTabProps QuatSpec QuatProofs NodeModel NodeSpec NodeAliveSpec NodeDemo.
Import ListNotations.
Open Scope R_scope.
Open Scope list_scope.

(** ** Specification *)
(** the same parameters with other values of odom_err_integ_ang_tc, odom_err_integ_ang_sigma and
    of the (internal) largest map grid *)
Definition set_ang (p : params) (tc sigma gmax : R) : params :=
  {| fake_imu := fake_imu p; fake_odom := fake_odom p; frame_map := frame_map p; frame_base := frame_base p;
     frame_odom := frame_odom p; frame_floor := frame_floor p; map_ds_x := map_ds_x p; map_ds_y := map_ds_y p;
     map_ds_z := map_ds_z p; ds_x := ds_x p; ds_y := ds_y p; ds_z := ds_z p; upd_ds_x := upd_ds_x p;
     upd_ds_y := upd_ds_y p; upd_ds_z := upd_ds_z p; map_grid_min := map_grid_min p; map_grid_max := gmax;
     map_update_interval := map_update_interval p; dist_weight := dist_weight p; glob_grid := glob_grid p;
     glob_div_yaw := glob_div_yaw p; num_particles := num_particles p; resample_var := resample_var p;
     expansion_var := expansion_var p; match_ratio_thresh := match_ratio_thresh p; odom_err_ll := odom_err_ll p;
     odom_err_la := odom_err_la p; odom_err_al := odom_err_al p; odom_err_aa := odom_err_aa p;
     integ_lin_tc := integ_lin_tc p; integ_lin_sigma := integ_lin_sigma p; integ_ang_tc := tc;
     integ_ang_sigma := sigma; lpf_step := lpf_step p; acc_lpf_step := acc_lpf_step p; acc_var := acc_var p;
     jump_dist := jump_dist p; jump_ang := jump_ang p; fix_dist := fix_dist p; fix_ang := fix_ang p;
     bias_var_dist := bias_var_dist p; bias_var_ang := bias_var_ang p; skip_measure := skip_measure p;
     accum_cloud := accum_cloud p; total_accum_max := total_accum_max p; match_output_interval := match_output_interval p;
     tf_tolerance := tf_tolerance p; match_output_dist := match_output_dist p; unmatch_output_dist := unmatch_output_dist p;
     publish_tf := publish_tf p; output_pcd := output_pcd p; std_warn := std_warn p; map_chunk := map_chunk p;
     initial_pose := initial_pose p; initial_pose_std := initial_pose_std p; use_sampler_normal := use_sampler_normal p;
     sampler_normal := sampler_normal p; p_like := p_like p; p_beam := p_beam p; use_dda := use_dda p;
     ray_angle_half := ray_angle_half p; dda_grid := dda_grid p |}.
(** std::sort compares the cumulative weights only: it treats particles with other states alike *)
Definition blind (srt : sorter) : Prop :=
  forall (g : state -> state) l, srt (map (fun x => (fst x, g (snd x))) l) = map (fun x => (fst x, g (snd x))) (srt l).
Definition blind_event (ev : event) : Prop :=
  match ev with
  | ECloud _ e => blind (e_sort e) /\ blind (e_sort2 e)
  | ELandmark _ _ srt _ _ _ | EResize _ srt _ | EGlobal _ srt => blind srt
  | _ => True
  end.
(** a state without its integral of the rotational odometry error *)
Definition er (s : state) : state :=
  {| pos := pos s; rot := rot s; diff := diff s; noise_ll := noise_ll s; noise_la := noise_la s; noise_al := noise_al s;
     noise_aa := noise_aa s; err_lin := err_lin s; err_ang := v0; rpy := rpy s |}.
Definition erp (q : PfModel.particle RA state) : PfModel.particle RA state := PfModel.set_st RA q (er (PfModel.st RA q)).
Definition erf (f : PfModel.filter RA state) : PfModel.filter RA state :=
  {| PfModel.parts := map erp (PfModel.parts RA f); PfModel.entropy := PfModel.entropy RA f |}.

(** ** The particle filter *)
Notation prt := (PfModel.particle RA state).
Notation fil := (PfModel.filter RA state).
Notation er2 := (fun x : RA * state => (fst x, er (snd x))).
Lemma er_er s : er (er s) = er s.
Proof. reflexivity. Qed.
Lemma erf_erf f : erf (erf f) = erf f.
Proof. unfold erf. cbn [PfModel.parts PfModel.entropy]. rewrite map_map. f_equal. Qed.
Lemma mapi_er (g g' : nat -> prt -> prt) : (forall i q, erp (g i q) = erp (g' i (erp q))) ->
  forall l i, map erp (PfModel.mapi_from i g l) = map erp (PfModel.mapi_from i g' (map erp l)).
Proof. intros H l. induction l as [|q t IH]; intro i; [reflexivity|]. cbn [map PfModel.mapi_from]. rewrite H, IH. reflexivity. Qed.
Lemma mapi_er_exact (g : nat -> prt -> prt) : (forall i q, erp (g i q) = g i (erp q)) ->
  forall l i, PfModel.mapi_from i g (map erp l) = map erp (PfModel.mapi_from i g l).
Proof. intros H l. induction l as [|q t IH]; intro i; [reflexivity|]. cbn [map PfModel.mapi_from]. rewrite H, IH. reflexivity. Qed.
Lemma predict_er m m' f : (forall i s, er (m i s) = er (m' i (er s))) ->
  erf (PfModel.predict RA m f) = erf (PfModel.predict RA m' (erf f)).
Proof.
  intro H. unfold PfModel.predict, erf. cbn [PfModel.parts PfModel.entropy]. f_equal. apply mapi_er.
  intros i q. unfold erp, PfModel.set_st. cbn [PfModel.st PfModel.w PfModel.bias PfModel.acc]. rewrite H. reflexivity.
Qed.
Lemma add_noise_er z f : erf (PfModel.add_noise RA splus z f) = erf (PfModel.add_noise RA splus z (erf f)).
Proof. unfold PfModel.add_noise, erf. cbn [PfModel.parts PfModel.entropy]. f_equal. apply mapi_er. reflexivity. Qed.
Lemma bias_er g f : (forall i s x, g i (er s) x = g i s x) -> PfModel.do_bias RA g (erf f) = erf (PfModel.do_bias RA g f).
Proof.
  intro H. unfold PfModel.do_bias, erf. cbn [PfModel.parts PfModel.entropy]. f_equal. apply mapi_er_exact. intros i q.
  unfold erp, PfModel.set_bias, PfModel.set_st. cbn [PfModel.st PfModel.w PfModel.bias PfModel.acc]. rewrite H. reflexivity.
Qed.
Lemma sum_er ps : PfModel.sum_w RA (map erp ps) = PfModel.sum_w RA ps.
Proof. unfold PfModel.sum_w. generalize (@f0 RA). induction ps as [|q t IH]; intro a; [reflexivity|]. cbn [map fold_left]. apply IH. Qed.
Lemma entropy_er ps : PfModel.entropy_sum RA (map erp ps) = PfModel.entropy_sum RA ps.
Proof. unfold PfModel.entropy_sum. generalize (@f0 RA) at 2 4. induction ps as [|q t IH]; intro a; [reflexivity|]. cbn [map fold_left]. apply IH. Qed.
Lemma measure_er lik f : (forall i s, lik i (er s) = lik i s) -> PfModel.measure RA lik (erf f) = erf (PfModel.measure RA lik f).
Proof.
  intro H. unfold PfModel.measure. cbn [PfModel.parts PfModel.entropy erf]. cbv zeta.
  assert (E : PfModel.mapi (fun i q => PfModel.set_w RA q (@fmul RA (PfModel.w RA q) (lik i (PfModel.st RA q)))) (map erp (PfModel.parts RA f))
            = map erp (PfModel.mapi (fun i q => PfModel.set_w RA q (@fmul RA (PfModel.w RA q) (lik i (PfModel.st RA q)))) (PfModel.parts RA f))).
  { apply mapi_er_exact. intros i q. unfold erp, PfModel.set_w, PfModel.set_st. cbn [PfModel.st PfModel.w PfModel.bias PfModel.acc]. rewrite H. reflexivity. }
  rewrite E, sum_er. destruct (@flt RA _ _); [|reflexivity]. unfold erf. cbn [PfModel.parts PfModel.entropy].
  rewrite <- !(entropy_er (map _ (PfModel.mapi _ _))). rewrite !map_map. f_equal.
Qed.
Lemma dup_er ps : forall a, PfModel.dup_of RA a (map erp ps) = map er2 (PfModel.dup_of RA a ps).
Proof. induction ps as [|q t IH]; intro a; [reflexivity|]. cbn [map PfModel.dup_of]. cbv zeta. rewrite IH. reflexivity. Qed.
Lemma acc_er ps : forall a, PfModel.accumulate RA a (map erp ps) = (let '(q, t) := PfModel.accumulate RA a ps in (map erp q, t)).
Proof.
  induction ps as [|q t IH]; intro a; [reflexivity|]. cbn [map PfModel.accumulate]. cbv zeta.
  change (PfModel.w RA (erp q)) with (PfModel.w RA q). rewrite IH. destruct (PfModel.accumulate RA _ t). reflexivity.
Qed.
Lemma lower_er d v : forall fuel a b, PfModel.lower_bound RA fuel (map er2 d) a b v = PfModel.lower_bound RA fuel d a b v.
Proof.
  induction fuel as [|k IH]; intros a b; destruct b; cbn [PfModel.lower_bound]; try reflexivity.
  rewrite nth_error_map. destruct (nth_error d _) as [x|]; [|reflexivity]. cbn [option_map fst]. rewrite !IH. reflexivity.
Qed.
Lemma lower_from_er d it v : PfModel.lower_bound_from RA (map er2 d) it v = PfModel.lower_bound_from RA d it v.
Proof. unfold PfModel.lower_bound_from. rewrite map_length. apply lower_er. Qed.
Lemma resample_loop_er ps off z d : forall n i it itp k,
  option_map (map er) (PfModel.resample_loop RA splus normalize ps off z d n i it itp k)
  = option_map (map er) (PfModel.resample_loop RA splus normalize ps off z (map er2 d) n i it itp k).
Proof.
  assert (X : forall (a b : option (list state)) x y, er x = er y -> option_map (map er) a = option_map (map er) b ->
    option_map (map er) (option_map (cons x) a) = option_map (map er) (option_map (cons y) b)).
  { intros [a|] [b|] x y E H; cbn in *; try discriminate; [|reflexivity]. injection H as H. rewrite E, H. reflexivity. }
  induction n as [|n IH]; intros i it itp k; [reflexivity|]. cbn [PfModel.resample_loop]. cbv zeta. rewrite lower_from_er.
  destruct (PfModel.lower_bound_from RA d it _) as [it'|]; [|reflexivity]. rewrite !nth_error_map.
  destruct (nth_error d it') as [x|]; cbn [option_map snd].
  - destruct (it' =? itp)%nat; apply X; try apply IH; reflexivity.
  - destruct (nth_error d itp) as [x|]; cbn [option_map snd]; [|reflexivity]. apply X; [reflexivity|apply IH].
Qed.
Lemma assign_er pr : forall ps ss, map erp (PfModel.assign_states RA pr ps ss) = PfModel.assign_states RA pr (map erp ps) (map er ss).
Proof. induction ps as [|q t IH]; intros [|s ss]; try reflexivity. cbn [PfModel.assign_states map]. rewrite IH. reflexivity. Qed.
Lemma resample_er off z d f :
  option_map erf (PfModel.resample RA splus normalize off z d f) = option_map erf (PfModel.resample RA splus normalize off z (map er2 d) (erf f)).
Proof.
  unfold PfModel.resample. cbn [erf PfModel.parts PfModel.entropy]. rewrite acc_er. destruct (PfModel.accumulate RA _ (PfModel.parts RA f)) as [q t]. cbv zeta.
  rewrite map_length. pose proof (resample_loop_er (@fdiv RA t (@fofnat RA (length q))) off z d (length q) 0 0 0 0) as E.
  destruct (PfModel.resample_loop RA splus normalize _ off z d _ _ _ _ _) as [a|], (PfModel.resample_loop RA splus normalize _ off z (map er2 d) _ _ _ _ _) as [b|];
    cbn [option_map] in E |- *; try discriminate; [|reflexivity]. injection E as E. f_equal. unfold erf. cbn [PfModel.parts PfModel.entropy]. f_equal.
  rewrite !assign_er, E, map_map. reflexivity.
Qed.
Lemma resize_loop_er ps d : forall n sc it itp,
  option_map (map er) (PfModel.resize_loop RA ps d n sc it itp) = option_map (map er) (PfModel.resize_loop RA ps (map er2 d) n sc it itp).
Proof.
  assert (X : forall (a b : option (list state)) x y, er x = er y -> option_map (map er) a = option_map (map er) b ->
    option_map (map er) (option_map (cons x) a) = option_map (map er) (option_map (cons y) b)).
  { intros [a|] [b|] x y E H; cbn in *; try discriminate; [|reflexivity]. injection H as H. rewrite E, H. reflexivity. }
  induction n as [|n IH]; intros sc it itp; [reflexivity|]. cbn [PfModel.resize_loop]. cbv zeta. rewrite lower_from_er.
  destruct (PfModel.lower_bound_from RA d it _) as [it'|]; [|reflexivity]. rewrite !nth_error_map.
  destruct (nth_error d it') as [x|]; cbn [option_map snd].
  - apply X; [reflexivity|apply IH].
  - destruct (nth_error d itp) as [x|]; cbn [option_map snd]; [|reflexivity]. apply X; [reflexivity|apply IH].
Qed.
Lemma resize_er d num f :
  option_map erf (PfModel.resize RA state0 d num f) = option_map erf (PfModel.resize RA state0 (map er2 d) num (erf f)).
Proof.
  unfold PfModel.resize. cbn [erf PfModel.parts PfModel.entropy]. rewrite acc_er. destruct (PfModel.accumulate RA _ (PfModel.parts RA f)) as [q t]. cbv zeta.
  pose proof (resize_loop_er (@fdiv RA t (@fofnat RA num)) d num (@f0 RA) 0 0) as E.
  destruct (PfModel.resize_loop RA _ d _ _ _ _) as [a|], (PfModel.resize_loop RA _ (map er2 d) _ _ _ _) as [b|];
    cbn [option_map] in E |- *; try discriminate; [|reflexivity]. injection E as E. f_equal. unfold erf. cbn [PfModel.parts PfModel.entropy]. f_equal.
  rewrite !assign_er, E. f_equal. unfold PfModel.vec_resize. rewrite !map_app, !map_length, !firstn_map, !map_map. f_equal.
Qed.
Lemma expect_loop_er pass : forall ps m, PfModel.expect_loop RA pose_mean pass m (map erp ps) = PfModel.expect_loop RA pose_mean pass m ps.
Proof. induction ps as [|q t IH]; intro m; [reflexivity|]. cbn [map PfModel.expect_loop]. cbv zeta. rewrite IH. reflexivity. Qed.
Lemma expectation_er pass f : PfModel.expectation RA pose_mean pass (erf f) = PfModel.expectation RA pose_mean pass f.
Proof. unfold PfModel.expectation. cbn [erf PfModel.parts]. rewrite expect_loop_er. reflexivity. Qed.
Lemma biased_er f : PfModel.expectation_biased RA pose_mean (erf f) = PfModel.expectation_biased RA pose_mean f.
Proof.
  unfold PfModel.expectation_biased. cbn [erf PfModel.parts]. cbv zeta.
  assert (E : forall ps m, fold_left (fun m q => PfModel.mean_add RA pose_mean m (PfModel.st RA q) (PfModel.biased_weight RA q)) (map erp ps) m
            = fold_left (fun m q => PfModel.mean_add RA pose_mean m (PfModel.st RA q) (PfModel.biased_weight RA q)) ps m).
  { induction ps as [|q t IH]; intro m; [reflexivity|]. cbn [map fold_left]. rewrite <- IH. reflexivity. }
  rewrite E. reflexivity.
Qed.
Lemma pass_count_er pass : forall ps s, PfModel.pass_count RA pass s (map erp ps) = PfModel.pass_count RA pass s ps.
Proof. induction ps as [|q t IH]; intro s; [reflexivity|]. cbn [map PfModel.pass_count]. cbv zeta. rewrite IH. reflexivity. Qed.
Lemma cov_loop_er e ps : forall idx m s, PfModel.cov_loop RA cov_el e 6 (map erp ps) idx m s = PfModel.cov_loop RA cov_el e 6 ps idx m s.
Proof.
  induction idx as [|i t IH]; intros m s; [reflexivity|]. cbn [PfModel.cov_loop]. rewrite nth_error_map.
  destruct (nth_error ps i) as [q|]; [|reflexivity]. cbn [option_map]. cbv zeta.
  change (PfModel.w RA (erp q)) with (PfModel.w RA q). change (cov_el (PfModel.st RA (erp q)) e) with (cov_el (PfModel.st RA q) e). apply IH.
Qed.
Lemma covariance_er pass ratio sh f :
  PfModel.covariance RA pose_mean cov_el 6 pass ratio sh (erf f) = PfModel.covariance RA pose_mean cov_el 6 pass ratio sh f.
Proof.
  unfold PfModel.covariance. rewrite expectation_er. destruct (PfModel.expectation RA pose_mean pass f) as [e|]; [|reflexivity]. cbv zeta.
  cbn [erf PfModel.parts]. rewrite pass_count_er, cov_loop_er. reflexivity.
Qed.
Lemma max_er f : (match PfModel.max RA (erf f) with Some _ => true | None => false end) = (match PfModel.max RA f with Some _ => true | None => false end).
Proof. unfold PfModel.max. cbn [erf PfModel.parts]. destruct (PfModel.parts RA f); reflexivity. Qed.
Lemma sorted_dup_er srt f : blind srt -> sorted_dup srt (erf f) = map er2 (sorted_dup srt f).
Proof. intro B. unfold sorted_dup. cbn [erf PfModel.parts]. rewrite dup_er. apply (B er). Qed.
(** the same for two filters that agree but for that integral *)
Lemma predict_cong m m' f g : (forall i s, er (m i s) = er (m' i (er s))) -> (forall i s, er (m' i s) = er (m' i (er s))) ->
  erf f = erf g -> erf (PfModel.predict RA m f) = erf (PfModel.predict RA m' g).
Proof. intros H H' E. rewrite (predict_er m m' f H), (predict_er m' m' g H'), E. reflexivity. Qed.
Lemma add_noise_cong z f g : erf f = erf g -> erf (PfModel.add_noise RA splus z f) = erf (PfModel.add_noise RA splus z g).
Proof. intro E. rewrite (add_noise_er z f), (add_noise_er z g), E. reflexivity. Qed.
Lemma bias_cong h f g : (forall i s x, h i (er s) x = h i s x) -> erf f = erf g ->
  erf (PfModel.do_bias RA h f) = erf (PfModel.do_bias RA h g).
Proof. intros H E. rewrite <- (bias_er h f H), <- (bias_er h g H), E. reflexivity. Qed.
Lemma measure_cong lik f g : (forall i s, lik i (er s) = lik i s) -> erf f = erf g ->
  erf (PfModel.measure RA lik f) = erf (PfModel.measure RA lik g).
Proof. intros H E. rewrite <- (measure_er lik f H), <- (measure_er lik g H), E. reflexivity. Qed.
Lemma resample_cong srt off z f g : blind srt -> erf f = erf g ->
  option_map erf (PfModel.resample RA splus normalize off z (sorted_dup srt f) f)
  = option_map erf (PfModel.resample RA splus normalize off z (sorted_dup srt g) g).
Proof. intros B E. rewrite (resample_er off z _ f), (resample_er off z _ g), <- !(sorted_dup_er srt _ B), E. reflexivity. Qed.
Lemma resize_cong srt num f g : blind srt -> erf f = erf g ->
  option_map erf (PfModel.resize RA state0 (sorted_dup srt f) num f) = option_map erf (PfModel.resize RA state0 (sorted_dup srt g) num g).
Proof. intros B E. rewrite (resize_er _ num f), (resize_er _ num g), <- !(sorted_dup_er srt _ B), E. reflexivity. Qed.
Lemma init_cong gen f g : erf f = erf g -> erf (PfModel.init RA gen f) = erf (PfModel.init RA gen g).
Proof.
  assert (X : forall h, erf (PfModel.init RA gen h) = erf (PfModel.init RA gen (erf h))).
  { intro h. unfold PfModel.init, erf. cbn [PfModel.parts PfModel.entropy]. rewrite map_length. f_equal. apply mapi_er. reflexivity. }
  intro E. rewrite (X f), (X g), E. reflexivity.
Qed.
Lemma length_cong f g : erf f = erf g -> length (PfModel.parts RA f) = length (PfModel.parts RA g).
Proof. intro E. apply (f_equal (fun h => length (PfModel.parts RA h))) in E. cbn [erf PfModel.parts] in E. rewrite !map_length in E. exact E. Qed.
Lemma entropy_cong f g : erf f = erf g -> PfModel.entropy RA f = PfModel.entropy RA g.
Proof. intro E. apply (f_equal (PfModel.entropy RA)) in E. exact E. Qed.
Lemma cov_cong pass ratio sh f g : erf f = erf g ->
  PfModel.covariance RA pose_mean cov_el 6 pass ratio sh f = PfModel.covariance RA pose_mean cov_el 6 pass ratio sh g.
Proof. intro E. rewrite <- (covariance_er pass ratio sh f), <- (covariance_er pass ratio sh g), E. reflexivity. Qed.
Lemma expectation_cong pass f g : erf f = erf g -> PfModel.expectation RA pose_mean pass f = PfModel.expectation RA pose_mean pass g.
Proof. intro E. rewrite <- (expectation_er pass f), <- (expectation_er pass g), E. reflexivity. Qed.
Lemma biased_cong f g : erf f = erf g -> PfModel.expectation_biased RA pose_mean f = PfModel.expectation_biased RA pose_mean g.
Proof. intro E. rewrite <- (biased_er f), <- (biased_er g), E. reflexivity. Qed.
Lemma fill_cong iq prob dir f g : erf f = erf g -> forall pts c,
  option_map (map erp) (fill iq prob dir (PfModel.parts RA f) pts c) = option_map (map erp) (fill iq prob dir (PfModel.parts RA g) pts c).
Proof.
  intro E. assert (X : forall ps pts c, fill iq prob dir (map erp ps) pts c = fill iq prob dir ps pts c).
  { induction ps as [|q t IH]; intros pts c; [reflexivity|]. cbn [map fill]. destruct pts; [reflexivity|].
    destruct (dir <=? c + 1)%Z; rewrite IH; reflexivity. }
  intros pts c. rewrite <- (X (PfModel.parts RA f)), <- (X (PfModel.parts RA g)). apply (f_equal (PfModel.parts RA)) in E.
  cbn [erf PfModel.parts] in E. rewrite E. reflexivity.
Qed.

(** ** The node *)
Section Unused.
Context {S : Type} (caster : cloud -> (pt -> R -> search) -> raycaster S) (voxel : R * R * R -> list lpt -> list lpt).
Notation node := (node (S := S)).
Implicit Types n : node.
Variables (p : params) (tc sigma gmax : R).
Notation q := (set_ang p tc sigma gmax).
(** a node without those integrals *)
Definition en n : node := set_pf n (erf (n_pf n)).
Definition simx {A : Type} (r r' : outcome (node * A)) : Prop :=
  match r, r' with
  | Ok (n, o), Ok (n', o') => en n = en n' /\ o = o'
  | Null, Null | Undef, Undef | Fuel, Fuel => True
  | _, _ => False
  end.
Lemma en_pf n f : erf f = erf (n_pf n) -> en n = en (set_pf n f).
Proof. intro E. unfold en. cbn [n_pf set_pf]. rewrite E. reflexivity. Qed.
Lemma en_inv n n' : en n = en n' -> n' = set_pf n (n_pf n') /\ erf (n_pf n') = erf (n_pf n).
Proof.
  intro E. split.
  - destruct n, n'. injection E as -> -> -> -> -> -> _ _. reflexivity.
  - apply (f_equal n_pf) in E. symmetry. exact E.
Qed.
Lemma sim_of_ok {A} n n' (o : A) : en n = en n' -> simx (Ok (n, o)) (Ok (n', o)).
Proof. split; [assumption|reflexivity]. Qed.
Lemma particles_pf n f now : erf f = erf (n_pf n) -> publishParticles p (set_pf n f) now = publishParticles p n now.
Proof.
  intro E. unfold publishParticles. cbn [n_pf n_odom n_out set_pf]. f_equal.
  assert (X : forall h, map (fun x => (pos (PfModel.st RA x), qnormalized (rot (PfModel.st RA x)))) (PfModel.parts RA h)
                      = map (fun x => (pos (PfModel.st RA x), qnormalized (rot (PfModel.st RA x)))) (PfModel.parts RA (erf h))).
  { intro h. cbn [erf PfModel.parts]. rewrite map_map. reflexivity. }
  rewrite (X f), (X (n_pf n)), E. reflexivity.
Qed.
Lemma statistics_pf n f e : erf f = erf (n_pf n) -> statistics p (set_pf n f) e = statistics p n e.
Proof.
  intro E. unfold statistics, pf_cov, cov_ratio, psize. cbn [n_pf set_pf]. rewrite (expectation_cong _ f (n_pf n) E), (length_cong f (n_pf n) E).
  rewrite (cov_cong _ _ _ f (n_pf n) E). reflexivity.
Qed.
Lemma cov_pf n f sh : erf f = erf (n_pf n) -> pf_cov p (set_pf n f) sh = pf_cov p n sh.
Proof.
  intro E. unfold pf_cov, cov_ratio, psize. cbn [n_pf set_pf]. rewrite (length_cong f (n_pf n) E).
  rewrite (cov_cong _ _ _ f (n_pf n) E). reflexivity.
Qed.
Lemma filters_pf n f e full : erf f = erf (n_pf n) ->
  filters p (set_pf n f) e full = (let '(n', a, b) := filters p n e full in (set_pf n' f, a, b)).
Proof. intro E. unfold filters, psize. cbn [n_pf set_pf]. rewrite (length_cong f (n_pf n) E). reflexivity. Qed.
Lemma beam_points_er bm (rc : raycaster S) os x k pts : forall s sc, beam_points bm rc os (er x) k pts s sc = beam_points bm rc os x k pts s sc.
Proof.
  induction pts as [|y t IH]; intros s sc; [reflexivity|]. cbn [beam_points]. destruct (nth_error os (lab y)); [|reflexivity].
  change (pos (er x)) with (pos x). change (rot (er x)) with (rot x). destruct (getBeamStatus _ _ _ _ _ _) as [[s' b]| |]; [apply IH|reflexivity..].
Qed.
Lemma lidar_pf b l (rc : raycaster S) e os bp lp : forall ps s,
  lidar_all b l rc e os bp lp (map (PfModel.st RA) (map erp ps)) s = lidar_all b l rc e os bp lp (map (PfModel.st RA) ps) s.
Proof.
  induction ps as [|x t IH]; intro s; [reflexivity|]. cbn [map lidar_all].
  assert (EB : beam_measure b rc (e_fuel e) s (Some bp) os (PfModel.st RA (erp x)) = beam_measure b rc (e_fuel e) s (Some bp) os (PfModel.st RA x)).
  { unfold beam_measure. destruct bp; [reflexivity|]. change (PfModel.st RA (erp x)) with (er (PfModel.st RA x)). rewrite beam_points_er. reflexivity. }
  rewrite EB. clear EB.
  change (like_measure l (e_search e) (Some lp) (PfModel.st RA (erp x))) with (like_measure l (e_search e) (Some lp) (PfModel.st RA x)).
  destruct (of_run _) as [[s1 rb]| | |]; [|reflexivity..]. cbn [bind]. destruct (of_option (like_measure _ _ _ _)); [|reflexivity..]. cbn [bind].
  rewrite IH. reflexivity.
Qed.
Lemma lidar_cong b l (rc : raycaster S) e os bp lp f g s : erf f = erf g ->
  lidar_all b l rc e os bp lp (map (PfModel.st RA) (PfModel.parts RA f)) s = lidar_all b l rc e os bp lp (map (PfModel.st RA) (PfModel.parts RA g)) s.
Proof.
  intro E. rewrite <- (lidar_pf b l rc e os bp lp (PfModel.parts RA f)), <- (lidar_pf b l rc e os bp lp (PfModel.parts RA g)).
  apply (f_equal (PfModel.parts RA)) in E. cbn [erf PfModel.parts] in E. rewrite E. reflexivity.
Qed.
Lemma max_cong f g : erf f = erf g ->
  (match PfModel.max RA f with Some _ => true | None => false end) = (match PfModel.max RA g with Some _ => true | None => false end).
Proof. intro E. rewrite <- (max_er f), <- (max_er g), E. reflexivity. Qed.
(** nested pairs *)
Definition simy {A B : Type} (r r' : outcome (node * A * B)) : Prop :=
  match r, r' with
  | Ok (n, a, b), Ok (n', a', b') => en n = en n' /\ a = a' /\ b = b'
  | Null, Null | Undef, Undef | Fuel, Fuel => True
  | _, _ => False
  end.
Lemma estimate_pf_sim n f e os bp lp : erf f = erf (n_pf n) ->
  simy (estimate caster p n e os bp lp) (estimate caster p (set_pf n f) e os bp lp).
Proof.
  intro E. unfold estimate. change (map_cloud (set_pf n f)) with (map_cloud n). change (n_lid (set_pf n f)) with (n_lid n).
  change (n_pf (set_pf n f)) with f. change (n_out (set_pf n f)) with (n_out n).
  destruct (map_cloud n) as [mc| | |]; [|exact I..]. cbn [bind]. cbv zeta.
  rewrite (lidar_cong _ _ _ e os bp lp f (n_pf n) _ E).
  destruct (lidar_all _ _ _ _ _ _ _ _ _) as [[s1 res]| | |]; [|exact I..]. cbn [bind].
  assert (T : too_many p (set_pf n f) = too_many p n). { unfold too_many, psize. cbn [n_pf set_pf]. rewrite (length_cong f (n_pf n) E). reflexivity. }
  rewrite T. clear T.
  set (lik := fun (i : nat) (s : state) => (fst (nth i res (0, 0)) * nd_eval (nd_new (integ_lin_sigma p)) (vnorm (err_lin s)))%R).
  assert (E1 : erf (PfModel.measure RA lik f) = erf (PfModel.measure RA lik (n_pf n))) by (apply measure_cong; [reflexivity|exact E]).
  revert E1. generalize (PfModel.measure RA lik f) as f1, (PfModel.measure RA lik (n_pf n)) as g1. intros f1 g1 E1.
  set (f2 := if too_many p n then PfModel.do_bias RA (fun _ _ _ => (1 : RA)) f1 else _).
  set (g2 := if too_many p n then PfModel.do_bias RA (fun _ _ _ => (1 : RA)) g1 else _).
  assert (E2 : erf f2 = erf g2). { subst f2 g2. destruct (too_many p n); apply bias_cong; try exact E1; reflexivity. }
  clearbody f2 g2. rewrite (biased_cong f2 g2 E2). destruct (PfModel.expectation_biased RA pose_mean g2) as [est|]; [|exact I]. cbn [bind of_option].
  pose proof (max_cong f2 g2 E2) as EM. destruct (PfModel.max RA f2), (PfModel.max RA g2); try discriminate; [|exact I]. cbn [bind of_option].
  destruct (of_run _) as [[s2 r2]| | |]; [|exact I..]. cbn [bind]. split; [|split; reflexivity].
  unfold en. cbn [n_pf set_pf set_lid]. rewrite E2. reflexivity.
Qed.
Lemma publish_pf n f e est : erf f = erf (n_pf n) ->
  exists g, publish_tf_step p (set_pf n f) e est = (let '(n', a, b) := publish_tf_step p n e est in (set_pf n' g, a, b))
         /\ erf g = erf (n_pf (fst (fst (publish_tf_step p n e est)))).
Proof.
  intro E. unfold publish_tf_step, jumped, after_jump. change (n_odom (set_pf n f)) with (n_odom n). change (n_out (set_pf n f)) with (n_out n).
  assert (T : too_many p (set_pf n f) = too_many p n). { unfold too_many, psize. cbn [n_pf set_pf]. rewrite (length_cong f (n_pf n) E). reflexivity. }
  rewrite T. clear T. cbv zeta. destruct (map_odom est (odom (n_odom n))) as [mp mr]. cbv beta iota.
  destruct (negb (too_many p n) && far_off p (state_prev (n_out n)) est); eexists; (split; [reflexivity|]); [|exact E].
  cbn [fst snd n_pf set_pf set_out]. apply predict_cong; [reflexivity..|exact E].
Qed.
Lemma collect_pf n f est lp : collect_pcd p (set_pf n f) est lp = (do m <- collect_pcd p n est lp; Ok (set_pf m f)).
Proof. unfold collect_pcd. change (n_map (set_pf n f)) with (n_map n). destruct (output_pcd p); [|reflexivity]. destruct (pc_all (n_map n)); reflexivity. Qed.
Lemma match_pf n f e h est full :
  match_output p (set_pf n f) e h est full = (do (m, o) <- match_output p n e h est full; Ok (set_pf m f, o)).
Proof.
  unfold match_output. change (n_out (set_pf n f)) with (n_out n). cbn zeta. destruct ((_ || _) && _); [|reflexivity].
  destruct (match_points p (e_search e) (transform est full)) as [[m u]| | |]; reflexivity.
Qed.
Lemma shrink_pf n f e : blind (e_sort2 e) -> erf f = erf (n_pf n) ->
  match shrink_step p n e, shrink_step p (set_pf n f) e with
  | Ok a, Ok b => en a = en b
  | Null, Null | Undef, Undef | Fuel, Fuel => True
  | _, _ => False
  end.
Proof.
  intros B E. unfold shrink_step.
  assert (T : too_many p (set_pf n f) = too_many p n). { unfold too_many, psize. cbn [n_pf set_pf]. rewrite (length_cong f (n_pf n) E). reflexivity. }
  assert (Z : psize (set_pf n f) = psize n) by (unfold psize; cbn [n_pf set_pf]; apply length_cong, E).
  rewrite T, Z. clear T Z. change (n_pf (set_pf n f)) with f. destruct (too_many p n).
  - pose proof (resize_cong (e_sort2 e) (Z.to_nat (shrunk p (psize n))) f (n_pf n) B E) as R.
    destruct (PfModel.resize RA state0 (sorted_dup (e_sort2 e) f) _ f) as [a|], (PfModel.resize RA state0 (sorted_dup (e_sort2 e) (n_pf n)) _ (n_pf n)) as [b|];
      cbn [option_map] in R; try discriminate; [|exact I]. assert (R' : erf a = erf b) by congruence. cbn [bind of_option].
    change (fix_cnt (n_out (with_fix (set_pf (set_pf n f) a) (fix_steps p)))) with (fix_steps p).
    change (fix_cnt (n_out (with_fix (set_pf n b) (fix_steps p)))) with (fix_steps p).
    destruct (fix_steps p); unfold en; cbn [n_pf set_pf with_fix with_status set_stat set_out]; rewrite R'; reflexivity.
  - cbn [bind]. change (fix_cnt (n_out (set_pf n f))) with (fix_cnt (n_out n)).
    destruct (fix_cnt (n_out n)); unfold en; cbn [n_pf set_pf with_fix with_status set_stat set_out]; rewrite E; reflexivity.
Qed.
Lemma localize_pf n f e h os full bp lp : blind (e_sort e) -> blind (e_sort2 e) -> erf f = erf (n_pf n) ->
  simx (localize caster p n e h os full bp lp) (localize caster p (set_pf n f) e h os full bp lp).
Proof.
  intros B B2 E. unfold localize. pose proof (estimate_pf_sim n f e os bp lp E) as K.
  destruct (estimate caster p n e os bp lp) as [[[n1 est] ratio]| | |], (estimate caster p (set_pf n f) e os bp lp) as [[[m1 est'] ratio']| | |];
    try contradiction; try exact I. destruct K as (K & <- & <-). cbn [bind].
  apply en_inv in K. destruct K as [-> E1]. revert E1. generalize (n_pf m1) as f1. intros f1 E1. clear m1 E f.
  destruct (publish_pf n1 f1 e est E1) as (f2 & P & E2). rewrite P. clear P.
  destruct (publish_tf_step p n1 e est) as [[n2 est'] o1]. cbn [fst] in E2.
  rewrite (cov_pf n2 f2 _ E2). destruct (pf_cov p n2 (e_shuffle e)) as [cv| | |]; [|exact I..]. cbn [bind]. cbv zeta.
  change (n_out (set_pf n2 f2)) with (n_out n2). set (c := conv_status p _ _ _). clearbody c.
  change (with_conv (set_pf n2 f2) c) with (set_pf (with_conv n2 c) f2). change (n_pf n2) with (n_pf (with_conv n2 c)) in E2. revert E2. generalize (with_conv n2 c) as n3. intros n3 E2.
  rewrite collect_pf. assert (P4 : forall n4 : node, collect_pcd p n3 est' lp = Ok n4 -> n_pf n4 = n_pf n3).
  { intros n4 H. unfold collect_pcd in H. destruct (output_pcd p); [|injection H as <-; reflexivity]. destruct (pc_all _); [|discriminate]. injection H as <-. reflexivity. }
  destruct (collect_pcd p n3 est' lp) as [n4| | |]; [|exact I..]. specialize (P4 _ eq_refl). rewrite <- P4 in E2. clear P4. cbn [bind].
  rewrite match_pf. assert (P5 : forall (n5 : node) o, match_output p n4 e h est' full = Ok (n5, o) -> n_pf n5 = n_pf n4).
  { intros n5 o H. unfold match_output in H. cbn zeta in H. destruct ((_ || _) && _); [|injection H as <- _; reflexivity].
    destruct (match_points p (e_search e) (transform est' full)) as [[? ?]| | |]; try discriminate. injection H as <- _. reflexivity. }
  destruct (match_output p n4 e h est' full) as [[n5 o2]| | |]; [|exact I..]. specialize (P5 _ _ eq_refl). rewrite <- P5 in E2. clear P5. cbn [bind].
  rewrite (particles_pf n5 f2 _ E2). change (n_pf (set_pf n5 f2)) with f2.
  pose proof (resample_cong (e_sort e) (e_offset e : RA) (resample_noise p (e_noise e)) f2 (n_pf n5) B E2) as R.
  destruct (PfModel.resample RA splus normalize _ _ (sorted_dup (e_sort e) f2) f2) as [a|], (PfModel.resample RA splus normalize _ _ (sorted_dup (e_sort e) (n_pf n5)) (n_pf n5)) as [b|];
    cbn [option_map] in R; try discriminate; [|exact I]. assert (R' : erf a = erf b) by congruence. clear R. cbn [bind of_option].
  assert (E3 : erf (PfModel.predict RA (update_noise p (e_noise4 e)) a) = erf (PfModel.predict RA (update_noise p (e_noise4 e)) b)).
  { apply predict_cong; [| |exact R']; intros i s; unfold update_noise; destruct (e_noise4 e i) as [[[? ?] ?] ?]; reflexivity. }
  revert E3. generalize (PfModel.predict RA (update_noise p (e_noise4 e)) a) as a3, (PfModel.predict RA (update_noise p (e_noise4 e)) b) as b3. intros a3 b3 E3.
  change (set_pf (set_pf n5 f2) a3) with (set_pf n5 a3).
  assert (E4 : en (clock_step (expansion p (set_pf n5 b3) e ratio) (e_now e)) = en (clock_step (expansion p (set_pf n5 a3) e ratio) (e_now e))).
  { unfold expansion. destruct (Rltb ratio (match_ratio_thresh p)); unfold en; cbn [n_pf set_pf clock_step set_out with_status set_stat]; [|rewrite E3; reflexivity].
    rewrite (add_noise_cong _ a3 b3 E3). reflexivity. }
  revert E4. generalize (clock_step (expansion p (set_pf n5 b3) e ratio) (e_now e)) as n7, (clock_step (expansion p (set_pf n5 a3) e ratio) (e_now e)) as m7. intros n7 m7 E4.
  apply en_inv in E4. destruct E4 as [-> E4]. pose proof (shrink_pf n7 (n_pf m7) e B2 E4) as K.
  destruct (shrink_step p n7 e) as [n8| | |], (shrink_step p (set_pf n7 (n_pf m7)) e) as [m8| | |]; try contradiction; try exact I. cbn [bind].
  apply en_inv in K. destruct K as [K5 E5]. rewrite K5. clear K5. revert E5. generalize (n_pf m8) as f8. intros f8 E5. clear m8.
  unfold force_update, final_status. cbn [n_out n_pf n_map n_odom n_imu set_pf set_stat set_out stat psize s_status s_error s_conv].
  unfold psize. cbn [n_pf set_pf]. rewrite (length_cong f8 (n_pf n8) E5), (entropy_cong f8 (n_pf n8) E5).
  split; [|reflexivity]. unfold en. cbn [n_pf set_pf set_stat set_out]. rewrite E5. reflexivity.
Qed.
Ltac ens E := apply sim_of_ok; unfold en; cbn [n_pf set_pf set_acc set_out]; rewrite E; reflexivity.
Lemma measure_pf n f e : blind (e_sort e) -> blind (e_sort2 e) -> erf f = erf (n_pf n) ->
  simx (measure caster voxel p n e) (measure caster voxel p (set_pf n f) e).
Proof.
  intros B B2 E. unfold measure, gate. change (n_out (set_pf n f)) with (n_out n). cbv zeta.
  destruct (skip_size p =? 0)%Z; [exact I|]. cbn [bind].
  match goal with |- context [set_out n ?x] => set (o := x) end. clearbody o.
  destruct (_ mod _ =? 0)%Z; cbn [negb]; [|ens E].
  change (set_out (set_pf n f) o) with (set_pf (set_out n o) f). change (n_pf n) with (n_pf (set_out n o)) in E. revert E. generalize (set_out n o) as n0. intros n0 E.
  unfold prepare. change (n_acc (set_pf n0 f)) with (n_acc n0).
  destruct (rev (headers (n_acc n0))) as [|h t]; [ens E|]. destruct (local (n_acc n0)) as [pc|]; [|exact I].
  destruct (base_tf p e h) as [tf|]; [|ens E]. destruct (get_origins _ _) as [os|]; cbn [bind]; [|ens E].
  match goal with |- context [set_acc n0 ?x] => set (ac' := x) end. change (set_acc (set_pf n0 f) ac') with (set_pf (set_acc n0 ac') f).
  clearbody ac'. change (n_pf n0) with (n_pf (set_acc n0 ac')) in E. revert E. generalize (set_acc n0 ac') as n1. intros n1 E.
  rewrite (statistics_pf n1 f e E). destruct (statistics p n1 e); [|exact I..]. cbn [bind]. rewrite (filters_pf n1 f e _ E).
  assert (P : forall full, n_pf (fst (fst (filters p n1 e full))) = n_pf n1) by reflexivity.
  specialize (P (voxel (ds_x p, ds_y p, ds_z p) (to_base tf pc))).
  destruct (filters p n1 e _) as [[n2 bp] lp]. cbn [fst] in P. rewrite <- P in E. destruct lp as [|x1 lp]; [|apply localize_pf; assumption].
  unfold force_update, points_lost. cbn [n_out n_pf n_map n_odom n_imu set_pf set_stat set_out stat s_status s_error s_conv s_match s_size].
  rewrite (entropy_cong f (n_pf n2) E). apply sim_of_ok. unfold en. cbn [n_pf set_pf set_stat set_out]. rewrite E. reflexivity.
Qed.
Lemma callbacks_pf e cs : blind (e_sort e) -> blind (e_sort2 e) -> forall n f, erf f = erf (n_pf n) ->
  simx (callbacks caster voxel p e n cs) (callbacks caster voxel p e (set_pf n f) cs).
Proof.
  intros B B2. induction cs as [|k t IH]; intros n f E; [ens E|]. cbn [callbacks].
  assert (K : simx (callback caster voxel p e n k) (callback caster voxel p e (set_pf n f) k)).
  { destruct k as [ |m ok| ]; cbn [callback]; [apply measure_pf; assumption| |ens E].
    unfold accumCloud. change (n_acc (set_pf n f)) with (n_acc n). cbv zeta.
    destruct (cm_pts p m); [|ens E]. destruct (local (n_acc n)); [|exact I]. cbn [bind].
    ens E. }
  destruct (callback caster voxel p e n k) as [[n1 o1]| | |], (callback caster voxel p e (set_pf n f) k) as [[m1 o1']| | |]; try exact K; try contradiction.
  destruct K as [K <-]. cbn [bind]. apply en_inv in K. destruct K as [-> K]. specialize (IH n1 (n_pf m1) K).
  destruct (callbacks caster voxel p e n1 t) as [[n2 o2]| | |], (callbacks caster voxel p e (set_pf n1 (n_pf m1)) t) as [[m2 o2']| | |];
    try exact IH; try contradiction. destruct IH as [A <-]. cbn [bind]. split; [exact A|reflexivity].
Qed.
Lemma measure_q n e : measure caster voxel q n e = measure caster voxel p n e.
Proof. reflexivity. Qed.
Lemma callbacks_q e cs : forall n, callbacks caster voxel q e n cs = callbacks caster voxel p e n cs.
Proof.
  induction cs as [|k t IH]; intro n; [reflexivity|]. cbn [callbacks].
  replace (callback caster voxel q e n k) with (callback caster voxel p e n k) by (destruct k; cbn [callback]; [rewrite measure_q|..]; reflexivity).
  destruct (callback caster voxel p e n k) as [[n1 o1]| | |]; [|reflexivity..]. cbn [bind]. rewrite IH. reflexivity.
Qed.
Lemma cloud_q n m e : cbCloud caster voxel q n m e = cbCloud caster voxel p n m e.
Proof.
  unfold cbCloud. change (push_calls q) with (push_calls p). destruct (has_map (n_map n)); [|reflexivity].
  destruct (push_calls p _ m) as [[a cs]| | |]; [|reflexivity..]. cbn [bind]. rewrite callbacks_q. reflexivity.
Qed.
Lemma cloud_pf n f m e : blind (e_sort e) -> blind (e_sort2 e) -> erf f = erf (n_pf n) ->
  simx (cbCloud caster voxel p n m e) (cbCloud caster voxel p (set_pf n f) m e).
Proof.
  intros B B2 E. unfold cbCloud. change (has_map (n_map (set_pf n f))) with (has_map (n_map n)). cbv zeta.
  change (set_stat (set_pf n f) status0) with (set_pf (set_stat n status0) f). change (n_pf n) with (n_pf (set_stat n status0)) in E.
  destruct (has_map (n_map n)); [|apply sim_of_ok, en_pf, E]. change (n_acc (set_pf (set_stat n status0) f)) with (n_acc (set_stat n status0)).
  destruct (push_calls p _ m) as [[a cs]| | |]; [|exact I..]. cbn [bind].
  pose proof (callbacks_pf e cs B B2 (set_stat n status0) f E) as K.
  destruct (callbacks caster voxel p e (set_stat n status0) cs) as [[n1 o1]| | |], (callbacks caster voxel p e (set_pf (set_stat n status0) f) cs) as [[m1 o1']| | |];
    try exact K; try contradiction. destruct K as [K <-]. cbn [bind]. apply sim_of_ok.
  transitivity (set_acc (en n1) {| ac := a; local := local (n_acc (en n1)); headers := headers (n_acc (en n1)) |}); [reflexivity|].
  rewrite K. reflexivity.
Qed.
Lemma motion_er mm mm' s : m_lin_tc mm = m_lin_tc mm' -> rel_tr mm = rel_tr mm' -> rel_quat mm = rel_quat mm' -> rel_norm mm = rel_norm mm' ->
  rel_ang mm = rel_ang mm' -> time_diff mm = time_diff mm' -> er (motion_predict mm s) = er (motion_predict mm' (er s)).
Proof. intros E1 E2 E3 E4 E5 E6. unfold motion_predict, er. cbn. rewrite E1, E2, E3, E4, E5, E6. reflexivity. Qed.
Lemma odom_pf n f st x : erf f = erf (n_pf n) ->
  en (fst (odom_apply q n st x)) = en (fst (odom_apply p (set_pf n f) st x)) /\ snd (odom_apply q n st x) = snd (odom_apply p (set_pf n f) st x).
Proof.
  intro E. unfold odom_apply. change (n_odom (set_pf n f)) with (n_odom n). change (n_pf (set_pf n f)) with f. cbv zeta.
  destruct (negb _); [split; [unfold en; cbn [fst n_pf set_pf set_odom]; rewrite E|]; reflexivity|].
  destruct (_ || _); [split; [unfold en; cbn [fst n_pf set_pf set_odom]; rewrite E|]; reflexivity|].
  destruct (Rltb _ _); (split; [|reflexivity]); unfold en; cbn [fst n_pf set_pf set_odom]; [|rewrite E; reflexivity].
  change (integ_lin_tc q) with (integ_lin_tc p).
  assert (X : erf (PfModel.predict RA (fun _ : nat => motion_predict (setOdoms (integ_lin_tc p) (integ_ang_tc q) (odom_prev (n_odom n)) x (st - odom_last (n_odom n)))) (n_pf n))
            = erf (PfModel.predict RA (fun _ : nat => motion_predict (setOdoms (integ_lin_tc p) (integ_ang_tc p) (odom_prev (n_odom n)) x (st - odom_last (n_odom n)))) f)).
  { apply predict_cong; [intros i s; apply motion_er; reflexivity..|symmetry; exact E]. }
  rewrite X. reflexivity.
Qed.
Lemma imu_pf n f st a x tf : erf f = erf (n_pf n) ->
  en (fst (imu_apply q n st a x tf)) = en (fst (imu_apply p (set_pf n f) st a x tf)) /\ snd (imu_apply q n st a x tf) = snd (imu_apply p (set_pf n f) st a x tf).
Proof.
  intro E. unfold imu_apply. change (n_imu (set_pf n f)) with (n_imu n). change (n_pf (set_pf n f)) with f. change (acc_var q) with (acc_var p). cbv zeta.
  destruct (negb _); [split; [unfold en; cbn [fst n_pf set_pf set_imu]; rewrite E|]; reflexivity|].
  destruct (_ || _); [split; [unfold en; cbn [fst n_pf set_pf set_imu]; rewrite E|]; reflexivity|].
  destruct (Rltb _ _); [|split; [unfold en; cbn [fst n_pf set_pf set_imu]; rewrite E|]; reflexivity].
  destruct tf as [t|]; (split; [|reflexivity]); unfold en; cbn [fst n_pf set_pf set_imu]; [|rewrite E; reflexivity].
  match goal with |- context [PfModel.measure RA ?l f] => set (lik := l) end.
  assert (X : erf (PfModel.measure RA lik f) = erf (PfModel.measure RA lik (n_pf n))) by (apply measure_cong; [reflexivity|exact E]).
  rewrite X. reflexivity.
Qed.
Lemma timer_pf n f now : erf f = erf (n_pf n) -> simx (cbMapUpdateTimer n now) (cbMapUpdateTimer (set_pf n f) now).
Proof.
  intro E. unfold cbMapUpdateTimer. change (n_map (set_pf n f)) with (n_map n). destruct (timer_map (n_map n) now) as [[m o]| | |]; [|exact I..].
  cbn [bind]. apply sim_of_ok. unfold en. cbn [n_pf set_map set_pf]. rewrite E. reflexivity.
Qed.
Lemma load_pf n f st pts now : erf f = erf (n_pf n) -> simx (loadMapCloud voxel q n st pts now) (loadMapCloud voxel p (set_pf n f) st pts now).
Proof. intro E. unfold loadMapCloud. cbn zeta. apply (timer_pf (set_acc (set_map n _) _) f now E). Qed.
Lemma event_pf n f ev : blind_event ev -> erf f = erf (n_pf n) -> simx (step caster voxel q n ev) (step caster voxel p (set_pf n f) ev).
Proof.
  intros B E. destruct ev; cbn [step blind_event] in *.
  - unfold cbMapcloud. destruct conv; [apply load_pf, E|]. apply sim_of_ok. unfold en. cbn [n_pf drop_map set_map set_pf]. rewrite E. reflexivity.
  - unfold cbLoadPCD. destruct file as [pts|]; [|apply sim_of_ok; unfold en; cbn [n_pf drop_map set_map set_pf]; rewrite E; reflexivity].
    pose proof (load_pf n f now pts now E) as K. destruct (loadMapCloud voxel q n now pts now) as [[a o]| | |], (loadMapCloud voxel p (set_pf n f) now pts now) as [[b o']| | |];
      try contradiction; try exact I. destruct K as [K <-]. apply sim_of_ok, K.
  - unfold cbMapcloudUpdate. destruct conv; apply sim_of_ok; unfold en; cbn [n_pf set_map set_pf]; rewrite E; reflexivity.
  - apply timer_pf, E.
  - unfold cbPosition. destruct (Rltb _ _); [apply sim_of_ok, en_pf, E|]. change (pose_in_map q) with (pose_in_map p).
    destruct (pose_in_map p lk m) as [mean|]; [|apply sim_of_ok, en_pf, E]. cbv zeta.
    change (n_pf (set_pf n f)) with f. change (n_map (set_pf n f)) with (n_map n).
    set (g := PfModel.predict RA (fun _ => reset_err) (PfModel.init RA _ (n_pf n))). set (g' := PfModel.predict RA (fun _ => reset_err) (PfModel.init RA _ f)).
    assert (X : erf g' = erf g) by (apply predict_cong; [reflexivity..|]; apply init_cong, E). clearbody g g'.
    change (set_pf (set_map (set_pf n f) (drop_update (n_map n))) g') with (set_pf (set_pf (set_map n (drop_update (n_map n))) g) g').
    rewrite particles_pf by exact X. change (publishParticles q) with (publishParticles (S := S) p). split; [|reflexivity]. apply en_pf, X.
  - unfold cbOdom. destruct (odom_pf n f stamp pose E) as [K1 K2].
    destruct (odom_apply q n stamp pose) as [n1 go], (odom_apply p (set_pf n f) stamp pose) as [m1 go']. cbn [fst snd] in K1, K2. subst go'.
    change (fake_imu q) with (fake_imu p). change (fake_odom q) with (fake_odom p).
    destruct (go && fake_imu p); [|apply sim_of_ok, K1]. apply en_inv in K1. destruct K1 as [K0 K1]. rewrite K0.
    change (imu_tf q) with (imu_tf p). destruct (imu_pf n1 (n_pf m1) stamp (qrot (rot pose) (V3 0 0 1)) (rot pose) (imu_tf p lk frame) K1) as [K3 K4].
    destruct (imu_apply q n1 _ _ _ _) as [n2 go2], (imu_apply p (set_pf n1 (n_pf m1)) _ _ _ _) as [m2 go2']. cbn [fst snd] in K3, K4. subst go2'.
    destruct (go2 && fake_odom p); [exact I|apply sim_of_ok, K3].
  - unfold cbImu. change (imu_tf q) with (imu_tf p). destruct (imu_pf n f stamp acc orient (imu_tf p lk frame) E) as [K1 K2].
    destruct (imu_apply q n _ _ _ _) as [n1 go], (imu_apply p (set_pf n f) _ _ _ _) as [m1 go']. cbn [fst snd] in K1, K2. subst go'.
    change (fake_imu q) with (fake_imu p). change (fake_odom q) with (fake_odom p).
    destruct (go && fake_odom p); [|apply sim_of_ok, K1]. apply en_inv in K1. destruct K1 as [K0 K1]. rewrite K0.
    change (n_imu (set_pf n1 (n_pf m1))) with (n_imu n1).
    destruct (odom_pf n1 (n_pf m1) stamp (state_pr v0 (imu_quat (n_imu n1))) K1) as [K3 K4].
    destruct (odom_apply q n1 _ _) as [n2 go2], (odom_apply p (set_pf n1 (n_pf m1)) _ _) as [m2 go2']. cbn [fst snd] in K3, K4. subst go2'.
    destruct (go2 && fake_imu p); [exact I|apply sim_of_ok, K3].
  - rewrite cloud_q. apply cloud_pf; [apply B..|exact E].
  - unfold cbLandmark. cbn zeta. change (n_pf (set_pf n f)) with f. change (resample_noise q) with (resample_noise p).
    match goal with |- context [PfModel.measure RA ?l f] => set (lik := l) end.
    assert (X : erf (PfModel.measure RA lik f) = erf (PfModel.measure RA lik (n_pf n))) by (apply measure_cong; [reflexivity|exact E]).
    revert X. generalize (PfModel.measure RA lik f) as f1, (PfModel.measure RA lik (n_pf n)) as g1. intros f1 g1 X.
    pose proof (resample_cong srt (offset : RA) (resample_noise p z) f1 g1 B X) as R.
    destruct (PfModel.resample RA splus normalize _ _ (sorted_dup srt f1) f1) as [a|], (PfModel.resample RA splus normalize _ _ (sorted_dup srt g1) g1) as [b|];
      cbn [option_map] in R; try discriminate; [|exact I]. assert (R' : erf a = erf b) by congruence. cbn [bind of_option].
    change (set_pf (set_pf n f) a) with (set_pf (set_pf n b) a). rewrite particles_pf by exact R'. split; [|reflexivity]. apply en_pf, R'.
  - unfold cbResizeParticle. change (n_pf (set_pf n f)) with f. pose proof (resize_cong srt size f (n_pf n) B E) as R.
    destruct (PfModel.resize RA state0 (sorted_dup srt f) _ f) as [a|], (PfModel.resize RA state0 (sorted_dup srt (n_pf n)) _ (n_pf n)) as [b|];
      cbn [option_map] in R; try discriminate; [|exact I]. assert (R' : erf a = erf b) by congruence. cbn [bind of_option]. cbv zeta.
    change (set_pf (set_pf n f) a) with (set_pf (set_pf n b) a). rewrite particles_pf by exact R'. split; [|reflexivity]. apply en_pf, R'.
  - unfold cbExpansionReset. cbv zeta. change (n_pf (set_pf n f)) with f. change (expansion_noise q) with (expansion_noise p).
    assert (X : erf (PfModel.add_noise RA splus (expansion_noise p z) f) = erf (PfModel.add_noise RA splus (expansion_noise p z) (n_pf n))) by (apply add_noise_cong, E).
    revert X. generalize (PfModel.add_noise RA splus (expansion_noise p z) f) as a, (PfModel.add_noise RA splus (expansion_noise p z) (n_pf n)) as b. intros a b X.
    change (set_pf (set_pf n f) a) with (set_pf (set_pf n b) a). rewrite particles_pf by exact X. split; [|reflexivity]. apply en_pf, X.
  - unfold cbGlobalLocalization. change (n_map (set_pf n f)) with (n_map n). change (n_pf (set_pf n f)) with f.
    change (n_imu (set_pf n f)) with (n_imu n).
    destruct (has_map (n_map n)); [|apply sim_of_ok, en_pf, E]. destruct (get_obj _ _); [|exact I..]. cbn [bind]. cbv zeta.
    change (keep_floor q) with (keep_floor p). change (glob_grid q) with (glob_grid p). change (glob_num q) with (glob_num p). change (glob_div_yaw q) with (glob_div_yaw p).
    set (pts := keep_floor p _ _). clearbody pts. pose proof (resize_cong srt (glob_num p (length pts)) f (n_pf n) B E) as R.
    destruct (PfModel.resize RA state0 (sorted_dup srt f) _ f) as [a|], (PfModel.resize RA state0 (sorted_dup srt (n_pf n)) _ (n_pf n)) as [b|];
      cbn [option_map] in R; try discriminate; [|exact I]. assert (R' : erf a = erf b) by congruence. cbn [bind of_option].
    pose proof (fill_cong (imu_quat (n_imu n)) (1 / INR (length pts)) (glob_div_yaw p) a b R' pts 0%Z) as G.
    destruct (fill _ _ _ (PfModel.parts RA a) pts 0) as [ga|], (fill _ _ _ (PfModel.parts RA b) pts 0) as [gb|]; cbn [option_map] in G; try discriminate; [|exact I].
    cbn [bind of_option]. assert (G' : map erp ga = map erp gb) by congruence.
    assert (LG : length ga = length gb) by (apply (f_equal (@length prt)) in G'; rewrite !map_length in G'; exact G'). rewrite LG. apply sim_of_ok.
    unfold en, erf. cbn [n_pf set_pf PfModel.parts PfModel.entropy]. rewrite G', (entropy_cong a b R'). reflexivity.
Qed.
(** ** C117 *)
(** Two nodes that differ in the three settings only: whatever happens, they fail in the same
    way or publish the same, and their states differ in the integrals of the rotational error
    only, which nothing reads. *)
Theorem C117_steps n evs : Forall blind_event evs ->
  match steps caster voxel q n evs, steps caster voxel p n evs with
  | Ok (n1, o1), Ok (n2, o2) => en n1 = en n2 /\ o1 = o2
  | Null, Null | Undef, Undef | Fuel, Fuel => True
  | _, _ => False
  end.
Proof.
  intro B. assert (X : forall (n1 n2 : node), en n1 = en n2 -> simx (steps caster voxel q n1 evs) (steps caster voxel p n2 evs)).
  { induction B as [|ev t Hb B IH]; intros n1 n2 E; [apply sim_of_ok, E|]. cbn [steps]. apply en_inv in E. destruct E as [E0 E]. rewrite E0.
    pose proof (event_pf n1 (n_pf n2) ev Hb E) as K.
    destruct (step caster voxel q n1 ev) as [[a o]| | |], (step caster voxel p (set_pf n1 (n_pf n2)) ev) as [[b o']| | |]; try contradiction; try exact I.
    destruct K as [K <-]. cbn [bind]. specialize (IH a b K).
    destruct (steps caster voxel q a t) as [[a2 o2]| | |], (steps caster voxel p b t) as [[b2 o2']| | |]; try contradiction; try exact I.
    destruct IH as [IH <-]. cbn [bind]. apply sim_of_ok, IH. }
  exact (X n n eq_refl).
Qed.
End Unused.
(** ** The parameters on the server *)
Definition ang_names : list string := ["odom_err_integ_ang_tc"; "odom_err_integ_ang_sigma"]%string.
Lemma load_ang rf fi fo cfg s s2 : Forall (fun k => ~ In k ang_names -> s2 k = s k) read_keys ->
  let p := load_params rf fi fo cfg s in
  load_params rf fi fo cfg s2 = set_ang p (param to_double s2 "odom_err_integ_ang_tc" 10) (param to_double s2 "odom_err_integ_ang_sigma" 100) (map_grid_max p).
Proof.
  intro H. assert (K : Forall (fun k => s2 k = if existsb (String.eqb k) ang_names then s2 k else s k) read_keys).
  { rewrite Forall_forall in *. intros k Hin. specialize (H k Hin). destruct (existsb (String.eqb k) ang_names) eqn:E; [reflexivity|]. apply H.
    intro C. assert (existsb (String.eqb k) ang_names = true) by (apply existsb_exists; exists k; split; [exact C|apply String.eqb_refl]). congruence. }
  rewrite (load_reads rf fi fo cfg s2 _ K). 
  cbv zeta. set (s3 := fun k : string => if existsb (String.eqb k) ang_names then s2 k else s k).
  assert (O : forall {X} (f : pval -> option X) k d, existsb (String.eqb k) ang_names = false -> param f s3 k d = param f s k d).
  { intros X f k d E. unfold param, s3. rewrite E. reflexivity. }
  assert (D : forall b, load_dda rf s3 b = load_dda rf s b) by (intro b; reflexivity).
  unfold load_params. cbv zeta. 
  change (load_dda rf s3 (load_beam rf s3 (param to_double s3 "map_downsample_x" (1 / 10)) (param to_double s3 "map_downsample_y" (1 / 10)) (param to_double s3 "map_downsample_z" (1 / 10))))
    with (load_dda rf s (load_beam rf s (param to_double s "map_downsample_x" (1 / 10)) (param to_double s "map_downsample_y" (1 / 10)) (param to_double s "map_downsample_z" (1 / 10)))).
  destruct (load_dda rf s _) as [[u a] g]. clear. subst s3. reflexivity.
Qed.
(** The two parameters have no effect: with any other values on the parameter server the node
    starts, and from the same start the same history gives the same outputs. *)
Theorem C117_parameters {S} (caster : cloud -> (pt -> R -> search) -> raycaster S) voxel rf junk cfg s k v p1 s1 :
  In k ang_names -> load rf junk cfg s = Some (p1, s1) ->
  exists p2 s2, load rf junk cfg (set_param k v s) = Some (p2, s2)
  /\ forall gen rc0 evs, Forall blind_event evs ->
     match steps caster voxel p1 (configure p1 gen rc0) evs, steps caster voxel p2 (configure p2 gen rc0) evs with
     | Ok (_, o1), Ok (_, o2) => o1 = o2
     | Null, Null | Undef, Undef | Fuel, Fuel => True
     | _, _ => False
     end.
Proof.
  intros Hk L1.
  assert (L2 : exists p2 s2, load rf junk cfg (set_param k v s) = Some (p2, s2)).
  { unfold load in L1 |- *. assert (F : forall f, In f ["fake_imu"; "fake_odom"]%string -> param to_bool (set_param k v s) f false = param to_bool s f false).
    { intros f Hf. unfold param. rewrite set_other; [reflexivity|]. destruct Hf as [<-|[<-|[]]], Hk as [<-|[<-|[]]]; discriminate. }
    rewrite (F "fake_imu"%string), (F "fake_odom"%string) by (cbn; auto). destruct (_ && _); [discriminate L1|]. eauto. }
  destruct L2 as (p2 & s2 & L2). exists p2, s2. split; [exact L2|]. intros gen rc0 evs B.
  assert (E : exists tc sigma gmax, p2 = set_ang p1 tc sigma gmax).
  { apply load_some in L1. destruct L1 as [E1 ->]. apply load_some in L2. destruct L2 as [E2 ->].
    assert (F : forall f, In f ["fake_imu"; "fake_odom"]%string -> param to_bool (set_param k v s) f false = param to_bool s f false).
    { intros f Hf. unfold param. rewrite set_other; [reflexivity|]. destruct Hf as [<-|[<-|[]]], Hk as [<-|[<-|[]]]; discriminate. }
    rewrite (F "fake_imu"%string), (F "fake_odom"%string) by (cbn; auto).
    eexists _, _, _. apply load_ang. apply Forall_forall. intros k' Hin Hn. rewrite E1, E2. apply rename_other; [intros ->; contradiction|].
    intro C. assert (Q : forallb (fun x => negb (existsb (String.eqb (snd x)) ang_names)) renames = true) by (vm_compute; reflexivity).
    rewrite forallb_forall in Q. specialize (Q _ C). cbn [snd] in Q. apply negb_true_iff in Q.
    assert (existsb (String.eqb k) ang_names = true) by (apply existsb_exists; exists k; split; [exact Hk|apply String.eqb_refl]). congruence. }
  clear L1 L2. destruct E as (tc & sigma & gmax & ->).
  change (configure (set_ang p1 tc sigma gmax) gen rc0) with (configure p1 gen rc0).
  pose proof (C117_steps caster voxel p1 tc sigma gmax (configure p1 gen rc0) evs B) as K.
  destruct (steps caster voxel (set_ang p1 tc sigma gmax) _ evs) as [[a o]| | |], (steps caster voxel p1 _ evs) as [[b o']| | |]; try exact K.
  destruct K as [_ ->]. reflexivity.
Qed.

(** ** Examples *)
Lemma isort_blind : blind isort.
Proof.
  intros g l. induction l as [|x t IH]; [reflexivity|]. cbn [isort fold_right map]. change (fold_right ins [] t) with (isort t).
  change (fold_right ins [] (map (fun x => (fst x, g (snd x))) t)) with (isort (map (fun x => (fst x, g (snd x))) t)). rewrite IH.
  generalize (isort t) as m. induction m as [|y m IHm]; [reflexivity|]. cbn [map ins fst].
  destruct (Rltb (fst y) (fst x)); cbn [map]; [rewrite IHm|]; reflexivity.
Qed.
(** a run with clouds that are localized, a sorting function that is blind, and a node whose
    particles have integrals of the rotational error *)
Example C117_nonvacuous : exists k n o, steps demo_caster demo_voxel demo demo_init (map (with_fuel_ev k) demo_events) = Ok (n, o)
  /\ Forall blind_event (map (with_fuel_ev k) demo_events)
  /\ (forall tc, exists n', steps demo_caster demo_voxel (set_ang demo tc 1 1) demo_init (map (with_fuel_ev k) demo_events) = Ok (n', o))
  /\ err_ang (motion_predict (setOdoms 10 10 state0 (state_pr (V3 1 0 0) q1) 1)
       {| pos := v0; rot := q1; diff := false; noise_ll := 0; noise_la := 1; noise_al := 0; noise_aa := 0; err_lin := v0; err_ang := v0; rpy := v0 |}) <> v0.
Proof.
  destruct demo_trace as (k & n & o & tr & x & Hs & _).
  assert (B : Forall blind_event (map (with_fuel_ev k) demo_events)).
  { repeat constructor; exact isort_blind. }
  exists k, n, o. split; [exact Hs|]. split; [exact B|]. split.
  - intro tc. pose proof (C117_steps demo_caster demo_voxel demo tc 1 1 demo_init _ B) as K. rewrite Hs in K.
    destruct (steps demo_caster demo_voxel (set_ang demo tc 1 1) demo_init _) as [[a o']| | |]; try contradiction. destruct K as [_ ->]. eauto.
  - set (mm := setOdoms 10 10 state0 (state_pr (V3 1 0 0) q1) 1).
    assert (I1 : QuatModel.inv q1 = q1) by (rewrite <- (qmul_1_r (QuatModel.inv q1)); apply inv_l; unfold nonzero_quat, q1, qdot; cbn [qx qy qz qw]; lra).
    assert (N : rel_norm mm = 1).
    { subst mm. unfold setOdoms. cbv zeta. cbn [rel_norm rot pos state0 state_pr]. rewrite I1, qrot_1.
      replace (vsub (V3 1 0 0) v0) with (V3 1 0 0) by (unfold vsub, v0; cbn [vx vy vz]; f_equal; lra).
      unfold vnorm, vdot. cbn [vx vy vz]. replace (1 * 1 + 0 * 0 + 0 * 0) with 1 by lra. apply sqrt_1. }
    assert (T : time_diff mm = 1 /\ m_ang_tc mm = 10) by (split; reflexivity). destruct T as [T1 T2]. clearbody mm.
    intro C. apply (f_equal vz) in C. unfold motion_predict in C. cbv zeta in C. cbn [err_ang noise_la noise_aa] in C. rewrite N, T1, T2 in C.
    unfold vscale, vadd, v0 in C. cbn [vz] in C. lra.
Qed.
