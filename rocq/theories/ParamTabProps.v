(** Property theorems C116: which parameter sets what.  The tables are written from
    /repo/doc/Parameters.md, /repo/README.md and the names of /repo/src/parameters.cpp. *)
From Coq Require Import String.
From Coq Require Import Reals ZArith NArith List Bool Lra Lia.
From Verif Require Import Arith KdModel QuatModel StateModel LidarModel ParamModel ParamProps.
Import ListNotations.
Open Scope string_scope.
Open Scope R_scope.
Open Scope list_scope.

(** ** Specification: name of the parameter, default, setting *)
(** the settings that are doubles, with the documented default *)
Definition doubles : list (string * R * (params -> R)) :=
  [("map_downsample_x", 1/10, map_ds_x);
   ("map_downsample_y", 1/10, map_ds_y);
   ("map_downsample_z", 1/10, map_ds_z);
   ("downsample_x", 1/10, ds_x);
   ("downsample_y", 1/10, ds_y);
   ("downsample_z", 5/100, ds_z);
   ("update_downsample_x", 3/10, upd_ds_x);
   ("update_downsample_y", 3/10, upd_ds_y);
   ("update_downsample_z", 3/10, upd_ds_z);
   ("map_update_interval_interval", 2, map_update_interval);
   ("global_localization_grid_lin", 3/10, glob_grid);
   ("resample_var_x", 5/100, fun p => nth 0 (resample_var p) 0);
   ("resample_var_y", 5/100, fun p => nth 1 (resample_var p) 0);
   ("resample_var_z", 5/100, fun p => nth 2 (resample_var p) 0);
   ("resample_var_roll", 5/100, fun p => nth 3 (resample_var p) 0);
   ("resample_var_pitch", 5/100, fun p => nth 4 (resample_var p) 0);
   ("resample_var_yaw", 5/100, fun p => nth 5 (resample_var p) 0);
   ("expansion_var_x", 2/10, fun p => nth 0 (expansion_var p) 0);
   ("expansion_var_y", 2/10, fun p => nth 1 (expansion_var p) 0);
   ("expansion_var_z", 2/10, fun p => nth 2 (expansion_var p) 0);
   ("expansion_var_roll", 5/100, fun p => nth 3 (expansion_var p) 0);
   ("expansion_var_pitch", 5/100, fun p => nth 4 (expansion_var p) 0);
   ("expansion_var_yaw", 5/100, fun p => nth 5 (expansion_var p) 0);
   ("match_ratio_thresh", 0, match_ratio_thresh);
   ("odom_err_lin_lin", 1/10, odom_err_ll);
   ("odom_err_lin_ang", 5/100, odom_err_la);
   ("odom_err_ang_lin", 5/100, odom_err_al);
   ("odom_err_ang_ang", 5/100, odom_err_aa);
   ("odom_err_integ_lin_tc", 10, integ_lin_tc);
   ("odom_err_integ_lin_sigma", 100, integ_lin_sigma);
   ("odom_err_integ_ang_tc", 10, integ_ang_tc);
   ("odom_err_integ_ang_sigma", 100, integ_ang_sigma);
   ("lpf_step", 16, lpf_step);
   ("acc_lpf_step", 128, acc_lpf_step);
   ("acc_var", PI/4, acc_var);
   ("jump_dist", 1, jump_dist);
   ("jump_ang", 157/100, jump_ang);
   ("fix_dist", 2/10, fix_dist);
   ("fix_ang", 1/10, fix_ang);
   ("bias_var_dist", 2, bias_var_dist);
   ("bias_var_ang", 157/100, bias_var_ang);
   ("match_output_interval_interval", 2/10, match_output_interval);
   ("tf_tolerance", 5/100, tf_tolerance);
   ("match_output_dist", 1/10, match_output_dist);
   ("unmatch_output_dist", 5/10, unmatch_output_dist);
   ("map_chunk", 20, map_chunk);
   ("init_x", 0, fun p => vx (pos (initial_pose p)));
   ("init_y", 0, fun p => vy (pos (initial_pose p)));
   ("init_z", 0, fun p => vz (pos (initial_pose p)));
   ("init_var_x", 2, fun p => vx (pos (initial_pose_std p)));
   ("init_var_y", 2, fun p => vy (pos (initial_pose_std p)));
   ("init_var_z", 1/2, fun p => vz (pos (initial_pose_std p)));
   ("init_var_roll", 1/10, fun p => vx (rpy (initial_pose_std p)));
   ("init_var_pitch", 1/10, fun p => vy (rpy (initial_pose_std p)));
   ("init_var_yaw", 1/2, fun p => vz (rpy (initial_pose_std p)))].

(** the settings that are floats *)
Definition floats : list (string * R * (params -> R)) :=
  [("dist_weight_x", 1, fun p => fst (fst (fst (dist_weight p))));
   ("dist_weight_y", 1, fun p => snd (fst (fst (dist_weight p))));
   ("dist_weight_z", 5, fun p => snd (fst (dist_weight p)));
   ("likelihood/clip_near", 1/2, fun p => lp_near (p_like p));
   ("likelihood/clip_far", 10, fun p => lp_far (p_like p));
   ("likelihood/clip_z_min", -2, fun p => lp_zmin (p_like p));
   ("likelihood/clip_z_max", 2, fun p => lp_zmax (p_like p));
   ("likelihood/match_weight", 5, fun p => lp_weight (p_like p));
   ("likelihood/match_dist_min", 2/10, fun p => lp_dist_min (p_like p));
   ("likelihood/match_dist_flat", 5/100, fun p => lp_dist_flat (p_like p));
   ("beam/clip_near", 1/2, fun p => bp_near (p_beam p));
   ("beam/clip_far", 4, fun p => bp_far (p_beam p));
   ("beam/clip_z_min", -2, fun p => bp_zmin (p_beam p));
   ("beam/clip_z_max", 2, fun p => bp_zmax (p_beam p));
   ("beam/beam_likelihood", 2/10, fun p => bp_alpha (p_beam p));
   ("beam/ang_total_ref", PI/6, fun p => bp_ang_total_ref (p_beam p));
   ("beam/hit_range", 3/10, fun p => bp_hit_range (p_beam p))].

(** the settings that are integers *)
Definition ints : list (string * Z * (params -> Z)) :=
  [("num_particles", 64%Z, num_particles);
   ("skip_measure", 1%Z, skip_measure);
   ("accum_cloud", 1%Z, accum_cloud)].

(** the settings that are numbers of points *)
Definition counts : list (string * Z * (params -> N)) :=
  [("likelihood/num_points", 96%Z, fun p => lp_default (p_like p));
   ("likelihood/num_points_global", 8%Z, fun p => lp_global (p_like p));
   ("beam/num_points", 3%Z, fun p => bp_default (p_beam p));
   ("beam/num_points_global", 0%Z, fun p => bp_global (p_beam p))].

(** the settings that are booleans *)
Definition bools : list (string * bool * (params -> bool)) :=
  [("publish_tf", true, publish_tf);
   ("output_pcd", false, output_pcd);
   ("use_random_sampler_with_normal", false, use_sampler_normal);
   ("beam/add_penalty_short_only_mode", true, fun p => bp_short_only (p_beam p));
   ("beam/use_raycast_using_dda", false, use_dda)].

(** the settings that are frame names *)
Definition strings : list (string * string * (params -> string)) :=
  [("map_frame", "map"%string, frame_map);
   ("robot_frame", "base_link"%string, frame_base);
   ("odom_frame", "odom"%string, frame_odom);
   ("floor_frame", "floor"%string, frame_floor)].
Definition row_name {X Y} (x : string * X * (params -> Y)) : string := fst (fst x).
Definition table_names : list string :=
  map row_name doubles ++ map row_name floats ++ map row_name ints ++ map row_name counts ++ map row_name bools ++ map row_name strings.
(** the defaults of doc/Parameters.md *)
Definition documented : list (string * R) :=
  [("match_ratio_thresh", 0); ("expansion_var_x", 2 / 10); ("expansion_var_y", 2 / 10); ("expansion_var_z", 2 / 10);
   ("expansion_var_roll", 5 / 100); ("expansion_var_pitch", 5 / 100); ("expansion_var_yaw", 5 / 100);
   ("odom_err_lin_lin", 1 / 10); ("odom_err_lin_ang", 5 / 100); ("odom_err_ang_lin", 5 / 100); ("odom_err_ang_ang", 5 / 100);
   ("odom_err_integ_lin_tc", 10); ("odom_err_integ_lin_sigma", 100); ("odom_err_integ_ang_tc", 10); ("odom_err_integ_ang_sigma", 100)].
(** the names doc/Parameters.md uses for the settings of the likelihood model *)
Definition documented_short : list (string * string * R) :=
  [("match_dist_min", "likelihood/match_dist_min", 2 / 10); ("match_dist_flat", "likelihood/match_dist_flat", 5 / 100)].

(** ** C116 *)
Lemma load_some rf junk cfg s p s' : load rf junk cfg s = Some (p, s') ->
  s' = rename_all junk s /\ p = load_params rf (param to_bool s "fake_imu" false) (param to_bool s "fake_odom" false) cfg s'.
Proof.
  unfold load. cbv zeta. generalize (rename_all junk s). intros s1 H. destruct (_ && _); [discriminate|].
  assert (A : s1 = s') by congruence. subst s1.
  apply (f_equal (fun x => match x with Some (a, _) => a | None => p end)) in H. auto.
Qed.
(** Every setting of the tables has the value of its own parameter, or its default if the
    parameter is not set or has another type. *)
Theorem C116_settings rf junk cfg s p s' : load rf junk cfg s = Some (p, s') ->
  Forall (fun '(k, d, get) => get p = param to_double s' k d) doubles
  /\ Forall (fun '(k, d, get) => get p = rf (param to_double s' k d)) floats
  /\ Forall (fun '(k, d, get) => get p = param to_int s' k d) ints
  /\ Forall (fun '(k, d, get) => get p = int_to_size (param to_int s' k d)) counts
  /\ Forall (fun '(k, d, get) => get p = param to_bool s' k d) bools
  /\ Forall (fun '(k, d, get) => get p = param to_string s' k d) strings
  /\ fake_imu p = param to_bool s "fake_imu" false /\ fake_odom p = param to_bool s "fake_odom" false.
Proof.
  intro H. apply load_some in H. destruct H as [_ ->]. generalize (param to_bool s "fake_imu" false) as fi.
  generalize (param to_bool s "fake_odom" false) as fo. intros fo fi.
  unfold load_params. cbv zeta.
  assert (U : fst (fst (load_dda rf s' (load_beam rf s' (param to_double s' "map_downsample_x" (1 / 10))
      (param to_double s' "map_downsample_y" (1 / 10)) (param to_double s' "map_downsample_z" (1 / 10))))) = param to_bool s' "beam/use_raycast_using_dda" false).
  { unfold load_dda. cbv zeta. destruct (param to_bool s' "beam/use_raycast_using_dda" false); reflexivity. }
  destruct (load_dda rf s' _) as [[use angle] grid]. cbn [fst] in U. rewrite U. clear U.
  unfold doubles, floats, ints, counts, bools, strings.
  repeat (split; [repeat constructor|]); reflexivity.
Qed.
(** The remaining settings: the initial orientation, the heading count, the accumulation limit
    (by default ten times the number of clouds), the map grid of the beam model, and the settings
    that are read only when the part they belong to is switched on. *)
Theorem C116_other_settings rf junk cfg s p s' : load rf junk cfg s = Some (p, s') ->
  rot (initial_pose p) = setRPY (V3 (param to_double s' "init_roll" 0) (param to_double s' "init_pitch" 0) (param to_double s' "init_yaw" 0))
  /\ glob_div_yaw p = lround (2 * PI / param to_double s' "global_localization_grid_ang" (524 / 1000))
  /\ total_accum_max p = param to_int s' "total_accum_cloud_max" (accum_cloud p * 10)%Z
  /\ (bp_gx (p_beam p), bp_gy (p_beam p), bp_gz (p_beam p)) = (rf (map_ds_x p), rf (map_ds_y p), rf (map_ds_z p))
  /\ (forall n, param to_int s' "beam/filter_label_max" (-1)%Z = n -> (0 <= n < 2 ^ 31)%Z -> Z.of_nat (bp_label_max (p_beam p)) = n)
  /\ (s' "beam/filter_label_max" = None -> Z.of_nat (bp_label_max (p_beam p)) = (2 ^ 32 - 1)%Z)
  /\ (use_sampler_normal p = true -> sampler_normal p =
       (param to_double s' "random_sampler_with_normal/perform_weighting_ratio" 2, param to_double s' "random_sampler_with_normal/max_weight_ratio" 5,
        param to_double s' "random_sampler_with_normal/max_weight" 5, param to_double s' "random_sampler_with_normal/normal_search_range" (4 / 10)))
  /\ (use_dda p = true -> ray_angle_half p = rf (param to_double s' "beam/ray_angle_half" (25 / 100 * PI / 180)))
  /\ (use_dda p = true -> let mx := Rmax (Rmax (rf (map_ds_x p)) (rf (map_ds_y p))) (rf (map_ds_z p)) in
       dda_grid p = rf (Rmax mx (param to_double s' "beam/dda_grid_size" (2 / 10)))).
Proof.
  intro H. apply load_some in H. destruct H as [_ ->]. generalize (param to_bool s "fake_imu" false) as fi.
  generalize (param to_bool s "fake_odom" false) as fo. intros fo fi.
  unfold load_params. cbv zeta. set (bm := load_beam rf s' _ _ _).
  assert (M : forall a b, fmax a b = Rmax a b).
  { intros a b. unfold fmax, Rmax. destruct (Rltb_spec a b), (Rle_dec a b); lra. }
  assert (U : let '(u, an, g) := load_dda rf s' bm in u = true ->
     an = rf (param to_double s' "beam/ray_angle_half" (25 / 100 * PI / 180))
     /\ g = rf (Rmax (Rmax (Rmax (bp_gx bm) (bp_gy bm)) (bp_gz bm)) (param to_double s' "beam/dda_grid_size" (2 / 10)))).
  { unfold load_dda. cbv zeta. destruct (param to_bool s' "beam/use_raycast_using_dda" false); [|discriminate]. intros _. split; [reflexivity|].
    f_equal. rewrite !M. unfold Rmax at 5. destruct (Rltb_spec (param to_double s' "beam/dda_grid_size" (2 / 10)) (Rmax (Rmax (bp_gx bm) (bp_gy bm)) (bp_gz bm))) as [A|A];
      destruct (Rle_dec _ _) as [B|B]; lra. }
  destruct (load_dda rf s' bm) as [[use angle] grid].
  split; [reflexivity|]. split; [reflexivity|]. split; [reflexivity|]. split; [reflexivity|].
  split; [|split; [|split; [|split]]].
  - intros n <- Hn. change (bp_label_max _) with (int_to_u32 (param to_int s' "beam/filter_label_max" (-1)%Z)). unfold int_to_u32.
    rewrite Z2Nat.id by (apply Z.mod_pos_bound; lia). apply Z.mod_small. lia.
  - intro E. change (bp_label_max _) with (int_to_u32 (param to_int s' "beam/filter_label_max" (-1)%Z)). unfold param. rewrite E. unfold int_to_u32.
    rewrite Z2Nat.id by (apply Z.mod_pos_bound; lia). reflexivity.
  - cbn [use_sampler_normal sampler_normal]. intros ->. reflexivity.
  - cbn [use_dda ray_angle_half]. intro E. apply U, E.
  - cbn [use_dda dda_grid map_ds_x map_ds_y map_ds_z]. intro E. apply U, E.
Qed.
(** No parameter has two settings. *)
Theorem C116_names_distinct : NoDup (table_names ++ map snd renames).
Proof.
  assert (H : forall l : list string, (fix nd (l : list string) := match l with [] => true | x :: t => negb (existsb (String.eqb x) t) && nd t end) l = true -> NoDup l).
  { induction l as [|x t IH]; intro E; [constructor|]. apply andb_prop in E. destruct E as [E1 E2]. constructor; [|apply IH, E2].
    intro Hin. apply negb_true_iff in E1. assert (existsb (String.eqb x) t = true); [|congruence].
    apply existsb_exists. exists x. split; [exact Hin|apply String.eqb_refl]. }
  apply H. vm_compute. reflexivity.
Qed.
(** Changing one parameter changes no setting but its own: all rows of other parameters keep
    their values.  (A deprecated name is another name of the parameter it was renamed to.) *)
Definition same_row {X Y} (k : string) (p1 p2 : params) (x : string * X * (params -> Y)) : Prop :=
  row_name x <> k -> ~ In (row_name x, k) renames -> snd x p1 = snd x p2.
Lemma rename_other junk k v s k' : k' <> k -> ~ In (k', k) renames -> rename_all junk (set_param k v s) k' = rename_all junk s k'.
Proof.
  intros H1 H2. rewrite !rename_all_point. assert (E : forall o, o <> k -> set_param k v s o = s o).
  { intros o Ho. apply set_other. congruence. }
  destruct (old_of renames k') as [o|] eqn:Eo; [|apply E, H1]. apply old_of_some in Eo. unfold taken.
  rewrite (E k') by exact H1. rewrite (E o); [reflexivity|]. intros ->. contradiction.
Qed.
Theorem C116_own_setting rf junk cfg s k v p1 s1 p2 s2 :
  load rf junk cfg s = Some (p1, s1) -> load rf junk cfg (set_param k v s) = Some (p2, s2) ->
  Forall (same_row k p1 p2) doubles /\ Forall (same_row k p1 p2) floats /\ Forall (same_row k p1 p2) ints
  /\ Forall (same_row k p1 p2) counts /\ Forall (same_row k p1 p2) bools /\ Forall (same_row k p1 p2) strings.
Proof.
  intros L1 L2. destruct (C116_settings _ _ _ _ _ _ L1) as (A1 & A2 & A3 & A4 & A5 & A6 & _).
  destruct (C116_settings _ _ _ _ _ _ L2) as (B1 & B2 & B3 & B4 & B5 & B6 & _).
  apply load_some in L1. destruct L1 as [E1 _]. apply load_some in L2. destruct L2 as [E2 _].
  assert (E : forall k', k' <> k -> ~ In (k', k) renames -> s2 k' = s1 k').
  { intros k' H1 H2. rewrite E1, E2. apply rename_other; assumption. }
  clear E1 E2. rewrite Forall_forall in A1, A2, A3, A4, A5, A6, B1, B2, B3, B4, B5, B6. rewrite !Forall_forall. unfold same_row, row_name.
  repeat match goal with |- _ /\ _ => split end; intros [[k' d] get] Hin H1 H2; cbn [fst snd] in *.
  - specialize (A1 _ Hin). specialize (B1 _ Hin). cbn beta iota in A1, B1. rewrite A1, B1. unfold param. rewrite E by assumption. reflexivity.
  - specialize (A2 _ Hin). specialize (B2 _ Hin). cbn beta iota in A2, B2. rewrite A2, B2. unfold param. rewrite E by assumption. reflexivity.
  - specialize (A3 _ Hin). specialize (B3 _ Hin). cbn beta iota in A3, B3. rewrite A3, B3. unfold param. rewrite E by assumption. reflexivity.
  - specialize (A4 _ Hin). specialize (B4 _ Hin). cbn beta iota in A4, B4. rewrite A4, B4. unfold param. rewrite E by assumption. reflexivity.
  - specialize (A5 _ Hin). specialize (B5 _ Hin). cbn beta iota in A5, B5. rewrite A5, B5. unfold param. rewrite E by assumption. reflexivity.
  - specialize (A6 _ Hin). specialize (B6 _ Hin). cbn beta iota in A6, B6. rewrite A6, B6. unfold param. rewrite E by assumption. reflexivity.
Qed.
(** A parameter with any other name has no effect. *)
Definition known_names : list string :=
  table_names ++ map snd renames
  ++ ["fake_imu"; "fake_odom"; "init_roll"; "init_pitch"; "init_yaw"; "global_localization_grid_ang"; "total_accum_cloud_max";
      "beam/filter_label_max"; "beam/ray_angle_half"; "beam/dda_grid_size";
      "random_sampler_with_normal/perform_weighting_ratio"; "random_sampler_with_normal/max_weight_ratio";
      "random_sampler_with_normal/max_weight"; "random_sampler_with_normal/normal_search_range"].
Theorem C116_unknown_ignored rf junk cfg s k v : ~ In k known_names ->
  option_map fst (load rf junk cfg (set_param k v s)) = option_map fst (load rf junk cfg s).
Proof.
  intro Hk.
  assert (Hr : forall k', In k' read_keys -> k' <> k).
  { intros k' Hin ->. apply Hk. assert (Q : forallb (fun a => existsb (String.eqb a) known_names) read_keys = true) by (vm_compute; reflexivity).
    rewrite forallb_forall in Q. specialize (Q _ Hin). apply existsb_exists in Q. destruct Q as (y & Hy & E). apply String.eqb_eq in E. subst y. exact Hy. }
  assert (Ho : forall k', ~ In (k', k) renames).
  { intros k' Hin. apply Hk. unfold known_names. apply in_or_app. right. apply in_or_app. left. apply in_map_iff. exists (k', k). auto. }
  assert (F : forall f, In f ["fake_imu"; "fake_odom"] -> param to_bool (set_param k v s) f false = param to_bool s f false).
  { intros f Hf. unfold param. rewrite set_other; [reflexivity|]. intros ->. apply Hk. unfold known_names. apply in_or_app. right. apply in_or_app. right.
    destruct Hf as [<-|[<-|[]]]; cbn; auto. }
  unfold load. rewrite (F "fake_imu"), (F "fake_odom") by (cbn; auto). destruct (_ && _); [reflexivity|]. cbv zeta.
  assert (E : Forall (fun k' => rename_all junk (set_param k v s) k' = rename_all junk s k') read_keys).
  { apply Forall_forall. intros k' Hin. apply rename_other; auto. }
  revert E. generalize (rename_all junk (set_param k v s)) (rename_all junk s). intros r1 r2 E. cbn [option_map fst]. f_equal. apply load_reads. exact E.
Qed.
(** The defaults are those of doc/Parameters.md. *)
Theorem C116_documented_defaults rf junk cfg p s' : load rf junk cfg (fun _ => None) = Some (p, s') ->
  (forall k d, In (k, d) documented -> exists get, In (k, d, get) doubles /\ get p = d)
  /\ (forall short k d, In (short, k, d) documented_short -> In (k, short) renames /\ exists get, In (k, d, get) floats /\ get p = rf d).
Proof.
  intro L. destruct (C116_settings _ _ _ _ _ _ L) as (A & B & _). apply load_some in L. destruct L as [E _].
  assert (N : forall k, s' k = None).
  { intro k. rewrite E, rename_all_point. destruct (old_of renames k); reflexivity. }
  clear E. rewrite Forall_forall in A, B. split.
  - intros k d H. unfold documented in H.
    assert (G : exists get, In (k, d, get) doubles).
    { cbn [In] in H. repeat (destruct H as [H|H]; [injection H as <- <-; eexists; unfold doubles; cbn [In]; repeat (first [left; reflexivity|right])|]). contradiction. }
    destruct G as (get & G). exists get. split; [exact G|]. specialize (A _ G). cbn beta iota in A. rewrite A. unfold param. rewrite N. reflexivity.
  - intros sh k d H. unfold documented_short in H.
    assert (G : In (k, sh) renames /\ exists get, In (k, d, get) floats).
    { cbn [In] in H. destruct H as [H|[H|[]]]; injection H as <- <- <-; (split; [cbn; tauto|]); eexists; unfold floats; cbn [In]; repeat (first [left; reflexivity|right]). }
    destruct G as (G1 & get & G). split; [exact G1|]. exists get. split; [exact G|]. specialize (B _ G). cbn beta iota in B. rewrite B. unfold param. rewrite N. reflexivity.
Qed.
Example C116_nonvacuous : exists p s', load (fun x => x) 0 (1, 1, 1) (set_param "jump_dist" (PInt 3) (fun _ => None)) = Some (p, s')
  /\ jump_dist p = 3 /\ jump_ang p = 157 / 100 /\ length table_names = 88%nat /\ ~ In "jump_distance" known_names.
Proof.
  destruct (load (fun x => x) 0 (1, 1, 1) (set_param "jump_dist" (PInt 3) (fun _ => None))) as [[p s']|] eqn:L.
  2:{ unfold load in L. destruct (_ && _) eqn:E in L; [discriminate E|discriminate L]. }
  exists p, s'. split; [reflexivity|]. destruct (C116_settings _ _ _ _ _ _ L) as (A & _). apply load_some in L. destruct L as [E _].
  rewrite Forall_forall in A.
  assert (J1 : jump_dist p = 3).
  { rewrite (A ("jump_dist", 1, jump_dist)) by (unfold doubles; cbn [In]; repeat (first [left; reflexivity|right])).
    unfold param. rewrite E, rename_all_point. reflexivity. }
  assert (J2 : jump_ang p = 157 / 100).
  { rewrite (A ("jump_ang", 157 / 100, jump_ang)) by (unfold doubles; cbn [In]; repeat (first [left; reflexivity|right])).
    unfold param. rewrite E, rename_all_point. reflexivity. }
  split; [exact J1|]. split; [exact J2|]. split; [vm_compute; reflexivity|].
  intro H. assert (Q : existsb (String.eqb "jump_distance") known_names = true). { apply existsb_exists. exists "jump_distance". split; [exact H|reflexivity]. }
  vm_compute in Q. discriminate.
Qed.
