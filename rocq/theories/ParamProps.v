(** Properties C71-C73, C90, C91 of the parameters and of the configuration. *)
From Coq Require Import String.
From Coq Require Import Reals ZArith NArith List Bool Lra Lia FunctionalExtensionality.
From Flocq Require Import Core.
From Verif Require Import Arith KdModel KdSpec KdProps QuatModel StateModel RayModel LidarModel ParamModel.
Import ListNotations.
Open Scope string_scope.
Open Scope R_scope.
Open Scope list_scope.

Lemma Rltb_spec x y : reflect (x < y) (Rltb x y).
Proof. unfold Rltb. destruct (Rlt_dec x y); constructor; assumption. Qed.

(** ** C71: one renaming *)
Lemma set_same k v s : set_param k v s k = Some v.
Proof. unfold set_param. now rewrite String.eqb_refl. Qed.
Lemma set_other k v s k' : k <> k' -> set_param k v s k' = s k'.
Proof. intro H. unfold set_param. apply String.eqb_neq in H. now rewrite H. Qed.

(** [v] is a number with value [x] *)
Definition numeric (v : pval) (x : R) : Prop := v = PDouble x \/ exists n, v = PInt n /\ x = IZR n.
Lemma numeric_to_double v x : numeric v x <-> to_double v = Some x.
Proof.
  split.
  - intros [->|[n [-> ->]]]; reflexivity.
  - destruct v; cbn; try discriminate; intro H; injection H as <-; [left; reflexivity|right; eauto].
Qed.

Theorem C71_rename junk new old s :
  (* no other parameter is touched *)
  (forall k, k <> new -> paramRename junk new old s k = s k)
  (* an explicit new value is never overwritten *)
  /\ (forall v, s new = Some v -> paramRename junk new old s new = Some v)
  (* nothing happens without the old name *)
  /\ (s old = None -> paramRename junk new old s new = s new)
  (* the old number is taken over *)
  /\ (forall v x, s old = Some v -> s new = None -> numeric v x -> paramRename junk new old s new = Some (PDouble x))
  (* a second call does nothing *)
  /\ (forall k, paramRename junk new old (paramRename junk new old s) k = paramRename junk new old s k).
Proof.
  unfold paramRename. destruct (s old) as [vo|] eqn:Eo; [|repeat split; intros; try rewrite Eo; try discriminate; auto].
  destruct (s new) as [vn|] eqn:En.
  - repeat split; intros; rewrite ?Eo, ?En; try discriminate; auto.
  - assert (Hne : new <> old) by congruence.
    repeat split; intros; try discriminate.
    + apply set_other. congruence.
    + rewrite set_same. injection H as <-. apply (proj1 (numeric_to_double _ _)) in H1. now rewrite H1.
    + rewrite (set_other _ _ _ old) by exact Hne. now rewrite Eo, set_same.
Qed.
(** "gives the new name the old value" fails for values that are not numbers: the new
    parameter becomes whatever the uninitialised variable held, whatever the old value *)
Theorem C71_non_numeric_refuted junk new old s v :
  s old = Some v -> s new = None -> (forall x, ~ numeric v x) ->
  paramRename junk new old s new = Some (PDouble junk).
Proof.
  intros H1 H2 H3. unfold paramRename. rewrite H1, H2, set_same.
  destruct (to_double v) eqn:E; [|reflexivity]. apply (proj2 (numeric_to_double _ _)) in E. now apply H3 in E.
Qed.
Example C71_non_numeric_nonvacuous : forall junk,
  paramRename junk "likelihood/clip_far" "clip_far" (set_param "clip_far" (PString "5.0") (fun _ => None)) "likelihood/clip_far"
  = Some (PDouble junk).
Proof. intro junk. reflexivity. Qed.
Example C71_nonvacuous : paramRename 7 "likelihood/num_points" "num_points" (set_param "num_points" (PInt 30) (fun _ => None)) "likelihood/num_points"
  = Some (PDouble 30).
Proof. reflexivity. Qed.

(** ** C71: the whole list of renamings *)
Section Renames.
Context (junk : R).
Fixpoint old_of (l : list (string * string)) (k : string) : option string :=
  match l with [] => None | (n, o) :: t => if String.eqb n k then Some o else old_of t k end.
Lemma old_of_none l k : ~ In k (map fst l) -> old_of l k = None.
Proof.
  induction l as [|[n o] l IH]; intro H; [reflexivity|]. cbn in *.
  destruct (String.eqb_spec n k) as [->|Hn]; [exfalso; auto|]. apply IH. auto.
Qed.
Definition taken (s : server) (k o : string) : option pval :=
  match s k with Some v => Some v
  | None => match s o with None => None | Some v => Some (PDouble (match to_double v with Some x => x | None => junk end)) end end.
Lemma rename_point n o s k : n <> o ->
  paramRename junk n o s k = if String.eqb n k then taken s n o else s k.
Proof.
  intro Hno. unfold paramRename, taken. destruct (String.eqb_spec n k) as [<-|Hk].
  - destruct (s o); [|now destruct (s n)]. destruct (s n) eqn:E; [exact E|]. now rewrite set_same.
  - destruct (s o); [|reflexivity]. destruct (s n); [reflexivity|]. now apply set_other.
Qed.
Lemma ren_point l : NoDup (map fst l) -> (forall n o, In n (map fst l) -> In o (map snd l) -> n <> o) ->
  forall s k, rename_list junk l s k = match old_of l k with None => s k | Some o => taken s k o end.
Proof.
  induction l as [|[n o] l IH]; intros Hnd Hdis s k; [reflexivity|].
  cbn [rename_list old_of]. inversion Hnd as [|? ? Hn Hnd']; subst.
  assert (Hno : n <> o) by (apply Hdis; left; reflexivity).
  rewrite IH; [|exact Hnd'|intros; apply Hdis; right; assumption].
  rewrite (rename_point n o s k Hno).
  destruct (String.eqb_spec n k) as [<-|Hk].
  - now rewrite (old_of_none l n Hn).
  - destruct (old_of l k) as [o'|] eqn:E; [|reflexivity].
    unfold taken. rewrite (rename_point n o s k Hno), (rename_point n o s o' Hno).
    destruct (String.eqb_spec n k); [contradiction|].
    destruct (String.eqb_spec n o') as [->|Hx]; [|reflexivity].
    exfalso. assert (Hin : In o' (map snd l)).
    { clear -E. induction l as [|[n' o''] l IH]; cbn in *; [discriminate|].
      destruct (String.eqb n' k); [injection E as ->; auto|auto]. }
    exact (Hdis o' o' (or_introl eq_refl) (or_intror Hin) eq_refl).
Qed.
End Renames.

Lemma nodup_names : NoDup (map fst renames).
Proof. cbn. repeat constructor; cbn; intuition discriminate. Qed.
Lemma names_disjoint : forall n o, In n (map fst renames) -> In o (map snd renames) -> n <> o.
Proof.
  intros n o Hn Ho E. subst o.
  assert (H : existsb (fun n => existsb (String.eqb n) (map snd renames)) (map fst renames) = true).
  { apply existsb_exists. exists n. split; [exact Hn|]. apply existsb_exists. exists n. split; [exact Ho|apply String.eqb_refl]. }
  vm_compute in H. discriminate.
Qed.
Lemma rename_all_point junk s k : rename_all junk s k = match old_of renames k with None => s k | Some o => taken junk s k o end.
Proof.
  unfold rename_all. apply ren_point; [exact nodup_names|exact names_disjoint].
Qed.

Lemma old_of_in n o : In (n, o) renames -> old_of renames n = Some o.
Proof. intro H. cbn in H. repeat (destruct H as [H|H]; [injection H as <- <-; reflexivity|]). contradiction. Qed.

Lemma old_of_some l k o : old_of l k = Some o -> In (k, o) l.
Proof.
  induction l as [|[n' o'] l IH]; cbn; [discriminate|].
  destruct (String.eqb_spec n' k) as [->|]; [intro E; injection E as ->; auto|auto].
Qed.
Lemma nodup_olds : NoDup (map snd renames).
Proof. cbn. repeat constructor; cbn; intuition discriminate. Qed.
Lemma nodup_snd_unique {A B} (l : list (A * B)) a a' b : NoDup (map snd l) -> In (a, b) l -> In (a', b) l -> a = a'.
Proof.
  induction l as [|[x y] l IH]; intros Hn H1 H2; [contradiction|]. inversion Hn as [|? ? N1 N2]; subst.
  assert (Hx : forall c, In (c, y) l -> False) by (intros c Hc; apply N1; apply in_map_iff; exists (c, y); auto).
  destruct H1 as [E1|H1], H2 as [E2|H2].
  - congruence.
  - injection E1 as -> ->. now apply Hx in H2.
  - injection E2 as -> ->. now apply Hx in H1.
  - eauto.
Qed.
Lemma old_unique a a' o : In (a, o) renames -> In (a', o) renames -> a = a'.
Proof. apply nodup_snd_unique. exact nodup_olds. Qed.

Ltac cases_renames H := cbn in H; repeat (destruct H as [H|H]; [injection H as <- <-|]); [..|contradiction].

(** A number under a deprecated name has exactly the effect of the same number under the
    new name (when the new name is not set). *)
Theorem C71_deprecated_name_takes_effect rf junk cfg s new old v x :
  In (new, old) renames -> s new = None -> s old = Some v -> numeric v x ->
  load rf junk cfg s = load rf junk cfg (set_param new (PDouble x) s).
Proof.
  intros Hin Hn Ho Hv. apply (proj1 (numeric_to_double _ _)) in Hv.
  assert (E : rename_all junk s = rename_all junk (set_param new (PDouble x) s)).
  { extensionality k. rewrite !rename_all_point. destruct (old_of renames k) as [o|] eqn:Eo.
    - unfold taken at 2. unfold set_param at 1. destruct (String.eqb_spec new k) as [<-|Hk].
      + rewrite (old_of_in _ _ Hin) in Eo. injection Eo as <-. unfold taken. now rewrite Hn, Ho, Hv.
      + unfold set_param. destruct (String.eqb_spec new o) as [<-|Hx]; [|reflexivity]. exfalso.
        revert Eo. clear -Hin. intro Eo.
        assert (Hs : In new (map snd renames)).
        { clear Hin. revert Eo. generalize renames. induction l as [|[n' o''] l IH]; cbn in *; [discriminate|].
          destruct (String.eqb n' k); [intro E; injection E as ->; auto|auto]. }
        refine (names_disjoint new new _ Hs eq_refl). apply in_map_iff. exists (new, old). auto.
    - unfold set_param. destruct (String.eqb_spec new k) as [<-|Hk]; [|reflexivity].
      rewrite (old_of_in _ _ Hin) in Eo. discriminate. }
  assert (F1 : set_param new (PDouble x) s "fake_imu" = s "fake_imu") by (cases_renames Hin; reflexivity).
  assert (F2 : set_param new (PDouble x) s "fake_odom" = s "fake_odom") by (cases_renames Hin; reflexivity).
  assert (G1 : param to_bool (set_param new (PDouble x) s) "fake_imu" false = param to_bool s "fake_imu" false) by (unfold param; now rewrite F1).
  assert (G2 : param to_bool (set_param new (PDouble x) s) "fake_odom" false = param to_bool s "fake_odom" false) by (unfold param; now rewrite F2).
  unfold load. rewrite G1, G2, E. reflexivity.
Qed.

(** load reads no other parameters than these *)
Definition read_keys : list string :=
  ["acc_lpf_step"; "acc_var"; "accum_cloud"; "beam/add_penalty_short_only_mode"; "beam/ang_total_ref"; "beam/beam_likelihood"; "beam/clip_far"; "beam/clip_near"; "beam/clip_z_max"; "beam/clip_z_min"; "beam/dda_grid_size"; "beam/filter_label_max"; "beam/hit_range"; "beam/num_points"; "beam/num_points_global"; "beam/ray_angle_half"; "beam/use_raycast_using_dda"; "bias_var_ang"; "bias_var_dist"; "dist_weight_x"; "dist_weight_y"; "dist_weight_z"; "downsample_x"; "downsample_y"; "downsample_z"; "expansion_var_pitch"; "expansion_var_roll"; "expansion_var_x"; "expansion_var_y"; "expansion_var_yaw"; "expansion_var_z"; "fix_ang"; "fix_dist"; "floor_frame"; "global_localization_grid_ang"; "global_localization_grid_lin"; "init_pitch"; "init_roll"; "init_var_pitch"; "init_var_roll"; "init_var_x"; "init_var_y"; "init_var_yaw"; "init_var_z"; "init_x"; "init_y"; "init_yaw"; "init_z"; "jump_ang"; "jump_dist"; "likelihood/clip_far"; "likelihood/clip_near"; "likelihood/clip_z_max"; "likelihood/clip_z_min"; "likelihood/match_dist_flat"; "likelihood/match_dist_min"; "likelihood/match_weight"; "likelihood/num_points"; "likelihood/num_points_global"; "lpf_step"; "map_chunk"; "map_downsample_x"; "map_downsample_y"; "map_downsample_z"; "map_frame"; "map_update_interval_interval"; "match_output_dist"; "match_output_interval_interval"; "match_ratio_thresh"; "num_particles"; "odom_err_ang_ang"; "odom_err_ang_lin"; "odom_err_integ_ang_sigma"; "odom_err_integ_ang_tc"; "odom_err_integ_lin_sigma"; "odom_err_integ_lin_tc"; "odom_err_lin_ang"; "odom_err_lin_lin"; "odom_frame"; "output_pcd"; "publish_tf"; "random_sampler_with_normal/max_weight"; "random_sampler_with_normal/max_weight_ratio"; "random_sampler_with_normal/normal_search_range"; "random_sampler_with_normal/perform_weighting_ratio"; "resample_var_pitch"; "resample_var_roll"; "resample_var_x"; "resample_var_y"; "resample_var_yaw"; "resample_var_z"; "robot_frame"; "skip_measure"; "tf_tolerance"; "total_accum_cloud_max"; "unmatch_output_dist"; "update_downsample_x"; "update_downsample_y"; "update_downsample_z"; "use_random_sampler_with_normal"].
Lemma load_reads rf fi fo cfg s s2 : Forall (fun k => s k = s2 k) read_keys ->
  load_params rf fi fo cfg s = load_params rf fi fo cfg s2.
Proof.
  intro H. unfold read_keys in H. repeat (apply Forall_cons_iff in H; let E := fresh "E" in destruct H as [E H]).
  unfold load_params, load_like, load_beam, load_dda, param.
  repeat match goal with E : s _ = s2 _ |- _ => rewrite E; clear E end. reflexivity.
Qed.

(** Once the new name is set, the deprecated name has no influence on any parameter. *)
Theorem C71_new_name_wins rf junk cfg s new old v :
  In (new, old) renames -> s new <> None ->
  option_map fst (load rf junk cfg (set_param old v s)) = option_map fst (load rf junk cfg s).
Proof.
  intros Hin Hn.
  assert (E : rename_all junk (set_param old v s) = set_param old v (rename_all junk s)).
  { extensionality k. rewrite rename_all_point. unfold set_param at 3. destruct (String.eqb_spec old k) as [<-|Hk].
    - assert (Eo : old_of renames old = None) by (cases_renames Hin; reflexivity).
      rewrite Eo. apply set_same.
    - rewrite rename_all_point. destruct (old_of renames k) as [o|] eqn:Eo; [|now apply set_other].
      unfold taken. rewrite (set_other old v s k Hk). unfold set_param.
      destruct (String.eqb_spec old o) as [<-|Hx]; [|reflexivity].
      (* k is renamed from old: then k = new *)
      assert (Ek : k = new).
      { exact (old_unique k new old (old_of_some _ _ _ Eo) Hin). }
      subst k. destruct (s new); [reflexivity|contradiction]. }
  assert (Hr : existsb (String.eqb old) read_keys = false /\ String.eqb old "fake_imu" = false /\ String.eqb old "fake_odom" = false)
    by (cases_renames Hin; vm_compute; auto).
  destruct Hr as (Hr & F1 & F2).
  unfold load. rewrite E.
  replace (param to_bool (set_param old v s) "fake_imu" false) with (param to_bool s "fake_imu" false)
    by (unfold param, set_param; now rewrite F1).
  replace (param to_bool (set_param old v s) "fake_odom" false) with (param to_bool s "fake_odom" false)
    by (unfold param, set_param; now rewrite F2).
  destruct (_ && _); [reflexivity|]. cbn [option_map fst]. f_equal. apply load_reads.
  apply Forall_forall. intros k Hk. apply set_other. intros <-.
  assert (existsb (String.eqb old) read_keys = true); [|congruence].
  apply existsb_exists. exists old. split; [exact Hk|apply String.eqb_refl].
Qed.
Example C71_wins_nonvacuous : In ("likelihood/clip_far", "clip_far") renames
  /\ set_param "likelihood/clip_far" (PDouble 5) (fun _ => None) "likelihood/clip_far" <> None.
Proof. split; [cbn; tauto|discriminate]. Qed.

(** ** C72: the guards of load() *)
Theorem C72_fails_iff_both_fake rf junk cfg s :
  load rf junk cfg s = None <-> s "fake_imu" = Some (PBool true) /\ s "fake_odom" = Some (PBool true).
Proof.
  unfold load. set (fi := param to_bool s "fake_imu" false). set (fo := param to_bool s "fake_odom" false).
  assert (H1 : fi = true <-> s "fake_imu" = Some (PBool true)).
  { unfold fi, param. destruct (s "fake_imu") as [[]|]; cbn; split; intro H; try discriminate; try congruence. }
  assert (H2 : fo = true <-> s "fake_odom" = Some (PBool true)).
  { unfold fo, param. destruct (s "fake_odom") as [[]|]; cbn; split; intro H; try discriminate; try congruence. }
  rewrite <- H1, <- H2. destruct fi, fo; cbn [andb].
  - split; [auto|reflexivity].
  - split; [discriminate|intros [? ?]; discriminate].
  - split; [discriminate|intros [? ?]; discriminate].
  - split; [discriminate|intros [? ?]; discriminate].
Qed.

Lemma load_inv rf junk cfg s p s' : load rf junk cfg s = Some (p, s') ->
  s' = rename_all junk s
  /\ map_ds_x p = param to_double s' "map_downsample_x" (1 / 10)
  /\ map_ds_y p = param to_double s' "map_downsample_y" (1 / 10)
  /\ map_ds_z p = param to_double s' "map_downsample_z" (1 / 10)
  /\ map_grid_min p = fmin (fmin (map_ds_x p) (map_ds_y p)) (map_ds_z p)
  /\ map_grid_max p = fmax (fmax (map_ds_x p) (map_ds_y p)) (map_ds_z p)
  /\ p_beam p = load_beam rf s' (map_ds_x p) (map_ds_y p) (map_ds_z p)
  /\ p_like p = load_like rf s'
  /\ (use_dda p, ray_angle_half p, dda_grid p) = load_dda rf s' (p_beam p)
  /\ map_chunk p = param to_double s' "map_chunk" 20
  /\ dist_weight p = (rf (param to_double s' "dist_weight_x" 1), rf (param to_double s' "dist_weight_y" 1), rf (param to_double s' "dist_weight_z" 5), 0)
  /\ glob_div_yaw p = lround (2 * PI / param to_double s' "global_localization_grid_ang" (524 / 1000))
  /\ unmatch_output_dist p = param to_double s' "unmatch_output_dist" (5 / 10).
Proof.
  unfold load. destruct (_ && _); [discriminate|]. cbv zeta.
  assert (Hgen : forall s1, s1 = rename_all junk s -> forall fi fo, Some (load_params rf fi fo cfg s1, s1) = Some (p, s') ->
    s' = s1 /\ p = load_params rf fi fo cfg s1) by (intros s1 _ fi fo H; injection H; auto).
  intro H. destruct (Hgen _ eq_refl _ _ H) as [-> ->]. clear H Hgen.
  split; [reflexivity|]. generalize (rename_all junk s) as s1. intro s1.
  unfold load_params. destruct (load_dda _ _ _) as [[use angle] grid] eqn:E.
  cbn [map_ds_x map_ds_y map_ds_z map_grid_min map_grid_max p_beam p_like use_dda ray_angle_half dda_grid map_chunk dist_weight glob_div_yaw unmatch_output_dist].
  repeat split; try reflexivity. symmetry. exact E.
Qed.

Lemma fmin_spec a b : (fmin a b = a \/ fmin a b = b) /\ fmin a b <= a /\ fmin a b <= b.
Proof. unfold fmin. destruct (Rltb_spec b a); repeat split; auto; lra. Qed.
Lemma fmax_spec a b : (fmax a b = a \/ fmax a b = b) /\ a <= fmax a b /\ b <= fmax a b.
Proof. unfold fmax. destruct (Rltb_spec a b); repeat split; auto; lra. Qed.

Theorem C72_grid_bounds rf junk cfg s p s' : load rf junk cfg s = Some (p, s') ->
  let gs := [map_ds_x p; map_ds_y p; map_ds_z p] in
  In (map_grid_min p) gs /\ In (map_grid_max p) gs /\ (forall g, In g gs -> map_grid_min p <= g <= map_grid_max p).
Proof.
  intros H gs. apply load_inv in H. destruct H as (_ & _ & _ & _ & -> & -> & _).
  destruct (fmin_spec (map_ds_x p) (map_ds_y p)) as (A1 & A2 & A3).
  destruct (fmin_spec (fmin (map_ds_x p) (map_ds_y p)) (map_ds_z p)) as (B1 & B2 & B3).
  destruct (fmax_spec (map_ds_x p) (map_ds_y p)) as (C1 & C2 & C3).
  destruct (fmax_spec (fmax (map_ds_x p) (map_ds_y p)) (map_ds_z p)) as (D1 & D2 & D3).
  unfold gs. cbn [In]. split; [|split].
  - destruct B1 as [->| ->]; [destruct A1 as [->| ->]|]; auto.
  - destruct D1 as [->| ->]; [destruct C1 as [->| ->]|]; auto.
  - intros g [<-|[<-|[<-|[]]]]; lra.
Qed.

(** narrowing to float is monotone and idempotent *)
Definition narrowing (rf : R -> R) : Prop := (forall a b, a <= b -> rf a <= rf b) /\ forall a, rf (rf a) = rf a.
Lemma narrowing_id : narrowing (fun x => x).
Proof. split; auto. Qed.
Lemma narrowing_binary32 : narrowing (round radix2 (FLT_exp (-149) 24) ZnearestE).
Proof.
  split.
  - intros a b H. apply round_le; [now apply FLT_exp_valid|apply valid_rnd_N|exact H].
  - intro a. apply round_generic; [apply valid_rnd_N|]. apply generic_format_round; [now apply FLT_exp_valid|apply valid_rnd_N].
Qed.

(** with DDA enabled no map grid is larger than the voxels *)
Theorem C72_dda_voxels_not_smaller_than_grid rf junk cfg s p s' :
  narrowing rf -> load rf junk cfg s = Some (p, s') -> use_dda p = true ->
  bp_gx (p_beam p) <= dda_grid p /\ bp_gy (p_beam p) <= dda_grid p /\ bp_gz (p_beam p) <= dda_grid p
  /\ bp_gx (p_beam p) = rf (map_ds_x p) /\ bp_gy (p_beam p) = rf (map_ds_y p) /\ bp_gz (p_beam p) = rf (map_ds_z p).
Proof.
  intros [Hm Hi] H Hu. apply load_inv in H. destruct H as (_ & _ & _ & _ & _ & _ & Eb & _ & Ed & _).
  rewrite Eb in *. cbn [bp_gx bp_gy bp_gz load_beam] in *. unfold load_dda in Ed.
  destruct (param to_bool s' "beam/use_raycast_using_dda" false); [|injection Ed as E1 _ _; congruence].
  injection Ed as _ _ ->. cbn [bp_gx bp_gy bp_gz load_beam].
  set (x := rf (map_ds_x p)). set (y := rf (map_ds_y p)). set (z := rf (map_ds_z p)).
  destruct (fmax_spec x y) as (A1 & A2 & A3). destruct (fmax_spec (fmax x y) z) as (B1 & B2 & B3).
  set (m := fmax (fmax x y) z) in *. set (g := param to_double s' "beam/dda_grid_size" (2 / 10)).
  assert (Em : rf m = m).
  { assert (A : rf (fmax x y) = fmax x y) by (destruct A1 as [E| E]; rewrite E; apply Hi).
    destruct B1 as [E| E]; rewrite E; [exact A|apply Hi]. }
  assert (Hg : m <= rf (if Rltb g m then m else g)).
  { destruct (Rltb_spec g m); [rewrite Em; lra|]. rewrite <- Em at 1. apply Hm. lra. }
  repeat split; lra.
Qed.
(** non-vacuity: a server that loads, with DDA on and a coarse map grid *)
Definition srv_dda : server :=
  set_param "map_downsample_y" (PDouble (1 / 2)) (set_param "beam/use_raycast_using_dda" (PBool true) (fun _ => None)).
Example C72_nonvacuous : exists p s', load (fun x => x) 0 (0, 0, 0) srv_dda = Some (p, s') /\ use_dda p = true
  /\ dda_grid p = 1 / 2 /\ map_grid_min p = 1 / 10.
Proof.
  destruct (load (fun x => x) 0 (0, 0, 0) srv_dda) as [[p s']|] eqn:E.
  2:{ apply C72_fails_iff_both_fake in E. destruct E. discriminate. }
  exists p, s'. split; [reflexivity|]. pose proof (load_inv _ _ _ _ _ _ E) as (S & X & Y & Z & Mn & _ & B & _ & D & _).
  assert (Ex : map_ds_x p = 1 / 10) by (rewrite X, S; reflexivity).
  assert (Ey : map_ds_y p = 1 / 2) by (rewrite Y, S; reflexivity).
  assert (Ez : map_ds_z p = 1 / 10) by (rewrite Z, S; reflexivity).
  rewrite B, Ex, Ey, Ez in D. unfold load_dda in D.
  assert (Eu : param to_bool s' "beam/use_raycast_using_dda" false = true) by (rewrite S; reflexivity).
  assert (Eg : param to_double s' "beam/dda_grid_size" (2 / 10) = 2 / 10) by (rewrite S; reflexivity).
  rewrite Eu, Eg in D. cbn [load_beam bp_gx bp_gy bp_gz] in D.
  assert (Em : fmax (fmax (1 / 10) (1 / 2)) (1 / 10) = 1 / 2).
  { unfold fmax. destruct (Rltb_spec (1/10) (1/2)); [|lra]. destruct (Rltb_spec (1/2) (1/10)); lra. }
  rewrite Em in D. destruct (Rltb_spec (2/10) (1/2)); [|lra]. injection D as -> _ ->. split; [reflexivity|]. split; [lra|].
  rewrite Mn, Ex, Ey, Ez. unfold fmin. destruct (Rltb_spec (1/2) (1/10)); [lra|]. destruct (Rltb_spec (1/10) (1/10)); lra.
Qed.

(** ** C73: the compatibility level *)
Theorem C73_levels s :
  (checkCompatMode s = Obsolete <-> (getCompat s < 0)%Z)
  /\ (checkCompatMode s = Futuredated <-> (1 < getCompat s)%Z)
  /\ (checkCompatMode s = Deprecated <-> getCompat s = 0%Z)
  /\ (checkCompatMode s = Current <-> getCompat s = 1%Z).
Proof.
  unfold checkCompatMode, supported_level, current_level.
  destruct (Z.ltb_spec (getCompat s) 0); [repeat split; intros; try discriminate; try lia; auto|].
  destruct (Z.ltb_spec 1 (getCompat s)); [repeat split; intros; try discriminate; try lia; auto|].
  destruct (Z.eqb_spec (getCompat s) 1); cbn [negb]; repeat split; intros; try discriminate; try lia; auto.
Qed.
Theorem C73_default_level s : s "compatible" = None -> checkCompatMode s = Deprecated.
Proof. intro H. apply C73_levels. unfold getCompat, param. now rewrite H. Qed.
Theorem C73_names {X} s (new old : X) :
  (getCompat s = 1%Z -> compat_name s new old = new) /\ (getCompat s <> 1%Z -> compat_name s new old = old).
Proof.
  unfold compat_name, current_level. destruct (Z.eqb_spec (getCompat s) 1); cbn [negb]; split; intro; congruence.
Qed.
Example C73_nonvacuous : getCompat (set_param "compatible" (PInt 1) (fun _ => None)) = 1%Z
  /\ checkCompatMode (set_param "compatible" (PInt 2) (fun _ => None)) = Futuredated.
Proof. split; reflexivity. Qed.

(** ** C90: the configured search structure covers the radius of every measurement *)
Lemma sqrt2_bound : 0 <= sqrt 2 <= 2.
Proof.
  split; [apply sqrt_pos|]. rewrite <- (sqrt_square 2) at 2 by lra. apply sqrt_le_1; lra.
Qed.
Lemma configured_radius_ge p : 0 <= configured_radius p
  /\ b_range (beam_refresh (p_beam p)) <= configured_radius p /\ lp_dist_min (p_like p) <= configured_radius p.
Proof.
  unfold configured_radius. cbn [fold_left].
  destruct (fmax_spec 0 (b_range (beam_refresh (p_beam p)))) as (_ & A & B).
  destruct (fmax_spec (fmax 0 (b_range (beam_refresh (p_beam p)))) (lp_dist_min (p_like p))) as (_ & C & D). lra.
Qed.
(** the radii of the ray caster (two) and of the likelihood model *)
Definition measurement_radii (p : params) : list R :=
  let c := new_kray (bp_gx (p_beam p)) (bp_gy (p_beam p)) (bp_gz (p_beam p)) (bp_hit_range (p_beam p)) in
  [k_radius1 c; k_radius2 c; lp_dist_min (p_like p)].
Lemma radii_covered p r : 0 <= bp_gx (p_beam p) -> 0 <= bp_gy (p_beam p) -> 0 <= bp_gz (p_beam p) ->
  In r (measurement_radii p) -> r <= configured_radius p.
Proof.
  intros Hx Hy Hz Hr. destruct (configured_radius_ge p) as (H0 & H1 & H2).
  cbn [beam_refresh b_range] in H1.
  set (gx := bp_gx (p_beam p)) in *. set (gy := bp_gy (p_beam p)) in *. set (gz := bp_gz (p_beam p)) in *.
  assert (Hmin : Rmin gx (Rmin gy gz) <= Rmax gx (Rmax gy gz)).
  { apply Rle_trans with gx; [apply Rmin_l|apply Rmax_l]. }
  assert (Hmax : 0 <= Rmax gx (Rmax gy gz)) by (apply Rle_trans with gx; [exact Hx|apply Rmax_l]).
  pose proof sqrt2_bound as Hs.
  unfold measurement_radii in Hr. cbn [In new_kray] in Hr. fold gx gy gz in Hr.
  unfold k_radius1, k_radius2 in Hr. cbn [k_gmin k_gmax new_kray] in Hr.
  assert (Hq : sqrt 2 * Rmax gx (Rmax gy gz) <= 2 * Rmax gx (Rmax gy gz)) by (apply Rmult_le_compat_r; lra).
  destruct Hr as [<-|[<-|[<-|[]]]]; lra.
Qed.
(** Consequence: with weights of at least one, and chunks at least twice as long as the
    search radius, no lidar search of the configured node misses a map point in range. *)
Theorem C90_configured_searches_are_complete rf junk cfg s p s' cloud q r res :
  narrowing rf -> rf 0 = 0 -> load rf junk cfg s = Some (p, s') ->
  0 <= map_ds_x p -> 0 <= map_ds_y p -> 0 <= map_ds_z p ->
  (let '(wx, wy, wz, _) := dist_weight p in 1 <= wx /\ 1 <= wy /\ 1 <= wz) ->
  0 < map_chunk p -> configured_radius p <= map_chunk p / 2 ->
  In r (measurement_radii p) -> 0 <= r ->
  radiusSearch (setInputCloud cloud (configured_kdtree p)) q r 1 res ->
  forall i m, nth_error cloud i = Some m ->
  let '(wx, wy, wz, _) := dist_weight p in
  (1 + map_grid_min p / 16) * dist_sq (wx, wy, wz) m q < r * r -> 
  exists j d, res = Found [(j, d)] /\ d <= (1 + map_grid_min p / 16) * dist_sq (wx, wy, wz) m q.
Proof.
  intros Hrf Hrf0 Hl Hx Hy Hz Hw HL Hr2 Hr Hr0 Hs i m Hi.
  destruct (dist_weight p) as [[[wx wy] wz] w4] eqn:Ew. intros Hd.
  unfold configured_kdtree in Hs. rewrite Ew in Hs.
  pose proof (load_inv _ _ _ _ _ _ Hl) as (_ & _ & _ & _ & Em & _ & Eb & _).
  assert (G : forall g, 0 <= g -> 0 <= rf g) by (intros g Hg; rewrite <- Hrf0; now apply (proj1 Hrf)).
  assert (Hmin : 0 <= map_grid_min p).
  { rewrite Em. 
    destruct (fmin_spec (map_ds_x p) (map_ds_y p)) as (A1 & _). destruct (fmin_spec (fmin (map_ds_x p) (map_ds_y p)) (map_ds_z p)) as (B1 & _).
    destruct B1 as [E|E]; rewrite E; [destruct A1 as [E'|E']; rewrite E'|]; assumption. }
  pose (cs := [CEps (map_grid_min p / 16); CRep (wx, wy, wz); CLoad cloud]).
  refine (C24_nearest cs (map_chunk p) (configured_radius p) false cloud q r res i m HL _ Hr2 Hw _ eq_refl Hs Hi Hd).
  - split; [exact Hr0|]. apply radii_covered; try (rewrite Eb; cbn [load_beam bp_gx bp_gy bp_gz]; apply G; assumption). exact Hr.
  - cbn [cs last_eps eps_of]. lra.
Qed.
(** The side conditions hold with the default parameters. *)
Theorem C90_defaults_meet_conditions junk cfg p s' : load (fun x => x) junk cfg (fun _ => None) = Some (p, s') ->
  configured_radius p <= map_chunk p / 2 /\ map_chunk p = 20 /\ configured_radius p = 4 / 10
  /\ dist_weight p = (1, 1, 5, 0) /\ map_ds_x p = 1 / 10 /\ map_ds_y p = 1 / 10 /\ map_ds_z p = 1 / 10.
Proof.
  intro E. pose proof (load_inv _ _ _ _ _ _ E) as (S & X & Y & Z & _ & _ & B & L & D & C & W & _).
  assert (Ex : map_ds_x p = 1 / 10) by (rewrite X, S; reflexivity).
  assert (Ey : map_ds_y p = 1 / 10) by (rewrite Y, S; reflexivity).
  assert (Ez : map_ds_z p = 1 / 10) by (rewrite Z, S; reflexivity).
  assert (Ec : map_chunk p = 20) by (rewrite C, S; reflexivity).
  assert (Ew : dist_weight p = (1, 1, 5, 0)) by (rewrite W, S; reflexivity).
  assert (El : lp_dist_min (p_like p) = 2 / 10) by (rewrite L, S; reflexivity).
  assert (Er : configured_radius p = 4 / 10).
  { unfold configured_radius. cbn [fold_left beam_refresh b_range]. rewrite El, B. cbn [load_beam bp_gx bp_gy bp_gz].
    rewrite Ex, Ey, Ez. unfold Rmax. destruct (Rle_dec (1/10) (1/10)); [|lra].
    unfold fmax. destruct (Rle_dec (1/10) (1/10)); [|lra].
    destruct (Rltb_spec 0 (1/10 * 4)); [|lra]. destruct (Rltb_spec (1/10*4) (2/10)); lra. }
  repeat split; try assumption; lra.
Qed.
(** ... but the visualisation of unmatched points searches with 0.5 m, more than the
    radius the structure was configured for: it can miss a point in range. *)
Theorem C90_unmatched_output_refuted junk cfg p s' : load (fun x => x) junk cfg (fun _ => None) = Some (p, s') ->
  configured_radius p < unmatch_output_dist p
  /\ exists cloud q m, nth_error cloud 0 = Some m
       /\ dist_sq (1, 1, 1) m q < unmatch_output_dist p * unmatch_output_dist p
       /\ radiusSearch (setInputCloud cloud (new_kdt (map_chunk p) (configured_radius p) false)) q (unmatch_output_dist p) 0 NoChunk.
Proof.
  intro E. pose proof (load_inv _ _ _ _ _ _ E) as (S & _ & _ & _ & _ & _ & _ & _ & _ & _ & _ & _ & U).
  assert (Eu : unmatch_output_dist p = 5 / 10) by (rewrite U, S; reflexivity).
  destruct (C90_defaults_meet_conditions _ _ _ _ E) as (_ & -> & -> & _). rewrite Eu.
  split; [lra|]. exact (C27_guard_insufficient_refuted 20 (4/10) false (5/10) ltac:(lra) ltac:(lra) ltac:(lra)).
Qed.
Example C90_nonvacuous : exists p s', load (fun x => x) 0 (0, 0, 0) (fun _ => None) = Some (p, s').
Proof.
  destruct (load (fun x => x) 0 (0, 0, 0) (fun _ => None)) as [[p s']|] eqn:E; [eauto|].
  apply C72_fails_iff_both_fake in E. destruct E. discriminate.
Qed.

(** ** C91: the number of headings of global localization *)
Lemma lround_spec x : IZR (lround x) - / 2 <= x <= IZR (lround x) + / 2.
Proof.
  unfold lround. destruct (Rltb_spec x 0).
  - destruct (Rfloor_spec (- x + / 2)) as [A B]. rewrite opp_IZR. lra.
  - destruct (Rfloor_spec (x + / 2)) as [A B]. lra.
Qed.
Theorem C91_headings rf junk cfg s p s' g : load rf junk cfg s = Some (p, s') ->
  g = param to_double s' "global_localization_grid_ang" (524 / 1000) -> 0 < g ->
  (* the heading interval is the requested one up to half an interval per turn *)
  Rabs (IZR (glob_div_yaw p) * g - 2 * PI) <= g / 2
  (* no heading at all, hence no particle, when the interval is more than two turns *)
  /\ (4 * PI < g -> glob_div_yaw p = 0%Z)
  /\ (g <= 4 * PI -> (1 <= glob_div_yaw p)%Z).
Proof.
  intros H Hg Hp. apply load_inv in H. destruct H as (_ & _ & _ & _ & _ & _ & _ & _ & _ & _ & _ & Hd & _).
  rewrite <- Hg in Hd. rewrite Hd. pose proof PI_RGT_0 as Hpi.
  set (x := 2 * PI / g). assert (Ex : x * g = 2 * PI) by (unfold x; field; lra).
  assert (Hx0 : 0 < x) by (unfold x; apply Rdiv_lt_0_compat; lra).
  pose proof (lround_spec x) as Hl. split; [|split].
  - rewrite <- Ex. replace (IZR (lround x) * g - x * g) with ((IZR (lround x) - x) * g) by ring.
    apply Rabs_le. nra.
  - intro H. assert (Hh : x < / 2) by nra. unfold lround. destruct (Rltb_spec x 0); [lra|].
    apply Rfloor_unique. lra.
  - intro H. assert (Hh : / 2 <= x) by nra. unfold lround. destruct (Rltb_spec x 0); [lra|].
    destruct (Rfloor_spec (x + / 2)) as [_ B].
    assert (IZR 0 < IZR (Rfloor (x + / 2)))%R by (change (IZR 0) with 0; lra). apply lt_IZR in H0. lia.
Qed.
Example C91_nonvacuous : 0 < 524 / 1000 <= 4 * PI.
Proof. pose proof PI2_1. unfold PI2 in *. lra. Qed.
