(** Property theorems C115: reconfiguration at run time.  Everywhere the ray caster, the voxel
    filter, the parameters and all inputs of the outside world are arbitrary. *)
From Coq Require Import String Reals ZArith List Bool Arith Lia Lra.
From Verif Require PfModel FilterModel AccumModel.
From Verif Require Import Arith KdModel QuatModel StateModel RayModel LidarModel ParamModel NodeModel NodeSpec NodeFrame NodeStepProofs NodeHistProps DynModel.
Import ListNotations.
Open Scope R_scope.
Open Scope list_scope.

Section DynProps.
Context {S : Type} (caster : cloud -> (pt -> R -> search) -> raycaster S)
        (voxel : R * R * R -> list lpt -> list lpt).
Notation node := (node (S := S)).
Implicit Types n : node.
Implicit Types p : params.

(** ** Nothing but the convergence status depends on the convergence status *)
Definition lift {X} (c : conv_kind) (r : outcome (node * X)) : outcome (node * X) :=
  match r with Ok (n, x) => Ok (with_conv n c, x) | Null => Null | Undef => Undef | Fuel => Fuel end.
Definition lift1 (c : conv_kind) (r : outcome node) : outcome node :=
  match r with Ok n => Ok (with_conv n c) | Null => Null | Undef => Undef | Fuel => Fuel end.
Ltac split_all :=
  repeat match goal with
  | |- context [match ?x with _ => _ end] =>
      match type of x with
      | bool => destruct x
      | option _ => destruct x
      | outcome _ => destruct x
      | prod _ _ => destruct x
      | list _ => destruct x
      end; try reflexivity
  end; try reflexivity.
Lemma gate_c p n c : gate p (with_conv n c) = lift c (gate p n).
Proof. destruct n as [m a od im [a1 a2 a3 a4 a5 a6 a7 a8 a9 st] l f]. unfold gate. cbn. split_all. Qed.
Lemma prepare_c p n c e : prepare p (with_conv n c) e = lift c (prepare p n e).
Proof. destruct n as [m a od im [a1 a2 a3 a4 a5 a6 a7 a8 a9 st] l f]. unfold prepare. cbn. split_all. Qed.
Lemma statistics_c p n c e : statistics p (with_conv n c) e = statistics p n e.
Proof. reflexivity. Qed.
Lemma filters_c p n c e full : filters p (with_conv n c) e full = (let '(m, b, l) := filters p n e full in (with_conv m c, b, l)).
Proof. reflexivity. Qed.
Lemma estimate_c p n c e os bp lp : estimate caster p (with_conv n c) e os bp lp
  = match estimate caster p n e os bp lp with Ok (n', s, r) => Ok (with_conv n' c, s, r) | Null => Null | Undef => Undef | Fuel => Fuel end.
Proof.
  unfold estimate. change (map_cloud (with_conv n c)) with (map_cloud n). destruct (map_cloud n); [|reflexivity..]. cbn [bind].
  change (n_lid (with_conv n c)) with (n_lid n). change (n_pf (with_conv n c)) with (n_pf n).
  change (too_many p (with_conv n c)) with (too_many p n). change (state_prev (n_out (with_conv n c))) with (state_prev (n_out n)).
  destruct (lidar_all _ _ _ _ _ _ _ _ _) as [[s1 res]| | |]; [|reflexivity..]. cbn [bind].
  destruct (PfModel.expectation_biased _ _ _) as [est|]; [|reflexivity]. cbn [bind of_option].
  destruct (PfModel.max _ _) as [mx|]; [|reflexivity]. cbn [bind of_option].
  destruct (beam_points _ _ _ _ _ _ _ _) as [[s2 ?]| |]; reflexivity.
Qed.
Lemma publish_c p n c e est : publish_tf_step p (with_conv n c) e est
  = (let '(m, s, o) := publish_tf_step p n e est in (with_conv m c, s, o)).
Proof.
  unfold publish_tf_step. cbn zeta. change (n_odom (with_conv n c)) with (n_odom n).
  change (jumped p (with_conv n c) est) with (jumped p n est).
  assert (E : after_jump p (with_conv n c) est = with_conv (after_jump p n est) c).
  { unfold after_jump. change (too_many p (with_conv n c)) with (too_many p n).
    change (state_prev (n_out (with_conv n c))) with (state_prev (n_out n)).
    destruct (negb (too_many p n) && far_off p (state_prev (n_out n)) est); reflexivity. }
  rewrite E. clear E. destruct (map_odom est (odom (n_odom n))) as [mp mr]. reflexivity.
Qed.
Lemma cov_c p n c sh : pf_cov p (with_conv n c) sh = pf_cov p n sh.
Proof. reflexivity. Qed.
Lemma collect_c p n c est lp : collect_pcd p (with_conv n c) est lp = lift1 c (collect_pcd p n est lp).
Proof. destruct n as [m a od im [a1 a2 a3 a4 a5 a6 a7 a8 a9 st] l f]. unfold collect_pcd. cbn. split_all. Qed.
Lemma match_c p n c e h est full : match_output p (with_conv n c) e h est full = lift c (match_output p n e h est full).
Proof.
  unfold match_output. change (match_last (n_out (with_conv n c))) with (match_last (n_out n)).
  cbn zeta. destruct ((_ || _) && _); [|reflexivity]. destruct (match_points p (e_search e) (transform est full)) as [[m u]| | |]; reflexivity.
Qed.
Lemma shrink_c p n c e : shrink_step p (with_conv n c) e = lift1 c (shrink_step p n e).
Proof.
  unfold shrink_step. change (too_many p (with_conv n c)) with (too_many p n). change (n_pf (with_conv n c)) with (n_pf n).
  change (psize (with_conv n c)) with (psize n). destruct (too_many p n).
  - destruct (PfModel.resize _ _ _ _ _) as [f|]; [|reflexivity]. cbn [bind of_option].
    change (fix_cnt (n_out (with_fix (set_pf (with_conv n c) f) (fix_steps p)))) with (fix_steps p).
    change (fix_cnt (n_out (with_fix (set_pf n f) (fix_steps p)))) with (fix_steps p). destruct (fix_steps p); reflexivity.
  - cbn [bind]. change (fix_cnt (n_out (with_conv n c))) with (fix_cnt (n_out n)). destruct (fix_cnt (n_out n)); reflexivity.
Qed.
(** ** The thresholds are used for the convergence status only *)
(** equal but for the convergence status *)
Definition forget n : node := with_conv n CONV_NORMAL.
Definition forget_out (o : output) : output :=
  match o with
  | OStatus s _ a b c => OStatus {| s_status := s_status s; s_error := s_error s; s_conv := CONV_NORMAL; s_match := s_match s;
                                   s_size := s_size s; s_entropy := s_entropy s |} false a b c
  | _ => o
  end.
Definition sim (r r' : outcome (node * list output)) : Prop :=
  match r, r' with
  | Ok (n, o), Ok (n', o') => forget n = forget n' /\ map forget_out o = map forget_out o'
  | Null, Null | Undef, Undef | Fuel, Fuel => True
  | _, _ => False
  end.
Lemma sim_refl r : sim r r.
Proof. destruct r as [[n o]| | |]; cbn; auto. Qed.
Lemma sim_lift c r : sim r (lift c r).
Proof. destruct r as [[n o]| | |]; cbn; auto. Qed.
Lemma sim_sym r r' : sim r r' -> sim r' r.
Proof. destruct r as [[n o]| | |], r' as [[n' o']| | |]; cbn; tauto || (intros [-> ->]; auto). Qed.
Lemma sim_trans r r' r'' : sim r r' -> sim r' r'' -> sim r r''.
Proof.
  destruct r as [[n o]| | |], r' as [[n' o']| | |], r'' as [[n'' o'']| | |]; cbn; try tauto.
  intros [-> ->] [-> ->]. auto.
Qed.
Lemma estimate_w p w n e os bp lp : estimate caster (set_warn p w) n e os bp lp = estimate caster p n e os bp lp.
Proof. reflexivity. Qed.
Lemma publish_w p w n e est : publish_tf_step (set_warn p w) n e est = publish_tf_step p n e est.
Proof. reflexivity. Qed.
Lemma cov_w p w n sh : pf_cov (set_warn p w) n sh = pf_cov p n sh.
Proof. reflexivity. Qed.
Lemma collect_w p w n est lp : collect_pcd (set_warn p w) n est lp = collect_pcd p n est lp.
Proof. reflexivity. Qed.
Lemma match_w p w n e h est full : match_output (set_warn p w) n e h est full = match_output p n e h est full.
Proof. reflexivity. Qed.
Lemma shrink_w p w n e : shrink_step (set_warn p w) n e = shrink_step p n e.
Proof. reflexivity. Qed.
Lemma localize_sim p w n c e h os full bp lp :
  sim (localize caster (set_warn p w) n e h os full bp lp) (localize caster p (with_conv n c) e h os full bp lp).
Proof.
  unfold localize. rewrite estimate_w, estimate_c.
  destruct (estimate caster p n e os bp lp) as [[[n1 est] ratio]| | |]; [|exact I..]. cbn [bind].
  rewrite publish_w, publish_c. destruct (publish_tf_step p n1 e est) as [[n2 est'] o1].
  rewrite cov_w, cov_c. destruct (pf_cov p n2 (e_shuffle e)) as [cv| | |]; [|exact I..]. cbn [bind].
  set (c1 := conv_status (set_warn p w) _ _ _). set (c2 := conv_status p _ _ _). clearbody c1 c2.
  change (with_conv (with_conv n2 c) c2) with (with_conv n2 c2).
  rewrite collect_w, !collect_c. destruct (collect_pcd p n2 est' lp) as [n4| | |]; [|exact I..]. cbn [bind lift1].
  rewrite match_w, !match_c. destruct (match_output p n4 e h est' full) as [[n5 o2]| | |]; [|exact I..]. cbn [bind lift].
  cbn zeta. change (n_pf (with_conv n5 c1)) with (n_pf n5). change (n_pf (with_conv n5 c2)) with (n_pf n5).
  change (resample_noise (set_warn p w)) with (resample_noise p). change (update_noise (set_warn p w)) with (update_noise p).
  destruct (PfModel.resample _ _ _ _ _ _ _) as [f|]; [|exact I]. cbn [bind of_option].
  set (f' := PfModel.predict RA _ f). clearbody f'.
  assert (X : forall q cc, clock_step (expansion q (set_pf (with_conv n5 cc) f') e ratio) (e_now e)
                        = with_conv (clock_step (expansion q (set_pf n5 f') e ratio) (e_now e)) cc).
  { intros q cc. unfold expansion. destruct (Rltb ratio (match_ratio_thresh q)); reflexivity. }
  rewrite !X. change (expansion (set_warn p w)) with (expansion (S := S) p). rewrite shrink_w, !shrink_c.
  destruct (shrink_step p _ e) as [n8| | |]; [|exact I..]. cbn [bind lift1].
  cbn [sim force_update]. split; [reflexivity|]. rewrite !map_app. f_equal.
Qed.
Lemma measure_sim p w n c e : sim (measure caster voxel (set_warn p w) n e) (measure caster voxel p (with_conv n c) e).
Proof.
  unfold measure. rewrite gate_c. change (gate (set_warn p w) n) with (gate p n).
  destruct (gate p n) as [[n0 go]| | |]; [|exact I..]. cbn [bind lift]. destruct go; cbn [negb]; [|split; reflexivity].
  rewrite prepare_c. change (prepare (set_warn p w) n0 e) with (prepare p n0 e).
  destruct (prepare p n0 e) as [[n1 [[[h pc] os]|]]| | |]; try exact I; cbn [bind lift]; [|split; reflexivity].
  cbn zeta. rewrite statistics_c. change (statistics (set_warn p w) n1 e) with (statistics p n1 e).
  destruct (statistics p n1 e); [|exact I..]. cbn [bind].
  change (ds_x (set_warn p w)) with (ds_x p). change (ds_y (set_warn p w)) with (ds_y p). change (ds_z (set_warn p w)) with (ds_z p).
  rewrite filters_c. change (filters (set_warn p w) n1 e) with (filters p n1 e).
  destruct (filters p n1 e _) as [[n2 bp] lp]. destruct lp; [split; reflexivity|apply localize_sim].
Qed.
Lemma callbacks_sim p w e cs : forall n c, sim (callbacks caster voxel (set_warn p w) e n cs) (callbacks caster voxel p e (with_conv n c) cs).
Proof.
  induction cs as [|k t IH]; intros n c; [split; reflexivity|]. cbn [callbacks].
  assert (K : sim (callback caster voxel (set_warn p w) e n k) (callback caster voxel p e (with_conv n c) k)).
  { destruct k as [ |m ok| ]; cbn [callback]; [apply measure_sim| |split; reflexivity].
    - change (accumCloud (set_warn p w) n m) with (accumCloud p n m). unfold accumCloud. change (n_acc (with_conv n c)) with (n_acc n).
      destruct (cm_pts p m); [|split; reflexivity]. destruct (local (n_acc n)); [split; reflexivity|exact I].
  }
  destruct (callback caster voxel (set_warn p w) e n k) as [[n1 o1]| | |], (callback caster voxel p e (with_conv n c) k) as [[n1' o1']| | |];
    try exact K; try contradiction. destruct K as [Kn Ko]. cbn [bind].
  assert (E : exists cc, n1' = with_conv n1 cc).
  { exists (s_conv (stat (n_out n1'))). transitivity (with_conv (forget n1') (s_conv (stat (n_out n1')))).
    - destruct n1' as [? ? ? ? [? ? ? ? ? ? ? ? ? [? ? ? ? ? ?]] ? ?]. reflexivity.
    - rewrite <- Kn. reflexivity. }
  destruct E as [cc ->]. specialize (IH n1 cc).
  destruct (callbacks caster voxel (set_warn p w) e n1 t) as [[n2 o2]| | |], (callbacks caster voxel p e (with_conv n1 cc) t) as [[n2' o2']| | |];
    try exact IH; try contradiction. destruct IH as [A B]. cbn [bind]. split; [exact A|]. rewrite !map_app, Ko, B. reflexivity.
Qed.
(** one event *)
Lemma other_c p n c ev : (match ev with ECloud _ _ => False | _ => True end) ->
  step caster voxel p (with_conv n c) ev = lift c (step caster voxel p n ev).
Proof.
  assert (T : forall (q : node) now, cbMapUpdateTimer (with_conv q c) now = lift c (cbMapUpdateTimer q now)).
  { intros q now. unfold cbMapUpdateTimer. change (n_map (with_conv q c)) with (n_map q). destruct (timer_map (n_map q) now) as [[m o]| | |]; reflexivity. }
  assert (L : forall st pts now, loadMapCloud voxel p (with_conv n c) st pts now = lift c (loadMapCloud voxel p n st pts now)).
  { intros st pts now. unfold loadMapCloud. cbn zeta. rewrite <- T. reflexivity. }
  assert (O : forall (q : node) st x, odom_apply p (with_conv q c) st x = (let '(m, b) := odom_apply p q st x in (with_conv m c, b))).
  { intros q st x. unfold odom_apply. change (n_odom (with_conv q c)) with (n_odom q). change (n_pf (with_conv q c)) with (n_pf q). cbn zeta.
    destruct (negb _); [reflexivity|]. destruct (_ || _); [reflexivity|]. destruct (Rltb _ _); reflexivity. }
  assert (M : forall (q : node) st a x tf, imu_apply p (with_conv q c) st a x tf = (let '(m, b) := imu_apply p q st a x tf in (with_conv m c, b))).
  { intros q st a x tf. unfold imu_apply. change (n_imu (with_conv q c)) with (n_imu q). change (n_pf (with_conv q c)) with (n_pf q). cbn zeta.
    destruct (negb _); [reflexivity|]. destruct (_ || _); [reflexivity|]. destruct (Rltb _ _); [|reflexivity]. destruct tf; reflexivity. }
  destruct ev; intro H; try contradiction; clear H; cbn [step].
  - unfold cbMapcloud. destruct conv; [apply L|reflexivity].
  - unfold cbLoadPCD. destruct file; [|reflexivity]. rewrite L. destruct (loadMapCloud voxel p n now l now) as [[m o]| | |]; reflexivity.
  - destruct conv; reflexivity.
  - apply T.
  - unfold cbPosition. destruct (Rltb _ _); [reflexivity|]. destruct (pose_in_map p lk m); reflexivity.
  - unfold cbOdom. rewrite O. destruct (odom_apply p n stamp pose) as [n1 go]. destruct (go && fake_imu p); [|reflexivity].
    rewrite M. destruct (imu_apply p n1 _ _ _ _) as [n2 go2]. destruct (go2 && fake_odom p); reflexivity.
  - unfold cbImu. rewrite M. destruct (imu_apply p n _ _ _ _) as [n1 go]. destruct (go && fake_odom p); [|reflexivity].
    change (n_imu (with_conv n1 c)) with (n_imu n1). rewrite O. destruct (odom_apply p n1 _ _) as [n2 go2]. destruct (go2 && fake_imu p); reflexivity.
  - unfold cbLandmark. cbn zeta. change (n_pf (with_conv n c)) with (n_pf n). destruct (PfModel.resample _ _ _ _ _ _ _); reflexivity.
  - unfold cbResizeParticle. change (n_pf (with_conv n c)) with (n_pf n). destruct (PfModel.resize _ _ _ _ _); reflexivity.
  - reflexivity.
  - unfold cbGlobalLocalization. change (n_map (with_conv n c)) with (n_map n). change (n_pf (with_conv n c)) with (n_pf n).
    change (n_imu (with_conv n c)) with (n_imu n).
    destruct (has_map (n_map n)); [|reflexivity]. destruct (get_obj _ _); [|reflexivity..]. cbn [bind]. cbn zeta.
    destruct (PfModel.resize _ _ _ _ _); [|reflexivity]. cbn [bind of_option]. destruct (fill _ _ _ _ _ _); reflexivity.
Qed.
Lemma event_sim p w n c ev : sim (step caster voxel (set_warn p w) n ev) (step caster voxel p (with_conv n c) ev).
Proof.
  destruct ev; try (rewrite (other_c p n c) by exact I; apply sim_lift). cbn [step]. unfold cbCloud.
  change (set_stat (with_conv n c) status0) with (set_stat n status0). change (has_map (n_map (with_conv n c))) with (has_map (n_map n)).
  destruct (has_map (n_map n)); [|apply sim_refl].
  change (push_calls (set_warn p w)) with (push_calls p). destruct (push_calls p _ m) as [[a cs]| | |]; [|exact I..]. cbn [bind].
  pose proof (callbacks_sim p w e cs (set_stat n status0) CONV_NORMAL) as K.
  change (with_conv (set_stat n status0) CONV_NORMAL) with (set_stat n status0) in K.
  destruct (callbacks caster voxel (set_warn p w) e _ cs) as [[n1 o1]| | |], (callbacks caster voxel p e _ cs) as [[n2 o2]| | |];
    try exact K; try contradiction. cbn [bind sim] in K |- *. destruct K as [K1 K2]. split; [|exact K2].
  transitivity (set_acc (forget n1) {| ac := a; local := local (n_acc (forget n1)); headers := headers (n_acc (forget n1)) |}); [reflexivity|].
  rewrite K1. reflexivity.
Qed.
Lemma forget_conv n n' : forget n = forget n' -> exists c, n' = with_conv n c.
Proof.
  intro H. exists (s_conv (stat (n_out n'))). transitivity (with_conv (forget n') (s_conv (stat (n_out n')))).
  - destruct n' as [? ? ? ? [? ? ? ? ? ? ? ? ? [? ? ? ? ? ?]] ? ?]. reflexivity.
  - rewrite <- H. reflexivity.
Qed.
(** with the same thresholds the next event publishes exactly the same *)
Lemma event_same p n c ev : match step caster voxel p n ev, step caster voxel p (with_conv n c) ev with
                            | Ok (n1, o1), Ok (n2, o2) => forget n1 = forget n2 /\ o1 = o2
                            | Null, Null | Undef, Undef | Fuel, Fuel => True
                            | _, _ => False
                            end.
Proof.
  assert (K : (match ev with ECloud _ _ => False | _ => True end) \/ exists m e, ev = ECloud m e) by (destruct ev; eauto).
  destruct K as [K|(m & e & ->)].
  - rewrite (other_c p n c ev K). destruct (step caster voxel p n ev) as [[n1 o1]| | |]; cbn; auto.
  - change (step caster voxel p (with_conv n c) (ECloud m e)) with (step caster voxel p n (ECloud m e)).
    destruct (step caster voxel p n (ECloud m e)) as [[n1 o1]| | |]; auto.
Qed.

(** ** Specification *)
(** the history without the reconfigurations *)
Fixpoint erase (es : list devent) : list event :=
  match es with [] => [] | DEvent ev :: t => ev :: erase t | DReconfigure _ :: t => erase t end.
(** the value a request gives to [k], if it names it; the last one a history gives to it *)
Definition named (k : string) (r : request) : option R :=
  option_map snd (find (fun x => String.eqb (fst x) k) r).
Fixpoint last_named (k : string) (es : list devent) : option R :=
  match es with
  | [] => None
  | DReconfigure r :: t => match last_named k t with Some x => Some x | None => named k r end
  | DEvent _ :: t => last_named k t
  end.
Definition clamped (x : R) : R := Rmax 0 (Rmin x dbl_max).
Definition valid_config (c : config) : Prop := 0 <= c_xy c <= dbl_max /\ 0 <= c_z c <= dbl_max /\ 0 <= c_yaw c <= dbl_max.

(** ** C115 *)
(** A history with any reconfigurations, compared with the same history without them and with
    any fixed thresholds: it fails in the same way, or it publishes the same and ends in the same
    state, but for the convergence status (and the diagnostic level that follows from it). *)
Theorem C115_transparent rf p d es :
  match dsteps caster voxel rf p d es, steps caster voxel p (d_node d) (erase es) with
  | Ok (d', o), Ok (n', o') => forget (d_node d') = forget n' /\ map forget_out o = map forget_out o'
  | Null, Null | Undef, Undef | Fuel, Fuel => True
  | _, _ => False
  end.
Proof.
  set (n0 := d_node d). assert (H : exists c, n0 = with_conv (d_node d) c).
  { apply forget_conv. reflexivity. }
  clearbody n0. revert d n0 H. induction es as [|[ev|r] t IH]; intros d n0 [c ->]; cbn [dsteps erase steps].
  - split; reflexivity.
  - cbn [dstep]. pose proof (event_sim p (thresholds rf (d_config d)) (d_node d) c ev) as K.
    destruct (step caster voxel (set_warn p _) (d_node d) ev) as [[n1 o1]| | |], (step caster voxel p (with_conv (d_node d) c) ev) as [[n2 o2]| | |];
      try exact K; try contradiction. cbn [bind]. destruct K as [K1 K2].
    specialize (IH {| d_config := d_config d; d_node := n1 |} n2 (forget_conv _ _ K1)).
    destruct (dsteps caster voxel rf p _ t) as [[d' o']| | |], (steps caster voxel p n2 (erase t)) as [[n' o'']| | |];
      try exact IH; try contradiction. cbn [bind]. destruct IH as [A B]. split; [exact A|]. rewrite !map_app, K2, B. reflexivity.
  - cbn [dstep bind]. specialize (IH {| d_config := reconfigure (d_config d) r; d_node := d_node d |} (with_conv (d_node d) c) (ex_intro _ c eq_refl)).
    destruct (dsteps caster voxel rf p _ t) as [[d' o']| | |], (steps caster voxel p _ (erase t)) as [[n' o'']| | |]; exact IH.
Qed.
(** What an event publishes is decided with the thresholds that are set when it happens: it is
    exactly what it would publish if the thresholds had had these values all the time. *)
Theorem C115_latest_thresholds rf p d es d1 o1 ev d2 o :
  dsteps caster voxel rf p d es = Ok (d1, o1) -> dstep caster voxel rf p d1 (DEvent ev) = Ok (d2, o) ->
  exists n1 o1' n2, let q := set_warn p (thresholds rf (d_config d1)) in
    steps caster voxel q (d_node d) (erase es) = Ok (n1, o1') /\ step caster voxel q n1 ev = Ok (n2, o)
    /\ map forget_out o1 = map forget_out o1'.
Proof.
  intros H1 H2. set (q := set_warn p (thresholds rf (d_config d1))).
  assert (Q : dsteps caster voxel rf q d es = Ok (d1, o1)).
  { rewrite <- H1. clear H1 H2. subst q. generalize (thresholds rf (d_config d1)) as w. intro w. revert d.
    induction es as [|[ev'|r] t IH]; intro d; cbn [dsteps]; [reflexivity| |cbn [dstep bind]; rewrite IH; reflexivity].
    cbn [dstep]. change (set_warn (set_warn p w)) with (set_warn p).
    destruct (step caster voxel _ (d_node d) ev') as [[n' o']| | |]; [|reflexivity..]. cbn [bind]. rewrite IH. reflexivity. }
  pose proof (C115_transparent rf q d es) as T. rewrite Q in T.
  destruct (steps caster voxel q (d_node d) (erase es)) as [[n1 o1']| | |] eqn:E; try contradiction. destruct T as [T1 T2].
  destruct (forget_conv _ _ T1) as [c ->]. cbn [dstep] in H2. fold q in H2. pose proof (event_same q (d_node d1) c ev) as K.
  destruct (step caster voxel q (d_node d1) ev) as [[n3 o3]| | |]; try discriminate. cbn [bind] in H2. injection H2 as _ <-.
  destruct (step caster voxel q (with_conv (d_node d1) c) ev) as [[n4 o4]| | |] eqn:E4; try contradiction. destruct K as [_ <-].
  exists (with_conv (d_node d1) c), o1', n4. cbn zeta. auto.
Qed.
Lemma clampd_spec x : clampd x = clamped x.
Proof.
  assert (D : 0 <= dbl_max) by (apply IZR_le; lia).
  unfold clampd, clamped, Rmax, Rmin. cbn zeta.
  destruct (Rltb dbl_max x) eqn:A; [apply Rltb_true in A|apply Rltb_false in A];
    (match goal with |- context [Rltb ?u 0] => destruct (Rltb u 0) eqn:B end; [apply Rltb_true in B|apply Rltb_false in B]);
    destruct (Rle_dec x dbl_max); destruct (Rle_dec 0 _); lra.
Qed.
Lemma clamped_range x : 0 <= clamped x <= dbl_max.
Proof.
  assert (D : 0 <= dbl_max) by (apply IZR_le; lia). unfold clamped. split; [apply Rmax_l|]. apply Rmax_lub; [exact D|apply Rmin_r].
Qed.
Lemma clamped_id x : 0 <= x <= dbl_max -> clamped x = x.
Proof. intros [A B]. unfold clamped. rewrite Rmin_left by exact B. apply Rmax_right. exact A. Qed.
Lemma msg_get_named r k x : msg_get r k x = match named k r with Some y => y | None => x end.
Proof.
  induction r as [|[k' y] t IH]; [reflexivity|]. cbn [msg_get]. unfold named in *. cbn [find fst]. destruct (String.eqb k' k); [reflexivity|exact IH].
Qed.
(** A threshold has the value of the last request that named it, clamped to the allowed range;
    requests that do not name it leave it alone. *)
Theorem C115_values rf p d es d' o : valid_config (d_config d) -> dsteps caster voxel rf p d es = Ok (d', o) ->
  let value k now := match last_named k es with Some x => clamped x | None => now end in
  c_xy (d_config d') = value "std_warn_thresh_xy"%string (c_xy (d_config d))
  /\ c_z (d_config d') = value "std_warn_thresh_z"%string (c_z (d_config d))
  /\ c_yaw (d_config d') = value "std_warn_thresh_yaw"%string (c_yaw (d_config d))
  /\ valid_config (d_config d').
Proof.
  cbn zeta. revert d o. induction es as [|[ev|r] t IH]; intros d o V H; cbn [dsteps last_named] in *.
  - injection H as <- _. auto.
  - cbn [dstep] in H. destruct (step caster voxel _ (d_node d) ev) as [[n1 o1]| | |]; try discriminate. cbn [bind] in H.
    destruct (dsteps caster voxel rf p _ t) as [[d2 o2]| | |] eqn:E; try discriminate. cbn [bind] in H. injection H as <- _.
    exact (IH {| d_config := d_config d; d_node := n1 |} _ V E).
  - cbn [dstep bind] in H. destruct (dsteps caster voxel rf p _ t) as [[d2 o2]| | |] eqn:E; try discriminate. cbn [bind] in H. injection H as <- _.
    assert (V' : valid_config (reconfigure (d_config d) r)).
    { unfold valid_config, reconfigure, config_clamp. cbn [c_xy c_z c_yaw]. rewrite !clampd_spec. auto using clamped_range. }
    destruct (IH {| d_config := reconfigure (d_config d) r; d_node := d_node d |} _ V' E) as (A & B & C & D). cbn [d_config] in A, B, C.
    destruct V as (V1 & V2 & V3).
    assert (X : forall k now, 0 <= now <= dbl_max -> clampd (msg_get r k now) = match named k r with Some x => clamped x | None => now end).
    { intros k now Hn. rewrite clampd_spec, msg_get_named. destruct (named k r); [reflexivity|apply clamped_id, Hn]. }
    rewrite A, B, C. unfold reconfigure, config_clamp, config_from_msg. cbn [c_xy c_z c_yaw]. rewrite !X by assumption.
    repeat split; try apply D; repeat match goal with |- context [last_named ?k t] => destruct (last_named k t); try reflexivity end.
Qed.
(** When the node starts, the thresholds are those of the parameter server (clamped: a negative
    one becomes 0), or the largest double if they are not set. *)
Theorem C115_start rf junk s p s' : load rf junk (thresholds rf (config_first s')) s = Some (p, s') ->
  let value k := match s' k with Some (PDouble x) => clamped x | Some (PInt z) => clamped (IZR z) | _ => dbl_max end in
  std_warn p = (rf (value "std_warn_thresh_xy"%string), rf (value "std_warn_thresh_z"%string), rf (value "std_warn_thresh_yaw"%string))
  /\ valid_config (config_first s')
  /\ forall gen rc0, set_warn p (thresholds rf (d_config (dconfigure (S := S) p s' gen rc0))) = p.
Proof.
  intro H. cbn zeta.
  assert (E : std_warn p = thresholds rf (config_first s')).
  { unfold load in H. destruct (_ && _); [discriminate|]. revert H. generalize (rename_all junk s). intros s1 H.
    assert (K : std_warn (load_params rf (param to_bool s "fake_imu" false) (param to_bool s "fake_odom" false) (thresholds rf (config_first s')) s1) = std_warn p).
    { injection H. intros _ <-. reflexivity. }
    rewrite <- K. unfold load_params. cbv zeta. destruct (load_dda rf s1 _) as [[? ?] ?]. reflexivity. }
  split; [|split].
  - rewrite E. unfold thresholds, config_first, config_clamp, config_from_server, config_default, param. cbn [c_xy c_z c_yaw].
    rewrite !clampd_spec. assert (D : 0 <= dbl_max) by (apply IZR_le; lia).
    assert (X : forall k, clamped (match s' k with Some v => match to_double v with Some x => x | None => dbl_max end | None => dbl_max end)
                = match s' k with Some (PDouble x) => clamped x | Some (PInt z) => clamped (IZR z) | _ => dbl_max end).
    { intro k. destruct (s' k) as [[x|z|b|q]|]; cbn [to_double]; try reflexivity; apply clamped_id; lra. }
    rewrite !X. reflexivity.
  - unfold valid_config, config_first, config_clamp. cbn [c_xy c_z c_yaw]. rewrite !clampd_spec. auto using clamped_range.
  - intros gen rc0. cbn [dconfigure d_config]. rewrite <- E. destruct p. reflexivity.
Qed.
Lemma trace_of_steps p evs : forall n n' o, steps caster voxel p n evs = Ok (n', o) ->
  exists tr, trace voxel p caster n evs = Ok tr /\ length tr = length evs
    /\ forall ev n'' o', step caster voxel p n' ev = Ok (n'', o') ->
       trace voxel p caster n (evs ++ [ev]) = Ok (tr ++ [{| before := n'; what := ev; outs := o'; after := n'' |}]).
Proof.
  induction evs as [|ev t IH]; cbn [steps trace app]; intros n n' o H.
  - injection H as <- _. exists []. split; [reflexivity|]. split; [reflexivity|]. intros ev n'' o' E. rewrite E. reflexivity.
  - destruct (step caster voxel p n ev) as [[n1 o1]| | |] eqn:E; cbn [bind] in H |- *; try discriminate.
    destruct (steps caster voxel p n1 t) as [[n2 o2]| | |] eqn:E2; cbn [bind] in H; try discriminate. injection H as <- _.
    destruct (IH _ _ _ E2) as (tr & -> & L & K). cbn [bind]. eexists. split; [reflexivity|]. split; [cbn [length]; rewrite L; reflexivity|].
    intros ev' n'' o' E'. rewrite (K _ _ _ E'). reflexivity.
Qed.
(** The convergence status of a localization step in a history with reconfigurations: the warning
    is decided with the thresholds that are set at that moment (C81 has the rest). *)
Theorem C115_convergence rf p s gen rc0 es d1 o1 ev d2 o : (0 <= Rceil (lpf_step p))%Z -> (0 <= num_particles p)%Z ->
  dsteps caster voxel rf p (dconfigure p s gen rc0) es = Ok (d1, o1) -> dstep caster voxel rf p d1 (DEvent ev) = Ok (d2, o) ->
  exists tr, trace voxel (set_warn p (thresholds rf (d_config d1))) caster (configure p gen rc0) (erase es ++ [ev]) = Ok tr
  /\ forall t pose c st g a b m, In (OPose t pose c) o -> In (OStatus st g a b m) o ->
     let j := (length (loc_steps tr) - 1)%nat in
     (s_conv st = LARGE_STD_VALUE <->
        ~ ((0 < j)%nat /\ recently_global p tr (j - 1) j)
        /\ (rf (c_xy (d_config d1)) < sqrt (c 0%nat 0%nat + c 1%nat 1%nat) \/ rf (c_z (d_config d1)) < sqrt (c 2%nat 2%nat)
            \/ rf (c_yaw (d_config d1)) < sqrt (c 5%nat 5%nat)))
     /\ (s_conv st = CONVERGED <-> s_conv st <> LARGE_STD_VALUE /\ narrow p c).
Proof.
  intros Hl Hnp H1 H2. destruct (C115_latest_thresholds _ _ _ _ _ _ _ _ _ H1 H2) as (n1 & o1' & n2 & K1 & K2 & _). cbn zeta in K1, K2.
  set (q := set_warn p (thresholds rf (d_config d1))) in *. cbn [dconfigure d_node] in K1.
  destruct (trace_of_steps q _ _ _ _ K1) as (tr & T & _ & Tx). specialize (Tx _ _ _ K2). eexists. split; [exact Tx|].
  intros t pose c st g a b m Hp Hs. cbn zeta. set (x := {| before := n1; what := ev; outs := o; after := n2 |}) in *.
  assert (Lx : localizes x = true). { apply existsb_exists. eexists. split; [exact Hp|reflexivity]. }
  assert (F : loc_steps (tr ++ [x]) = loc_steps tr ++ [x]).
  { unfold loc_steps. rewrite filter_app. cbn [filter]. rewrite Lx. reflexivity. }
  set (j := (length (loc_steps (tr ++ [x])) - 1)%nat).
  assert (Hj : nth_error (loc_steps (tr ++ [x])) j = Some x).
  { unfold j. rewrite F, app_length. cbn [length]. replace (length (loc_steps tr) + 1 - 1)%nat with (length (loc_steps tr)) by lia.
    rewrite nth_error_app2 by lia. rewrite Nat.sub_diag. reflexivity. }
  destruct (C81_convergence caster voxel q Hl Hnp (erase es ++ [ev]) gen rc0 (tr ++ [x]) j x Tx Hj t pose c st g a b m Hp Hs) as (A & B & _).
  split; [exact A|exact B].
Qed.
(** Without any threshold on the parameter server and without requests that name one, no warning
    is ever given (the largest double becomes a float that is at least as large, or infinite). *)
Theorem C115_default_never_warns rf p s gen rc0 es d1 o1 ev d2 o : (0 <= Rceil (lpf_step p))%Z -> (0 <= num_particles p)%Z ->
  (forall x, x <= dbl_max -> x <= rf dbl_max) ->
  (forall k, In k ["std_warn_thresh_xy"; "std_warn_thresh_z"; "std_warn_thresh_yaw"]%string -> s k = None /\ last_named k es = None) ->
  dsteps caster voxel rf p (dconfigure p s gen rc0) es = Ok (d1, o1) -> dstep caster voxel rf p d1 (DEvent ev) = Ok (d2, o) ->
  forall t pose c st g a b m, In (OPose t pose c) o -> In (OStatus st g a b m) o ->
  sqrt (c 0%nat 0%nat + c 1%nat 1%nat) <= dbl_max -> sqrt (c 2%nat 2%nat) <= dbl_max -> sqrt (c 5%nat 5%nat) <= dbl_max ->
  s_conv st <> LARGE_STD_VALUE.
Proof.
  intros Hl Hnp Hrf Hn H1 H2 t pose c st g a b m Hp Hs B1 B2 B3 E.
  destruct (C115_convergence _ _ _ _ _ _ _ _ _ _ _ Hl Hnp H1 H2) as (tr & _ & K). destruct (K _ _ _ _ _ _ _ _ Hp Hs) as (A & _).
  apply A in E. destruct E as [_ W].
  assert (D : 0 <= dbl_max) by (apply IZR_le; lia).
  assert (V : valid_config (config_first s)).
  { unfold valid_config, config_first, config_clamp. cbn [c_xy c_z c_yaw]. rewrite !clampd_spec. auto using clamped_range. }
  assert (F : config_first s = config_default).
  { unfold config_first, config_clamp, config_from_server, param. cbn [c_xy c_z c_yaw].
    destruct (Hn "std_warn_thresh_xy"%string) as [-> _]; [cbn; auto|]. destruct (Hn "std_warn_thresh_z"%string) as [-> _]; [cbn; auto|].
    destruct (Hn "std_warn_thresh_yaw"%string) as [-> _]; [cbn; auto|]. cbn [config_default c_xy c_z c_yaw].
    rewrite !clampd_spec, !clamped_id by lra. reflexivity. }
  destruct (C115_values rf p (dconfigure p s gen rc0) es d1 o1 V H1) as (X & Y & Z & _). cbn zeta in X, Y, Z.
  destruct (Hn "std_warn_thresh_xy"%string) as [_ N1]; [cbn; auto|]. destruct (Hn "std_warn_thresh_z"%string) as [_ N2]; [cbn; auto|].
  destruct (Hn "std_warn_thresh_yaw"%string) as [_ N3]; [cbn; auto|]. rewrite N1 in X. rewrite N2 in Y. rewrite N3 in Z.
  cbn [dconfigure d_config] in X, Y, Z. rewrite F in X, Y, Z. cbn [config_default c_xy c_z c_yaw] in X, Y, Z. rewrite X, Y, Z in W.
  apply Hrf in B1. apply Hrf in B2. apply Hrf in B3. lra.
Qed.
End DynProps.
