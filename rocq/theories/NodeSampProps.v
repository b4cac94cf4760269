(** C118: the node with the samplers it really uses. *)
From Coq Require Import String.
From Coq Require Import Reals ZArith NArith List Bool Arith Permutation Lra Lia.
From Verif Require PfModel FilterModel AccumModel.
From Verif Require Import Arith KdModel QuatModel StateModel StateSpec RayModel LidarModel LidarSpec LidarProofs LidarProps NdModel SamplerModel SamplerSpec SamplerProps ParamModel MatModel
  NodeModel NodeSpec NodeFrame NodeLocProofs NodeStepProofs NodeMapProofs NodeAccProofs NodeAccProps NodeAliveSpec NodeAliveProofs NodeAliveProofs2 NodeAliveProps NodeSampModel NodeSampSpec.
Import ListNotations.
Open Scope R_scope.
Open Scope list_scope.

Lemma vec_dec (a b : vec3) : {a = b} + {a <> b}.
Proof.
  destruct a as [a1 a2 a3], b as [b1 b2 b3]. destruct (Req_EM_T a1 b1) as [E1|N1]; [|right; congruence].
  destruct (Req_EM_T a2 b2) as [E2|N2]; [|right; congruence]. destruct (Req_EM_T a3 b3) as [E3|N3]; [|right; congruence]. left. congruence.
Qed.
Lemma lpt_dec (a b : lpt) : {a = b} + {a <> b}.
Proof.
  destruct a as [a l], b as [b k]. destruct (vec_dec a b) as [E1|N1]; [|right; congruence].
  destruct (Nat.eq_dec l k) as [E2|N2]; [|right; congruence]. left. congruence.
Qed.
(** the sampler that returns [out] for the cloud [l], and nothing for other clouds *)
Definition only (l out : list lpt) : list lpt -> N -> list lpt := fun pc _ => if list_eq_dec lpt_dec pc l then out else [].
Lemma only_is l out k : only l out l k = out.
Proof. unfold only. destruct (list_eq_dec lpt_dec l l); congruence. Qed.
Lemma only_members l out : (forall q, In q out -> In q l) -> picks_members (only l out).
Proof. intros H pc k q. unfold only. destruct (list_eq_dec lpt_dec pc l) as [->|]; [apply H|intros []]. Qed.
Lemma nothing_members : picks_members (fun _ _ => []). Proof. intros l k q []. Qed.

Lemma all_points_in {X} (l : list X) ids : forall out, all_points l ids = Some out -> forall q, In q out -> In q l.
Proof.
  induction ids as [|i ids IH]; cbn; intros out H q Hq; [injection H as <-; destruct Hq|].
  destruct (nth_error l i) as [x|] eqn:Ei; [|discriminate]. destruct (all_points l ids) as [t|]; [|discriminate]. injection H as <-.
  destruct Hq as [<-|Hq]; [exact (nth_error_In _ _ Ei)|exact (IH _ eq_refl _ Hq)].
Qed.
Lemma uniform_loop_in {X E} (draw : nat -> E -> nat * E) (l : list X) k : forall g out g', uniform_loop draw l k g = Some (out, g') -> forall q, In q out -> In q l.
Proof.
  induction k as [|k IH]; cbn; intros g out g' H q Hq; [injection H as <- _; destruct Hq|].
  destruct (draw (length l - 1)%nat g) as [i g1]. destruct (nth_error l i) as [x|] eqn:Ei; [|discriminate].
  destruct (uniform_loop draw l k g1) as [[t g2]|] eqn:El; [|discriminate]. injection H as <- _.
  destruct Hq as [<-|Hq]; [exact (nth_error_In _ _ Ei)|exact (IH _ _ _ El _ Hq)].
Qed.

Section Samp.
Context {S E : Type} (caster : cloud -> (pt -> R -> search) -> raycaster S) (voxel : R * R * R -> list lpt -> list lpt) (p : params)
        (draw_int : nat -> E -> nat * E) (draw_real : R -> E -> R * E) (normals : R -> list lpt -> list (option (R * R * R)))
        (eigen : mat3 -> vec3 * (vec3 * vec3 * vec3)) (order : list nat -> list nat).
Notation node := (node (S := S)).
Notation sample := (sample p draw_int draw_real normals order).
Notation filters_s := (filters_s (S := S) p draw_int draw_real normals order).
Notation measure_s := (measure_s caster voxel p draw_int draw_real normals eigen order).
Notation callback_s := (callback_s caster voxel p draw_int draw_real normals eigen order).
Notation callbacks_s := (callbacks_s caster voxel p draw_int draw_real normals eigen order).
Notation cbCloud_s := (cbCloud_s caster voxel p draw_int draw_real normals eigen order).
Notation step_s := (step_s caster voxel p draw_int draw_real normals eigen order).
Notation steps_s := (steps_s caster voxel p draw_int draw_real normals eigen order).
Notation particle_statistics := (particle_statistics (S := S) p eigen).
Notation legal_draws := (draws_ok draw_int draw_real normals order).

Lemma sample_in st fuel l k g out g' : sample st fuel l k g = Ok (out, g') -> forall q, In q out -> In q l.
Proof.
  unfold NodeSampModel.sample. destruct st as [s|].
  - intro H. apply of_run_ok in H. cbv zeta in H. unfold weighted_sample in H.
    destruct ((length l =? 0)%nat || (N.to_nat k =? 0)%nat); [injection H as <- _; intros q []|].
    destruct (length l <=? N.to_nat k)%nat; [injection H as <- _; auto|].
    destruct (select_loop _ _ _ _ _ _) as [[sel g1]| |]; try discriminate.
    destruct (all_points l (order sel)) as [t|] eqn:Ea; [|discriminate]. injection H as <- _. exact (all_points_in _ _ _ Ea).
  - intro H. apply of_option_ok in H. unfold uniform_sample in H. destruct l as [|x l]; [injection H as <- _; intros q []|].
    exact (uniform_loop_in _ _ _ _ _ _ H).
Qed.
(** what the samplers return, and when they do not *)
Lemma sample_cases : legal_draws -> forall st fuel l k g,
  match sample st fuel l k g with
  | Ok (out, _) => sampled (match st with Some _ => true | None => false end) l (N.to_nat k) out
  | Fuel => st <> None
  | _ => False
  end.
Proof.
  intros [D1 D2 D3 D4] st fuel l k g. unfold NodeSampModel.sample. destruct st as [s|].
  - cbv zeta. pose proof (C67_distinct_points RA sqrt acos Rabs (PI / 2) (normal_par p) E draw_real lpt order (s_e1 s) (s_e2 s)
      (vx (fpc_local (rot (s_mean s)) (s_axis s)), vy (fpc_local (rot (s_mean s)) (s_axis s)), vz (fpc_local (rot (s_mean s)) (s_axis s)))
      (normals (search_range p)) fuel l (N.to_nat k) g
      (fun b g => proj2 (Rltb_false b (fst (draw_real b g))) (D2 b g)) D3 (D4 (search_range p))) as H.
    destruct (weighted_sample _ _ _ _ _ _ _ _ _ _ _ _ _ _ _) as [[out g']| |]; cbn [of_run]; [exact H|contradiction|discriminate].
  - unfold uniform_sample. destruct l as [|x l]; [cbn [of_option]; split; [intros q []|reflexivity]|].
    destruct (C66_uniform lpt E draw_int (x :: l) (N.to_nat k) g D1 ltac:(discriminate)) as (out & g' & H & Hl & Hi & _).
    unfold uniform_sample in H. rewrite H. cbn [of_option]. split; [exact Hi|exact Hl].
Qed.

Lemma statistics_same n e fb fl : statistics p n (with_samples e fb fl) = do _ <- particle_statistics n e; Ok tt.
Proof.
  unfold statistics, NodeSampModel.particle_statistics. destruct (use_sampler_normal p); [|reflexivity]. cbn [with_samples e_stat_shuffle].
  destruct (of_option _); cbn [bind]; try reflexivity. destruct (pf_cov p n (e_stat_shuffle e)); reflexivity.
Qed.
Lemma statistics_kind n e st : particle_statistics n e = Ok st -> (match st with Some _ => true | None => false end) = use_sampler_normal p.
Proof.
  unfold NodeSampModel.particle_statistics. destruct (use_sampler_normal p); [|intro H; injection H as <-; reflexivity].
  intro H. bok H. bok H. injection H as <-. reflexivity.
Qed.

Definition beam_now (n : node) := beam_set_global (l_beam (n_lid n)) (Z.to_N (num_particles p mod 2 ^ 64)) (N.of_nat (psize n)).
Definition like_now (n : node) := like_set_global (l_like (n_lid n)) (Z.to_N (num_particles p mod 2 ^ 64)) (N.of_nat (psize n)).
Definition beam_cloud (n : node) full := clip (b_far_sq (beam_now n)) (b_near_sq (beam_now n)) (bp_zmin (b_par (beam_now n))) (bp_zmax (b_par (beam_now n))) full.
Definition like_cloud (n : node) full := clip (l_far_sq (like_now n)) (l_near_sq (like_now n)) (lp_zmin (l_par (like_now n))) (lp_zmax (l_par (like_now n))) full.
Definition told (n : node) : node := set_lid n {| l_beam := beam_now n; l_like := like_now n; l_rc := l_rc (n_lid n) |}.
Lemma filters_is n e fb fl full : filters p n (with_samples e fb fl) full = (told n, fb (beam_cloud n full) (b_num (beam_now n)), fl (like_cloud n full) (l_num (like_now n))).
Proof. reflexivity. Qed.
Lemma filters_s_is n st fuel full g : filters_s n st fuel full g =
  do (bp, g1) <- sample st fuel (beam_cloud n full) (b_num (beam_now n)) g;
  do (lp, g2) <- sample st fuel (like_cloud n full) (l_num (like_now n)) g1; Ok (told n, bp, lp, g2).
Proof. reflexivity. Qed.
Lemma lidar_all_same b l (rc : raycaster S) e fb fl os bp lp ss : forall s, lidar_all b l rc (with_samples e fb fl) os bp lp ss s = lidar_all b l rc e os bp lp ss s.
Proof.
  induction ss as [|x ss IH]; intro s; [reflexivity|]. cbn [lidar_all]. cbn [with_samples e_fuel e_search].
  destruct (of_run (beam_measure b rc (e_fuel e) s (Some bp) os x)) as [[s1 rb]| | |]; cbn [bind]; [|reflexivity|reflexivity|reflexivity].
  destruct (of_option (like_measure l (e_search e) (Some lp) x)); cbn [bind]; [|reflexivity|reflexivity|reflexivity]. rewrite IH. reflexivity.
Qed.
Lemma estimate_same (n : node) e fb fl os bp lp : estimate caster p n (with_samples e fb fl) os bp lp = estimate caster p n e os bp lp.
Proof.
  unfold estimate. destruct (map_cloud n) as [cl| | |]; cbn [bind]; [|reflexivity|reflexivity|reflexivity]. rewrite lidar_all_same. reflexivity.
Qed.
Lemma localize_same n e fb fl h os full bp lp : localize caster p n (with_samples e fb fl) h os full bp lp = localize caster p n e h os full bp lp.
Proof. unfold localize. rewrite estimate_same. reflexivity. Qed.
Lemma prepare_same (n : node) e fb fl : prepare p n (with_samples e fb fl) = prepare p n e.
Proof. reflexivity. Qed.

(** the outcome [r] with samplers is the outcome [r'] without *)
Definition agrees (r : outcome (node * list output * E)) (r' : outcome (node * list output)) : Prop :=
  match r with
  | Ok (n, o, _) => r' = Ok (n, o)
  | Null => r' = Null
  | Undef => r' = Undef
  | Fuel => r' = Fuel \/ use_sampler_normal p = true
  end.
(** one measurement *)
Lemma measure_agrees n e g : legal_draws \/ (exists x, measure_s n e g = Ok x) ->
  exists fb fl, picks_members fb /\ picks_members fl /\ agrees (measure_s n e g) (measure caster voxel p n (with_samples e fb fl)).
Proof.
  intro HD. unfold NodeSampModel.measure_s, measure in *. destruct (gate p n) as [[n0 go]| | |]; cbn [bind] in *;
    try (exists (fun _ _ => []), (fun _ _ => []); split; [apply nothing_members|]; split; [apply nothing_members|]; cbn; auto; fail).
  destruct (negb go); [exists (fun _ _ => []), (fun _ _ => []); split; [apply nothing_members|]; split; [apply nothing_members|]; reflexivity|].
  destruct (prepare p n0 e) as [[n1 ready]| | |] eqn:Ep; cbn [bind] in *;
    try (exists (fun _ _ => []), (fun _ _ => []); split; [apply nothing_members|]; split; [apply nothing_members|]; rewrite prepare_same, Ep; cbn; auto; fail).
  destruct ready as [[[h pc] os]|]; [|exists (fun _ _ => []), (fun _ _ => []); split; [apply nothing_members|]; split; [apply nothing_members|]; rewrite prepare_same, Ep; reflexivity].
  set (full := voxel (ds_x p, ds_y p, ds_z p) pc) in *.
  destruct (particle_statistics n1 e) as [st| | |] eqn:Est; cbn [bind] in *;
    try (exists (fun _ _ => []), (fun _ _ => []); split; [apply nothing_members|]; split; [apply nothing_members|]; rewrite prepare_same, Ep; cbn [bind]; rewrite statistics_same, Est; cbn; auto; fail).
  pose proof (statistics_kind _ _ _ Est) as Hk.
  rewrite filters_s_is in *.
  destruct (sample st (e_fuel e) (beam_cloud n1 full) (b_num (beam_now n1)) g) as [[bp g1]| | |] eqn:Eb; cbn [bind] in *.
  2-4: assert (HD' : legal_draws) by (destruct HD as [HD|[x HD]]; [exact HD|discriminate]);
       pose proof (sample_cases HD' st (e_fuel e) (beam_cloud n1 full) (b_num (beam_now n1)) g) as Hc; rewrite Eb in Hc; try contradiction.
  2:{ exists (fun _ _ => []), (fun _ _ => []). split; [apply nothing_members|]. split; [apply nothing_members|]. right. rewrite <- Hk. destruct st; [reflexivity|congruence]. }
  destruct (sample st (e_fuel e) (like_cloud n1 full) (l_num (like_now n1)) g1) as [[lp g2]| | |] eqn:El; cbn [bind] in *.
  2-4: assert (HD' : legal_draws) by (destruct HD as [HD|[x HD]]; [exact HD|discriminate]);
       pose proof (sample_cases HD' st (e_fuel e) (like_cloud n1 full) (l_num (like_now n1)) g1) as Hc; rewrite El in Hc; try contradiction.
  2:{ exists (fun _ _ => []), (fun _ _ => []). split; [apply nothing_members|]. split; [apply nothing_members|]. right. rewrite <- Hk. destruct st; [reflexivity|congruence]. }
  exists (only (beam_cloud n1 full) bp), (only (like_cloud n1 full) lp).
  split; [apply only_members; exact (sample_in _ _ _ _ _ _ _ Eb)|]. split; [apply only_members; exact (sample_in _ _ _ _ _ _ _ El)|].
  rewrite prepare_same, Ep. cbn [bind]. fold full. rewrite statistics_same, Est. cbn [bind]. rewrite filters_is, !only_is.
  destruct lp as [|q lp]; [destruct (force_update (points_lost (told n1))); reflexivity|].
  rewrite localize_same. destruct (localize caster p (told n1) e h os full bp (q :: lp)) as [[n3 o]| | |]; cbn; auto.
Qed.

Lemma callback_s_other e n g c : c <> AccumModel.Process -> callback_s e n g c = do (n', o) <- callback caster voxel p e n c; Ok (n', o, g).
Proof. destruct c; [congruence|reflexivity|reflexivity]. Qed.
Lemma callback_env e fb fl n c : c <> AccumModel.Process -> callback caster voxel p (with_samples e fb fl) n c = callback caster voxel p e n c.
Proof. destruct c; [congruence|reflexivity|reflexivity]. Qed.
Lemma callbacks_env e fb fl cs : forall n, nproc cs = 0%nat -> callbacks caster voxel p (with_samples e fb fl) n cs = callbacks caster voxel p e n cs.
Proof.
  induction cs as [|c cs IH]; intros n H; [reflexivity|]. cbn [callbacks]. rewrite callback_env by (intros ->; discriminate H).
  destruct (callback caster voxel p e n c) as [[n1 o1]| | |]; cbn [bind]; [|reflexivity|reflexivity|reflexivity].
  rewrite IH; [reflexivity|]. destruct c; [discriminate H|exact H|exact H].
Qed.
Lemma callbacks_quiet e cs : forall n g, nproc cs = 0%nat -> callbacks_s e n g cs = do (n', o) <- callbacks caster voxel p e n cs; Ok (n', o, g).
Proof.
  induction cs as [|c cs IH]; intros n g H; [reflexivity|]. cbn [callbacks NodeSampModel.callbacks_s]. rewrite callback_s_other by (intros ->; discriminate H).
  destruct (callback caster voxel p e n c) as [[n1 o1]| | |]; cbn [bind]; [|reflexivity|reflexivity|reflexivity].
  rewrite IH by (destruct c; [discriminate H|exact H|exact H]). destruct (callbacks caster voxel p e n1 cs) as [[n2 o2]| | |]; reflexivity.
Qed.
Lemma agrees_app (r : outcome (node * list output * E)) r' (f : node -> E -> outcome (node * list output * E)) (f' : node -> outcome (node * list output)) :
  agrees r r' -> (forall n o g, r = Ok (n, o, g) -> agrees (f n g) (f' n)) ->
  agrees (do (n1, o1, g1) <- r; do (n2, o2, g2) <- f n1 g1; Ok (n2, o1 ++ o2, g2)) (do (n1, o1) <- r'; do (n2, o2) <- f' n1; Ok (n2, o1 ++ o2)).
Proof.
  intros H1 H2. destruct r as [[[n o] g]| | |]; cbn [agrees bind] in *; [| subst r'; reflexivity | subst r'; reflexivity | destruct H1 as [->|H1]; cbn; auto].
  subst r'. cbn [bind]. specialize (H2 _ _ _ eq_refl). destruct (f n g) as [[[n2 o2] g2]| | |]; cbn [agrees bind] in *;
    [rewrite H2; reflexivity | rewrite H2; reflexivity | rewrite H2; reflexivity | destruct H2 as [->|H2]; cbn; auto].
Qed.
Lemma quiet_agrees r g : agrees (do (n', o) <- r; Ok (n', o, g)) r.
Proof. destruct r as [[n o]| | |]; cbn; auto. Qed.
Lemma callbacks_agree e cs : forall n g, (nproc cs <= 1)%nat -> legal_draws \/ (exists x, callbacks_s e n g cs = Ok x) ->
  exists fb fl, picks_members fb /\ picks_members fl /\ agrees (callbacks_s e n g cs) (callbacks caster voxel p (with_samples e fb fl) n cs).
Proof.
  induction cs as [|c cs IH]; intros n g H HD.
  { exists (fun _ _ => []), (fun _ _ => []). split; [apply nothing_members|]. split; [apply nothing_members|]. reflexivity. }
  cbn [callbacks NodeSampModel.callbacks_s] in *.
  assert (HC : c = AccumModel.Process \/ c <> AccumModel.Process) by (destruct c; [left|right|right]; [reflexivity|discriminate|discriminate]).
  destruct HC as [->|HC].
  - assert (H0 : nproc cs = 0%nat) by (change (nproc (AccumModel.Process :: cs)) with (Datatypes.S (nproc cs)) in H; lia). cbn [NodeSampModel.callback_s callback] in *.
    destruct (measure_agrees n e g) as (fb & fl & P1 & P2 & A).
    { destruct HD as [HD|[x HD]]; [left; exact HD|right]. destruct (measure_s n e g) as [x1| | |]; try discriminate. exists x1. reflexivity. }
    exists fb, fl. split; [exact P1|]. split; [exact P2|]. apply agrees_app; [exact A|]. intros n1 o1 g1 _.
    rewrite callbacks_quiet, callbacks_env by exact H0. apply quiet_agrees.
  - rewrite callback_s_other in * by exact HC.
    assert (H0 : (nproc cs <= 1)%nat) by (destruct c; [congruence|exact H|exact H]).
    destruct (callback caster voxel p e n c) as [[n1 o1]| | |] eqn:Ec; cbn [bind] in *.
    2-4: exists (fun _ _ => []), (fun _ _ => []); split; [apply nothing_members|]; split; [apply nothing_members|]; rewrite callback_env, Ec by exact HC; cbn; auto.
    destruct (IH n1 g H0) as (fb & fl & P1 & P2 & A).
    { destruct HD as [HD|[x HD]]; [left; exact HD|right]. destruct (callbacks_s e n1 g cs) as [x1| | |]; try discriminate. exists x1. reflexivity. }
    exists fb, fl. split; [exact P1|]. split; [exact P2|]. rewrite callback_env, Ec by exact HC. cbn [bind].
    destruct (callbacks_s e n1 g cs) as [[[n2 o2] g2]| | |]; cbn [agrees bind] in *; [rewrite A; reflexivity|rewrite A; reflexivity|rewrite A; reflexivity|].
    destruct A as [->|A]; cbn; auto.
Qed.
Lemma step_agrees n g ev : legal_draws \/ (exists x, step_s n g ev = Ok x) ->
  exists ev', same_world ev ev' /\ agrees (step_s n g ev) (step caster voxel p n ev').
Proof.
  intro HD. destruct ev as [a b c|a b|a|a|a b c d f|a b c d|a b c d f|m e|a b c d f h|a b c|a b|a b];
    try (eexists; split; [apply sw_other; intros; discriminate|]; cbn [NodeSampModel.step_s]; apply quiet_agrees).
  cbn [NodeSampModel.step_s step] in *. unfold NodeSampModel.cbCloud_s, cbCloud in *.
  destruct (has_map (n_map n)) eqn:Hm.
  2:{ exists (ECloud m (with_samples e (fun _ _ => []) (fun _ _ => []))). split; [apply sw_cloud; apply nothing_members|]. cbn [step]. unfold cbCloud. rewrite Hm. reflexivity. }
  cbv zeta in *. destruct (push_calls p (ac (n_acc (set_stat n status0))) m) as [[a cs]| | |] eqn:Ep; cbn [bind] in *.
  2-4: exists (ECloud m (with_samples e (fun _ _ => []) (fun _ _ => []))); split; [apply sw_cloud; apply nothing_members|]; cbn [step]; unfold cbCloud; rewrite Hm; cbv zeta; rewrite Ep; cbn; auto.
  destruct (callbacks_agree e cs (set_stat n status0) g (push_calls_once p _ _ _ _ Ep)) as (fb & fl & P1 & P2 & A).
  { destruct HD as [HD|[x HD]]; [left; exact HD|right]. destruct (callbacks_s e (set_stat n status0) g cs) as [x1| | |]; try discriminate. exists x1. reflexivity. }
  exists (ECloud m (with_samples e fb fl)). split; [apply sw_cloud; assumption|]. cbn [step]. unfold cbCloud. rewrite Hm. cbv zeta. rewrite Ep. cbn [bind].
  destruct (callbacks_s e (set_stat n status0) g cs) as [[[n2 o2] g2]| | |]; cbn [agrees bind] in *; [rewrite A; reflexivity|rewrite A; reflexivity|rewrite A; reflexivity|].
  destruct A as [->|A]; cbn; auto.
Qed.
Lemma steps_agree evs : forall n g, legal_draws \/ (exists x, steps_s n g evs = Ok x) ->
  exists evs', Forall2 same_world evs evs' /\ agrees (steps_s n g evs) (steps caster voxel p n evs').
Proof.
  induction evs as [|ev evs IH]; intros n g HD; [exists []; split; [constructor|reflexivity]|]. cbn [NodeSampModel.steps_s] in *.
  destruct (step_agrees n g ev) as (ev' & W & A).
  { destruct HD as [HD|[x HD]]; [left; exact HD|right]. destruct (step_s n g ev) as [x1| | |]; try discriminate. exists x1. reflexivity. }
  destruct (step_s n g ev) as [[[n1 o1] g1]| | |]; cbn [agrees bind] in *.
  - destruct (IH n1 g1) as (evs' & W' & A').
    { destruct HD as [HD|[x HD]]; [left; exact HD|right]. destruct (steps_s n1 g1 evs) as [x1| | |]; try discriminate. exists x1. reflexivity. }
    exists (ev' :: evs'). split; [constructor; assumption|]. cbn [steps]. rewrite A. cbn [bind].
    destruct (steps_s n1 g1 evs) as [[[n2 o2] g2]| | |]; cbn [agrees bind] in *; [rewrite A'; reflexivity|rewrite A'; reflexivity|rewrite A'; reflexivity|].
    destruct A' as [->|A']; cbn; auto.
  - assert (Hw : exists evs', Forall2 same_world evs evs').
    { clear. induction evs as [|ev evs (evs' & IH)]; [exists []; constructor|].
      assert (Hv : exists v, same_world ev v).
      { destruct ev; try (eexists; apply sw_other; intros; discriminate). eexists. apply (sw_cloud m e (fun _ _ => []) (fun _ _ => [])); apply nothing_members. }
      destruct Hv as (v & Hv). exists (v :: evs'). constructor; assumption. }
    destruct Hw as (evs' & Hw). exists (ev' :: evs'). split; [constructor; assumption|]. cbn [steps]. rewrite A. reflexivity.
  - assert (Hw : exists evs', Forall2 same_world evs evs').
    { clear. induction evs as [|ev evs (evs' & IH)]; [exists []; constructor|].
      assert (Hv : exists v, same_world ev v).
      { destruct ev; try (eexists; apply sw_other; intros; discriminate). eexists. apply (sw_cloud m e (fun _ _ => []) (fun _ _ => [])); apply nothing_members. }
      destruct Hv as (v & Hv). exists (v :: evs'). constructor; assumption. }
    destruct Hw as (evs' & Hw). exists (ev' :: evs'). split; [constructor; assumption|]. cbn [steps]. rewrite A. reflexivity.
  - assert (Hw : exists evs', Forall2 same_world evs evs').
    { clear. induction evs as [|ev evs (evs' & IH)]; [exists []; constructor|].
      assert (Hv : exists v, same_world ev v).
      { destruct ev; try (eexists; apply sw_other; intros; discriminate). eexists. apply (sw_cloud m e (fun _ _ => []) (fun _ _ => [])); apply nothing_members. }
      destruct Hv as (v & Hv). exists (v :: evs'). constructor; assumption. }
    destruct Hw as (evs' & Hw). exists (ev' :: evs'). split; [constructor; assumption|]. cbn [steps]. destruct A as [->|A]; cbn; auto.
Qed.

(** ** The samplers come to an end *)
Notation weighting_ok := (weighting_ok p draw_real).
Lemma select_more {F} (dr : R -> F -> R * F) cum num : forall k sel g x, select_loop (A := RA) dr cum num k sel g = Done x ->
  forall k', (k <= k')%nat -> select_loop (A := RA) dr cum num k' sel g = Done x.
Proof.
  induction k as [|k IH]; intros sel g x H k' Hk; [discriminate|]. destruct k' as [|k']; [lia|]. cbn [select_loop] in *.
  destruct (dr (last cum (@f0 RA)) g) as [v g1]. destruct (num <=? length _)%nat; [exact H|]. apply IH; [exact H|lia].
Qed.
Lemma sample_settles st l num g : legal_draws -> (st <> None -> use_sampler_normal p = true) -> weighting_ok ->
  settles (fun k => sample st k l num g) (fun x => sampled (match st with Some _ => true | None => false end) l (N.to_nat num) (fst x)).
Proof.
  intros HD Hst HW. pose proof (sample_cases HD st) as HC. destruct st as [s|].
  - destruct (HW (Hst ltac:(discriminate))) as (H1 & H2 & H3). unfold NodeSampModel.sample in *. cbv zeta in *. unfold normal_par in *.
    destruct (sampler_normal p) as [[[lo hi] w] r] eqn:Esn. destruct H1 as [H1 H1'].
    match type of HC with context [weighted_sample _ _ _ _ _ _ _ _ _ ?D _ _ _ _ _] => set (d := D) in * end.
    destruct (C67_terminates E lpt lo hi w draw_real order (s_e1 s) (s_e2 s) d (normals (search_range p)) l (N.to_nat num) g H1 H1' H2 H3 (do_order _ _ _ _ HD) (do_normals _ _ _ _ HD _))
      as (K & out & g' & R1 & R2 & R3).
    unfold real_sample, real_params in R1.
    exists (out, g'), K. split; [split; assumption|].
    assert (M : forall k, (K <= k)%nat -> weighted_sample (A := RA) sqrt acos Rabs (PI / 2) {| np_ratio := (lo : RA); np_max_ratio := (hi : RA); np_max_weight := (w : RA) |}
        draw_real order (s_e1 s) (s_e2 s) d (normals (search_range p)) k l (N.to_nat num) g = Done (out, g')).
    { intros k Hk. rewrite <- R1. unfold weighted_sample in *. destruct ((length l =? 0)%nat || (N.to_nat num =? 0)%nat); [reflexivity|].
      destruct (length l <=? N.to_nat num)%nat; [reflexivity|]. cbv zeta in *.
      destruct (select_loop _ _ _ K _ _) as [[sel g1]| |] eqn:Es; [|discriminate|discriminate]. rewrite (select_more _ _ _ _ _ _ _ Es k Hk). reflexivity. }
    split; [|intros k Hk; rewrite (M k Hk); reflexivity].
    intro k. destruct (Nat.le_gt_cases K k) as [Hk|Hk]; [right; rewrite (M k Hk); reflexivity|].
    specialize (HC k l num g). destruct (weighted_sample _ _ _ _ _ _ _ _ _ _ _ k l (N.to_nat num) g) as [[out1 g1]| |] eqn:Ew; [|contradiction|left; reflexivity].
    right. cbn [of_run]. f_equal.
    assert (Q : Done (out1, g1) = Done (out, g')); [|congruence].
    rewrite <- Ew, <- R1. unfold weighted_sample in *. destruct ((length l =? 0)%nat || (N.to_nat num =? 0)%nat); [reflexivity|].
    destruct (length l <=? N.to_nat num)%nat; [reflexivity|]. cbv zeta in *.
    destruct (select_loop _ _ _ k _ _) as [[sel g2]| |] eqn:Es; [|discriminate|discriminate]. rewrite (select_more _ _ _ _ _ _ _ Es K ltac:(lia)). reflexivity.
  - specialize (HC 0%nat l num g). unfold NodeSampModel.sample in *. destruct (of_option _) as [[out g']| | |]; [|contradiction|contradiction|congruence].
    exists (out, g'), 0%nat. split; [exact HC|]. split; [intro; right; reflexivity|reflexivity].
Qed.
(** [F], with enough steps, is [G] with the engine state [g2] *)
Definition lifts (F : nat -> outcome (node * list output * E)) (G : nat -> outcome (node * list output)) : Prop :=
  exists g2 K, (forall k, F k = Fuel \/ F k = do (n, o) <- G k; Ok (n, o, g2)) /\ forall k, (K <= k)%nat -> F k = do (n, o) <- G k; Ok (n, o, g2).
Lemma lifts_const G g2 : lifts (fun k => do (n, o) <- G k; Ok (n, o, g2)) G.
Proof. exists g2, 0%nat. split; [intro; right; reflexivity|reflexivity]. Qed.
Lemma lifts_ext F F' G G' : (forall k, F k = F' k) -> (forall k, G k = G' k) -> lifts F G -> lifts F' G'.
Proof.
  intros H1 H2 (g2 & K & A & B). exists g2, K. split; [intro k; rewrite <- H1, <- H2; apply A|intros k Hk; rewrite <- H1, <- H2; apply B, Hk].
Qed.
Lemma lifts_settles F G (Q : node -> Prop) : lifts F G -> settles G (fun x => Q (fst x)) -> settles F (fun x => Q (fst (fst x))).
Proof.
  intros (g2 & K & A & B) ([n o] & K' & HQ & H1 & H2). exists (n, o, g2), (Nat.max K K'). split; [exact HQ|]. split.
  - intro k. destruct (A k) as [->| ->]; [left; reflexivity|]. destruct (H1 k) as [->| ->]; [left|right]; reflexivity.
  - intros k Hk. rewrite B by lia. rewrite H2 by lia. reflexivity.
Qed.
(** what follows once the points were picked *)
Definition body (n1 : node) e h os full bp lp : outcome (node * list output) :=
  match lp with
  | [] => let '(n3, o) := force_update (points_lost (told n1)) in Ok (n3, [o])
  | _ :: _ => localize caster p (told n1) e h os full bp lp
  end.
Lemma measure_s_ready n e g n0 n1 h pc os st : gate p n = Ok (n0, true) -> prepare p n0 e = Ok (n1, Some (h, pc, os)) -> particle_statistics n1 e = Ok st ->
  let full := voxel (ds_x p, ds_y p, ds_z p) pc in
  measure_s n e g = do (bp, g1) <- sample st (e_fuel e) (beam_cloud n1 full) (b_num (beam_now n1)) g;
                    do (lp, g2) <- sample st (e_fuel e) (like_cloud n1 full) (l_num (like_now n1)) g1;
                    do (n', o) <- body n1 e h os full bp lp; Ok (n', o, g2).
Proof.
  intros H1 H2 H3 full. unfold NodeSampModel.measure_s. rewrite H1. cbn [bind negb]. rewrite H2. cbn [bind]. rewrite H3. cbn [bind]. fold full. rewrite filters_s_is.
  destruct (sample st (e_fuel e) (beam_cloud n1 full) (b_num (beam_now n1)) g) as [[bp g1]| | |]; cbn [bind]; [|reflexivity|reflexivity|reflexivity].
  destruct (sample st (e_fuel e) (like_cloud n1 full) (l_num (like_now n1)) g1) as [[lp g2]| | |]; cbn [bind]; [|reflexivity|reflexivity|reflexivity].
  unfold body. destruct lp; [|reflexivity]. destruct (force_update (points_lost (told n1))). reflexivity.
Qed.
Lemma measure_ready n e fb fl n0 n1 h pc os st : gate p n = Ok (n0, true) -> prepare p n0 e = Ok (n1, Some (h, pc, os)) -> particle_statistics n1 e = Ok st ->
  let full := voxel (ds_x p, ds_y p, ds_z p) pc in
  measure caster voxel p n (with_samples e fb fl) = body n1 e h os full (fb (beam_cloud n1 full) (b_num (beam_now n1))) (fl (like_cloud n1 full) (l_num (like_now n1))).
Proof.
  intros H1 H2 H3 full. unfold measure. rewrite H1. cbn [bind negb]. rewrite prepare_same, H2. cbn [bind]. rewrite statistics_same, H3. cbn [bind]. fold full. rewrite filters_is.
  unfold body. destruct (fl (like_cloud n1 full) (l_num (like_now n1))); [reflexivity|]. apply localize_same.
Qed.
Lemma measure_lifts n e g : legal_draws -> weighting_ok -> exists fb fl, picks_members fb /\ picks_members fl /\
  lifts (fun k => measure_s n (with_fuel k e) g) (fun k => measure caster voxel p n (with_fuel k (with_samples e fb fl))).
Proof.
  intros HD HW.
  assert (Triv : forall r : outcome (node * list output), (forall fb fl k, measure caster voxel p n (with_fuel k (with_samples e fb fl)) = r) ->
    (forall k, measure_s n (with_fuel k e) g = do (n', o) <- r; Ok (n', o, g)) -> exists fb fl, picks_members fb /\ picks_members fl /\
    lifts (fun k => measure_s n (with_fuel k e) g) (fun k => measure caster voxel p n (with_fuel k (with_samples e fb fl)))).
  { intros r A B. exists (fun _ _ => []), (fun _ _ => []). split; [apply nothing_members|]. split; [apply nothing_members|].
    apply (lifts_ext (fun k => do (n', o) <- r; Ok (n', o, g)) _ (fun _ => r)); [intro; symmetry; apply B|intro; symmetry; apply A|apply (lifts_const (fun _ => r) g)]. }
  destruct (gate p n) as [[n0 go]| | |] eqn:Eg.
  2:{ apply (Triv Null); intros; unfold NodeSampModel.measure_s, measure; rewrite Eg; reflexivity. }
  2:{ apply (Triv Undef); intros; unfold NodeSampModel.measure_s, measure; rewrite Eg; reflexivity. }
  2:{ apply (Triv Fuel); intros; unfold NodeSampModel.measure_s, measure; rewrite Eg; reflexivity. }
  destruct go; [|apply (Triv (Ok (n0, []))); intros; unfold NodeSampModel.measure_s, measure; rewrite Eg; reflexivity].
  assert (Ep : forall k fb fl, prepare p n0 (with_fuel k (with_samples e fb fl)) = prepare p n0 e) by reflexivity.
  assert (Ep' : forall k, prepare p n0 (with_fuel k e) = prepare p n0 e) by reflexivity.
  destruct (prepare p n0 e) as [[n1 ready]| | |] eqn:Epp.
  2:{ apply (Triv Null); intros; unfold NodeSampModel.measure_s, measure; rewrite Eg; cbn [bind negb]; [rewrite Ep|rewrite Ep']; reflexivity. }
  2:{ apply (Triv Undef); intros; unfold NodeSampModel.measure_s, measure; rewrite Eg; cbn [bind negb]; [rewrite Ep|rewrite Ep']; reflexivity. }
  2:{ apply (Triv Fuel); intros; unfold NodeSampModel.measure_s, measure; rewrite Eg; cbn [bind negb]; [rewrite Ep|rewrite Ep']; reflexivity. }
  destruct ready as [[[h pc] os]|]; [|apply (Triv (Ok (n1, []))); intros; unfold NodeSampModel.measure_s, measure; rewrite Eg; cbn [bind negb]; [rewrite Ep|rewrite Ep']; reflexivity].
  assert (Es : forall k fb fl, statistics p n1 (with_fuel k (with_samples e fb fl)) = do _ <- particle_statistics n1 e; Ok tt)
    by (intros; change (with_fuel k (with_samples e fb fl)) with (with_samples (with_fuel k e) fb fl); rewrite statistics_same; reflexivity).
  assert (Es' : forall k, particle_statistics n1 (with_fuel k e) = particle_statistics n1 e) by reflexivity.
  destruct (particle_statistics n1 e) as [st| | |] eqn:Est.
  2:{ apply (Triv Null); intros; unfold NodeSampModel.measure_s, measure; rewrite Eg; cbn [bind negb]; [rewrite Ep; cbn [bind]; rewrite Es|rewrite Ep'; cbn [bind]; rewrite Es']; reflexivity. }
  2:{ apply (Triv Undef); intros; unfold NodeSampModel.measure_s, measure; rewrite Eg; cbn [bind negb]; [rewrite Ep; cbn [bind]; rewrite Es|rewrite Ep'; cbn [bind]; rewrite Es']; reflexivity. }
  2:{ apply (Triv Fuel); intros; unfold NodeSampModel.measure_s, measure; rewrite Eg; cbn [bind negb]; [rewrite Ep; cbn [bind]; rewrite Es|rewrite Ep'; cbn [bind]; rewrite Es']; reflexivity. }
  clear Triv. pose proof (statistics_kind _ _ _ Est) as Hk. assert (Hst : st <> None -> use_sampler_normal p = true) by (intro Hs; rewrite <- Hk; destruct st; [reflexivity|congruence]).
  set (full := voxel (ds_x p, ds_y p, ds_z p) pc).
  destruct (sample_settles st (beam_cloud n1 full) (b_num (beam_now n1)) g HD Hst HW) as ([bp g1] & K1 & _ & B1 & B2).
  destruct (sample_settles st (like_cloud n1 full) (l_num (like_now n1)) g1 HD Hst HW) as ([lp g2] & K2 & _ & C1 & C2).
  exists (only (beam_cloud n1 full) bp), (only (like_cloud n1 full) lp).
  split; [apply only_members; exact (sample_in _ _ _ _ _ _ _ (B2 K1 (Nat.le_refl _)))|]. split; [apply only_members; exact (sample_in _ _ _ _ _ _ _ (C2 K2 (Nat.le_refl _)))|].
  apply (lifts_ext (fun k => do (bp, g1) <- sample st k (beam_cloud n1 full) (b_num (beam_now n1)) g; do (lp, g2) <- sample st k (like_cloud n1 full) (l_num (like_now n1)) g1;
                             do (n', o) <- body n1 (with_fuel k e) h os full bp lp; Ok (n', o, g2)) _ (fun k => body n1 (with_fuel k e) h os full bp lp)).
  { intro k. symmetry. exact (measure_s_ready n (with_fuel k e) g n0 n1 h pc os st Eg Epp Est). }
  { intro k. symmetry. change (with_fuel k (with_samples e (only (beam_cloud n1 full) bp) (only (like_cloud n1 full) lp))) with (with_samples (with_fuel k e) (only (beam_cloud n1 full) bp) (only (like_cloud n1 full) lp)).
    etransitivity; [exact (measure_ready n (with_fuel k e) _ _ n0 n1 h pc os st Eg Epp Est)|]. fold full. rewrite !only_is. reflexivity. }
  exists g2, (Nat.max K1 K2). split.
  - intro k. destruct (B1 k) as [->| ->]; [left; reflexivity|]. cbn [bind]. destruct (C1 k) as [->| ->]; [left; reflexivity|right; reflexivity].
  - intros k Hkk. rewrite B2 by lia. cbn [bind]. rewrite C2 by lia. reflexivity.
Qed.
Lemma callbacks_lift e cs : forall n g, legal_draws -> weighting_ok -> (nproc cs <= 1)%nat -> exists fb fl, picks_members fb /\ picks_members fl /\
  lifts (fun k => callbacks_s (with_fuel k e) n g cs) (fun k => callbacks caster voxel p (with_fuel k (with_samples e fb fl)) n cs).
Proof.
  induction cs as [|c cs IH]; intros n g HD HW H.
  { exists (fun _ _ => []), (fun _ _ => []). split; [apply nothing_members|]. split; [apply nothing_members|]. apply (lifts_const (fun _ => Ok (n, [])) g). }
  assert (HC : c = AccumModel.Process \/ c <> AccumModel.Process) by (destruct c; [left|right|right]; [reflexivity|discriminate|discriminate]).
  destruct HC as [->|HC].
  - assert (H0 : nproc cs = 0%nat) by (change (nproc (AccumModel.Process :: cs)) with (Datatypes.S (nproc cs)) in H; lia).
    destruct (measure_lifts n e g HD HW) as (fb & fl & P1 & P2 & g2 & K & A & B). exists fb, fl. split; [exact P1|]. split; [exact P2|].
    assert (Q : forall k, measure_s n (with_fuel k e) g = (do (n', o) <- measure caster voxel p n (with_fuel k (with_samples e fb fl)); Ok (n', o, g2)) ->
      callbacks_s (with_fuel k e) n g (AccumModel.Process :: cs) = do (n', o) <- callbacks caster voxel p (with_fuel k (with_samples e fb fl)) n (AccumModel.Process :: cs); Ok (n', o, g2)).
    { intros k Hk. cbn [NodeSampModel.callbacks_s callbacks NodeSampModel.callback_s callback]. rewrite Hk.
      destruct (measure caster voxel p n (with_fuel k (with_samples e fb fl))) as [[n1 o1]| | |]; cbn [bind]; [|reflexivity|reflexivity|reflexivity].
      rewrite callbacks_quiet by exact H0. change (with_fuel k (with_samples e fb fl)) with (with_samples (with_fuel k e) fb fl). rewrite callbacks_env by exact H0.
      destruct (callbacks caster voxel p (with_fuel k e) n1 cs) as [[n2 o2]| | |]; reflexivity. }
    exists g2, K. split; [|intros k Hk; apply Q, B, Hk].
    intro k. destruct (A k) as [E1|E1]; [left|right; apply Q, E1]. cbn [NodeSampModel.callbacks_s NodeSampModel.callback_s]. rewrite E1. reflexivity.
  - assert (H0 : (nproc cs <= 1)%nat) by (destruct c; [congruence|exact H|exact H]).
    assert (Ec : forall k, callback caster voxel p (with_fuel k e) n c = callback caster voxel p e n c) by (intro; destruct c; [congruence|reflexivity|reflexivity]).
    assert (Ec' : forall k fb fl, callback caster voxel p (with_fuel k (with_samples e fb fl)) n c = callback caster voxel p e n c) by (intros; destruct c; [congruence|reflexivity|reflexivity]).
    destruct (callback caster voxel p e n c) as [[n1 o1]| | |] eqn:Ecc.
    2-4: exists (fun _ _ => []), (fun _ _ => []); split; [apply nothing_members|]; split; [apply nothing_members|]; exists g, 0%nat;
         (split; [intro k; right|intros k _]); cbn [NodeSampModel.callbacks_s callbacks]; rewrite callback_s_other, Ec, Ec' by exact HC; reflexivity.
    destruct (IH n1 g HD HW H0) as (fb & fl & P1 & P2 & g2 & K & A & B). exists fb, fl. split; [exact P1|]. split; [exact P2|].
    assert (Q : forall k, callbacks_s (with_fuel k e) n1 g cs = (do (n', o) <- callbacks caster voxel p (with_fuel k (with_samples e fb fl)) n1 cs; Ok (n', o, g2)) ->
      callbacks_s (with_fuel k e) n g (c :: cs) = do (n', o) <- callbacks caster voxel p (with_fuel k (with_samples e fb fl)) n (c :: cs); Ok (n', o, g2)).
    { intros k Hk. cbn [NodeSampModel.callbacks_s callbacks]. rewrite callback_s_other, Ec, Ec' by exact HC. cbn [bind]. rewrite Hk.
      destruct (callbacks caster voxel p (with_fuel k (with_samples e fb fl)) n1 cs) as [[n2 o2]| | |]; reflexivity. }
    exists g2, K. split; [|intros k Hk; apply Q, B, Hk].
    intro k. destruct (A k) as [E1|E1]; [left|right; apply Q, E1]. cbn [NodeSampModel.callbacks_s]. rewrite callback_s_other, Ec by exact HC. cbn [bind]. rewrite E1. reflexivity.
Qed.
Lemma step_lifts n g ev : legal_draws -> weighting_ok -> exists ev', same_world ev ev' /\
  lifts (fun k => step_s n g (with_fuel_ev k ev)) (fun k => step caster voxel p n (with_fuel_ev k ev')).
Proof.
  intros HD HW. destruct ev as [a b c|a b|a|a|a b c d f|a b c d|a b c d f|m e|a b c d f h|a b c|a b|a b];
    try (eexists; split; [apply sw_other; intros; discriminate|]; cbn [with_fuel_ev NodeSampModel.step_s];
         match goal with |- lifts (fun _ => bind ?r _) _ => apply (lifts_const (fun _ => r) g) end).
  cbn [with_fuel_ev NodeSampModel.step_s]. unfold NodeSampModel.cbCloud_s.
  destruct (has_map (n_map n)) eqn:Hm.
  2:{ exists (ECloud m (with_samples e (fun _ _ => []) (fun _ _ => []))). split; [apply sw_cloud; apply nothing_members|]. cbn [with_fuel_ev step]. unfold cbCloud. rewrite Hm.
      apply (lifts_const (fun _ => Ok (set_stat n status0, [])) g). }
  cbv zeta in *. destruct (push_calls p (ac (n_acc (set_stat n status0))) m) as [[a cs]| | |] eqn:Ep; cbn [bind] in *.
  2-4: exists (ECloud m (with_samples e (fun _ _ => []) (fun _ _ => []))); split; [apply sw_cloud; apply nothing_members|]; cbn [with_fuel_ev step]; unfold cbCloud; rewrite Hm; cbv zeta; rewrite Ep; cbn [bind];
       exists g, 0%nat; (split; [intro k; right; reflexivity|reflexivity]).
  destruct (callbacks_lift e cs (set_stat n status0) g HD HW (push_calls_once p _ _ _ _ Ep)) as (fb & fl & P1 & P2 & g2 & K & A & B).
  exists (ECloud m (with_samples e fb fl)). split; [apply sw_cloud; assumption|]. cbn [with_fuel_ev step]. unfold cbCloud. rewrite Hm. cbv zeta. rewrite Ep. cbn [bind].
  exists g2, K. split.
  - intro k. destruct (A k) as [->| ->]; [left; reflexivity|right]. destruct (callbacks caster voxel p (with_fuel k (with_samples e fb fl)) (set_stat n status0) cs) as [[n2 o2]| | |]; reflexivity.
  - intros k Hk. rewrite B by exact Hk. destruct (callbacks caster voxel p (with_fuel k (with_samples e fb fl)) (set_stat n status0) cs) as [[n2 o2]| | |]; reflexivity.
Qed.

Notation legal_run_s := (legal_run_s caster voxel p draw_int draw_real normals eigen order).
Lemma legal_same Inv (n : node) ev ev' : same_world ev ev' -> legal caster voxel p Inv n ev -> legal caster voxel p Inv n ev'.
Proof.
  intros [m e fb fl H1 H2|v _]; [|auto]. intros [(L1 & _ & _ & L2) L3]. split; [|exact L3]. split; [exact L1|]. split; [exact H1|]. split; [exact H2|exact L2].
Qed.
Lemma steps_s_settle (Hp : settings_ok p) (Inv : cloud -> S -> Prop) (Hnew : survives_newer Inv) (Hv : keeps_labels (voxel (ds_x p, ds_y p, ds_z p)))
  (HD : legal_draws) (HW : weighting_ok) evs : forall n g, alive p Inv n -> legal_run_s Inv n g evs ->
  settles (fun k => steps_s n g (map (with_fuel_ev k) evs)) (fun x => alive p Inv (fst (fst x))).
Proof.
  induction evs as [|ev t IH]; intros n g Hal Hleg; cbn [NodeSampModel.steps_s map]; [apply (settles_ret (n, [], g)); exact Hal|]. destruct Hleg as [L1 L2].
  destruct (step_lifts n g ev HD HW) as (ev' & W & HL).
  destruct (lifts_settles _ _ (alive p Inv) HL (step_settles caster voxel p Hp Inv Hnew Hv n ev' Hal (legal_same _ _ _ _ W L1))) as ([[n1 o1] g1] & K & Q1 & Q2 & Q3).
  assert (Hs : settles (fun k => step_s n g (with_fuel_ev k ev)) (fun x => alive p Inv (fst (fst x)) /\ legal_run_s Inv (fst (fst x)) (snd x) t)).
  { exists (n1, o1, g1), K. split; [|split; assumption]. split; [exact Q1|]. apply (L2 K _ o1), Q3, Nat.le_refl. }
  eapply settles_bind; [exact Hs|]. intros [[n2 o2] g2] [G1 G2]. cbn [fst snd] in *.
  eapply settles_bind; [apply (IH n2 g2 G1 G2)|]. intros [[n3 o3] g3] G3. apply (settles_ret (n3, o2 ++ o3, g3)). exact G3.
Qed.

(** ** The lidar models keep their settings *)
Definition lid_from (n : node) : Prop :=
  (l_beam (n_lid n) = beam_refresh (p_beam p) \/ exists a c, l_beam (n_lid n) = beam_set_global (beam_refresh (p_beam p)) a c)
  /\ (l_like (n_lid n) = like_refresh (p_like p) \/ exists a c, l_like (n_lid n) = like_set_global (like_refresh (p_like p)) a c).
Lemma lid_same (n n' : node) : lid_from n -> l_beam (n_lid n') = l_beam (n_lid n) -> l_like (n_lid n') = l_like (n_lid n) -> lid_from n'.
Proof. unfold lid_from. intros H -> ->. exact H. Qed.
Lemma told_lid n : lid_from n -> lid_from (told n).
Proof.
  intros [H1 H2]. split.
  - right. exists (Z.to_N (num_particles p mod 2 ^ 64)), (N.of_nat (psize n)). cbn [told n_lid set_lid l_beam]. unfold beam_now. destruct H1 as [->|(a & c & ->)]; reflexivity.
  - right. exists (Z.to_N (num_particles p mod 2 ^ 64)), (N.of_nat (psize n)). cbn [told n_lid set_lid l_like]. unfold like_now. destruct H2 as [->|(a & c & ->)]; reflexivity.
Qed.
Lemma localize_lid n e h os full bp lp n' o : localize caster p n e h os full bp lp = Ok (n', o) ->
  l_beam (n_lid n') = l_beam (n_lid n) /\ l_like (n_lid n') = l_like (n_lid n).
Proof.
  unfold localize. intro H. bok H. destruct x as [[n1 est] ratio].
  destruct (publish_tf_step p n1 e est) as [[n2 est'] o1] eqn:E2. bok H.
  set (n3 := with_conv n2 _) in H. bok H. rename x0 into n4. bok H. destruct x0 as [n5 o2]. bok H. rename x0 into f. bok H. rename x0 into n8.
  destruct (force_update (final_status n8 ratio)) as [n9 o4] eqn:E9.
  injection H as <- <-.
  apply estimate_ok in E0. apply publish_tf_step_ok in E2. apply collect_pcd_ok in E3. apply match_output_ok in E4.
  apply shrink_step_ok in E6.
  match type of E6 with context [clock_step (expansion p ?a ?b ?c) _] => pose proof (expansion_ok p a b c) as E7; cbv zeta in E7; set (n7 := expansion p a b c) in * end.
  unfold force_update in E9. injection E9 as <- <-.
  destruct E0 as (_ & _ & _ & _ & _ & A6 & A7). destruct E2 as (_ & _ & _ & _ & B5 & _). destruct E3 as (_ & _ & _ & _ & C5 & _). destruct E4 as (_ & _ & _ & _ & D5 & _).
  destruct E6 as (_ & _ & _ & _ & F5 & _). destruct E7 as (_ & _ & _ & _ & G5 & _).
  change (n_lid (set_stat _ _)) with (n_lid n8). rewrite F5. change (n_lid (clock_step n7 _)) with (n_lid n7). rewrite G5.
  change (n_lid (set_pf n5 _)) with (n_lid n5). rewrite D5, C5. change (n_lid n3) with (n_lid n2). rewrite B5. auto.
Qed.
Lemma measure_lid n e n' o : measure caster voxel p n e = Ok (n', o) -> lid_from n -> lid_from n'.
Proof.
  unfold measure. intros H HL. bok H. destruct x as [n0 go]. apply gate_ok in E0. destruct E0 as (_ & _ & _ & _ & G5 & _).
  assert (L0 : lid_from n0) by (apply (lid_same n); [exact HL|rewrite G5; reflexivity|rewrite G5; reflexivity]).
  destruct (negb go); [injection H as <- <-; exact L0|].
  bok H. destruct x as [n1 ready]. apply prepare_ok in E0. destruct E0 as (_ & _ & _ & _ & P5 & _).
  assert (L1 : lid_from n1) by (apply (lid_same n0); [exact L0|rewrite P5; reflexivity|rewrite P5; reflexivity]).
  destruct ready as [[[h pc] os]|]; [|injection H as <- <-; exact L1].
  bok H. change (filters p n1 e) with (filters p n1 (with_samples e (e_beam e) (e_like e))) in H. rewrite filters_is in H. pose proof (told_lid n1 L1) as L2.
  destruct (e_like e (like_cloud n1 _) _).
  - destruct (force_update (points_lost (told n1))) as [n3 o3] eqn:E3. unfold force_update in E3. injection E3 as <- <-. injection H as <- <-. exact L2.
  - apply localize_lid in H. destruct H as [H1 H2]. apply (lid_same (told n1)); assumption.
Qed.
Lemma callbacks_lid e cs : forall n n' o, callbacks caster voxel p e n cs = Ok (n', o) -> lid_from n -> lid_from n'.
Proof.
  induction cs as [|c cs IH]; intros n n' o H HL; cbn [callbacks] in H; [injection H as <- <-; exact HL|].
  bok H. destruct x as [n1 o1]. bok H. destruct x as [n2 o2]. injection H as <- <-. apply (IH _ _ _ E1).
  assert (HC : c = AccumModel.Process \/ c <> AccumModel.Process) by (destruct c; [left|right|right]; [reflexivity|discriminate|discriminate]).
  destruct HC as [->|HC]; [exact (measure_lid _ _ _ _ E0 HL)|].
  apply callback_other in E0; [|exact HC]. destruct E0 as (_ & _ & _ & _ & _ & E0 & _). apply (lid_same n); [exact HL|rewrite E0; reflexivity|rewrite E0; reflexivity].
Qed.
Lemma timer_lid (n : node) now n' o : cbMapUpdateTimer n now = Ok (n', o) -> n_lid n' = n_lid n.
Proof. unfold cbMapUpdateTimer. intro H. bok H. destruct x. injection H as <- _. reflexivity. Qed.
Lemma load_lid (n : node) stamp pts now n' o : loadMapCloud voxel p n stamp pts now = Ok (n', o) -> n_lid n' = n_lid n.
Proof. unfold loadMapCloud. cbv zeta. intro H. apply timer_lid in H. exact H. Qed.
Lemma step_lid n ev n' o : step caster voxel p n ev = Ok (n', o) -> lid_from n -> lid_from n'.
Proof.
  intros H HL. assert (K : (forall m e, ev <> ECloud m e) -> n_lid n' = n_lid n).
  { intro Hne. destruct ev as [a b c|a b|a|a|a b c d f|a b c d|a b c d f|m e|a b c d f h|a b c|a b|a b].
    - cbn [step] in H. unfold cbMapcloud in H. destruct a; [exact (load_lid _ _ _ _ _ _ H)|injection H as <- _; reflexivity].
    - cbn [step] in H. unfold cbLoadPCD in H. destruct a; [bok H; destruct x as [n1 o1]; injection H as <- _; exact (load_lid _ _ _ _ _ _ E0)|injection H as <- _; reflexivity].
    - cbn [step] in H. unfold cbMapcloudUpdate in H. destruct a; injection H as <- _; reflexivity.
    - cbn [step] in H. exact (timer_lid _ _ _ _ H).
    - cbn [step] in H. apply cbPosition_frame in H. tauto.
    - cbn [step] in H. apply (cbOdom_frame voxel) in H. tauto.
    - cbn [step] in H. apply (cbImu_frame voxel) in H. tauto.
    - exfalso. exact (Hne _ _ eq_refl).
    - apply service_frame in H; [tauto|exact I].
    - apply service_frame in H; [tauto|exact I].
    - apply service_frame in H; [tauto|exact I].
    - apply service_frame in H; [tauto|exact I]. }
  assert (HC : (exists m e, ev = ECloud m e) \/ (forall m e, ev <> ECloud m e)) by (destruct ev; [right|right|right|right|right|right|right|left|right|right|right|right]; try discriminate; eauto).
  destruct HC as [(m & e & ->)|HC]; [|apply (lid_same n); [exact HL|rewrite (K HC); reflexivity|rewrite (K HC); reflexivity]].
  clear K. cbn [step] in H. unfold cbCloud in H. destruct (has_map (n_map n)); [|injection H as <- <-; exact HL].
  bok H. destruct x as [a cs]. bok H. destruct x as [n2 o2]. injection H as <- <-. apply (callbacks_lid _ _ _ _ _ E1 HL).
Qed.
Lemma steps_lid evs : forall n n' o, steps caster voxel p n evs = Ok (n', o) -> lid_from n -> lid_from n'.
Proof.
  induction evs as [|ev evs IH]; intros n n' o H HL; cbn [steps] in H; [injection H as <- _; exact HL|].
  bok H. destruct x as [n1 o1]. bok H. destruct x as [n2 o2]. injection H as <- _. exact (IH _ _ _ E1 (step_lid _ _ _ _ E0 HL)).
Qed.

(** ** C118 *)
(** Every execution of the node with its samplers is an execution of the node in a world that
    differs at most in the points the samplers return, and they return points of their input:
    all the properties of the node (which hold for every such world) hold for it. *)
Theorem C118_refines : forall n g evs n' o g', steps_s n g evs = Ok (n', o, g') ->
  exists evs', Forall2 same_world evs evs' /\ steps caster voxel p n evs' = Ok (n', o).
Proof.
  intros n g evs n' o g' H. destruct (steps_agree evs n g) as (evs' & W & A); [right; exists (n', o, g'); exact H|]. exists evs'. split; [exact W|]. rewrite H in A. exact A.
Qed.
(** In a legal world nothing fails: with enough steps the node always gets through the history,
    and its particles stay usable. *)
Theorem C118_never_fails : forall Inv gen rc0 g evs,
  settings_ok p -> keeps_labels (voxel (ds_x p, ds_y p, ds_z p)) -> survives_newer Inv -> (forall c, Inv c rc0) ->
  legal_draws -> weighting_ok -> legal_run_s Inv (configure p gen rc0) g evs ->
  exists n o g' K,
    (forall k, (K <= k)%nat -> steps_s (configure p gen rc0) g (map (with_fuel_ev k) evs) = Ok (n, o, g'))
    /\ (forall k, steps_s (configure p gen rc0) g (map (with_fuel_ev k) evs) = Ok (n, o, g') \/ steps_s (configure p gen rc0) g (map (with_fuel_ev k) evs) = Fuel)
    /\ usable_particles (n_pf n).
Proof.
  intros Inv gen rc0 g evs Hp Hv Hnew H0 HD HW Hleg.
  destruct (steps_s_settle Hp Inv Hnew Hv HD HW evs _ g (alive_init p Hp Inv gen rc0 H0) Hleg) as ([[n o] g'] & K & Q0 & Q1 & Q2).
  exists n, o, g', K. split; [exact Q2|]. split; [intro k; destruct (Q1 k); auto|]. exact (al_pf _ _ _ Q0).
Qed.

Lemma at_process_callbacks_s e cs : forall n g na, nproc cs = 1%nat -> at_process voxel p caster e n cs = Ok (Some na) -> forall n' o g', callbacks_s e n g cs = Ok (n', o, g') ->
  exists nb, measure_s na e g = Ok (nb, o, g').
Proof.
  induction cs as [|c cs IH]; intros n g na Hn Ha n' o g' H; [discriminate|]. cbn [at_process NodeSampModel.callbacks_s] in *.
  assert (HC : c = AccumModel.Process \/ c <> AccumModel.Process) by (destruct c; [left|right|right]; [reflexivity|discriminate|discriminate]).
  destruct HC as [->|HC].
  - injection Ha as ->. bok H. destruct x as [[n1 o1] g1]. bok H. destruct x as [[n2 o2] g2]. injection H as <- <- <-. cbn [NodeSampModel.callback_s] in E0.
    rewrite callbacks_quiet in E1 by (injection Hn as Hn; exact Hn). bok E1. destruct x as [n3 o3]. injection E1 as -> -> ->.
    apply callbacks_none in E2; [|injection Hn as Hn; exact Hn]. destruct E2 as (_ & _ & _ & _ & _ & _ & ->). rewrite app_nil_r. eauto.
  - rewrite callback_s_other in H by exact HC. assert (Ha' : (do (n1, _) <- callback caster voxel p e n c; at_process voxel p caster e n1 cs) = Ok (Some na)) by (destruct c; [congruence|exact Ha|exact Ha]).
    bok Ha'. destruct x as [n1 o1]. rewrite E0 in H. cbn [bind] in H. bok H. destruct x as [[n2 o2] g2]. injection H as <- <- <-.
    pose proof (callback_other _ _ _ _ _ _ _ _ HC E0) as (_ & _ & _ & _ & _ & _ & ->). apply (IH n1 g na) with (n' := n2) (o := o2) (g' := g2); [|exact Ha'|exact E1].
    destruct c; [congruence|exact Hn|exact Hn].
Qed.
Lemma at_process_nproc e cs : forall n na, at_process voxel p caster e n cs = Ok (Some na) -> (1 <= nproc cs)%nat.
Proof.
  induction cs as [|c cs IH]; intros n na H; [discriminate|]. destruct c as [|mm ok|]; cbn [at_process] in H; [cbn; lia| |].
  - bok H. destruct x. apply IH in H. exact H.
  - bok H. destruct x. apply IH in H. exact H.
Qed.
Lemma at_process_frame e cs : forall n na, at_process voxel p caster e n cs = Ok (Some na) ->
  n_lid na = n_lid n /\ n_pf na = n_pf n /\ n_map na = n_map n /\ n_out na = n_out n /\ n_odom na = n_odom n /\ n_imu na = n_imu n.
Proof.
  induction cs as [|c cs IH]; intros n na H; [discriminate|]. cbn [at_process] in H.
  assert (HC : c = AccumModel.Process \/ c <> AccumModel.Process) by (destruct c; [left|right|right]; [reflexivity|discriminate|discriminate]).
  destruct HC as [->|HC]; [injection H as ->; auto 10|].
  assert (Ha' : (do (n1, _) <- callback caster voxel p e n c; at_process voxel p caster e n1 cs) = Ok (Some na)) by (destruct c; [congruence|exact H|exact H]).
  bok Ha'. destruct x as [n1 o1]. apply callback_other in E0; [|exact HC]. destruct E0 as (A1 & A2 & A3 & A4 & A5 & A6 & _). apply IH in Ha'.
  destruct Ha' as (-> & -> & -> & -> & -> & ->). auto 10.
Qed.
(** The points that a measurement uses: those of the downsampled cloud that are in the range of
    the model, as many as the model asks for at the current number of particles. *)
Theorem C118_points : forall gen rc0 g0 evs n o g m e n1 h pc os n' o' g',
  legal_draws -> steps_s (configure p gen rc0) g0 evs = Ok (n, o, g) -> measures_with voxel p caster n m e n1 h pc os ->
  step_s n g (ECloud m e) = Ok (n', o', g') ->
  let full := voxel (ds_x p, ds_y p, ds_z p) pc in
  exists bl ll bp lp,
    keeps (in_range (bp_near (p_beam p)) (bp_far (p_beam p)) (bp_zmin (p_beam p)) (bp_zmax (p_beam p))) bl full
    /\ keeps (in_range (lp_near (p_like p)) (lp_far (p_like p)) (lp_zmin (p_like p)) (lp_zmax (p_like p))) ll full
    /\ sampled (use_sampler_normal p) bl (asked p (bp_default (p_beam p)) (bp_global (p_beam p)) (psize n)) bp
    /\ sampled (use_sampler_normal p) ll (asked p (lp_default (p_like p)) (lp_global (p_like p)) (psize n)) lp
    /\ (lp = [] -> o' = [OStatus {| s_status := NORMAL; s_error := ERROR_POINTS_NOT_FOUND; s_conv := CONV_NORMAL; s_match := 0; s_size := 0;
                                    s_entropy := PfModel.entropy RA (n_pf n) |} true true (has_odom (n_odom n)) (has_imu (n_imu n))])
    /\ (lp <> [] -> exists n2 nb, n_pf n2 = n_pf n /\ n_map n2 = n_map n /\ n_odom n2 = n_odom n /\ n_imu n2 = n_imu n
         /\ l_rc (n_lid n2) = l_rc (n_lid n) /\ localize caster p n2 e h os full bp lp = Ok (nb, o')).
Proof.
  intros gen rc0 g0 evs n o g m e n1 h pc os n' o' g' HD Hr [a cs na n0 Hm Hp Hat Hg Hpr] Hs full.
  destruct (C118_refines _ _ _ _ _ _ Hr) as (evs' & _ & Hr').
  assert (HL : lid_from n) by (apply (steps_lid _ _ _ _ Hr'); split; left; reflexivity).
  cbn [NodeSampModel.step_s] in Hs. unfold NodeSampModel.cbCloud_s in Hs. rewrite Hm in Hs. cbv zeta in Hs.
  change (ac (n_acc (set_stat n status0))) with (ac (n_acc n)) in Hs. rewrite Hp in Hs. cbn [bind] in Hs. bok Hs. destruct x as [[nc oc] gc]. injection Hs as _ <- <-.
  pose proof (push_calls_once _ _ _ _ _ Hp) as Hn1. pose proof (at_process_nproc _ _ _ _ Hat) as Hn2.
  assert (Hn : nproc cs = 1%nat) by lia. destruct (at_process_callbacks_s _ _ _ g _ Hn Hat _ _ _ E0) as (nb & Hms).
  pose proof (at_process_frame _ _ _ _ Hat) as (F1 & F2 & F3 & F4 & F5 & F6).
  pose proof (gate_ok _ _ _ _ Hg) as (G1 & G2 & G3 & G4 & G5 & G6 & G7 & G8 & G9 & G10 & G11 & G12 & G13 & G14 & G15 & G16 & _).
  pose proof (prepare_ok _ _ _ _ _ Hpr) as (P1 & P2 & P3 & P4 & P5 & P6 & _).
  assert (Hst : exists st, particle_statistics n1 e = Ok st).
  { unfold NodeSampModel.measure_s in Hms. rewrite Hg in Hms. cbn [bind negb] in Hms. rewrite Hpr in Hms. cbn [bind] in Hms. bok Hms. eauto. }
  destruct Hst as (st & Hst). pose proof (statistics_kind _ _ _ Hst) as Hk.
  rewrite (measure_s_ready na e g n0 n1 h pc os st Hg Hpr Hst) in Hms. fold full in Hms.
  bok Hms. destruct x as [bp g1]. bok Hms. destruct x as [lp g2]. bok Hms. destruct x as [n3 o3]. injection Hms as _ -> _.
  pose proof (sample_cases HD st (e_fuel e) (beam_cloud n1 full) (b_num (beam_now n1)) g) as S1. rewrite E1 in S1.
  pose proof (sample_cases HD st (e_fuel e) (like_cloud n1 full) (l_num (like_now n1)) g1) as S2. rewrite E2 in S2. rewrite Hk in S1, S2.
  assert (Elid : n_lid n1 = n_lid n) by (rewrite P5, G5, F1; reflexivity).
  assert (Epf : n_pf n1 = n_pf n) by (rewrite P6, G6, F2; reflexivity).
  assert (Esz : psize n1 = psize n) by (unfold psize; rewrite Epf; reflexivity).
  exists (beam_cloud n1 full), (like_cloud n1 full), bp, lp.
  assert (B : beam_now n1 = beam_set_global (beam_refresh (p_beam p)) (Z.to_N (num_particles p mod 2 ^ 64)) (N.of_nat (psize n))).
  { unfold beam_now. rewrite Elid, Esz. destruct HL as [[->|(u & v & ->)] _]; reflexivity. }
  assert (L : like_now n1 = like_set_global (like_refresh (p_like p)) (Z.to_N (num_particles p mod 2 ^ 64)) (N.of_nat (psize n))).
  { unfold like_now. rewrite Elid, Esz. destruct HL as [_ [->|(u & v & ->)]]; reflexivity. }
  split; [unfold beam_cloud; rewrite B; apply clip_keeps|]. split; [unfold like_cloud; rewrite L; apply clip_keeps|].
  split; [rewrite B in S1; exact S1|]. split; [rewrite L in S2; exact S2|].
  split.
  - intros ->. cbn [body] in E3. unfold force_update in E3. injection E3 as _ <-.
    cbn [points_lost set_stat set_out told set_lid n_out stat s_status s_error s_conv s_match s_size n_pf n_map n_odom n_imu].
    rewrite P4, G7, F4, Epf, P1, G1, F3, P2, G3, F5, P3, G4, F6. change (has_map (n_map (set_stat n status0))) with (has_map (n_map n)). rewrite Hm. reflexivity.
  - intro Hne. exists (told n1), n3. cbn [told set_lid n_pf n_map n_odom n_imu n_lid l_rc]. rewrite Elid, Epf, P1, G1, F3, P2, G3, F5, P3, G4, F6.
    repeat split. destruct lp; [congruence|exact E3].
Qed.
Lemma keeps_none {X} (P : X -> Prop) u v : keeps P u v -> (u = [] <-> forall x, In x v -> ~ P x).
Proof.
  induction 1 as [|x u v H1 H2 IH|x u v H1 H2 IH].
  - split; [intros _ x []|reflexivity].
  - split; [discriminate|]. intro Q. exfalso. exact (Q x (or_introl eq_refl) H1).
  - rewrite IH. split; [intros Q y [<-|Hy]; [exact H1|exact (Q y Hy)]|intros Q y Hy; apply Q; right; exact Hy].
Qed.
Lemma sampled_empty b l k out : sampled b l k out -> (out = [] <-> l = [] \/ k = 0%nat).
Proof.
  unfold sampled. destruct b.
  - intros [H _]. split.
    + intros ->. cbn in H. destruct l; [left; reflexivity|right]. cbn [length] in H. lia.
    + intros [->| ->]; (destruct out; [reflexivity|cbn [length] in H; lia]).
  - intros [_ H]. split.
    + intros ->. cbn in H. destruct l; auto.
    + intros [->| ->]; [|destruct l]; (destruct out; [reflexivity|cbn [length] in H; lia]).
Qed.
(** A measurement either publishes a pose, or a status that says that no points were found; the
    latter exactly if no point is in the range of the likelihood model, or none is asked for. *)
Theorem C118_points_not_found : forall gen rc0 g0 evs n o g m e n1 h pc os n' o' g',
  legal_draws -> steps_s (configure p gen rc0) g0 evs = Ok (n, o, g) -> measures_with voxel p caster n m e n1 h pc os ->
  step_s n g (ECloud m e) = Ok (n', o', g') ->
  let lost := (forall q, In q (voxel (ds_x p, ds_y p, ds_z p) pc) -> ~ in_range (lp_near (p_like p)) (lp_far (p_like p)) (lp_zmin (p_like p)) (lp_zmax (p_like p)) q)
              \/ asked p (lp_default (p_like p)) (lp_global (p_like p)) (psize n) = 0%nat in
  (lost -> exists s a b c d, o' = [OStatus s a b c d] /\ s_error s = ERROR_POINTS_NOT_FOUND)
  /\ (~ lost -> exists x c, In (OPose (h_stamp h) x c) o').
Proof.
  intros gen rc0 g0 evs n o g m e n1 h pc os n' o' g' HD Hr Hw Hs lost.
  destruct (C118_points gen rc0 g0 evs n o g m e n1 h pc os n' o' g' HD Hr Hw Hs) as (bl & ll & bp & lp & _ & K2 & _ & S2 & L1 & L2).
  pose proof (keeps_none _ _ _ K2) as Q1. pose proof (sampled_empty _ _ _ _ S2) as Q2.
  assert (Q : lp = [] <-> lost) by (rewrite Q2; unfold lost; rewrite Q1; tauto).
  split.
  - intro Hl. apply Q in Hl. rewrite (L1 Hl). do 5 eexists. split; reflexivity.
  - intro Hl. destruct L2 as (n2 & nb & _ & _ & _ & _ & _ & HL); [tauto|].
    unfold localize in HL. bok HL. destruct x as [[na est] ratio]. destruct (publish_tf_step p na e est) as [[nc est'] o1]. bok HL. bok HL. bok HL. destruct x1 as [nd o2]. bok HL. bok HL.
    destruct (force_update _) as [ne o4]. injection HL as _ <-. exists (pos est', rot est'), x. apply in_or_app. right. left. reflexivity.
Qed.
End Samp.
