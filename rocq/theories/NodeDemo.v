(** A concrete history of the node that meets the hypotheses of the node theorems: the default
    settings, the k-d tree ray caster, one map, two clouds.  The searches are answered by a
    linear search for the nearest point of the chunk. *)
From Coq Require Import String Reals ZArith NArith List Bool Arith Lra Lia Permutation.
From Verif Require PfModel FilterModel AccumModel.
From Verif Require Import Arith KdModel KdSpec KdProofs KdProps QuatModel StateModel StateSpec RayModel RaySpec RayProofs KRayProofs LidarModel LidarSpec LidarProofs LidarProofs2
  NdModel ParamModel ParamProps NodeModel NodeSpec NodeFrame NodeLocProofs NodeStepProofs NodeMapProofs NodeAliveSpec NodeAliveProofs NodeAliveProofs2 NodeAliveProps NodeAccProps NodeGlobProps.
Import ListNotations.
Open Scope R_scope.
Open Scope list_scope.

(** ** A search that is legal *)
Fixpoint nearest (s : scale) (q : pt) (k : nat) (pts : list pt) : option (nat * R) :=
  match pts with
  | [] => None
  | x :: t => match nearest s q (S k) t with
              | None => Some (k, dist_sq s x q)
              | Some (j, d) => if Rltb d (dist_sq s x q) then Some (j, d) else Some (k, dist_sq s x q)
              end
  end.
Lemma nearest_ok s q pts : forall k,
  match nearest s q k pts with
  | None => pts = []
  | Some (j, d) => (k <= j)%nat /\ (exists x, nth_error pts (j - k) = Some x /\ d = dist_sq s x q) /\ forall x, In x pts -> d <= dist_sq s x q
  end.
Proof.
  induction pts as [|x t IH]; intro k; cbn [nearest]; [reflexivity|]. specialize (IH (S k)).
  destruct (nearest s q (S k) t) as [[j d]|].
  - destruct IH as (H1 & (y & Hy & Hd) & H2). destruct (Rltb d (dist_sq s x q)) eqn:E.
    + apply Rltb_true in E. split; [lia|]. split; [|intros z [<-|Hz]; [lra|apply H2, Hz]].
      exists y. split; [|exact Hd]. replace (j - k)%nat with (S (j - S k)) by lia. exact Hy.
    + apply Rltb_false in E. split; [lia|]. split; [exists x; rewrite Nat.sub_diag; split; reflexivity|]. intros z [<-|Hz]; [lra|]. specialize (H2 z Hz). lra.
  - subst t. split; [lia|]. split; [exists x; rewrite Nat.sub_diag; split; reflexivity|]. intros z [<-|[]]. lra.
Qed.
Lemma dist_sq_nonneg s x q : 0 <= dist_sq s x q.
Proof. destruct s as [[a b] c]. unfold dist_sq. pose proof (Rle_0_sqr (a * px x - a * px q)). pose proof (Rle_0_sqr (b * py x - b * py q)). pose proof (Rle_0_sqr (c * pz x - c * pz q)). unfold Rsqr in *. lra. Qed.
Definition within_r (r : R) (a : option (nat * R)) : list (nat * R) :=
  match a with Some (j, d) => if Rltb d (r * r) then [(j, d)] else [] | None => [] end.
Lemma nearest_flann s e pts q r : 0 <= e -> flann_result s e pts q r 1 (within_r r (nearest s q 0 pts)).
Proof.
  intro He. pose proof (nearest_ok s q pts 0) as H. destruct (nearest s q 0 pts) as [[j d]|]; cbn [within_r].
  2:{ subst pts. split; [constructor|]. split; [intros i d []|]. split; [intros [|?] b x y ? Hx; discriminate Hx|]. split; [cbn; lia|].
      split; [intros _ [|i] x Hx; discriminate Hx|]. intros l Hl. discriminate Hl. }
  destruct H as (_ & (x & Hx & Hd) & Hm). rewrite Nat.sub_0_r in Hx. destruct (Rltb d (r * r)) eqn:E.
  - apply Rltb_true in E. split; [repeat constructor; intros []|]. split; [intros i d' [[= <- <-]|[]]; eauto|].
    split; [intros a b x0 y Hab _ Hb; destruct b as [|[|b]]; [lia|discriminate Hb|discriminate Hb]|]. split; [cbn; lia|]. split; [cbn; lia|].
    intros l [= <-] _ i z Hz Hlt. cbn [snd] in Hlt. apply nth_error_In in Hz. specialize (Hm z Hz). pose proof (dist_sq_nonneg s z q). nra.
  - apply Rltb_false in E. split; [constructor|]. split; [intros i d' []|]. split; [intros [|?] b x0 y ? H0; discriminate H0|]. split; [cbn; lia|].
    split; [|intros l Hl; discriminate Hl]. intros _ i z Hz Hlt. apply nth_error_In in Hz. specialize (Hm z Hz). pose proof (dist_sq_nonneg s z q). nra.
Qed.
Definition linear_search (k : kdt) (q : pt) (r : R) : search :=
  if Rltb (chunk_length k) r then Throws
  else match vfind (chunks k) (getChunkId (chunk_length k) q) with
       | None => NoChunk
       | Some c => Found (flat_map (fun x => match nth_error (original_ids c) (fst x) with Some i => [(i, snd x)] | None => [] end)
                            (within_r r (nearest (scale_of (rep c)) q 0 (tree c))))
       end.
Lemma linear_search_legal cs L rmax keep cloud q r : last_load cs None = Some cloud -> 0 <= eps_of (last_eps cs None) ->
  radiusSearch (kd_after cs L rmax keep) q r 1 (linear_search (kd_after cs L rmax keep) q r).
Proof.
  intros Hl He. destruct (state_after cs (new_kdt L rmax keep) eq_refl) as (E1 & E2 & E3 & E4).
  unfold radiusSearch, linear_search. rewrite E1. cbn [chunk_length new_kdt].
  destruct (Rltb L r); [reflexivity|]. destruct (vfind (chunks (kd_after cs L rmax keep)) (getChunkId L q)) as [c|] eqn:Ec; [|reflexivity].
  rewrite E4 in Ec. cbn in Ec. rewrite Hl, built_find in Ec. destruct (mem L rmax (getChunkId L q) 0 cloud) as [|m0 m'] eqn:Em; [discriminate|].
  rewrite <- Em in Ec. injection Ec as <-. cbn [rep eps tree original_ids] in *.
  set (m := mem L rmax (getChunkId L q) 0 cloud) in *.
  match goal with |- context [nearest ?s q 0 _] => set (sc := s) in * end.
  pose proof (nearest_flann sc (eps_of (last_eps cs None)) (map snd m) q r He) as Hf.
  exists (within_r r (nearest sc q 0 (map snd m))). eexists. split; [exact Hf|]. split; [|reflexivity].
  destruct (remap_total _ _ _ _ _ _ _ Hf) as (out & O1 & _). rewrite O1. f_equal.
  destruct (within_r r _) as [|[j d] [|w t]] eqn:Ew; cbn in O1 |- *.
  - destruct out; [reflexivity|discriminate].
  - destruct out as [|[i d'] [|? ?]]; try discriminate. injection O1 as O1 O2. rewrite O1, O2. reflexivity.
  - exfalso. clear -Ew. unfold within_r in Ew. destruct (nearest _ _ _ _) as [[? ?]|]; [destruct (Rltb _ _); discriminate|discriminate].
Qed.

(** ** A sort *)
Fixpoint ins (x : R * state) (l : list (R * state)) : list (R * state) :=
  match l with [] => [x] | y :: t => if Rltb (fst y) (fst x) then y :: ins x t else x :: l end.
Definition isort : sorter := fold_right ins [].
Lemma ins_perm x l : Permutation (x :: l) (ins x l).
Proof. induction l as [|y t IH]; [reflexivity|]. cbn [ins]. destruct (Rltb (fst y) (fst x)); [|reflexivity]. rewrite perm_swap, IH. reflexivity. Qed.
Lemma ins_sorted x l : (forall i j a b, (i < j)%nat -> nth_error l i = Some a -> nth_error l j = Some b -> fst a <= fst b) ->
  forall i j a b, (i < j)%nat -> nth_error (ins x l) i = Some a -> nth_error (ins x l) j = Some b -> fst a <= fst b.
Proof.
  induction l as [|y t IH]; intros H i j a b Hij Ha Hb; cbn [ins] in *; [destruct j as [|[|j]]; [lia|discriminate|discriminate]|].
  destruct (Rltb (fst y) (fst x)) eqn:E.
  - apply Rltb_true in E. destruct j as [|j]; [lia|]. destruct i as [|i]; cbn [nth_error] in *.
    + injection Ha as <-. apply nth_error_In in Hb. apply (Permutation_in _ (Permutation_sym (ins_perm x t))) in Hb. destruct Hb as [<-|Hb]; [lra|].
      apply In_nth_error in Hb. destruct Hb as [k Hk]. apply (H 0%nat (S k)); [lia|reflexivity|exact Hk].
    + apply (IH) with (i := i) (j := j); auto; [|lia]. intros i' j' a' b' Hij' Ha' Hb'. apply (H (S i') (S j')); [lia|exact Ha'|exact Hb'].
  - apply Rltb_false in E. destruct j as [|j]; [lia|]. destruct i as [|i]; cbn [nth_error] in *.
    + injection Ha as <-. destruct j as [|j]; cbn [nth_error] in Hb; [injection Hb as <-; lra|]. apply Rle_trans with (fst y); [lra|]. apply (H 0%nat (S j)); [lia|reflexivity|exact Hb].
    + apply (H i j); [lia|exact Ha|exact Hb].
Qed.
Lemma isort_sorts : sorts isort.
Proof.
  intro l. split.
  - induction l as [|x l IH]; [reflexivity|]. cbn [isort fold_right]. change (fold_right ins [] l) with (isort l). rewrite <- ins_perm. constructor. exact IH.
  - intros i j a b Hij Ha Hb. apply Rltb_false. revert i j a b Hij Ha Hb.
    induction l as [|x l IH]; [intros i j a b _ Ha; destruct i; discriminate|]. cbn [isort fold_right]. apply ins_sorted. exact IH.
Qed.
(** an ordered list is left as it is *)
Lemma isort_id l : (forall i j a b, (i < j)%nat -> nth_error l i = Some a -> nth_error l j = Some b -> fst a <= fst b) -> isort l = l.
Proof.
  induction l as [|x l IH]; intro H; [reflexivity|]. cbn [isort fold_right]. change (fold_right ins [] l) with (isort l). rewrite IH.
  - destruct l as [|y t]; [reflexivity|]. cbn [ins]. assert (Hxy : fst x <= fst y) by (apply (H 0%nat 1%nat); [lia|reflexivity|reflexivity]).
    destruct (Rltb (fst y) (fst x)) eqn:E; [apply Rltb_true in E; lra|reflexivity].
  - intros i j a b Hij Ha Hb. apply (H (S i) (S j)); [lia|exact Ha|exact Hb].
Qed.

(** ** The default settings *)
Definition demo : params := load_params (fun x => x) false false (0, 0, 0) (fun _ => None).
Lemma demo_fields : num_particles demo = 64%Z /\ skip_measure demo = 1%Z /\ accum_cloud demo = 1%Z /\ total_accum_max demo = 10%Z
  /\ map_chunk demo = 20 /\ dist_weight demo = (1, 1, 5, 0) /\ lp_dist_min (p_like demo) = 2 / 10 /\ lpf_step demo = 16.
Proof. repeat split; reflexivity. Qed.
Lemma demo_ok : settings_ok demo.
Proof.
  constructor.
  - cbn; lia.
  - cbn; lia.
  - reflexivity.
  - right. cbn; lia.
  - cbn; lra.
  - cbn; lra.
  - cbn; lra.
  - cbn; lra.
  - cbn. pose proof PI_RGT_0. repeat split; lra.
  - change (glob_div_yaw demo) with (lround (2 * PI / (524 / 1000))).
    pose proof PI2_3_2 as HPI. pose proof PI_4 as HP4. unfold PI2 in HPI.
    assert (H : 11 <= 2 * PI / (524 / 1000) <= 16) by lra. unfold lround.
    destruct (Rltb (2 * PI / (524 / 1000)) 0) eqn:E; [apply Rltb_true in E; lra|].
    pose proof (Rfloor_spec (2 * PI / (524 / 1000) + / 2)) as [F1 F2]. split.
    + apply Z.lt_succ_r, lt_IZR. rewrite succ_IZR. lra.
    + apply lt_IZR. apply Rle_lt_trans with 17; [lra|]. apply IZR_lt. lia.
Qed.

(** ** The history *)
Definition demo_map : list lpt := [{| p3 := V3 1 0 0; lab := 0 |}; {| p3 := V3 1 1 0; lab := 0 |}].
Definition demo_kd : kdt := setInputCloud (to_pts demo_map) (configured_kdtree demo).
Definition demo_env : menv :=
  {| e_lookup := fun _ _ _ => Some (v0, q1); e_lookup5 := fun _ _ _ _ _ => Some (v0, q1); e_stat_shuffle := fun l => l; e_beam := fun l _ => l; e_like := fun l _ => l;
     e_search := linear_search demo_kd; e_fuel := 0; e_now := 1; e_shuffle := fun l => l; e_subs := (true, true);
     e_sort := isort; e_offset := 0; e_noise := fun _ _ => 0; e_noise4 := fun _ => (0, 0, 0, 0); e_expand := fun _ _ => 0;
     e_sort2 := isort |}.
Definition demo_cloud (t : R) : cloud_msg := {| cm_frame := "laser"; cm_stamp := t; cm_conv := Some [V3 1 0 0; V3 2 0 0]; cm_lookup := fun _ _ _ => Some (v0, q1) |}.
Lemma demo_pts t : cm_pts demo (demo_cloud t) = Some [V3 1 0 0; V3 2 0 0].
Proof.
  assert (G : forall v, tf_point (v0, q1) v = v) by (intros [x y z]; unfold tf_point; cbn [fst snd]; rewrite QuatProofs.qrot_1; unfold vadd, v0; cbn; f_equal; ring).
  unfold cm_pts. cbn [demo_cloud cm_lookup cm_conv option_map map]. rewrite !G. reflexivity.
Qed.
Definition demo_events : list event := [EMap (Some demo_map) 1 1; ECloud (demo_cloud 1) demo_env; ECloud (demo_cloud 2) demo_env].
Definition demo_voxel (_ : R * R * R) (l : list lpt) : list lpt := l.
Definition demo_caster := node_kd_caster demo.
Definition demo_rc : kray := k_setRay (new_kray 1 1 1 0) v0 v0.
Definition demo_init : node := configure demo (fun _ _ => 0) demo_rc.

Lemma demo_search q r : radiusSearch demo_kd q r 1 (e_search demo_env q r).
Proof.
  refine (linear_search_legal [CEps (map_grid_min demo / 16); CRep (1, 1, 5); CLoad (to_pts demo_map)] (map_chunk demo) (configured_radius demo) false (to_pts demo_map) q r eq_refl _).
  cbn [last_eps eps_of]. change (map_grid_min demo) with (fmin (fmin (1/10) (1/10)) (1/10)). unfold fmin. destruct (Rltb_spec (1/10) (1/10)); [lra|].
  destruct (Rltb_spec (1/10) (1/10)); lra.
Qed.
(** the node after the map and the first cloud *)
Lemma demo_one : exists n1 o1, step demo_caster demo_voxel demo demo_init (EMap (Some demo_map) 1 1) = Ok (n1, o1)
  /\ kd (n_map n1) = demo_kd /\ n_pf n1 = n_pf demo_init /\ has_map (n_map n1) = true
  /\ get_obj (n_map n1) (pc_map2 (n_map n1)) = Ok {| cl_id := 0; cl_stamp := 1; cl_pts := demo_map |} /\ local (n_acc n1) = Some [] /\ ac (n_acc n1) = AccumModel.accum_init
  /\ headers (n_acc n1) = [] /\ n_lid n1 = n_lid demo_init /\ cnt_measure (n_out n1) = 0%Z /\ existsb is_pose o1 = false.
Proof. cbn [step cbMapcloud]. unfold loadMapCloud. eexists _, _. split; [reflexivity|]. repeat split; try reflexivity. Qed.
Lemma demo_two k n1 : has_map (n_map n1) = true -> ac (n_acc n1) = AccumModel.accum_init -> local (n_acc n1) = Some [] -> headers (n_acc n1) = [] ->
  exists n2, step demo_caster demo_voxel demo n1 (ECloud (demo_cloud 1) (with_fuel k demo_env)) = Ok (n2, [])
  /\ n_map n2 = n_map n1 /\ n_pf n2 = n_pf n1 /\ n_lid n2 = n_lid n1 /\ ac (n_acc n2) = {| AccumModel.cnt_accum := 1; AccumModel.keys := ["laser"%string] |}
  /\ cnt_measure (n_out n2) = cnt_measure (n_out n1)
  /\ local (n_acc n2) = Some [{| p3 := V3 1 0 0; lab := 0 |}; {| p3 := V3 2 0 0; lab := 0 |}] /\ headers (n_acc n2) = [{| h_frame := "laser"; h_stamp := 1 |}].
Proof.
  intros H1 H2 H3 H4. cbn [step]. unfold cbCloud. rewrite H1. change (n_acc (set_stat n1 status0)) with (n_acc n1). rewrite H2.
  assert (E : push_calls demo AccumModel.accum_init (demo_cloud 1) = Ok ({| AccumModel.cnt_accum := 1; AccumModel.keys := ["laser"%string] |}, [AccumModel.Accumulate (demo_cloud 1) true])) by reflexivity.
  rewrite E. cbn [bind callbacks callback]. unfold accumCloud. rewrite demo_pts. cbn [demo_cloud cm_frame cm_stamp]. change (n_acc (set_stat n1 status0)) with (n_acc n1). rewrite H3, H4. cbn [bind].
  eexists. split; [reflexivity|]. repeat split; reflexivity.
Qed.
Lemma demo_len : length (PfModel.parts RA (n_pf demo_init)) = 64%nat.
Proof.
  unfold demo_init, configure. cbn [n_pf]. unfold PfModel.init, PfModel.new_filter. cbn [PfModel.parts]. rewrite mapi_len, repeat_length. reflexivity.
Qed.
Lemma demo_env_legal (n : node (S := kray)) : kd (n_map n) = demo_kd -> n_pf n = n_pf demo_init -> legal_env n demo_env.
Proof.
  intros H1 H2. split; [intros q r; rewrite H1; apply demo_search|]. split; [intros l k q H; exact H|]. split; [intros l k q H; exact H|].
  split; [intro l; apply Permutation_refl|]. split; [intro l; apply Permutation_refl|]. split; exact isort_sorts.
Qed.
Lemma demo_castable c : castable demo_caster demo (fun _ _ => True) c.
Proof.
  apply C93_kdtree_casts_with_every_map; [cbn; lra|cbn; lra|cbn; lra|].
  change (4 * Rmax (1/10) (Rmax (1/10) (1/10)) <= 20). rewrite (Rmax_left (1/10) (1/10)) by lra. rewrite Rmax_left by lra. lra.
Qed.
Lemma demo_legal : legal_run demo_caster demo_voxel demo (fun _ _ => True) demo_init demo_events.
Proof.
  cbn [legal_run demo_events]. split; [intros c H; discriminate H|]. intros k0 n1 o1 E1. cbn [with_fuel_ev] in E1.
  destruct demo_one as (n1' & o1' & E1' & A1 & A2 & A3 & A4 & A5 & A6 & A7 & A8 & A9 & _). rewrite E1' in E1. injection E1 as -> ->.
  split; [split; [apply demo_env_legal; assumption|intros c _; apply demo_castable]|].
  intros k n2 o2 E2. cbn [with_fuel_ev] in E2. destruct (demo_two k n1 A3 A6 A5 A7) as (n2' & E2' & B1 & B2 & B3 & B4 & B5 & _). rewrite E2' in E2. injection E2 as <- <-.
  split; [split; [apply demo_env_legal; congruence|intros c _; apply demo_castable]|]. intros; exact I.
Qed.
(** The hypotheses of C93 and C94 hold for this history. *)
Example C93_C94_nonvacuous :
  settings_ok demo /\ keeps_labels (demo_voxel (ds_x demo, ds_y demo, ds_z demo)) /\ survives_newer (fun (_ : cloud) (_ : kray) => True)
  /\ legal_run demo_caster demo_voxel demo (fun _ _ => True) demo_init demo_events
  /\ exists n o K, forall k, (K <= k)%nat -> steps demo_caster demo_voxel demo demo_init (map (with_fuel_ev k) demo_events) = Ok (n, o).
Proof.
  assert (Hv : keeps_labels (demo_voxel (ds_x demo, ds_y demo, ds_z demo))) by (intros l q Hq; exists q; split; [exact Hq|lia]).
  split; [exact demo_ok|]. split; [exact Hv|]. split; [intros c c' s _ _; exact I|]. split; [exact demo_legal|].
  destruct (C93_node_never_fails _ demo_caster demo_voxel demo (fun _ _ => True) (fun _ _ => 0) demo_rc demo_events demo_ok Hv (fun _ _ _ _ _ => I) (fun _ => I) demo_legal)
    as (n & o & K & H & _). exists n, o, K. exact H.
Qed.
(** With enough steps per ray, the second cloud leads to a measurement that reports a status. *)
Lemma steps_trace {S} (caster : cloud -> (pt -> R -> search) -> raycaster S) voxel p evs : forall n n' o,
  steps caster voxel p n evs = Ok (n', o) -> exists tr, trace voxel p caster n evs = Ok tr.
Proof.
  induction evs as [|ev t IH]; cbn [steps trace]; intros n n' o H; [eauto|]. destruct (step caster voxel p n ev) as [[n1 o1]| | |] eqn:E; cbn [bind] in H |- *; try discriminate.
  destruct (steps caster voxel p n1 t) as [[n2 o2]| | |] eqn:E2; cbn [bind] in H; try discriminate. destruct (IH _ _ _ E2) as (tr & ->). cbn [bind]. eauto.
Qed.
Lemma trace_cons {S} (caster : cloud -> (pt -> R -> search) -> raycaster S) voxel p n ev t n1 o1 :
  step caster voxel p n ev = Ok (n1, o1) ->
  trace voxel p caster n (ev :: t) = bind (trace voxel p caster n1 t) (fun r => Ok ({| before := n; what := ev; outs := o1; after := n1 |} :: r)).
Proof. intro H. cbn [trace]. rewrite H. reflexivity. Qed.
Lemma trace_one {S} (caster : cloud -> (pt -> R -> search) -> raycaster S) voxel p n ev tr :
  trace voxel p caster n [ev] = Ok tr -> exists n1 o1, step caster voxel p n ev = Ok (n1, o1) /\ tr = [{| before := n; what := ev; outs := o1; after := n1 |}].
Proof. cbn [trace]. destruct (step caster voxel p n ev) as [[n1 o1]| | |]; cbn [bind]; intro H; try discriminate. injection H as <-. eauto. Qed.
(** the second cloud is measured *)
Lemma demo_three k n2 n3 o3 : step demo_caster demo_voxel demo n2 (ECloud (demo_cloud 2) (with_fuel k demo_env)) = Ok (n3, o3) ->
  has_map (n_map n2) = true -> n_lid n2 = n_lid demo_init -> ac (n_acc n2) = {| AccumModel.cnt_accum := 1; AccumModel.keys := ["laser"%string] |} ->
  cnt_measure (n_out n2) = 0%Z -> local (n_acc n2) = Some [{| p3 := V3 1 0 0; lab := 0 |}; {| p3 := V3 2 0 0; lab := 0 |}] ->
  headers (n_acc n2) = [{| h_frame := "laser"; h_stamp := 1 |}] ->
  existsb is_pose o3 = true
  /\ exists n1 h pc os n4 bp lp, measures_with demo_voxel demo demo_caster n2 (demo_cloud 2) (with_fuel k demo_env) n1 h pc os
     /\ length pc = 2%nat /\ filters demo n1 (with_fuel k demo_env) (demo_voxel (ds_x demo, ds_y demo, ds_z demo) pc) = (n4, bp, lp) /\ lp <> [].
Proof.
  intros H H1 H2 H3 H4 H5 H6. cbn [step] in H. unfold cbCloud in H. rewrite H1 in H. change (n_acc (set_stat n2 status0)) with (n_acc n2) in H.
  assert (E : push_calls demo (ac (n_acc n2)) (demo_cloud 2) = Ok ({| AccumModel.cnt_accum := 1; AccumModel.keys := ["laser"%string] |},
     [AccumModel.Process; AccumModel.Clear; AccumModel.Accumulate (demo_cloud 2) true])) by (rewrite H3; reflexivity).
  rewrite E in H. cbn [bind] in H. bok H. destruct x as [nb ob]. injection H as <- <-.
  apply callbacks_one in E0; [|reflexivity]. destruct E0 as (na & nc & B0 & _ & _ & _ & _ & _ & _ & B7 & _).
  assert (na = set_stat n2 status0) as -> by (cbn [at_process] in B0; injection B0; auto).
  unfold measure in B7. bok B7. destruct x as [n0 go]. pose proof E0 as Eg. apply gate_ok in E0.
  destruct E0 as (_ & G2 & _ & _ & G6 & _ & _ & _ & _ & _ & _ & _ & _ & _ & _ & G16 & _ & Gb).
  change (cnt_measure (n_out (set_stat n2 status0))) with (cnt_measure (n_out n2)) in G16. rewrite H4 in G16. change ((0 + 1) mod 2 ^ 64)%Z with 1%Z in G16. rewrite G16 in Gb.
  assert (go = true) as ->. { rewrite Gb. unfold skip_size. replace (skip_measure demo) with 1%Z by (symmetry; apply demo_fields). reflexivity. }
  cbn [negb] in B7. change (n_acc (set_stat n2 status0)) with (n_acc n2) in G2. change (n_lid (set_stat n2 status0)) with (n_lid n2) in G6. rewrite H2 in G6.
  assert (Ep : exists n1 pc, prepare demo n0 (with_fuel k demo_env) = Ok (n1, Some ({| h_frame := "laser"; h_stamp := 1 |}, pc, [v0])) /\ n_lid n1 = n_lid demo_init
    /\ pc = to_base (v0, q1) [{| p3 := V3 1 0 0; lab := 0 |}; {| p3 := V3 2 0 0; lab := 0 |}]).
  { unfold prepare. rewrite G2, H6, H5. cbn [rev app with_fuel base_tf origin_of e_lookup e_lookup5 demo_env get_origins option_map fst]. eexists _, _. split; [reflexivity|]. split; [|reflexivity]. cbn [n_lid set_acc]. exact G6. }
  destruct Ep as (n1 & pc & Ep & El & Epc). rewrite Ep in B7. cbn [bind] in B7. bok B7.
  destruct (filters demo n1 (with_fuel k demo_env) (demo_voxel (ds_x demo, ds_y demo, ds_z demo) pc)) as [[n4 bp] lp] eqn:Ef.
  assert (Hlp : lp <> []).
  { assert (Hin : In {| p3 := vadd (qrot q1 (V3 1 0 0)) v0; lab := 0 |} lp); [|intros ->; destruct Hin].
    unfold filters in Ef. injection Ef as _ _ <-. cbn [e_like with_fuel demo_env like_filter fst]. unfold clip, like_set_global. rewrite El.
    cbn [n_lid demo_init configure l_like l_far_sq l_near_sq l_par]. apply filter_In. split; [rewrite Epc; left; reflexivity|].
    change (lp_zmin (l_par (like_refresh (p_like demo)))) with (-2). change (lp_zmax (l_par (like_refresh (p_like demo)))) with 2.
    change (l_far_sq (like_refresh (p_like demo))) with (10 * 10). change (l_near_sq (like_refresh (p_like demo))) with (1/2 * (1/2)).
    assert (Hv : vadd (qrot q1 (V3 1 0 0)) v0 = V3 1 0 0) by (unfold vadd, qrot, q1, v0; cbn; f_equal; ring).
    cbn [p3]. rewrite Hv. cbn [vx vy vz]. unfold clip_removes. cbn [flt fadd fmul RA].
    destruct (Rltb_spec (10 * 10) (1 * 1 + 0 * 0)); [lra|]. destruct (Rltb_spec (1 * 1 + 0 * 0) (1/2 * (1/2))); [lra|].
    destruct (Rltb_spec 0 (-2)); [lra|]. destruct (Rltb_spec 2 0); [lra|]. reflexivity. }
  split.
  - destruct lp as [|l lp]; [congruence|]. apply localize_spec in B7.
    2:{ replace (lpf_step demo) with 16 by (symmetry; apply demo_fields). pose proof (Rceil_spec 16) as [_ C]. apply le_IZR. lra. }
    destruct (lz_ex _ _ _ _ _ _ B7) as (est & ratio & m1 & m2 & est' & c & o1 & o2 & parts & _ & _ & _ & _ & _ & _ & _ & -> & _).
    rewrite !existsb_app. cbn. rewrite !orb_true_r. reflexivity.
  - exists n1, {| h_frame := "laser"; h_stamp := 1 |}, pc, [v0], n4, bp, lp. split; [|split; [rewrite Epc; reflexivity|split; [exact Ef|exact Hlp]]].
    apply (mw_intro _ _ _ _ _ _ _ _ _ _ _ _ (set_stat n2 status0) n0 H1 E); [reflexivity|exact Eg|exact Ep].
Qed.
Lemma demo_trace : exists k n o tr x, steps demo_caster demo_voxel demo demo_init (map (with_fuel_ev k) demo_events) = Ok (n, o)
  /\ trace demo_voxel demo demo_caster demo_init (map (with_fuel_ev k) demo_events) = Ok tr
  /\ nth_error (filter (processes demo) tr) 0 = Some x /\ nth_error (loc_steps tr) 0 = Some x
  /\ In x tr /\ what x = ECloud (demo_cloud 2) (with_fuel k demo_env) /\ existsb is_status (outs x) = true /\ localizes x = true
  /\ (exists o2, steps demo_caster demo_voxel demo demo_init (map (with_fuel_ev k) [EMap (Some demo_map) 1 1; ECloud (demo_cloud 1) demo_env]) = Ok (before x, o2))
  /\ step demo_caster demo_voxel demo (before x) (what x) = Ok (after x, outs x)
  /\ exists n1 h pc os n4 bp lp, measures_with demo_voxel demo demo_caster (before x) (demo_cloud 2) (with_fuel k demo_env) n1 h pc os
     /\ length pc = 2%nat /\ filters demo n1 (with_fuel k demo_env) (demo_voxel (ds_x demo, ds_y demo, ds_z demo) pc) = (n4, bp, lp) /\ lp <> [].
Proof.
  destruct C93_C94_nonvacuous as (_ & _ & _ & _ & n & o & K & H). specialize (H K (Nat.le_refl K)).
  destruct (steps_trace _ _ _ _ _ _ _ H) as (tr & Ht). exists K, n, o, tr.
  destruct demo_one as (n1 & o1 & E1 & A1 & A2 & A3 & A4 & A5 & A6 & A7 & A8 & A9 & A10).
  destruct (demo_two K n1 A3 A6 A5 A7) as (n2 & E2 & B1 & B2 & B3 & B4 & B5 & B6 & B7).
  pose proof Ht as Ht'. change (map (with_fuel_ev K) demo_events) with [EMap (Some demo_map) 1 1; ECloud (demo_cloud 1) (with_fuel K demo_env); ECloud (demo_cloud 2) (with_fuel K demo_env)] in Ht'.
  rewrite (trace_cons _ _ _ _ _ _ _ _ E1), (trace_cons _ _ _ _ _ _ _ _ E2) in Ht'.
  destruct (trace demo_voxel demo demo_caster n2 [ECloud (demo_cloud 2) (with_fuel K demo_env)]) as [tr2| | |] eqn:E3; try discriminate.
  apply trace_one in E3. destruct E3 as (n3 & o3 & E3 & ->). cbn [bind] in Ht'. injection Ht' as Htr.
  set (x := {| before := n2; what := ECloud (demo_cloud 2) (with_fuel K demo_env); outs := o3; after := n3 |}) in *.
  destruct (demo_three K n2 n3 o3 E3) as [D1 D2]; try congruence.
  exists x. split; [exact H|]. split; [exact Ht|]. rewrite <- Htr.
  set (x1 := {| before := demo_init; what := EMap (Some demo_map) 1 1; outs := o1; after := n1 |}) in *.
  set (x2 := {| before := n1; what := ECloud (demo_cloud 1) (with_fuel K demo_env); outs := []; after := n2 |}) in *.
  assert (P1 : processes demo x1 = false) by reflexivity.
  assert (P2 : processes demo x2 = false) by (unfold processes; cbn [what before x2]; rewrite A3, A6; reflexivity).
  assert (P3 : processes demo x = true) by (unfold processes; cbn [what before x]; rewrite B1, A3, B4; reflexivity).
  assert (L1 : localizes x1 = false) by exact A10. assert (L2 : localizes x2 = false) by reflexivity. assert (L3 : localizes x = true) by exact D1.
  assert (Hf : nth_error (filter (processes demo) [x1; x2; x]) 0 = Some x) by (cbn [filter]; rewrite P1, P2, P3; reflexivity).
  assert (Hl : nth_error (loc_steps [x1; x2; x]) 0 = Some x) by (unfold loc_steps; cbn [filter]; rewrite L1, L2, L3; reflexivity).
  split; [exact Hf|]. split; [exact Hl|]. split; [right; right; left; reflexivity|]. split; [reflexivity|].
  assert (T1 : (0 <= Rceil (lpf_step demo))%Z).
  { destruct demo_fields as (_ & _ & _ & _ & _ & _ & _ & ->). pose proof (Rceil_spec 16) as [_ C]. apply le_IZR. lra. }
  assert (T2 : skip_measure demo = 1%Z) by apply demo_fields.
  pose proof (C83_every_skip_th_measures demo_caster demo_voxel demo (map (with_fuel_ev K) demo_events) (fun _ _ => 0) demo_rc tr 0%nat x (demo_cloud 2) (with_fuel K demo_env) T1 Ht ltac:(rewrite <- Htr; exact Hf) eq_refl ltac:(lia)) as T.
  rewrite T2 in T. specialize (T ltac:(lia)). change (1 mod Z.to_nat 1 =? 0)%nat with true in T. cbv beta iota in T.
  split; [apply T; split; [discriminate|]; intro i; discriminate|]. split; [exact L3|]. split.
  - exists (o1 ++ [] ++ []). change (map (with_fuel_ev K) [EMap (Some demo_map) 1 1; ECloud (demo_cloud 1) demo_env]) with [EMap (Some demo_map) 1 1; ECloud (demo_cloud 1) (with_fuel K demo_env)].
    remember (EMap (Some demo_map) 1 1) as ev1. remember (ECloud (demo_cloud 1) (with_fuel K demo_env)) as ev2. cbn [steps]. rewrite E1. cbn [bind]. rewrite E2. reflexivity.
  - split; [exact E3|exact D2].
Qed.
(** The hypotheses of C79-C86 and C92 hold: the history above has a localization step, its
    cloud is measured, and everything it is asked for is there. *)
Example C79_C80_C81_C83_C84_C92_nonvacuous : exists evs tr x m e n1 h pc os n2 bp lp,
  trace demo_voxel demo demo_caster demo_init evs = Ok tr
  /\ nth_error (loc_steps tr) 0 = Some x /\ nth_error (filter (processes demo) tr) 0 = Some x /\ what x = ECloud m e /\ transforms_ok demo e
  /\ measures_with demo_voxel demo demo_caster (before x) m e n1 h pc os
  /\ filters demo n1 e (demo_voxel (ds_x demo, ds_y demo, ds_z demo) pc) = (n2, bp, lp) /\ lp <> []
  /\ (0 <= Rceil (lpf_step demo))%Z /\ (1 <= skip_measure demo < 2 ^ 31)%Z /\ forallb (fun ev => negb (resizes ev)) evs = true.
Proof.
  destruct demo_trace as (k & n & o & tr & x & H1 & H2 & H3 & H4 & H5 & H6 & H7 & H8 & H9 & H10 & n1 & h & pc & os & n4 & bp & lp & M1 & M2 & M3 & M4).
  exists (map (with_fuel_ev k) demo_events), tr, x, (demo_cloud 2), (with_fuel k demo_env), n1, h, pc, os, n4, bp, lp.
  repeat (split; [assumption|]). split; [split; [discriminate|intro i; discriminate]|]. repeat (split; [assumption|]).
  split. { destruct demo_fields as (_ & _ & _ & _ & _ & _ & _ & ->). pose proof (Rceil_spec 16) as [_ C]. apply le_IZR. lra. }
  split. { replace (skip_measure demo) with 1%Z by (symmetry; apply demo_fields). lia. }
  reflexivity.
Qed.

(** ** Global localization *)
Definition demo_hits (p : params) (cells : list pt) (q : pt) (r : R) : list (nat * R) :=
  within_r r (nearest (metric p) q 0 cells).
Lemma demo_hits_legal p cells : legal_hits p cells (demo_hits p).
Proof. intros q r. unfold demo_hits. apply nearest_flann. lra. Qed.
Example C78_nonvacuous :
  let evs := [EMap (Some demo_map) 1 1] in
  let hits := demo_hits demo in
  exists n o n' o', steps demo_caster demo_voxel demo demo_init evs = Ok (n, o) /\ avail (expect_run demo_voxel demo evs) = true
    /\ step demo_caster demo_voxel demo n (EGlobal hits isort) = Ok (n', o') /\ sorts isort /\ PfModel.parts RA (n_pf n) <> [] /\ (1 <= glob_div_yaw demo)%Z
    /\ legal_hits demo (demo_voxel (glob_grid demo, glob_grid demo, glob_grid demo) (content (expect_run demo_voxel demo evs))) hits
    /\ keeps (free_above (metric demo) (glob_grid demo) demo_map) demo_map demo_map /\ (Z.of_nat (length demo_map) * glob_div_yaw demo < 2 ^ 64)%Z.
Proof.
  intros evs hits. destruct demo_one as (n1 & o1 & E1 & A1 & A2 & A3 & A4 & A5 & A6 & A7 & A8 & A9 & A10).
  assert (Hst : steps demo_caster demo_voxel demo demo_init evs = Ok (n1, o1)).
  { unfold evs. remember (EMap (Some demo_map) 1 1) as ev1. cbn [steps]. rewrite E1. cbn [bind]. rewrite app_nil_r. reflexivity. }
  assert (Hk : keeps (free_above (metric demo) (glob_grid demo) demo_map) demo_map demo_map).
  { assert (Hf : forall c, In c demo_map -> free_above (metric demo) (glob_grid demo) demo_map c).
    { change (metric demo) with (1, 1, 5). change (glob_grid demo) with (3 / 10). intros c Hc c' Hc'.
      assert (Z1 : vz (p3 c) = 0) by (destruct Hc as [<-|[<-|[]]]; reflexivity). assert (Z2 : vz (p3 c') = 0) by (destruct Hc' as [<-|[<-|[]]]; reflexivity).
      unfold dist_sq, above, to_pt. cbn [px py pz]. rewrite Z1, Z2.
      pose proof (Rle_0_sqr (1 * vx (p3 c') - 1 * vx (p3 c))). pose proof (Rle_0_sqr (1 * vy (p3 c') - 1 * vy (p3 c))). unfold Rsqr in *. lra. }
    unfold demo_map at 2 3. apply keeps_yes; [apply Hf; left; reflexivity|]. apply keeps_yes; [apply Hf; right; left; reflexivity|]. constructor. }
  pose proof (so_headings demo demo_ok) as Hh.
  assert (Hb : (Z.of_nat (length demo_map) * glob_div_yaw demo < 2 ^ 64)%Z) by (cbn [length demo_map]; lia).
  pose proof (inv_reach demo_caster demo_voxel demo _ _ _ _ _ Hst) as Hinv.
  destruct (global_total demo_caster demo_voxel demo demo_ok (fun _ _ => True) n1 hits isort _ _ Hinv) as (n' & o' & E & _).
  - split; [exact isort_sorts|]. intros c Hc. destruct (iv_map _ _ _ _ Hinv eq_refl) as (l & c0 & C1 & C2 & C3 & C4 & _). unfold get_obj in Hc, A4. rewrite C2 in A4. rewrite C1, A4 in Hc.
    injection Hc as <-. cbn [cl_pts]. unfold demo_voxel. rewrite <- (keeps_unique _ _ _ _ Hk (C78_kept_cells demo demo_map hits (demo_hits_legal demo demo_map))).
    split; [discriminate|exact Hb].
  - rewrite A2. unfold demo_init, configure. cbn [n_pf]. apply init_usable. cbn [PfModel.new_filter PfModel.parts]. rewrite repeat_length. cbn. lia.
  - exists n1, o1, n', o'. split; [exact Hst|]. split; [reflexivity|]. split; [exact E|]. split; [exact isort_sorts|]. split; [intro Hx; rewrite A2 in Hx; pose proof demo_len as Hl; rewrite Hx in Hl; discriminate|]. split; [lia|]. split; [exact (demo_hits_legal demo demo_map)|]. split; assumption.
Qed.
(** the situation of C78_small_weight_refuted, with dist_weight_z = 0.5 *)
Definition demo_low : params := load_params (fun x => x) false false (0, 0, 0) (set_param "dist_weight_z" (PDouble (1 / 2)) (fun _ => None)).
Definition one_cell : lpt := {| p3 := V3 1 0 0; lab := 0 |}.
Example C78_refuted_nonvacuous :
  let evs := [EMap (Some [one_cell]) 1 1] in
  let hits := demo_hits demo_low in
  let start := configure demo_low (fun _ _ => 0) demo_rc in
  exists n o n' o', steps demo_caster demo_voxel demo_low start evs = Ok (n, o) /\ avail (expect_run demo_voxel demo_low evs) = true
    /\ step demo_caster demo_voxel demo_low n (EGlobal hits isort) = Ok (n', o') /\ sorts isort /\ PfModel.parts RA (n_pf n) <> [] /\ (1 <= glob_div_yaw demo_low)%Z
    /\ demo_voxel (glob_grid demo_low, glob_grid demo_low, glob_grid demo_low) (content (expect_run demo_voxel demo_low evs)) = [one_cell]
    /\ legal_hits demo_low [one_cell] hits /\ 0 < glob_grid demo_low
    /\ (let '(_, _, wz, _) := dist_weight demo_low in 0 <= wz /\ wz * (1 / 100 + glob_grid demo_low) < glob_grid demo_low).
Proof.
  intros evs hits start.
  assert (H1 : exists n1 o1, step demo_caster demo_voxel demo_low start (EMap (Some [one_cell]) 1 1) = Ok (n1, o1)) by (cbn [step cbMapcloud]; unfold loadMapCloud; eexists _, _; reflexivity).
  destruct H1 as (n1 & o1 & E1).
  assert (Hst : steps demo_caster demo_voxel demo_low start evs = Ok (n1, o1)).
  { unfold evs. remember (EMap (Some [one_cell]) 1 1) as ev1. cbn [steps]. rewrite E1. cbn [bind]. rewrite app_nil_r. reflexivity. }
  pose proof (inv_reach demo_caster demo_voxel demo_low _ _ _ _ _ Hst) as Hinv.
  assert (Hw : let '(_, _, wz, _) := dist_weight demo_low in 0 <= wz /\ wz * (1 / 100 + glob_grid demo_low) < glob_grid demo_low).
  { change (0 <= 1 / 2 /\ 1 / 2 * (1 / 100 + 3 / 10) < 3 / 10). lra. }
  assert (Hk : keep_floor demo_low (hits (to_pts [one_cell])) [one_cell] = []).
  { symmetry. apply (keeps_unique (free_above (metric demo_low) (glob_grid demo_low) [one_cell]) _ _ [one_cell]).
    - apply keeps_no; [|constructor]. intro F. specialize (F one_cell (or_introl eq_refl)). change (metric demo_low) with (1, 1, 1 / 2) in F. change (glob_grid demo_low) with (3 / 10) in F.
      unfold dist_sq, above, to_pt in F. cbn [px py pz p3 one_cell vx vy vz] in F. lra.
    - apply C78_kept_cells. apply demo_hits_legal. }
  assert (Hn1 : (0 < length (PfModel.parts RA (n_pf n1)))%nat).
  { assert (Hl : length (PfModel.parts RA (n_pf n1)) = length (PfModel.parts RA (n_pf start))).
    { cbn [step cbMapcloud] in E1. unfold loadMapCloud in E1. injection E1 as <- _. reflexivity. }
    rewrite Hl. unfold start, configure. cbn [n_pf]. unfold PfModel.init, PfModel.new_filter. cbn [PfModel.parts]. rewrite mapi_len, repeat_length. cbn. lia. }
  assert (H2 : exists n' o', step demo_caster demo_voxel demo_low n1 (EGlobal hits isort) = Ok (n', o')).
  { cbn [step]. unfold cbGlobalLocalization. pose proof (iv_has _ _ _ _ Hinv) as Hav. change (avail _) with true in Hav. rewrite Hav.
    destruct (iv_map _ _ _ _ Hinv eq_refl) as (l & c & C1 & C2 & C3 & C4 & C5 & C6 & _). unfold get_obj. rewrite C1, C4. cbn [of_option bind]. rewrite C6. change (content _) with [one_cell].
    unfold demo_voxel. rewrite Hk. destruct (resize_total (sorted_dup isort (n_pf n1)) (glob_num demo_low (length (@nil lpt))) (n_pf n1)) as (f & Ef & Hlen & _); [apply sorted_dup_ne; [exact isort_sorts|lia]|]. 
    rewrite Ef. cbn [of_option bind]. change (glob_num demo_low (length (@nil lpt))) with O in Hlen. destruct (PfModel.parts RA f); [|discriminate]. cbn [fill of_option bind]. eauto. }
  destruct H2 as (n' & o' & E2). exists n1, o1, n', o'. split; [exact Hst|]. split; [reflexivity|]. split; [exact E2|]. split; [exact isort_sorts|]. split; [intro Hx; rewrite Hx in Hn1; cbn in Hn1; lia|].
  split. { change (glob_div_yaw demo_low) with (glob_div_yaw demo). apply (so_headings demo demo_ok). }
  split; [reflexivity|]. split; [apply demo_hits_legal|]. split; [change (0 < 3 / 10); lra|exact Hw].
Qed.
