(** The hypotheses of C118 hold for the history of NodeDemo.v. *)
From Coq Require Import String Reals ZArith NArith List Bool Arith Lra Lia Permutation.
From Verif Require PfModel FilterModel AccumModel.
From Verif Require Import Arith KdModel QuatModel StateModel StateSpec RayModel LidarModel LidarSpec SamplerModel SamplerSpec SamplerProps SamplerDrawSpec SamplerDrawProps
  ParamModel MatModel NodeModel NodeSpec NodeFrame NodeStepProofs NodeAccProps NodeAliveSpec NodeAliveProps NodeSampModel NodeSampSpec NodeSampProps NodeDemo.
Import ListNotations.
Open Scope R_scope.
Open Scope list_scope.

(** an engine that counts; the fair generator of C67 *)
Definition count_int (k : nat) (g : nat) : nat * nat := ((g mod (k + 1))%nat, Datatypes.S g).
Definition sweep_real (b : R) (g : nat) : R * nat := if Rle_dec b 0 then (b, Datatypes.S g) else sweep b g.
Definition no_normals (_ : R) (l : list lpt) : list (option (R * R * R)) := map (fun _ => None) l.
Definition some_eigen (_ : mat3) : vec3 * (vec3 * vec3 * vec3) := (v0, (v0, v0, v0)).
Notation demo_step_s := (step_s demo_caster demo_voxel demo count_int sweep_real no_normals some_eigen (fun l => l)).
Notation demo_steps_s := (steps_s demo_caster demo_voxel demo count_int sweep_real no_normals some_eigen (fun l => l)).
Lemma sweep_real_range : in_unit_range sweep_real.
Proof. intros b g Hb. unfold sweep_real. destruct (Rle_dec b 0); [lra|]. apply sweep_range. exact Hb. Qed.
Lemma sweep_real_fair : fair sweep_real.
Proof.
  intros b g lo hi H1 H2. destruct (sweep_fair b g lo hi H1 H2) as (k & Hk). exists k.
  assert (E : forall j g, draws sweep_real b j g = draws sweep b j g).
  { induction j as [|j IH]; intro g0; [reflexivity|]. cbn [draws]. rewrite IH. unfold sweep_real. destruct (Rle_dec b 0); [lra|reflexivity]. }
  rewrite E. unfold sweep_real. destruct (Rle_dec b 0); [lra|exact Hk].
Qed.
Lemma count_ok : draws_ok count_int sweep_real no_normals (fun l => l).
Proof.
  constructor.
  - intros k g. cbn [count_int fst]. pose proof (Nat.mod_upper_bound g (k + 1) ltac:(lia)). lia.
  - intros b g. unfold sweep_real. destruct (Rle_dec b 0); [apply Rle_refl|]. assert (Hb : 0 < b) by lra. pose proof (sweep_range b g Hb). lra.
  - intro. apply Permutation_refl.
  - intros r l. apply map_length.
Qed.
(** the default settings of the weighted sampler are fine for it to end *)
Lemma demo_weighting : weighting_ok demo sweep_real.
Proof. intros _. split; [cbn; lra|]. split; [exact sweep_real_fair|exact sweep_real_range]. Qed.
Lemma quiet_cloud n g m e n' o : has_map (n_map n) = true -> (forall a cs, push_calls demo (ac (n_acc n)) m = Ok (a, cs) -> nproc cs = 0%nat) ->
  step demo_caster demo_voxel demo n (ECloud m e) = Ok (n', o) -> demo_step_s n g (ECloud m e) = Ok (n', o, g).
Proof.
  intros Hm Hp H. cbn [step] in H. cbn [step_s]. unfold cbCloud in H. unfold cbCloud_s. rewrite Hm in *. cbv zeta in *. change (ac (n_acc (set_stat n status0))) with (ac (n_acc n)) in *.
  destruct (push_calls demo (ac (n_acc n)) m) as [[a cs]| | |]; try discriminate. cbn [bind] in *. rewrite callbacks_quiet by (apply (Hp _ _ eq_refl)).
  destruct (callbacks demo_caster demo_voxel demo e (set_stat n status0) cs) as [[n1 o1]| | |]; try discriminate. cbn [bind] in *. injection H as <- <-. reflexivity.
Qed.
Lemma first_quiet n1 : n1 = AccumModel.accum_init -> forall a cs, push_calls demo n1 (demo_cloud 1) = Ok (a, cs) -> nproc cs = 0%nat.
Proof.
  intros ->. assert (E : push_calls demo AccumModel.accum_init (demo_cloud 1) = Ok ({| AccumModel.cnt_accum := 1; AccumModel.keys := ["laser"%string] |}, [AccumModel.Accumulate (demo_cloud 1) true])) by reflexivity.
  rewrite E. intros a cs H. injection H as _ <-. reflexivity.
Qed.
Lemma demo_legal_s g : legal_run_s demo_caster demo_voxel demo count_int sweep_real no_normals some_eigen (fun l => l) (fun _ _ => True) demo_init g demo_events.
Proof.
  cbn [legal_run_s demo_events]. split; [intros c H; discriminate H|]. intros k0 n1 o1 g1 E1. cbn [with_fuel_ev step_s] in E1.
  destruct demo_one as (n1' & o1' & E1' & A1 & A2 & A3 & A4 & A5 & A6 & A7 & A8 & A9 & _). rewrite E1' in E1. cbn [bind] in E1. injection E1 as -> -> <-.
  split; [split; [apply demo_env_legal; assumption|intros c _; apply demo_castable]|].
  intros k n2 o2 g2 E2. cbn [with_fuel_ev] in E2. destruct (demo_two k n1 A3 A6 A5 A7) as (n2' & E2' & B1 & B2 & B3 & B4 & B5 & _).
  rewrite (quiet_cloud _ _ _ _ _ _ A3 (first_quiet _ A6) E2') in E2. injection E2 as <- <- <-.
  split; [split; [apply demo_env_legal; congruence|intros c _; apply demo_castable]|]. intros; exact I.
Qed.
Lemma three_s n0 g0 e1 e2 e3 n1 o1 n2 x : demo_step_s n0 g0 e1 = Ok (n1, o1, g0) -> demo_step_s n1 g0 e2 = Ok (n2, [], g0) ->
  demo_steps_s n0 g0 [e1; e2; e3] = Ok x -> demo_steps_s n0 g0 [e1; e2] = Ok (n2, o1 ++ [] ++ [], g0) /\ exists y, demo_step_s n2 g0 e3 = Ok y.
Proof.
  intros H1 H2 H. cbn [steps_s] in *. rewrite H1 in *. cbn [bind] in *. rewrite H2 in *. cbn [bind] in *. split; [reflexivity|].
  destruct (demo_step_s n2 g0 e3) as [y| | |]; try discriminate. eauto.
Qed.
Lemma three_steps n0 e1 e2 e3 n1 o1 n2 x : step demo_caster demo_voxel demo n0 e1 = Ok (n1, o1) -> step demo_caster demo_voxel demo n1 e2 = Ok (n2, []) ->
  steps demo_caster demo_voxel demo n0 [e1; e2; e3] = Ok x ->
  steps demo_caster demo_voxel demo n0 [e1; e2] = Ok (n2, o1 ++ [] ++ []) /\ exists y, step demo_caster demo_voxel demo n2 e3 = Ok y.
Proof.
  intros H1 H2 H. cbn [steps] in *. rewrite H1 in *. cbn [bind] in *. rewrite H2 in *. cbn [bind] in *. split; [reflexivity|].
  destruct (step demo_caster demo_voxel demo n2 e3) as [y| | |]; try discriminate. eauto.
Qed.
Lemma one_s n g n' o : step demo_caster demo_voxel demo n (EMap (Some demo_map) 1 1) = Ok (n', o) -> demo_step_s n g (EMap (Some demo_map) 1 1) = Ok (n', o, g).
Proof. intro H. cbn [step_s]. rewrite H. reflexivity. Qed.
Lemma filters_id (n : node (S := kray)) e full : e_like e = (fun l _ => l) -> snd (filters demo n e full) = like_cloud demo n full.
Proof. intro H. unfold filters, like_cloud, like_filter. cbn [snd fst]. rewrite H. reflexivity. Qed.
Example C118_nonvacuous :
  draws_ok count_int sweep_real no_normals (fun l => l) /\ weighting_ok demo sweep_real
  /\ legal_run_s demo_caster demo_voxel demo count_int sweep_real no_normals some_eigen (fun l => l) (fun _ _ => True) demo_init 0%nat demo_events
  /\ exists evs n o g m e n1 h pc os n' o' g', demo_steps_s demo_init 0%nat evs = Ok (n, o, g)
     /\ measures_with demo_voxel demo demo_caster n m e n1 h pc os /\ length pc = 2%nat /\ demo_step_s n g (ECloud m e) = Ok (n', o', g')
     /\ exists s a b c, In (OPose s a c) o' /\ b = g'.
Proof.
  split; [exact count_ok|]. split; [exact demo_weighting|]. split; [apply demo_legal_s|].
  destruct C93_C94_nonvacuous as (Hp & Hv & Hn & _ & n0 & o0 & K0 & H0).
  destruct (C118_never_fails demo_caster demo_voxel demo count_int sweep_real no_normals some_eigen (fun l => l) (fun _ _ => True) (fun _ _ => 0) demo_rc 0%nat demo_events
    Hp Hv Hn (fun _ => I) count_ok demo_weighting (demo_legal_s 0%nat)) as (n & o & g & K & H & _).
  set (M := Nat.max K K0). specialize (H M ltac:(lia)). specialize (H0 M ltac:(lia)). change (configure demo (fun _ _ => 0) demo_rc) with demo_init in H.
  destruct demo_one as (n1 & o1 & E1 & A1 & A2 & A3 & A4 & A5 & A6 & A7 & A8 & A9 & A10).
  destruct (demo_two M n1 A3 A6 A5 A7) as (n2 & E2 & B1 & B2 & B3 & B4 & B5 & B6 & B7).
  pose proof (quiet_cloud n1 0%nat _ _ _ _ A3 (first_quiet _ A6) E2) as E2'.
  change (map (with_fuel_ev M) demo_events) with [EMap (Some demo_map) 1 1; ECloud (demo_cloud 1) (with_fuel M demo_env); ECloud (demo_cloud 2) (with_fuel M demo_env)] in H, H0.
  destruct (three_s _ _ _ _ _ _ _ _ _ (one_s _ _ _ _ E1) E2' H) as (Hr & [[n4 o4] g4] & E4).
  destruct (three_steps _ _ _ _ _ _ _ _ E1 E2 H0) as (Hs & [n3 o3] & E3). clear H H0.
  destruct (demo_three M n2 n3 o3 E3) as [D1 (m1 & h & pc & os & n5 & bp & lp & D2 & D3 & D4 & D5)]; try congruence.
  exists [EMap (Some demo_map) 1 1; ECloud (demo_cloud 1) (with_fuel M demo_env)], n2, (o1 ++ [] ++ []), 0%nat, (demo_cloud 2), (with_fuel M demo_env), m1, h, pc, os, n4, o4, g4.
  split; [exact Hr|]. split; [exact D2|]. split; [exact D3|]. split; [exact E4|].
  destruct (C118_points_not_found demo_caster demo_voxel demo count_int sweep_real no_normals some_eigen (fun l => l) (fun _ _ => 0) demo_rc 0%nat _ _ _ _ _ _ _ _ _ _ _ _ _ count_ok Hr D2 E4) as [_ Q].
  destruct Q as (x & c & Q); [|exists (h_stamp h), x, g4, c; split; [exact Q|reflexivity]].
  intros [L|L].
  - assert (Hl : n_lid m1 = n_lid demo_init).
    { destruct (mw_holds demo_caster demo_voxel demo _ (fun _ _ => 0) demo_rc _ _ _ _ _ _ _ _ Hs D2) as (tf & buf & _ & _ & _ & _ & _ & _ & _ & _ & _ & Hl & _). congruence. }
    pose proof (filters_id m1 (with_fuel M demo_env) (demo_voxel (ds_x demo, ds_y demo, ds_z demo) pc) eq_refl) as D6. rewrite D4 in D6. cbn [snd] in D6.
    apply D5. rewrite D6. unfold like_cloud, like_now. rewrite Hl.
    change (l_like (n_lid demo_init)) with (like_refresh (p_like demo)). apply (keeps_none _ _ _ (LidarProps.clip_keeps _ _ _ _ _)). exact L.
  - assert (Hz : psize n2 = 64%nat) by (unfold psize; rewrite B2, A2; apply demo_len). rewrite Hz in L. discriminate L.
Qed.
(** two of three points drawn with the weights 1, 3 and 1 *)
Example C120_nonvacuous : let normals := map (fun i : nat => if (i =? 1)%nat then Some (1, 0, 0) else None) in
  exists fuel out g', real_sample 1 2 3 sweep_real (fun l => l) 1 9 (1, 0, 0) normals fuel [0; 1; 2]%nat 2 0%nat = Done (out, g')
    /\ length out = 2%nat /\ roulette sweep_real (map (point_weight (ratio_weight 1 2 3 (sqrt (9 / 1))) (1, 0, 0)) (normals [0; 1; 2]%nat)) [0; 1; 2]%nat 2 0%nat out g'
    /\ map (point_weight (ratio_weight 1 2 3 (sqrt (9 / 1))) (1, 0, 0)) (normals [0; 1; 2]%nat) = [1; 3; 1].
Proof.
  intro normals.
  destruct (C67_terminates nat nat 1 2 3 sweep_real (fun l => l) 1 9 (1, 0, 0) normals [0; 1; 2]%nat 2 0%nat) as (fuel & out & g' & H & L & _);
    [lra|lra|exact sweep_real_fair|exact sweep_real_range|intro; apply Permutation_refl|intro; apply map_length|].
  exists fuel, out, g'. split; [exact H|]. split; [exact L|]. split.
  - refine (C120_weighted_sampler nat nat 1 2 3 sweep_real (fun l => l) 1 9 (1, 0, 0) normals fuel _ 2 0%nat out g' _ _ _ H); [|intro; apply Permutation_refl|apply map_length].
    exact (do_real _ _ _ _ count_ok).
  - replace (9 / 1) with (3 * 3) by lra. rewrite sqrt_square by lra. unfold ratio_weight. destruct (Rlt_dec 3 1); [lra|]. destruct (Rlt_dec 2 3); [|lra].
    cbn [normals map Nat.eqb point_weight]. f_equal. f_equal.
    replace (1 * 1 + 0 * 0 + 0 * 0) with 1 by lra. rewrite Rabs_R1, Rmin_left, acos_1 by lra. pose proof PI_RGT_0. field. lra.
Qed.
