(** Property theorems C112: the published map->odom transform over a whole history.  Everywhere
    the ray caster, the voxel filter, the parameters, the initial particles and all inputs of the
    outside world are arbitrary. *)
From Coq Require Import String Reals ZArith List Bool Arith Lia Lra.
From Verif Require PfModel FilterModel AccumModel FilterProofs.
From Verif Require Import Arith KdModel QuatModel QuatSpec StateModel StateSpec RayModel LidarModel NdModel ParamModel
  NodeModel NodeSpec NodeFrame NodeMapProofs NodeLocProofs NodeStepProofs NodeTfProps NodePostProofs.
Import ListNotations.
Open Scope R_scope.
Open Scope list_scope.

(** ** The specification: a low-pass filter in state form.  Its memory is the value [z], the
    output is a weighted mean of the input and the memory. *)
(** the representative of the angle [c] nearest to [y] *)
Definition near (y c : R) : R := y + FilterModel.remainder (c - y) (PI * 2).
(** memory: the last output and [z]; a jump starts again from the input *)
Definition smooth (T : R) (ang jump : bool) (m : R * R) (c : R) : R * R :=
  if jump then (c, c)
  else let v := if ang then near (fst m) c else c in
       let z := (2 * v + (2 * T - 1) * snd m) / (2 * T + 1) in
       ((v + 2 * T * z) / (1 + 2 * T), z).
Fixpoint smoothed (T : R) (ang : bool) (m : R * R) (l : list (bool * R)) : list R :=
  match l with
  | [] => []
  | (j, c) :: t => let m' := smooth T ang j m c in fst m' :: smoothed T ang m' t
  end.

(** what a localization step contributes: the number of particles before it, its estimate of the
    robot's pose, the odometry at that time *)
Record loc := { l_size : nat; l_est : state; l_odom : state }.
(** the correction that makes odometry agree with the estimate *)
Definition correction (est od : state) : vec3 * quat :=
  let r := qmul (rot est) (QuatModel.inv (rot od)) in (vsub (pos est) (qrot r (pos od)), r).
(** the estimate is not compared with the previous one while there are too many particles *)
Definition jump_to (p : params) (prev : state) (l : loc) : bool :=
  (num_particles p <? Z.of_nat (l_size l))%Z
  || (if Rlt_dec (jump_dist p) (vnorm (vsub (pos (l_est l)) (pos prev))) then true else false)
  || (if Rlt_dec (jump_ang p) (Rabs (snd (getAxisAng (qmul (QuatModel.inv (rot (l_est l))) (rot prev))))) then true else false).
(** the corrections of a history; [prev]: the estimate before it *)
Fixpoint corrections (p : params) (prev : state) (ls : list loc) : list (bool * (vec3 * quat)) :=
  match ls with
  | [] => []
  | l :: t => (jump_to p prev l, correction (l_est l) (l_odom l)) :: corrections p (l_est l) t
  end.
(** the published transforms: every component is smoothed, from zero *)
Definition comp (f : vec3 * quat -> R) (cs : list (bool * (vec3 * quat))) : list (bool * R) := map (fun c => (fst c, f (snd c))) cs.
Definition published_pos (T : R) (cs : list (bool * (vec3 * quat))) (i : nat) : vec3 :=
  let get f := nth i (smoothed T false (0, 0) (comp f cs)) 0 in
  V3 (get (fun c => vx (fst c))) (get (fun c => vy (fst c))) (get (fun c => vz (fst c))).
Definition published_rpy (T : R) (cs : list (bool * (vec3 * quat))) (i : nat) : vec3 :=
  let get f := nth i (smoothed T true (0, 0) (comp f cs)) 0 in
  V3 (get (fun c => vx (getRPY (snd c)))) (get (fun c => vy (getRPY (snd c)))) (get (fun c => vz (getRPY (snd c)))).

(** ** Filters *)
Section Filters.
Variables (T : R) (HT : 0 <= T).
Definition follows (ang : bool) (f : FilterModel.filt) (m : R * R) : Prop :=
  FilterProofs.coeffs T FilterModel.FILTER_LPF f /\ FilterModel.angle f = ang /\ FilterModel.out f = fst m /\ FilterModel.x_ f = -2 * T * snd m.
Lemma follows_new ang : follows ang (FilterModel.new_filt FilterModel.FILTER_LPF T 0 ang) (0, 0).
Proof. split; [apply FilterProofs.coeffs_new|]. split; [reflexivity|]. split; [reflexivity|]. cbn [FilterModel.new_filt FilterModel.x_ snd]. field. lra. Qed.
Lemma follows_input ang f m c : follows ang f m -> follows ang (FilterModel.input f c) (smooth T ang false m c).
Proof.
  intros (A & B & C & D). split; [apply FilterProofs.coeffs_input; exact A|]. split; [exact B|]. unfold smooth. cbn [fst snd].
  unfold FilterModel.input. rewrite B. cbn [FilterModel.out FilterModel.x_]. rewrite C, D.
  change (fst m + FilterModel.remainder (c - fst m) (PI * 2)) with (near (fst m) c). set (v := if ang then near (fst m) c else c). clearbody v.
  destruct A as (K0 & K1 & K2 & K3); cbn [FilterModel.new_filt FilterModel.k0 FilterModel.k1 FilterModel.k2 FilterModel.k3] in K0, K1, K2, K3. rewrite K0, K1, K2, K3. split; field; lra.
Qed.
Lemma follows_set ang f m c : follows ang f m -> follows ang (FilterModel.set f c) (c, c).
Proof.
  intros (A & B & C & D). split; [apply FilterProofs.coeffs_set; exact A|]. split; [exact B|]. split; [reflexivity|].
  cbn [FilterModel.set FilterModel.x_ snd]. destruct A as (K0 & K1 & K2 & K3); cbn [FilterModel.new_filt FilterModel.k0 FilterModel.k1 FilterModel.k2 FilterModel.k3] in K2, K3. rewrite K2, K3. field. lra.
Qed.
Lemma near_self c : near c c = c.
Proof.
  unfold near, FilterModel.remainder. replace (c - c) with 0 by ring. unfold Rdiv. rewrite Rmult_0_l.
  replace (FilterModel.rne 0) with 0%Z; [ring|]. unfold FilterModel.rne. rewrite (Rfloor_unique 0 0) by lra.
  replace (Rltb (0 - 0) (/ 2)) with true; [reflexivity|]. symmetry. apply Rltb_true. lra.
Qed.
Lemma smooth_self ang c : smooth T ang false (c, c) c = (c, c).
Proof. unfold smooth. cbn [fst snd]. rewrite near_self. replace (if ang then c else c) with c by (destruct ang; reflexivity). f_equal; field; lra. Qed.
Lemma follows_step ang f m jump c : follows ang f m ->
  follows ang (FilterModel.input (if jump : bool then FilterModel.set f c else f) c) (smooth T ang jump m c).
Proof.
  intro H. destruct jump; [|apply follows_input; exact H]. change (smooth T ang true m c) with (c, c). rewrite <- (smooth_self ang c).
  apply follows_input. eapply follows_set. exact H.
Qed.
Definition follows3 (ang : bool) (f : FilterModel.filt3) (a b c : R * R) : Prop :=
  follows ang (FilterModel.fx f) a /\ follows ang (FilterModel.fy f) b /\ follows ang (FilterModel.fz f) c.
Lemma follows3_new ang : follows3 ang (FilterModel.new_filt3 FilterModel.FILTER_LPF (T, T, T) (0, 0, 0) ang) (0, 0) (0, 0) (0, 0).
Proof. repeat split; try apply follows_new. all: cbn; field; lra. Qed.
Lemma follows3_step ang f a b c jump v : follows3 ang f a b c ->
  let f' := FilterModel.input3 (if jump : bool then FilterModel.set3 f (tup v) else f) (tup v) in
  follows3 ang f' (smooth T ang jump a (vx v)) (smooth T ang jump b (vy v)) (smooth T ang jump c (vz v))
  /\ v3 (FilterModel.v_out f') = V3 (fst (smooth T ang jump a (vx v))) (fst (smooth T ang jump b (vy v))) (fst (smooth T ang jump c (vz v))).
Proof.
  intros (A & B & C). pose proof (follows_step ang _ _ jump (vx v) A) as A'. pose proof (follows_step ang _ _ jump (vy v) B) as B'. pose proof (follows_step ang _ _ jump (vz v) C) as C'.
  destruct v as [x y z]. cbn [vx vy vz tup] in *. cbv zeta. split.
  - destruct jump; exact (Logic.conj A' (Logic.conj B' C')).
  - destruct A' as (_ & _ & A' & _), B' as (_ & _ & B' & _), C' as (_ & _ & C' & _). rewrite <- A', <- B', <- C'. destruct jump; reflexivity.
Qed.
End Filters.

(** ** Histories *)
Section Corr.
Context {S : Type} (caster : cloud -> (pt -> R -> search) -> raycaster S)
        (voxel : R * R * R -> list lpt -> list lpt) (p : params).
Notation node := (node (S := S)).
Implicit Types n : node.
Notation stp n := (state_prev (n_out n)).

(** the transform and the pose among the messages of a step *)
Definition corrects (mp : vec3) (mr : quat) (od : state) (o : list output) : Prop :=
  (forall t q z, In (OTf t q z) o -> q = (mp, mr))
  /\ (forall t q c, In (OPose t q c) o -> q = (vadd mp (qrot mr (pos od)), qmul mr (rot od))).
Lemma jumped_spec n est : jumped p n est = jump_to p (stp n) {| l_size := psize n; l_est := est; l_odom := odom (n_odom n) |}.
Proof.
  unfold jumped, jump_to, far_off, too_many, np. cbn [l_size l_est]. destruct (num_particles p <? Z.of_nat (psize n))%Z; [reflexivity|]. cbn [orb]. reflexivity.
Qed.
Lemma shrink_filters n e n' : shrink_step p n e = Ok n' ->
  f_pos (n_out n') = f_pos (n_out n) /\ f_ang (n_out n') = f_ang (n_out n) /\ stp n' = stp n.
Proof.
  unfold shrink_step. intro H. bok H. rename x into n1.
  assert (A : f_pos (n_out n1) = f_pos (n_out n) /\ f_ang (n_out n1) = f_ang (n_out n) /\ stp n1 = stp n).
  { destruct (too_many p n); [bok E|]; injection E as <-; repeat split. }
  clear E. destruct (fix_cnt (n_out n1)); injection H as <-; exact A.
Qed.
Lemma expansion_filters n e r : f_pos (n_out (expansion p n e r)) = f_pos (n_out n) /\ f_ang (n_out (expansion p n e r)) = f_ang (n_out n) /\ stp (expansion p n e r) = stp n.
Proof. unfold expansion. destruct (Rltb r (match_ratio_thresh p)); repeat split. Qed.

Lemma localize_corr n e h os full bp lp n' out : localize caster p n e h os full bp lp = Ok (n', out) ->
  let est := stp n' in let od := odom (n_odom n) in
  let j := jump_to p (stp n) {| l_size := psize n; l_est := est; l_odom := od |} in
  let c := correction est od in
  f_pos (n_out n') = FilterModel.input3 (if j then FilterModel.set3 (f_pos (n_out n)) (tup (fst c)) else f_pos (n_out n)) (tup (fst c))
  /\ f_ang (n_out n') = FilterModel.input3 (if j then FilterModel.set3 (f_ang (n_out n)) (tup (getRPY (snd c))) else f_ang (n_out n)) (tup (getRPY (snd c)))
  /\ corrects (v3 (FilterModel.v_out (f_pos (n_out n')))) (setRPY (v3 (FilterModel.v_out (f_ang (n_out n'))))) od out.
Proof.
  intro H. unfold localize in H. bok H. destruct x as [[n1 est] ratio].
  destruct (publish_tf_step p n1 e est) as [[n2 est'] o1] eqn:E2. bok H. rename x into c0.
  set (n3 := with_conv n2 _) in H. bok H. rename x into n4. bok H. destruct x as [n5 o2]. bok H. rename x into f4. bok H. rename x into n8.
  unfold force_update in H. apply f_equal with (f := fun r => match r with Ok v => Some v | _ => None end) in H. cbv beta iota in H.
  assert (H' : forall a b, Some a = Some b -> a = b :> node * list output) by (intros a b K; injection K as <-; reflexivity).
  apply H' in H. clear H'. apply pair_equal_spec in H. destruct H as [Hn Ho].
  pose proof (estimate_ok caster p _ _ _ _ _ _ _ _ E) as (A1 & A2 & A3 & A4 & A5 & _).
  pose proof (estimate_pf caster p _ _ _ _ _ _ _ _ E) as (S1 & _).
  pose proof (collect_pcd_ok p _ _ _ _ E1) as (C1 & C2 & C3 & C4 & _ & C5 & C6).
  pose proof (match_output_ok p _ _ _ _ _ _ _ E3) as (D1 & D2 & D3 & D4 & _ & D5 & D6 & D7 & D8 & D9 & D10 & D11 & D12 & D13 & D14 & _).
  match type of E5 with shrink_step _ (clock_step (expansion p ?a ?b ?c) _) _ = _ => set (n6 := a) in *; pose proof (expansion_filters n6 b c) as X end.
  apply shrink_filters in E5. destruct E5 as (F1 & F2 & F3). destruct X as (X1 & X2 & X3).
  assert (G : f_pos (n_out n') = f_pos (n_out n2) /\ f_ang (n_out n') = f_ang (n_out n2) /\ stp n' = stp n2).
  { rewrite <- Hn. cbn [final_status set_stat set_out n_out f_pos f_ang state_prev]. rewrite F1, F2, F3. cbn [clock_step set_out n_out f_pos f_ang state_prev].
    rewrite X1, X2, X3. unfold n6. cbn [set_pf n_out]. rewrite D12, D13, D14, C6. repeat split. }
  clear F1 F2 F3 X1 X2 X3. clear n6. destruct G as (G1 & G2 & G3). cbv zeta. rewrite G1, G2, G3. clear G1 G2 G3 Hn.
  pose proof (publish_tf_step_ok p n1 e est n2 est' o1 E2) as (_ & _ & _ & _ & _ & _ & _ & _ & _ & _ & _ & _ & _ & B13 & _). rewrite B13. clear B13.
  unfold publish_tf_step in E2.
  assert (Em : map_odom est (odom (n_odom n1)) = correction est (odom (n_odom n))) by (rewrite A3; reflexivity).
  assert (Ej : jumped p n1 est = jump_to p (stp n) {| l_size := psize n; l_est := est; l_odom := odom (n_odom n) |}) by (rewrite jumped_spec, S1, A3, A5; reflexivity).
  rewrite Em, Ej in E2. set (j := jump_to p (stp n) _) in *. clearbody j. clear Em Ej. destruct (correction est (odom (n_odom n))) as [mp mr].
  pose proof (after_jump_ok p n1 est) as J. cbv zeta in J. destruct J as (_ & _ & _ & _ & _ & _ & _ & _ & J1 & J2 & _).
  set (nj := after_jump p n1 est) in *. clearbody nj. rewrite J1, J2, A3, A5 in E2. cbv zeta in E2.
  apply pair_equal_spec in E2; destruct E2 as [E2 Eo]; apply pair_equal_spec in E2; destruct E2 as [<- <-]. cbn [set_out n_out f_pos f_ang fst snd].
  set (fp := FilterModel.input3 (if j then FilterModel.set3 (f_pos (n_out n)) (tup mp) else f_pos (n_out n)) (tup mp)) in *. clearbody fp.
  set (fa := FilterModel.input3 (if j then FilterModel.set3 (f_ang (n_out n)) (tup (getRPY mr)) else f_ang (n_out n)) (tup (getRPY mr))) in *. clearbody fa.
  split; [reflexivity|]. split; [reflexivity|].
  assert (O2 : forall x, In x o2 -> exists m u, x = OMatched m u).
  { unfold match_output in E3. match type of E3 with (if ?b then _ else _) = _ => destruct b end.
    - bok E3. destruct x as [m u]. injection E3 as _ <-. intros x [<-|[]]. eauto.
    - injection E3 as _ <-. intros x []. }
  rewrite <- Ho, <- Eo. cbn [pos rot]. split.
  - intros t q z Hi. apply in_app_or in Hi. destruct Hi as [Hi|Hi].
    + destruct (publish_tf p); [|destruct Hi]. destruct Hi as [Hi|[]]. injection Hi as _ <- _. reflexivity.
    + cbn [app] in Hi. destruct Hi as [Hi|Hi]; [discriminate|]. apply in_app_or in Hi. destruct Hi as [Hi|[Hi|[Hi|[]]]]; try discriminate. destruct (O2 _ Hi) as (? & ? & ?). discriminate.
  - intros t q c Hi. apply in_app_or in Hi. destruct Hi as [Hi|Hi].
    + destruct (publish_tf p); [|destruct Hi]. destruct Hi as [Hi|[]]. discriminate.
    + cbn [app] in Hi. destruct Hi as [Hi|Hi]; [injection Hi as _ <- _; reflexivity|]. apply in_app_or in Hi. destruct Hi as [Hi|[Hi|[Hi|[]]]]; try discriminate. destruct (O2 _ Hi) as (? & ? & ?). discriminate.
Qed.
Lemma cloud_corr n m e n' o t x c : step caster voxel p n (ECloud m e) = Ok (n', o) -> In (OPose t x c) o ->
  exists n2 n3 h os full bp lp, same_out n n2 /\ n_pf n2 = n_pf n /\ n_odom n2 = n_odom n /\ n_out n' = n_out n3
    /\ localize caster p n2 e h os full bp lp = Ok (n3, o).
Proof.
  cbn [step]. unfold cbCloud. intros H Hi. destruct (has_map (n_map n)) eqn:Hm; [|injection H as _ <-; destruct Hi].
  bok H. destruct x0 as [a cs]. bok H. destruct x0 as [n5 o5]. injection H as <- <-.
  pose proof (push_calls_once _ _ _ _ _ E) as Hc.
  destruct (nproc cs) as [|[|k]] eqn:En; [|clear Hc|lia].
  { apply callbacks_none in E0; [|exact En]. destruct E0 as (_ & _ & _ & _ & _ & _ & ->). destruct Hi. }
  destruct (callbacks_one _ _ _ _ _ _ _ _ En E0) as (na & nb & B0 & B1 & B2 & B3 & B4 & B5 & B6 & B7 & B8 & B9 & B10 & B11 & B12 & B13).
  destruct (measure_pose _ _ _ _ _ _ _ _ _ _ B7 Hi) as (n0 & n1 & h & pc & os & n2 & bp & lp & M1 & M2 & M3 & M4 & M5).
  exists n2, nb, h, os, (voxel (ds_x p, ds_y p, ds_z p) pc), bp, lp.
  apply gate_ok in M1. destruct M1 as (G1 & G2 & G3 & G4 & G5 & G6 & G7 & G8 & G9 & G10 & G11 & G12 & G13 & G14 & G15 & _).
  apply prepare_ok in M2. destruct M2 as (P1 & P2 & P3 & P4 & P5 & P6 & _).
  apply filters_ok in M3. destruct M3 as (F1 & F2 & F3 & F4 & F5 & F6 & F7).
  change (n_pf (set_stat n status0)) with (n_pf n) in *. change (n_odom (set_stat n status0)) with (n_odom n) in *.
  split; [|split; [congruence|split; [congruence|split; [exact B8|exact M5]]]].
  eapply same_out_trans; [|apply same_out_eq; exact F5]. eapply same_out_trans; [|apply same_out_eq; exact P4].
  eapply same_out_trans; [|constructor; [exact G8|exact G9|exact G10|exact G11|exact G12|exact G13|exact G14|exact G15]]. constructor; rewrite B1; reflexivity.
Qed.

Definition loc_of (x : entry (S := S)) : loc := {| l_size := size_before x; l_est := stp (after x); l_odom := odom (n_odom (before x)) |}.
Lemma trace_corr evs : 0 <= lpf_step p -> forall n tr a b c ra rb rc, trace voxel p caster n evs = Ok tr ->
  follows3 (lpf_step p) false (f_pos (n_out n)) a b c -> follows3 (lpf_step p) true (f_ang (n_out n)) ra rb rc ->
  let T := lpf_step p in let cs := corrections p (stp n) (map loc_of (loc_steps tr)) in
  forall i x, nth_error (loc_steps tr) i = Some x ->
    let get ang m f := nth i (smoothed T ang m (comp f cs)) 0 in
    corrects (V3 (get false a (fun c => vx (fst c))) (get false b (fun c => vy (fst c))) (get false c (fun c => vz (fst c))))
      (setRPY (V3 (get true ra (fun c => vx (getRPY (snd c)))) (get true rb (fun c => vy (getRPY (snd c)))) (get true rc (fun c => vz (getRPY (snd c))))))
      (odom (n_odom (before x))) (outs x).
Proof.
  intro HT. assert (Hl : (0 <= Rceil (lpf_step p))%Z).
  { destruct (Rceil_spec (lpf_step p)) as [_ Hc]. apply le_IZR. lra. }
  induction evs as [|ev evs IH]; intros n tr a b c ra rb rc H Fp Fa T cs i x Hx.
  { cbn in H. injection H as <-. destruct i; discriminate. }
  cbn [trace] in H. bok H. destruct x0 as [n1 o1]. bok H. rename x0 into tr1. injection H as <-.
  unfold cs in *. clear cs. unfold loc_steps in Hx |- *. cbn [filter] in Hx |- *. fold (loc_steps tr1) in Hx |- *.
  set (en := {| before := n; what := ev; outs := o1; after := n1 |}) in *.
  destruct (localizes en) eqn:El.
  - assert (Hp : exists t q k, In (OPose t q k) o1).
    { unfold localizes in El. apply existsb_exists in El. destruct El as (y & Hy & Ey). destruct y; try discriminate. eauto. }
    destruct Hp as (t & q & k & Hp).
    assert (Hev : exists m e, ev = ECloud m e).
    { apply event_cases in E; [|exact Hl]. destruct E as [_ _ _ _ N _|m e h n2 n3 A _ _ _ _ _ _ _ _ _ _]; [destruct (N _ _ _ Hp)|eauto]. }
    destruct Hev as (m & e & ->).
    destruct (cloud_corr _ _ _ _ _ _ _ _ E Hp) as (n2 & n3 & h & os & full & bp & lp & Q1 & Q2 & Q3 & Q4 & Q5).
    apply localize_corr in Q5. cbv zeta in Q5. rewrite <- Q4, (so_pos _ _ Q1), (so_ang _ _ Q1), (so_prev _ _ Q1), Q3 in Q5.
    replace (psize n2) with (psize n) in Q5 by (unfold psize; rewrite Q2; reflexivity).
    cbn [map corrections]. change (loc_of en) with {| l_size := psize n; l_est := stp n1; l_odom := odom (n_odom n) |}. cbn [l_est l_odom].
    set (j := jump_to p (stp n) _) in *. set (cr := correction (stp n1) (odom (n_odom n))) in *.
    destruct Q5 as (R1 & R2 & R3).
    destruct (follows3_step T HT false _ _ _ _ j (fst cr) Fp) as [Fp' Vp]. destruct (follows3_step T HT true _ _ _ _ j (getRPY (snd cr)) Fa) as [Fa' Va].
    rewrite <- R1 in Fp', Vp. rewrite <- R2 in Fa', Va.
    destruct i as [|i].
    + injection Hx as <-. rewrite Vp, Va in R3. exact R3.
    + exact (IH _ _ _ _ _ _ _ _ E0 Fp' Fa' i x Hx).
  - apply event_cases in E; [|exact Hl].
    destruct E as [A1 _ _ _ _ _|m e h n2 n3 _ _ _ _ _ _ _ A8 _ _ _].
    + rewrite <- (so_prev _ _ A1). rewrite <- (so_pos _ _ A1) in Fp. rewrite <- (so_ang _ _ A1) in Fa.
      exact (IH _ _ _ _ _ _ _ _ E0 Fp Fa i x Hx).
    + exfalso. destruct A8 as [(est & ratio & q1 & q2 & est' & c0 & r1 & r2 & ps & _ & _ & _ & _ & _ & _ & _ & Ho & _) _ _ _ _ _ _ _ _ _ _ _].
      unfold localizes, en in El. cbn [outs] in El. rewrite Ho in El. rewrite existsb_app in El. cbn [app existsb is_pose] in El. rewrite orb_true_r in El. discriminate.
Qed.

(** C112: at every localization step of every history the published transform is the corrections
    so far, every component (position, roll, pitch, yaw) sent through the low-pass filter, which
    starts at zero and again at every jump; the published pose is that transform applied to the
    odometry. *)
Theorem C112_published_transform evs gen rc0 tr : 0 <= lpf_step p ->
  trace voxel p caster (configure p gen rc0) evs = Ok tr ->
  let cs := corrections p state0 (map loc_of (loc_steps tr)) in
  forall i x, nth_error (loc_steps tr) i = Some x ->
    let mp := published_pos (lpf_step p) cs i in let mr := setRPY (published_rpy (lpf_step p) cs i) in
    (forall t q z, In (OTf t q z) (outs x) -> q = (mp, mr))
    /\ (forall t q c, In (OPose t q c) (outs x) ->
          let od := odom (n_odom (before x)) in q = (vadd mp (qrot mr (pos od)), qmul mr (rot od))).
Proof.
  intros HT H cs i x Hx.
  exact (trace_corr evs HT _ _ _ _ _ _ _ _ H (follows3_new (lpf_step p) HT false) (follows3_new (lpf_step p) HT true) i x Hx).
Qed.
(** C112: the published position never overshoots (for a filter length of at least half a step):
    each of its components stays within every interval that contains zero and that component of
    all corrections so far; after a jump, of all corrections since the jump. *)
Lemma smooth_in T lo hi j m c : / 2 <= T -> lo <= c <= hi -> (j = true \/ lo <= snd m <= hi) ->
  lo <= fst (smooth T false j m c) <= hi /\ lo <= snd (smooth T false j m c) <= hi.
Proof.
  intros HT Hc Hm. destruct j; [cbn; lra|]. destruct Hm as [Hm|Hm]; [discriminate|]. unfold smooth. cbn [fst snd].
  assert (Z : lo <= (2 * c + (2 * T - 1) * snd m) / (2 * T + 1) <= hi).
  { split; [apply Rmult_le_reg_r with (2 * T + 1)|apply Rmult_le_reg_r with (2 * T + 1)]; try lra; unfold Rdiv; rewrite Rmult_assoc, Rinv_l by lra; nra. }
  set (z := (2 * c + (2 * T - 1) * snd m) / (2 * T + 1)) in *. clearbody z. split; [|exact Z].
  split; [apply Rmult_le_reg_r with (1 + 2 * T)|apply Rmult_le_reg_r with (1 + 2 * T)]; try lra; unfold Rdiv; rewrite Rmult_assoc, Rinv_l by lra; nra.
Qed.
Lemma smoothed_in T lo hi : / 2 <= T -> forall l m i k, (k <= i < length l)%nat ->
  (forall q jc, (k <= q <= i)%nat -> nth_error l q = Some jc -> lo <= snd jc <= hi) ->
  ((exists c, nth_error l k = Some (true, c)) \/ k = 0%nat /\ lo <= snd m <= hi) ->
  lo <= nth i (smoothed T false m l) 0 <= hi.
Proof.
  intro HT. induction l as [|[j c] l IH]; intros m i k Hk Hc Hs; [cbn in Hk; lia|].
  cbn [smoothed]. destruct k as [|k].
  - assert (H0 : lo <= c <= hi) by (apply (Hc 0%nat (j, c)); [lia|reflexivity]).
    assert (Hm : j = true \/ lo <= snd m <= hi) by (destruct Hs as [(c' & Hs)|[_ Hs]]; [injection Hs as -> _; left; reflexivity|right; exact Hs]).
    destruct (smooth_in T lo hi j m c HT H0 Hm) as [S1 S2]. destruct i as [|i]; [exact S1|].
    apply (IH _ i 0%nat); [cbn in Hk; lia| |right; split; [reflexivity|exact S2]].
    intros q jc Hq Hn. apply (Hc (Datatypes.S q) jc); [lia|exact Hn].
  - destruct i as [|i]; [lia|]. apply (IH _ i k); [cbn in Hk; lia| |].
    + intros q jc Hq Hn. apply (Hc (Datatypes.S q) jc); [lia|exact Hn].
    + destruct Hs as [Hs|[Hs _]]; [left; exact Hs|discriminate].
Qed.
Lemma comp_nth f cs i c : nth_error cs i = Some c -> nth_error (comp f cs) i = Some (fst c, f (snd c)).
Proof. intro H. unfold comp. rewrite nth_error_map, H. reflexivity. Qed.
Lemma comp_nth_inv f cs i jc : nth_error (comp f cs) i = Some jc -> exists c, nth_error cs i = Some c /\ jc = (fst c, f (snd c)).
Proof. unfold comp. rewrite nth_error_map. destruct (nth_error cs i) as [c|]; [|discriminate]. intro H. injection H as <-. eauto. Qed.
Theorem C112_no_overshoot T cs i k lo hi (f : vec3 -> R) : / 2 <= T -> In f [vx; vy; vz] -> (k <= i < length cs)%nat ->
  (k = 0%nat /\ lo <= 0 <= hi \/ exists c, nth_error cs k = Some (true, c)) ->
  (forall q c, (k <= q <= i)%nat -> nth_error cs q = Some c -> lo <= f (fst (snd c)) <= hi) ->
  lo <= f (published_pos T cs i) <= hi.
Proof.
  intros HT Hf Hk Hs Hc.
  assert (G : lo <= nth i (smoothed T false (0, 0) (comp (fun c => f (fst c)) cs)) 0 <= hi).
  { apply (smoothed_in T lo hi HT _ _ i k); [unfold comp; rewrite map_length; exact Hk| |].
    - intros q jc Hq Hn. apply comp_nth_inv in Hn. destruct Hn as (c & Hn & ->). exact (Hc q c Hq Hn).
    - destruct Hs as [[-> Hs]|(c & Hs)]; [right; split; [reflexivity|exact Hs]|left; eexists; exact (comp_nth _ _ _ _ Hs)]. }
  destruct Hf as [<-|[<-|[<-|[]]]]; exact G.
Qed.

(** C112: as long as the correction has not changed since the last jump, exactly that correction
    is published *)
Lemma smoothed_steady T ang c0 : 0 <= T -> forall l m i k, (k <= i < length l)%nat ->
  (forall q jc, (k <= q <= i)%nat -> nth_error l q = Some jc -> snd jc = c0) ->
  ((exists c, nth_error l k = Some (true, c)) \/ k = 0%nat /\ m = (c0, c0)) ->
  nth i (smoothed T ang m l) 0 = c0.
Proof.
  intro HT. induction l as [|[j c] l IH]; intros m i k Hk Hc Hs; [cbn in Hk; lia|].
  cbn [smoothed]. destruct k as [|k].
  - assert (H0 : c = c0) by (apply (Hc 0%nat (j, c)); [lia|reflexivity]). subst c.
    assert (Hm : smooth T ang j m c0 = (c0, c0)).
    { destruct Hs as [(c' & Hs)|[_ ->]]; [injection Hs as -> _; reflexivity|]. destruct j; [reflexivity|]. apply smooth_self. exact HT. }
    rewrite Hm. destruct i as [|i]; [reflexivity|].
    apply (IH _ i 0%nat); [cbn in Hk; lia| |right; split; reflexivity].
    intros q jc Hq Hn. apply (Hc (Datatypes.S q) jc); [lia|exact Hn].
  - destruct i as [|i]; [lia|]. apply (IH _ i k); [cbn in Hk; lia| |].
    + intros q jc Hq Hn. apply (Hc (Datatypes.S q) jc); [lia|exact Hn].
    + destruct Hs as [Hs|[Hs _]]; [left; exact Hs|discriminate].
Qed.
Theorem C112_steady T cs i k c : 0 <= T -> (k <= i < length cs)%nat -> nth_error cs k = Some (true, c) ->
  (forall q c', (k <= q <= i)%nat -> nth_error cs q = Some c' -> snd c' = c) ->
  published_pos T cs i = fst c /\ published_rpy T cs i = getRPY (snd c).
Proof.
  intros HT Hk Hj Hc.
  assert (G : forall ang f, nth i (smoothed T ang (0, 0) (comp f cs)) 0 = f c).
  { intros ang f. apply (smoothed_steady T ang (f c) HT _ _ i k); [unfold comp; rewrite map_length; exact Hk| |left; eexists; exact (comp_nth _ _ _ _ Hj)].
    intros q jc Hq Hn. apply comp_nth_inv in Hn. destruct Hn as (c' & Hn & ->). cbn. rewrite (Hc q c' Hq Hn). reflexivity. }
  unfold published_pos, published_rpy. rewrite !G. destruct c as [[x y z] r]. cbn [fst snd vx vy vz]. split; [reflexivity|]. destruct (getRPY r). reflexivity.
Qed.
(** C112: a first correction that is not a jump is not published: only a fraction of it is *)
Theorem C112_first_correction_refuted T c cs : 0 <= T ->
  published_pos T ((false, c) :: cs) 0 = vscale (fst c) ((1 + 6 * T) / ((1 + 2 * T) * (1 + 2 * T))).
Proof.
  intro HT. unfold published_pos, comp, vscale. cbn [map smoothed nth fst snd smooth]. f_equal; field; lra.
Qed.
(** non-vacuity of the hypotheses about [cs]: two localizations with the configured number of
    particles, the first one far from the origin, the second one at the same place *)
Example C112_nonvacuous : 0 <= jump_dist p < 10 -> 0 <= jump_ang p -> (0 <= num_particles p)%Z ->
  let l := {| l_size := 0; l_est := state_pr (V3 10 0 0) q1; l_odom := state_pr (V3 1 0 0) q1 |} in
  corrections p state0 [l; l] = [(true, (V3 9 0 0, q1)); (false, (V3 9 0 0, q1))].
Proof.
  intros H Ha Hn l. cbn [corrections l_est l_odom l].
  assert (E : correction (state_pr (V3 10 0 0) q1) (state_pr (V3 1 0 0) q1) = (V3 9 0 0, q1)).
  { unfold correction. cbn [state_pr rot pos]. replace (QuatModel.inv q1) with q1 by (unfold QuatModel.inv, q1; QuatProofs.qunf; f_equal; field).
    replace (qmul q1 q1) with q1 by (unfold q1; QuatProofs.qunf; f_equal; ring). rewrite QuatProofs.qrot_1. unfold vsub. cbn [vx vy vz]. f_equal. f_equal; ring. }
  rewrite E. unfold jump_to. cbn [l_size l_est l]. replace (num_particles p <? Z.of_nat 0)%Z with false by (symmetry; apply Z.ltb_ge; lia). cbn [orb].
  assert (N : forall x, vnorm (V3 x 0 0) = Rabs x) by (intro x; unfold vnorm, vdot; cbn [vx vy vz]; rewrite <- sqrt_Rsqr_abs; f_equal; unfold Rsqr; ring).
  destruct (Rlt_dec (jump_dist p) (vnorm (vsub (pos (state_pr (V3 10 0 0) q1)) (pos state0)))) as [r|r].
  2:{ exfalso. apply r. replace (vsub (pos (state_pr (V3 10 0 0) q1)) (pos state0)) with (V3 10 0 0) by (unfold vsub, state0; cbn; f_equal; ring). rewrite N, Rabs_right; lra. }
  destruct (Rlt_dec (jump_dist p) (vnorm (vsub (pos (state_pr (V3 10 0 0) q1)) (pos (state_pr (V3 10 0 0) q1))))) as [r'|_].
  { exfalso. revert r'. replace (vsub (pos (state_pr (V3 10 0 0) q1)) (pos (state_pr (V3 10 0 0) q1))) with (V3 0 0 0) by (unfold vsub; cbn; f_equal; ring). rewrite N, Rabs_R0. lra. }
  destruct (Rlt_dec (jump_ang p) (Rabs (snd (getAxisAng (qmul (QuatModel.inv (rot (state_pr (V3 10 0 0) q1))) (rot (state_pr (V3 10 0 0) q1))))))) as [r''|_]; [|reflexivity].
  exfalso. revert r''. cbn [state_pr rot]. replace (QuatModel.inv q1) with q1 by (unfold QuatModel.inv, q1; QuatProofs.qunf; f_equal; field).
  replace (qmul q1 q1) with q1 by (unfold q1; QuatProofs.qunf; f_equal; ring).
  unfold getAxisAng. replace (Rleb axis_cut (Rabs (qw q1))) with true; [cbn [snd]; rewrite Rabs_R0; lra|].
  symmetry. unfold Rleb. cbn [qw q1]. rewrite Rabs_R1. destruct (Rle_dec axis_cut 1) as [_|N1]; [reflexivity|]. exfalso. apply N1. unfold axis_cut. lra.
Qed.
End Corr.
