(** C104: the debug markers. *)
From Coq Require Import Reals ZArith NArith List Bool Arith Lra Lia.
From Verif Require Import Arith QuatModel StateModel KdModel ParamModel NodeModel RayModel RaySpec LidarModel LidarSpec LidarProofs QuatSpec QuatProofs StateSpec StateProofs MarkerModel MarkerSpec MarkerProofs.
Import ListNotations.
Open Scope R_scope.

(** For every ray caster that answers (C59: both do), every estimate, every set of beam and
    sample points with valid labels: the array holds, in the order of the beams, what
    [draws_beam] says for each beam of the estimated pose, then one magenta point per sample
    point of the estimated pose; the markers are numbered consecutively. *)
Theorem C104_markers : forall S (Inv : S -> Prop) rc L p np cur bm s origins e bp lp,
  caster_ok Inv rc L -> Inv s -> 0 <= bp_hit_range p -> unit_quat (rot e) ->
  bm = beam_refresh p \/ bm = beam_set_global (beam_refresh p) np cur ->
  Forall (fun q => (lab q < length origins)%nat) bp ->
  exists dss s' n0, Inv s' /\
    Forall2 (fun q ds => exists o, nth_error origins (lab q) = Some o /\
        let b := vadd (pos e) (qrot (rot e) o) in
        let x := vadd (qrot (rot e) (p3 q)) (pos e) in
        draws_beam (bp_label_max p) (sin (bp_ang_total_ref p)) (bp_hit_range p) b x (L b x) ds) bp dss /\
    forall n, (n0 <= n)%nat -> exists ms, debug_markers bm rc origins e n bp lp s = Done (s', ms) /\
      numbered ms /\
      map drawn ms = concat dss ++ map (fun q => (Sample, [vadd (qrot (rot e) (p3 q)) (pos e)], [RGBA 1 0 1 1])) lp.
Proof.
  intros S Inv rc L p np cur bm s origins e bp lp Hok Hs Hh Hu Hb Hl.
  assert (Hpar : b_par bm = p /\ b_sin_ref bm = sin (bp_ang_total_ref p) /\ b_hit_sq bm = bp_hit_range p ^ 2)
    by (destruct Hb as [->| ->]; cbn; auto). destruct Hpar as (P1 & P2 & P3).
  assert (Hl' : Forall (fun q => (lab q < length origins)%nat) (transform e bp)).
  { rewrite Forall_forall in *. intros q Hq. unfold transform in Hq. apply in_map_iff in Hq as (q0 & <- & Hq0).
    cbn [lab]. apply (Hl q0 Hq0). }
  pose proof (normalized_unit _ Hu) as Hq.
  assert (Ht : forall l, transform e l = map (fun q => {| p3 := vadd (qrot (rot e) (p3 q)) (pos e); lab := lab q |}) l)
    by (intros l; unfold transform; rewrite Hq; reflexivity).
  destruct (beam_markers_spec bm rc Inv L origins e ltac:(rewrite P1; exact Hh) ltac:(rewrite P1; exact P3) Hok
              (transform e bp) s Hl' Hs) as (dss & n0 & s' & I' & F & Hrun).
  exists dss, s', n0. split; [exact I'|]. split.
  - rewrite P1, P2 in F. rewrite Ht in F. clear -F. remember (map _ bp) as t eqn:Et. revert bp Et.
    induction F as [|q ds t dss H F IH]; intros bp Et; destruct bp as [|q0 bp]; try discriminate; constructor.
    + cbn in Et. injection Et as -> ->. exact H.
    + apply IH. cbn in Et. injection Et as _ ->. reflexivity.
  - intros n Hn. destruct (Hrun n [] Hn) as (ms & R1 & R2 & R3). unfold debug_markers. rewrite R1.
    destruct (samples_spec (transform e lp) ms) as [A B]. eexists. split; [reflexivity|]. split.
    + apply B, R3. intros i m E. destruct i; discriminate.
    + rewrite A, R2. cbn [map app]. f_equal. rewrite Ht, map_map. reflexivity.
Qed.
(** Drawing casts exactly the rays of one more evaluation of the beam model at the estimate. *)
Theorem C104_same_casts : forall S bm (rc : raycaster S) origins e n bp lp s sc,
  match debug_markers bm rc origins e n bp lp s with
  | Done (s', _) => exists sc', beam_points bm rc origins e n (transform e bp) s sc = Done (s', sc')
  | Undefined => beam_points bm rc origins e n (transform e bp) s sc = Undefined
  | Running => beam_points bm rc origins e n (transform e bp) s sc = Running
  end.
Proof.
  intros. unfold debug_markers. pose proof (beam_markers_points bm rc origins e n (transform e bp) s [] sc) as H.
  destruct (beam_markers bm rc origins e n (transform e bp) s []) as [[s' ms]| |]; exact H.
Qed.

(** The markers of a localization step of the node are those of the node's beam model, its
    current map and the estimated pose; the ray caster the step leaves behind is the one left
    by drawing. *)
Theorem C104_node : forall S (caster : cloud -> (pt -> R -> search) -> raycaster S) p n e os bp lp n' est r,
  estimate caster p n e os bp lp = Ok (n', est, r) ->
  exists mc s1 ms, map_cloud n = Ok mc /\
    debug_markers (l_beam (n_lid n)) (caster mc (e_search e)) os est (e_fuel e) bp lp s1 = Done (l_rc (n_lid n'), ms).
Proof.
  intros S caster p n e os bp lp n' est r H. unfold estimate in H.
  destruct (map_cloud n) as [mc| | |]; try discriminate H. cbn [bind] in H. cbv zeta in H.
  match type of H with bind ?x _ = _ => destruct x as [[s1 res]| | |]; try discriminate H; cbn [bind] in H end.
  match type of H with bind ?x _ = _ => destruct x as [e0| | |]; try discriminate H; cbn [bind] in H end.
  match type of H with bind ?x _ = _ => destruct x as [mx| | |]; try discriminate H; cbn [bind] in H end.
  match type of H with context [beam_points ?a ?b ?c ?d ?f ?g s1 1] =>
    pose proof (C104_same_casts S a b c d f bp lp s1 1) as K;
    destruct (beam_points a b c d f g s1 1) as [[s2 sc]| |]; try discriminate H end.
  cbn [of_run bind] in H. injection H as <- <- _.
  exists mc, s1. match type of K with match ?x with _ => _ end => destruct x as [[s' ms]| |] eqn:E; try discriminate K end.
  destruct K as (sc' & K). injection K as <- _. exists ms. split; [reflexivity|]. reflexivity.
Qed.

(** A caster with one collision per ray, one beam stopped far before its end (red) and two
    sample points. *)
Definition demo_hit : cast_result := {| c_pos := V3 1 0 0; c_coll := true; c_sin := 1; c_point := Some {| p3 := V3 1 0 0; lab := 0 |} |}.
Definition demo_caster : raycaster (list cast_result) :=
  {| rc_set := fun _ _ _ => Some [demo_hit];
     rc_next := fun s => Some (match s with [] => ([], None) | y :: t => (t, Some y) end) |}.
Definition demo_pose : state := {| pos := V3 0 0 0; rot := Q4 0 0 0 1; diff := false; noise_ll := 0; noise_la := 0; noise_al := 0; noise_aa := 0;
  err_lin := V3 0 0 0; err_ang := V3 0 0 0; rpy := V3 0 0 0 |}.
Example C104_nonvacuous :
  caster_ok (fun _ => True) demo_caster (fun _ _ => [demo_hit]) /\ unit_quat (rot demo_pose) /\
  forall bm : beam, bp_label_max (b_par bm) = 0%nat -> b_sin_ref bm = 1 / 2 -> b_hit_sq bm = 1 ->
  debug_markers bm demo_caster [V3 0 0 0] demo_pose 2
     [{| p3 := V3 3 0 0; lab := 0 |}] [{| p3 := V3 3 0 0; lab := 0 |}; {| p3 := V3 0 2 0; lab := 0 |}] [] =
   Done ([], [ {| m_ns := Collision; m_id := 0; m_at := [V3 1 0 0]; m_col := [RGBA 1 0 0 (8 / 10)] |};
              {| m_ns := Ray; m_id := 1; m_at := [V3 0 0 0; V3 3 0 0]; m_col := [RGBA 1 0 0 (5 / 10); RGBA 1 0 0 (8 / 10)] |};
              {| m_ns := Sample; m_id := 2; m_at := [V3 3 0 0]; m_col := [RGBA 1 0 1 1] |};
              {| m_ns := Sample; m_id := 3; m_at := [V3 0 2 0]; m_col := [RGBA 1 0 1 1] |} ]).
Proof.
  assert (U : unit_quat (rot demo_pose)) by (unfold unit_quat; cbn; ring).
  split; [|split; [exact U|]].
  - split; [|split].
    + intros s b e _. exists [demo_hit]. split; [reflexivity|]. split; [exact I|].
      exists 2%nat, [Some demo_hit; None]. split; [reflexivity|]. split; [right; left; reflexivity|reflexivity].
    + intros; exact I.
    + intros b e y [<-|[]] _. discriminate.
  - intros bm H1 H2 H3.
    assert (Hr : forall v, vadd (qrot (rot demo_pose) v) (pos demo_pose) = v) by (intros []; unfold vadd; qunf2; cbn; f_equal; ring).
    assert (Hr' : forall v, vadd (pos demo_pose) (qrot (rot demo_pose) v) = v) by (intros []; unfold vadd; qunf2; cbn; f_equal; ring).
    unfold debug_markers, transform. rewrite (normalized_unit _ U). cbn [map p3 lab]. rewrite !Hr.
    cbn [beam_markers lab nth_error p3]. rewrite Hr'. cbv zeta. unfold getBeamStatus_r.
    cbn [demo_caster rc_set rc_next beam_loop_r demo_hit c_coll negb c_point lab c_sin p3].
    rewrite H1, H2. cbn [Nat.ltb Nat.leb].
    rewrite (proj2 (Rltb_true (1 / 2) 1)) by lra. rewrite H3.
    rewrite (proj2 (Rltb_false (dist3_sq (V3 3 0 0) (V3 1 0 0)) 1)) by (unfold dist3_sq; cbn [vx vy vz]; lra).
    reflexivity.
Qed.
