(** Proofs about the debug markers. *)
From Coq Require Import Reals ZArith NArith List Bool Arith Lra Lia.
From Verif Require Import Arith QuatModel StateModel KdModel RayModel RaySpec LidarModel LidarSpec LidarProofs MarkerModel MarkerSpec.
Import ListNotations.
Open Scope R_scope.

(** forgetting the cast result gives the function used for the likelihood *)
Definition forget {S} (r : run (S * beam_status * cast_result)) : run (S * beam_status) :=
  match r with Done (s, st, _) => Done (s, st) | Undefined => Undefined | Running => Running end.
Lemma beam_loop_forget {S} bm (rc : raycaster S) scan : forall n s cur,
  beam_loop bm rc scan n s = forget (beam_loop_r bm rc scan n s cur).
Proof.
  induction n as [|n IH]; intros s cur; [reflexivity|]. cbn [beam_loop beam_loop_r].
  destruct (rc_next rc s) as [[s1 [y|]]|]; try reflexivity.
  destruct (negb (c_coll y)); [apply IH|]. destruct (c_point y) as [p|]; [|reflexivity].
  destruct (bp_label_max (b_par bm) <? lab p)%nat; [apply IH|]. destruct (Rltb (b_sin_ref bm) (c_sin y)); reflexivity.
Qed.
Lemma status_forget {S} bm (rc : raycaster S) n s a b :
  getBeamStatus bm rc n s a b = forget (getBeamStatus_r bm rc n s a b).
Proof. unfold getBeamStatus, getBeamStatus_r. destruct (rc_set rc s a b); [apply beam_loop_forget|reflexivity]. Qed.

(** the returned cast result is the first one that stops the beam *)
Lemma beam_loop_r_stop {S} bm (rc : raycaster S) scan : forall n s ans, calls (rc_next rc) n s = Some ans -> In None ans ->
  forall m cur s' st y, beam_loop_r bm rc scan m s cur = Done (s', st, y) -> st <> LONG ->
  first_stop (bp_label_max (b_par bm)) (reported ans) y.
Proof.
  induction n as [|n IH]; intros s ans Hc Hn m cur s' st y H Hst; cbn [calls] in Hc.
  - injection Hc as <-. destruct Hn.
  - destruct m as [|m]; [discriminate|]. cbn [beam_loop_r] in H.
    destruct (rc_next rc s) as [[s1 a]|] eqn:En; [|discriminate].
    destruct (calls (rc_next rc) n s1) as [l|] eqn:El; [|discriminate]. cbn [option_map] in Hc. injection Hc as <-.
    destruct a as [z|]; [|injection H as <- <- <-; contradiction].
    assert (Hn' : In None l) by (destruct Hn as [X|X]; [discriminate|exact X]). cbn [reported].
    assert (Hskip : forall cur', (forall p, ~ stops (bp_label_max (b_par bm)) z p) ->
      beam_loop_r bm rc scan m s1 cur' = Done (s', st, y) -> first_stop (bp_label_max (b_par bm)) (z :: reported l) y).
    { intros cur' Hz H'. destruct (IH s1 l El Hn' m cur' s' st y H' Hst) as (l1 & l2 & p & E & A & B).
      exists (z :: l1), l2, p. rewrite E. split; [reflexivity|]. split; [|exact B].
      intros w q [<-|Hw]; [apply Hz|apply A, Hw]. }
    destruct (c_coll z) eqn:Ec; cbn [negb] in H.
    2:{ eapply Hskip; [|exact H]. intros p (X & _). congruence. }
    destruct (c_point z) as [p|] eqn:Ep; [|discriminate].
    destruct (Nat.ltb_spec (bp_label_max (b_par bm)) (lab p)) as [Hl|Hl].
    { eapply Hskip; [|exact H]. intros q (_ & X & Y). rewrite Ep in X. injection X as <-. lia. }
    assert (y = z) as -> by (destruct (Rltb (b_sin_ref bm) (c_sin z)); injection H as _ _ <-; reflexivity).
    exists [], (reported l), p. split; [reflexivity|]. split; [intros ? ? []|]. split; [exact Ec|split; [exact Ep|exact Hl]].
Qed.
Lemma beam_loop_r_mono {S} bm (rc : raycaster S) scan x : forall n s cur, beam_loop_r bm rc scan n s cur = Done x ->
  forall m, (n <= m)%nat -> beam_loop_r bm rc scan m s cur = Done x.
Proof.
  induction n as [|n IH]; intros s cur H m Hm; [discriminate|]. destruct m as [|m]; [lia|]. cbn [beam_loop_r] in *.
  destruct (rc_next rc s) as [[s1 [y|]]|]; try exact H.
  destruct (negb (c_coll y)); [apply IH; [exact H|lia]|]. destruct (c_point y) as [p|]; [|exact H].
  destruct (bp_label_max (b_par bm) <? lab p)%nat; [apply IH; [exact H|lia]|exact H].
Qed.

Definition of_beam (st : beam_status) (b e : vec3) (y : cast_result) : list (marker_ns * list vec3 * list color) :=
  match st with LONG => [] | _ => [(Collision, [c_pos y], [cube_color st])] end ++ [(Ray, [b; e], line_colors st)].
Lemma drawn_add st b e y ms : map drawn (add_ray st b e (add_collision st y ms)) = map drawn ms ++ of_beam st b e y.
Proof. unfold add_ray, of_beam. destruct st; cbn [add_collision]; rewrite !map_app; cbn [map drawn m_ns m_at m_col app];
  rewrite <- ?app_assoc; reflexivity. Qed.
Lemma numbered_snoc ms ns at_ cs : numbered ms -> numbered (ms ++ [{| m_ns := ns; m_id := length ms; m_at := at_; m_col := cs |}]).
Proof.
  intros H i m E. destruct (Nat.lt_ge_cases i (length ms)) as [L|L].
  - rewrite nth_error_app1 in E by exact L. apply H, E.
  - rewrite nth_error_app2 in E by exact L. destruct (i - length ms)%nat as [|k] eqn:D.
    + cbn in E. injection E as <-. cbn. lia.
    + cbn in E. destruct k; discriminate.
Qed.
Lemma numbered_add st b e y ms : numbered ms -> numbered (add_ray st b e (add_collision st y ms)).
Proof. intros H. unfold add_ray. apply numbered_snoc. destruct st; cbn [add_collision]; try exact H; apply numbered_snoc, H. Qed.

Lemma beam_markers_points {S} bm (rc : raycaster S) origins e n : forall pts s ms sc,
  match beam_markers bm rc origins e n pts s ms with
  | Done (s', _) => exists sc', beam_points bm rc origins e n pts s sc = Done (s', sc')
  | Undefined => beam_points bm rc origins e n pts s sc = Undefined
  | Running => beam_points bm rc origins e n pts s sc = Running
  end.
Proof.
  induction pts as [|p pts IH]; intros s ms sc; cbn [beam_markers beam_points]; [eexists; reflexivity|].
  destruct (nth_error origins (lab p)) as [o|]; [|reflexivity]. cbv zeta. rewrite status_forget.
  destruct (getBeamStatus_r bm rc n s (vadd (pos e) (qrot (rot e) o)) (p3 p)) as [[[s' st] y]| |]; cbn [forget]; try reflexivity.
  apply IH.
Qed.

Lemma of_beam_draws {S} (rc : raycaster S) bm b e l st (s' : S) y scan m s1 n ans cur :
  calls (rc_next rc) n s1 = Some ans -> In None ans -> reported ans = l ->
  beam_loop_r bm rc scan m s1 cur = Done (s', st, y) ->
  beam_is (bp_label_max (b_par bm)) (b_sin_ref bm) (bp_hit_range (b_par bm)) e l st ->
  draws_beam (bp_label_max (b_par bm)) (b_sin_ref bm) (bp_hit_range (b_par bm)) b e l (of_beam st b e y).
Proof.
  intros Hc Hn Hr Hl Hb.
  assert (F : st <> LONG -> first_stop (bp_label_max (b_par bm)) l y).
  { intros H. rewrite <- Hr. eapply beam_loop_r_stop; eassumption. }
  destruct st; [exists SHORT, (RGBA 1 0 0 (5 / 10)), (RGBA 1 0 0 (8 / 10))|exists HIT, (RGBA 0 1 0 (5 / 10)), (RGBA 0 1 0 (8 / 10))
    |exists LONG, (RGBA 0 0 1 (5 / 10)), (RGBA 0 0 1 (8 / 10))|exists TOTAL_REFLECTION, (RGBA 0 1 0 (2 / 10)), (RGBA 0 1 0 (2 / 10))];
    (split; [exact Hb|]); do 4 (split; [reflexivity|]); try reflexivity.
  all: eexists y, _; (split; [apply F; discriminate|]); split; [|split; [|reflexivity]]; reflexivity.
Qed.

Lemma beam_markers_spec {S} bm (rc : raycaster S) Inv L origins e :
  0 <= bp_hit_range (b_par bm) -> b_hit_sq bm = bp_hit_range (b_par bm) ^ 2 -> caster_ok Inv rc L ->
  forall pts s, Forall (fun p => (lab p < length origins)%nat) pts -> Inv s ->
  exists dss n0 s', Inv s' /\
    Forall2 (fun p ds => exists o, nth_error origins (lab p) = Some o /\
       let b := vadd (pos e) (qrot (rot e) o) in
       draws_beam (bp_label_max (b_par bm)) (b_sin_ref bm) (bp_hit_range (b_par bm)) b (p3 p) (L b (p3 p)) ds) pts dss /\
    forall n ms, (n0 <= n)%nat -> exists ms', beam_markers bm rc origins e n pts s ms = Done (s', ms') /\
      map drawn ms' = map drawn ms ++ concat dss /\ (numbered ms -> numbered ms').
Proof.
  intros Hh0 Hh (Hset & Hnext & Hpt). induction pts as [|p pts IH]; intros s Hl Hs.
  - exists [], O, s. split; [exact Hs|]. split; [constructor|]. intros n ms _. exists ms. cbn. rewrite app_nil_r. auto.
  - apply Forall_cons_iff in Hl as [Hp Hl].
    destruct (nth_error origins (lab p)) as [o|] eqn:Eo; [|apply nth_error_None in Eo; lia].
    set (b := vadd (pos e) (qrot (rot e) o)).
    destruct (Hset s b (p3 p) Hs) as (s1 & E1 & I1 & (n1 & ans & Ec & Hn & Hr)).
    destruct (beam_loop_spec bm rc (p3 p) Hh0 Hh n1 s1 ans Ec Hn) with (m := n1) as (s2 & x & E2 & I2 & B2); [|lia|].
    { rewrite Hr. intros y. apply Hpt. }
    rewrite Hr in B2. specialize (I2 Inv Hnext I1).
    rewrite (beam_loop_forget bm rc (p3 p) n1 s1 cast_result0) in E2.
    destruct (beam_loop_r bm rc (p3 p) n1 s1 cast_result0) as [[[s2' x'] y]| |] eqn:E3; try discriminate E2.
    cbn [forget] in E2. injection E2 as -> ->.
    destruct (IH s2 Hl I2) as (dss & n2 & s' & I' & F & Hrun).
    exists (of_beam x b (p3 p) y :: dss), (Nat.max n1 n2), s'. split; [exact I'|]. split.
    { constructor; [|exact F]. exists o. split; [exact Eo|]. cbv zeta. fold b. eapply of_beam_draws; eassumption. }
    intros n ms Hmax.
    destruct (Hrun n (add_ray x b (p3 p) (add_collision x y ms)) ltac:(lia)) as (ms' & R1 & R2 & R3).
    exists ms'. split; [|split].
    + cbn [beam_markers]. rewrite Eo. cbv zeta. fold b. unfold getBeamStatus_r. rewrite E1.
      rewrite (beam_loop_r_mono bm rc (p3 p) _ n1 s1 _ E3 n) by lia. exact R1.
    + rewrite R2, drawn_add. cbn [concat]. rewrite <- app_assoc. reflexivity.
    + intros N. apply R3, numbered_add, N.
Qed.
Lemma samples_spec pts : forall ms,
  map drawn (fold_left add_sample pts ms) = map drawn ms ++ map (fun p => (Sample, [p3 p], [RGBA 1 0 1 1])) pts /\
  (numbered ms -> numbered (fold_left add_sample pts ms)).
Proof.
  induction pts as [|p pts IH]; intros ms; cbn [fold_left map]; [rewrite app_nil_r; auto|].
  destruct (IH (add_sample ms p)) as [A B]. split.
  - rewrite A. unfold add_sample. rewrite map_app. cbn [map drawn m_ns m_at m_col]. rewrite <- app_assoc. reflexivity.
  - intros N. apply B. unfold add_sample. apply numbered_snoc, N.
Qed.
