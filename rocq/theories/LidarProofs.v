(** Proofs about the lidar measurement models. *)
From Coq Require Import Reals ZArith NArith List Bool Arith Lra Lia.
From Verif Require Import Arith QuatModel StateModel KdModel RayModel RaySpec RayProofs KRayProofs NnSpec LidarModel LidarSpec.
Import ListNotations.
Open Scope R_scope.

(** ** Beam status *)
Lemma vnorm_sq_dist a b : vnorm (vsub a b) * vnorm (vsub a b) = dist3_sq a b.
Proof.
  unfold vnorm, dist3_sq. rewrite sqrt_sqrt.
  - unfold vdot, vsub. cbn [vx vy vz]. ring.
  - unfold vdot. pose proof (Rle_0_sqr (vx (vsub a b))). pose proof (Rle_0_sqr (vy (vsub a b))).
    pose proof (Rle_0_sqr (vz (vsub a b))). unfold Rsqr in *. lra.
Qed.
Lemma sq_lt a b : 0 <= a -> 0 <= b -> (a * a < b ^ 2 <-> a < b).
Proof. intros Ha Hb. split; intros H; nra. Qed.

Lemma beam_loop_spec {S} bm (rc : raycaster S) scan : 0 <= bp_hit_range (b_par bm) -> b_hit_sq bm = bp_hit_range (b_par bm) ^ 2 ->
  forall n s ans, calls (rc_next rc) n s = Some ans -> In None ans ->
  (forall y, In y (reported ans) -> c_coll y = true -> c_point y <> None) ->
  forall m, (n <= m)%nat ->
  exists s' st, beam_loop bm rc scan m s = Done (s', st) /\
    (forall Inv : S -> Prop, (forall s s' a, Inv s -> rc_next rc s = Some (s', a) -> Inv s') -> Inv s -> Inv s') /\
    beam_is (bp_label_max (b_par bm)) (b_sin_ref bm) (bp_hit_range (b_par bm)) scan (reported ans) st.
Proof.
  intros Hh0 Hh. induction n as [|n IH]; intros s ans Hc Hn Hp m Hm; cbn [calls] in Hc.
  - injection Hc as <-. destruct Hn.
  - destruct m as [|m]; [lia|]. cbn [beam_loop].
    destruct (rc_next rc s) as [[s1 a]|] eqn:En; [|discriminate].
    destruct (calls (rc_next rc) n s1) as [l|] eqn:El; [|discriminate]. cbn [option_map] in Hc. injection Hc as <-.
    destruct a as [y|].
    2:{ exists s1, LONG. split; [reflexivity|]. split; [intros Inv HI Hs; eapply HI; eauto|]. cbn. intros y p []. }
    assert (Hn' : In None l) by (destruct Hn as [X|X]; [discriminate|exact X]).
    cbn [reported] in Hp |- *.
    assert (Hskip : forall m', (n <= m')%nat -> (forall p, ~ stops (bp_label_max (b_par bm)) y p) ->
      exists s' st, beam_loop bm rc scan m' s1 = Done (s', st) /\
        (forall Inv : S -> Prop, (forall s s' a, Inv s -> rc_next rc s = Some (s', a) -> Inv s') -> Inv s -> Inv s') /\
        beam_is (bp_label_max (b_par bm)) (b_sin_ref bm) (bp_hit_range (b_par bm)) scan (y :: reported l) st).
    { intros m' Hm' Hy. destruct (IH s1 l El Hn' (fun z Hz => Hp z (or_intror Hz)) m' Hm') as (s' & st & E1 & E2 & E3).
      exists s', st. split; [exact E1|]. split; [intros Inv HI Hs; apply E2; eauto|].
      destruct st; cbn [beam_is] in E3 |- *.
      3:{ intros z p [<-|Hz]; [apply Hy|apply E3, Hz]. }
      all: destruct E3 as (l1 & z & l2 & p & -> & A & B & C); exists (y :: l1), z, l2, p; split; [reflexivity|];
        split; [intros w q [<-|Hw]; [apply Hy|apply A, Hw]|auto]. }
    destruct (c_coll y) eqn:Ec; cbn [negb].
    2:{ apply Hskip; [lia|]. intros p (X & _). congruence. }
    destruct (c_point y) as [p|] eqn:Ep.
    2:{ exfalso. apply (Hp y (or_introl eq_refl) Ec Ep). }
    destruct (Nat.ltb_spec (bp_label_max (b_par bm)) (lab p)) as [Hl|Hl].
    { apply Hskip; [lia|]. intros q (_ & X & Y). rewrite Ep in X. injection X as <-. lia. }
    assert (Hs : stops (bp_label_max (b_par bm)) y p) by (split; [exact Ec|split; [exact Ep|exact Hl]]).
    assert (Hnil : never_stops (bp_label_max (b_par bm)) []) by (intros ? ? []).
    destruct (Rltb (b_sin_ref bm) (c_sin y)) eqn:Es.
    + apply Rltb_true in Es. pose proof (vnorm_sq_dist scan (p3 p)) as Hd.
      assert (H0 : 0 <= vnorm (vsub scan (p3 p))) by apply sqrt_pos.
      destruct (Rltb (dist3_sq scan (p3 p)) (b_hit_sq bm)) eqn:Eh.
      * apply Rltb_true in Eh. rewrite Hh, <- Hd in Eh. apply (proj1 (sq_lt _ _ H0 Hh0)) in Eh.
        eexists s1, HIT. split; [reflexivity|]. split; [intros Inv HI Hi; eapply HI; eauto|].
        exists [], y, (reported l), p. split; [reflexivity|]. split; [exact Hnil|]. split; [exact Hs|]. split; [exact Es|exact Eh].
      * apply Rltb_false in Eh. rewrite Hh, <- Hd in Eh.
        assert (Eh' : bp_hit_range (b_par bm) <= vnorm (vsub scan (p3 p))).
        { destruct (Rle_or_lt (bp_hit_range (b_par bm)) (vnorm (vsub scan (p3 p)))) as [X|X]; [exact X|].
          apply (proj2 (sq_lt _ _ H0 Hh0)) in X. lra. }
        eexists s1, SHORT. split; [reflexivity|]. split; [intros Inv HI Hi; eapply HI; eauto|].
        exists [], y, (reported l), p. split; [reflexivity|]. split; [exact Hnil|]. split; [exact Hs|]. split; [exact Es|exact Eh'].
    + apply Rltb_false in Es. eexists s1, TOTAL_REFLECTION. split; [reflexivity|]. split; [intros Inv HI Hi; eapply HI; eauto|].
      exists [], y, (reported l), p. split; [reflexivity|]. split; [exact Hnil|]. split; [exact Hs|exact Es].
Qed.

(** the classification is unambiguous *)
Lemma first_stop_unique lm (l1 l2 m1 m2 : list cast_result) y z p q :
  l1 ++ y :: l2 = m1 ++ z :: m2 -> never_stops lm l1 -> never_stops lm m1 -> stops lm y p -> stops lm z q ->
  y = z /\ p = q.
Proof.
  revert m1. induction l1 as [|a l1 IH]; intros [|b m1] E H1 H2 Hy Hz; cbn in E.
  - injection E as <- _. split; [reflexivity|]. destruct Hy as (_ & A & _), Hz as (_ & B & _). congruence.
  - injection E as <- _. exfalso. apply (H2 y p (or_introl eq_refl) Hy).
  - injection E as -> _. exfalso. apply (H1 z q (or_introl eq_refl) Hz).
  - injection E as <- E. apply (IH m1 E); auto.
    + intros w r Hw. apply H1. right. exact Hw.
    + intros w r Hw. apply H2. right. exact Hw.
Qed.
Lemma beam_is_unique lm sr hr scan l a b : beam_is lm sr hr scan l a -> beam_is lm sr hr scan l b -> a = b.
Proof.
  assert (Hin : forall (l1 : list cast_result) y l2, In y (l1 ++ y :: l2)) by (intros; apply in_or_app; right; left; reflexivity).
  destruct a, b; cbn [beam_is]; intros H1 H2; try reflexivity;
  try (destruct H1 as (l1 & y & l2 & p & E1 & A1 & B1 & C1)); try (destruct H2 as (m1 & z & m2 & q & E2 & A2 & B2 & C2));
  try (exfalso; match goal with [ N : never_stops ?lm ?l, E : ?l = _ |- _ ] => rewrite E in N; eapply N; [apply Hin|eassumption] end).
  all: try (exfalso; rewrite E1 in E2; destruct (first_stop_unique _ _ _ _ _ _ _ _ _ E2 A1 A2 B1 B2) as [X Y]; subst; lra).
Qed.

(** ** Beam likelihood *)
Lemma beam_loop_mono {S} bm (rc : raycaster S) scan x : forall n s, beam_loop bm rc scan n s = Done x ->
  forall m, (n <= m)%nat -> beam_loop bm rc scan m s = Done x.
Proof.
  induction n as [|n IH]; intros s H m Hm; [discriminate|]. destruct m as [|m]; [lia|]. cbn [beam_loop] in *.
  destruct (rc_next rc s) as [[s1 [y|]]|]; try exact H.
  destruct (negb (c_coll y)); [apply IH; [exact H|lia]|]. destruct (c_point y) as [p|]; [|exact H].
  destruct (bp_label_max (b_par bm) <? lab p)%nat; [apply IH; [exact H|lia]|exact H].
Qed.
Lemma beam_points_spec {S} bm (rc : raycaster S) Inv L origins st :
  0 <= bp_hit_range (b_par bm) -> b_hit_sq bm = bp_hit_range (b_par bm) ^ 2 -> caster_ok Inv rc L ->
  forall pts s, Forall (fun p => (lab p < length origins)%nat) pts -> Inv s ->
  exists sts n0 s', Inv s' /\
    Forall2 (fun p b => exists o, nth_error origins (lab p) = Some o /\
       beam_is (bp_label_max (b_par bm)) (b_sin_ref bm) (bp_hit_range (b_par bm)) (p3 p)
         (L (vadd (pos st) (qrot (rot st) o)) (p3 p)) b) pts sts /\
    forall n score, (n0 <= n)%nat ->
      beam_points bm rc origins st n pts s score =
        Done (s', score * b_beta bm ^ count_if (counts (bp_short_only (b_par bm))) sts).
Proof.
  intros Hh0 Hh (Hset & Hnext & Hpt). induction pts as [|p pts IH]; intros s Hl Hs.
  - exists [], O, s. split; [exact Hs|]. split; [constructor|]. intros n score _. cbn. rewrite Rmult_1_r. reflexivity.
  - apply Forall_cons_iff in Hl as [Hp Hl].
    destruct (nth_error origins (lab p)) as [o|] eqn:Eo; [|apply nth_error_None in Eo; lia].
    set (b := vadd (pos st) (qrot (rot st) o)).
    destruct (Hset s b (p3 p) Hs) as (s1 & E1 & I1 & (n1 & ans & Ec & Hn & Hr)).
    destruct (beam_loop_spec bm rc (p3 p) Hh0 Hh n1 s1 ans Ec Hn) with (m := n1) as (s2 & x & E2 & I2 & B2); [|lia|].
    { rewrite Hr. intros y. apply Hpt. }
    rewrite Hr in B2. specialize (I2 Inv Hnext I1).
    destruct (IH s2 Hl I2) as (sts & n2 & s' & I' & F & Hrun).
    exists (x :: sts), (Nat.max n1 n2), s'. split; [exact I'|]. split.
    { constructor; [|exact F]. exists o. split; [exact Eo|exact B2]. }
    intros n score Hmax. cbn [beam_points]. rewrite Eo. fold b. unfold getBeamStatus. rewrite E1.
    rewrite (beam_loop_mono bm rc (p3 p) _ n1 s1 E2 n) by lia.
    rewrite Hrun by lia. unfold count_if. cbn [filter]. unfold penalised, counts.
    destruct x; cbn [negb]; try reflexivity; [|destruct (bp_short_only (b_par bm)); cbn [negb]; [reflexivity|]];
      cbn [length pow]; unfold beam_mul; cbn [fmul RA]; do 2 f_equal; ring.
Qed.
