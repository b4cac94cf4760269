(** C58: where the reported sine of a kd-tree collision comes from. *)
From Coq Require Import Reals ZArith List Bool Arith Lra Lia.
From Verif Require Import Arith QuatModel QuatSpec QuatProofs StateModel KdModel KdSpec KdProofs KdProps RayModel RaySpec RayProofs KRayProofs NnSpec NnProofs RayProps.
Import ListNotations.
Open Scope R_scope.

(** Any weights >= 1 and any search tolerance: on a collision the reported sine is 1 exactly when two
    steps back no map point is (up to the tolerance) closer than two steps plus half a cell diagonal;
    otherwise it is the change, over these two steps, of the distance to the (nearly) closest map point
    divided by the length of the two steps. *)
Theorem C58_incidence : forall gx gy gz tol cs L rmax keep pts f b e n,
  let c := new_kray gx gy gz tol in let gmax := Rmax gx (Rmax gy gz) in let gmin := Rmin gx (Rmin gy gz) in
  let s := scale_of (last_rep cs None) in let eps := eps_of (last_eps cs None) in
  0 < gx -> 0 < gy -> 0 < gz -> 4 * gmax <= rmax -> rmax <= L / 2 -> at_least_one s -> 0 <= eps ->
  last_load cs None = Some (map (fun p => to_pt (p3 p)) pts) ->
  (forall q r, radiusSearch (kd_after cs L rmax keep) q r 1 (f q r)) ->
  let step := vscale (vnormalized (vsub e b)) gmin in
  let back y := vsub (c_pos y) (vscale step 2) in
  let d p v := dist_sq s (to_pt (p3 p)) (to_pt v) in
  let reach := 2 * gmin + sqrt 2 / 2 * gmax in
  exists l, calls (k_next c f pts) n (k_setRay c b e) = Some l /\
    Forall (fun y => forall p, c_point y = Some p ->
      c_sin y = 1 /\ (forall p', In p' pts -> reach * reach <= (1 + eps) * d p' (back y)) \/
      exists p1, In p1 pts /\ d p1 (back y) < reach * reach /\ (forall p', In p' pts -> d p1 (back y) <= (1 + eps) * d p' (back y)) /\
        c_sin y = Rabs (sqrt (d p1 (back y)) - sqrt (d p (c_pos y))) / (2 * gmin)) (reported l).
Proof.
  intros gx gy gz tol cs L rmax keep pts f b e n c gmax gmin s eps Hx Hy Hz Hrm HL Hw He Hl Hf step back d reach.
  destruct (radius1_le gx gy gz tol Hx Hy Hz) as (R1 & R2 & R3). fold c in R1, R2, R3. change (k_gmax c) with gmax in R1, R2, R3.
  assert (HL0 : 0 < L) by lra.
  pose proof (kd_nn cs L rmax keep _ f HL0 HL Hw He Hl Hf) as Hnn.
  destruct (k_results c f pts s eps rmax Hnn ltac:(lra) ltac:(lra) n (k_setRay c b e)) as (l & El & F).
  exists l. split; [exact El|]. eapply Forall_impl; [|exact F]. cbn beta. intros y (A & B) p Hp.
  assert (Er : k_radius2 c = reach) by (unfold k_radius2, reach; change (k_gmax c) with gmax; change (k_gmin c) with gmin; field).
  destruct (c_coll y); [|destruct (B eq_refl) as (B1 & _); rewrite B1 in Hp; discriminate].
  destruct (A eq_refl) as (p0 & Ep & _ & _ & _ & Q). rewrite Hp in Ep. injection Ep as <-. rewrite Er in Q.
  change (k_inc (k_setRay c b e)) with step in Q. fold (back y) in Q. destruct Q as [Q|(p1 & Q1 & Q2 & Q3 & Q4)]; [left; exact Q|].
  right. exists p1. split; [exact Q1|]. split; [exact Q3|]. split; [exact Q4|]. rewrite Q2. change (k_gmin c) with gmin. f_equal. ring.
Qed.
(** Exact search and unit weights: "no map point two steps back" cannot happen, since the colliding point
    itself is close enough; the sine is always a distance difference. *)
Theorem C58_incidence_exact : forall gx gy gz tol cs L rmax keep pts f b e n,
  let c := new_kray gx gy gz tol in let gmax := Rmax gx (Rmax gy gz) in let gmin := Rmin gx (Rmin gy gz) in
  0 < gx -> 0 < gy -> 0 < gz -> 4 * gmax <= rmax -> rmax <= L / 2 -> b <> e -> scale_of (last_rep cs None) = (1, 1, 1) -> eps_of (last_eps cs None) = 0 ->
  last_load cs None = Some (map (fun p => to_pt (p3 p)) pts) ->
  (forall q r, radiusSearch (kd_after cs L rmax keep) q r 1 (f q r)) ->
  let back y := vsub (c_pos y) (vscale (vscale (vnormalized (vsub e b)) gmin) 2) in
  let nearest v x := (exists p, In p pts /\ x = vnorm (vsub (p3 p) v)) /\ forall p, In p pts -> x <= vnorm (vsub (p3 p) v) in
  exists l, calls (k_next c f pts) n (k_setRay c b e) = Some l /\
    Forall (fun y => c_coll y = true -> exists x0 x1, nearest (c_pos y) x0 /\ nearest (back y) x1 /\ c_sin y = Rabs (x1 - x0) / (2 * gmin)) (reported l).
Proof.
  intros gx gy gz tol cs L rmax keep pts f b e n c gmax gmin Hx Hy Hz Hrm HL Hbe Hw He Hl Hf back nearest.
  assert (Hw1 : at_least_one (scale_of (last_rep cs None))) by (rewrite Hw; cbn; lra).
  destruct (C58_incidence gx gy gz tol cs L rmax keep pts f b e n Hx Hy Hz Hrm HL Hw1 ltac:(lra) Hl Hf) as (l & El & F).
  destruct (C58_collision_iff_near gx gy gz tol cs L rmax keep pts f b e n Hx Hy Hz Hrm HL Hw1 ltac:(lra) Hl Hf) as (l' & El' & F').
  exists l. split; [exact El|]. fold c in El, El'. rewrite El in El'. injection El' as <-. rewrite Hw, He in F, F'. fold gmin gmax in F. fold gmax in F'.
  rewrite Forall_forall in F, F' |- *. intros y Hy0 Hc. specialize (F y Hy0). specialize (F' y Hy0). cbn beta in F, F'. fold (back y) in F.
  destruct (c_point y) as [p|]; [|destruct F' as [F' _]; congruence]. destruct F' as (_ & Hp & Hd & Hmin). specialize (F p eq_refl).
  assert (DS : forall p v, 0 <= dist_sq (1, 1, 1) (to_pt (p3 p)) (to_pt v)) by (intros q v; apply NnProofs.dist_sq_nonneg).
  assert (DN : forall p v, dist_sq (1, 1, 1) (to_pt (p3 p)) (to_pt v) = vnorm (vsub (p3 p) v) * vnorm (vsub (p3 p) v)).
  { intros q v. rewrite <- unit_dist. symmetry. apply sqrt_sqrt, DS. }
  assert (NN : forall v, 0 <= vnorm v) by (intro v; apply sqrt_pos).
  assert (G : 0 < gmin <= gmax).
  { destruct (radius1_le gx gy gz tol Hx Hy Hz) as (_ & _ & R3). exact R3. }
  destruct F as [[_ Hno]|(p1 & Q1 & Q2 & Q3 & Q4)].
  - exfalso. specialize (Hno p Hp). rewrite Rplus_0_r, Rmult_1_l, DN in Hno. rewrite DN in Hd.
    set (x := vnorm (vsub (p3 p) (c_pos y))) in *. set (z := vnorm (vsub (p3 p) (back y))) in *. set (h := sqrt 2 / 2 * gmax) in *.
    assert (Hh : 0 < h) by (unfold h; assert (0 < sqrt 2) by (apply sqrt_lt_R0; lra); nra).
    assert (X : x < h) by (apply Rnot_le_lt; intro K; assert (h * h <= x * x) by (apply Rmult_le_compat; lra); lra).
    assert (T : z <= x + 2 * gmin).
    { pose proof (dist_shift (p3 p) (c_pos y) (vscale (vscale (vnormalized (vsub e b)) gmin) 2)) as T1. fold (back y) in T1. fold x z in T1.
      rewrite !vnorm_scale in T1 by lra. rewrite dir_norm in T1 by auto. lra. }
    assert (z * z < (2 * gmin + h) * (2 * gmin + h)); [|lra]. apply Rmult_le_0_lt_compat; try apply NN; lra.
  - exists (vnorm (vsub (p3 p) (c_pos y))), (vnorm (vsub (p3 p1) (back y))). split; [|split].
    + split; [exists p; auto|]. intros p' Hp'. specialize (Hmin p' Hp'). rewrite Rplus_0_r, Rmult_1_l in Hmin. rewrite <- !unit_dist. apply sqrt_le_1_alt. exact Hmin.
    + split; [exists p1; auto|]. intros p' Hp'. specialize (Q3 p' Hp'). rewrite Rplus_0_r, Rmult_1_l in Q3. rewrite <- !unit_dist. apply sqrt_le_1_alt. exact Q3.
    + rewrite Q4, !unit_dist. reflexivity.
Qed.
(** the hypotheses are those of C57_C58_nonvacuous; a case with weight 5 in z is C58_weighted_sine_refuted *)
