(** Proofs about the k-d tree ray caster. *)
From Coq Require Import Reals ZArith List Bool Arith Lra Lia Psatz.
From Verif Require Import Arith QuatModel StateModel KdModel RayModel RaySpec RayGeo NnSpec NnProofs.
Import ListNotations.
Open Scope R_scope.

Lemma vnorm_triangle u v : vnorm (vadd u v) <= vnorm u + vnorm v.
Proof.
  unfold vnorm. destruct u as [a b c], v as [x y z]. unfold vdot, vadd. cbn [vx vy vz].
  set (U := a * a + b * b + c * c). set (V := x * x + y * y + z * z). set (W := a * x + b * y + c * z).
  assert (U0 : 0 <= U) by (unfold U; nra). assert (V0 : 0 <= V) by (unfold V; nra).
  assert (CS : W * W <= U * V).
  { unfold U, V, W. pose proof (Rle_0_sqr (a * y - b * x)) as P1. pose proof (Rle_0_sqr (b * z - c * y)) as P2.
    pose proof (Rle_0_sqr (a * z - c * x)) as P3. unfold Rsqr in *. nra. }
  assert (HW : W <= sqrt U * sqrt V).
  { rewrite <- sqrt_mult by auto. destruct (Rle_dec W 0); [pose proof (sqrt_pos (U * V)); lra|].
    apply Rsqr_incr_0_var; [|apply sqrt_pos]. rewrite Rsqr_sqrt by nra. exact CS. }
  apply Rsqr_incr_0_var; [|pose proof (sqrt_pos U); pose proof (sqrt_pos V); lra].
  rewrite Rsqr_sqrt.
  - unfold Rsqr. replace ((sqrt U + sqrt V) * (sqrt U + sqrt V)) with (sqrt U * sqrt U + sqrt V * sqrt V + 2 * (sqrt U * sqrt V)) by ring.
    rewrite !sqrt_sqrt by auto. unfold U, V, W in *. lra.
  - repeat apply Rplus_le_le_0_compat; apply Rle_0_sqr.
Qed.
Lemma unit_dist p q : sqrt (dist_sq (1, 1, 1) (to_pt p) (to_pt q)) = vnorm (vsub p q).
Proof. unfold vnorm, dist_sq, vdot, vsub, to_pt. cbn [vx vy vz px py pz]. f_equal. ring. Qed.
Lemma dist_shift p q s : vnorm (vsub p (vsub q s)) <= vnorm (vsub p q) + vnorm s.
Proof.
  replace (vsub p (vsub q s)) with (vadd (vsub p q) s); [apply vnorm_triangle|].
  destruct p, q, s. unfold vadd, vsub. cbn. f_equal; ring.
Qed.
Lemma vnorm_opp u : vnorm (vopp u) = vnorm u.
Proof. unfold vnorm, vdot, vopp. cbn [vx vy vz]. f_equal. ring. Qed.
Lemma dist_shift' p q s : vnorm (vsub p q) <= vnorm (vsub p (vsub q s)) + vnorm s.
Proof.
  rewrite <- (vnorm_opp s). replace (vsub p q) with (vadd (vsub p (vsub q s)) (vopp s)); [apply vnorm_triangle|].
  destruct p, q, s. unfold vadd, vsub, vopp. cbn. f_equal; ring.
Qed.
Lemma vnorm_scale u k : 0 <= k -> vnorm (vscale u k) = vnorm u * k.
Proof.
  intros H. unfold vnorm, vdot, vscale. cbn [vx vy vz].
  replace (vx u * k * (vx u * k) + vy u * k * (vy u * k) + vz u * k * (vz u * k))
    with ((vx u * vx u + vy u * vy u + vz u * vz u) * (k * k)) by ring.
  rewrite sqrt_mult by nra. rewrite sqrt_square by auto. reflexivity.
Qed.
Lemma dir_norm b e : b <> e -> vnorm (vnormalized (vsub e b)) = 1.
Proof. intros H. unfold vnorm. rewrite dir_unit by auto. apply sqrt_1. Qed.

Section K.
Context (c : kray_cfg) (f : pt -> R -> search) (pts : list lpt).

Lemma k_next_pos r r' y : k_next c f pts r = Some (r', Some y) ->
  (k_count r < k_length r)%Z /\ c_pos y = k_pos r /\ k_pos r' = vadd (k_pos r) (k_inc r) /\ k_inc r' = k_inc r /\
  k_length r' = k_length r /\ k_count r' = (k_count r + 1)%Z.
Proof.
  unfold k_next. destruct (Z.leb_spec (k_length r) (k_count r)); [discriminate|]. cbn zeta.
  destruct (f _ (k_radius1 c)) as [| |[|[i d] o]]; try discriminate.
  - intros [= <- <-]. cbn. auto 10.
  - intros [= <- <-]. cbn. auto 10.
  - destruct (nth_error pts i); [|discriminate].
    destruct (f _ (k_radius2 c)) as [| |[|[i1 d1] o1]]; try discriminate; intros [= <- <-]; cbn; auto 10.
Qed.
Lemma k_finished n r : (k_length r <= k_count r)%Z -> calls (k_next c f pts) n r = Some (repeat None n).
Proof.
  intros H. induction n as [|n IH]; [reflexivity|]. cbn [calls repeat]. unfold k_next at 1.
  replace (k_length r <=? k_count r)%Z with true by (symmetry; apply Z.leb_le; exact H). rewrite IH. reflexivity.
Qed.
Lemma k_calls : forall n r l, calls (k_next c f pts) n r = Some l ->
  exists rs k, l = map Some rs ++ repeat None k /\ (length rs + k = n)%nat /\
    length rs = Nat.min n (Z.to_nat (k_length r - k_count r)) /\
    forall i y, nth_error rs i = Some y -> c_pos y = vadd (k_pos r) (vscale (k_inc r) (INR i)).
Proof.
  induction n as [|n IH]; intros r l Hc; cbn [calls] in Hc.
  - injection Hc as <-. exists [], O. split; [reflexivity|]. split; [reflexivity|]. split; [reflexivity|]. intros [|i] y; discriminate.
  - destruct (k_next c f pts r) as [[r' [y|]]|] eqn:E; [| |discriminate].
    + destruct (k_next_pos r r' y E) as (A1 & A2 & A3 & A4 & A5 & A6).
      destruct (calls (k_next c f pts) n r') as [l'|] eqn:El; [|discriminate]. injection Hc as <-.
      destruct (IH r' l' El) as (rs & k & -> & L1 & L2 & L3). exists (y :: rs), k. split; [reflexivity|].
      cbn [length]. split; [lia|]. split; [rewrite L2, A5, A6; lia|].
      intros [|i] y' Hy; cbn [nth_error] in Hy.
      * injection Hy as <-. rewrite A2. cbn [INR]. destruct (k_pos r), (k_inc r). unfold vadd, vscale. cbn. f_equal; ring.
      * rewrite (L3 i y' Hy), A3, A4. rewrite S_INR. destruct (k_pos r), (k_inc r). unfold vadd, vscale. cbn. f_equal; ring.
    + assert (H : (k_length r <= k_count r)%Z).
      { unfold k_next in E. destruct (Z.leb_spec (k_length r) (k_count r)); [assumption|]. cbn zeta in E.
        destruct (f _ (k_radius1 c)) as [| |[|[i d] o]]; try discriminate.
        destruct (nth_error pts i); [|discriminate].
        destruct (f _ (k_radius2 c)) as [| |[|[i1 d1] o1]]; discriminate. }
      assert (r' = r).
      { unfold k_next in E. apply Z.leb_le in H. rewrite H in E. injection E as <-. reflexivity. }
      subst r'. rewrite k_finished in Hc by auto. injection Hc as <-. exists [], (S n). cbn [map app length].
      split; [reflexivity|]. split; [reflexivity|]. split; [lia|]. intros [|i] y; discriminate.
Qed.

(** each result, given the search specification *)
Context (s : scale) (e rmax : R) (Hnn : nn_spec s e (map (fun p => to_pt (p3 p)) pts) rmax f)
  (Hr1 : 0 <= k_radius1 c <= rmax) (Hr2 : 0 <= k_radius2 c <= rmax).
Let D p q := dist_sq s (to_pt (p3 p)) (to_pt q).
Definition result_ok (inc : vec3) (y : cast_result) : Prop :=
  (c_coll y = true -> exists p, c_point y = Some p /\ In p pts /\
     D p (c_pos y) < k_radius1 c * k_radius1 c /\ (forall p', In p' pts -> D p (c_pos y) <= (1 + e) * D p' (c_pos y)) /\
     (c_sin y = 1 /\ (forall p', In p' pts -> k_radius2 c * k_radius2 c <= (1 + e) * D p' (vsub (c_pos y) (vscale inc 2))) \/
      exists p1, In p1 pts /\ c_sin y = Rabs (sqrt (D p1 (vsub (c_pos y) (vscale inc 2))) - sqrt (D p (c_pos y))) / (k_gmin c * 2) /\
        D p1 (vsub (c_pos y) (vscale inc 2)) < k_radius2 c * k_radius2 c /\
        forall p', In p' pts -> D p1 (vsub (c_pos y) (vscale inc 2)) <= (1 + e) * D p' (vsub (c_pos y) (vscale inc 2)))) /\
  (c_coll y = false -> c_point y = None /\ c_sin y = 0 /\
     forall p, In p pts -> k_radius1 c * k_radius1 c <= (1 + e) * D p (c_pos y)).
Lemma nth_pts i q : nth_error (map (fun p => to_pt (p3 p)) pts) i = Some q ->
  exists p, nth_error pts i = Some p /\ In p pts /\ q = to_pt (p3 p).
Proof.
  rewrite nth_error_map. destruct (nth_error pts i) as [p|] eqn:E; [|discriminate]. intros [= <-].
  exists p. apply nth_error_In in E as E2. auto.
Qed.
Lemma in_pts p : In p pts -> In (to_pt (p3 p)) (map (fun p => to_pt (p3 p)) pts).
Proof. intros H. apply in_map_iff. eauto. Qed.
Lemma k_next_result r : exists r' a, k_next c f pts r = Some (r', a) /\
  match a with Some y => result_ok (k_inc r) y | None => True end.
Proof.
  unfold k_next. destruct (k_length r <=? k_count r)%Z; [exists r, None; split; [reflexivity|exact I]|]. cbn zeta.
  pose proof (Hnn (to_pt (k_pos r)) (k_radius1 c) Hr1) as S1.
  assert (Miss : (forall p, In p (map (fun p => to_pt (p3 p)) pts) -> k_radius1 c * k_radius1 c <= (1 + e) * dist_sq s p (to_pt (k_pos r))) ->
     result_ok (k_inc r) {| c_pos := k_pos r; c_coll := false; c_sin := 0; c_point := None |}).
  { intros H. split; [discriminate|]. intros _. cbn. split; [auto|]. split; [auto|]. intros p Hp. apply H, in_pts, Hp. }
  destruct (f (to_pt (k_pos r)) (k_radius1 c)) as [| |[|[i d] o]]; [contradiction|eexists _, _; split; [reflexivity|exact (Miss S1)]..|].
  destruct S1 as (q & Q1 & Q2 & Q3 & Q4). destruct (nth_pts i q Q1) as (p & P1 & P2 & ->). rewrite P1.
  pose proof (Hnn (to_pt (vsub (k_pos r) (vscale (k_inc r) 2))) (k_radius2 c) Hr2) as S2.
  assert (Hp : c_coll {| c_pos := k_pos r; c_coll := true; c_sin := 1; c_point := Some p |} = true) by reflexivity.
  destruct (f _ (k_radius2 c)) as [| |[|[i1 d1] o1]]; [contradiction| | |].
  1,2: eexists _, _; split; [reflexivity|]; split; [|discriminate]; intros _; cbn [c_point c_pos c_sin]; exists p;
    split; [reflexivity|]; split; [exact P2|]; split; [unfold D; rewrite <- Q2; exact Q3|];
    split; [intros p' Hp'; unfold D; rewrite <- Q2; apply Q4, in_pts, Hp'|];
    left; split; [reflexivity|]; intros p' Hp'; apply S2, in_pts, Hp'.
  destruct S2 as (q1 & R1 & R2 & R3 & R4). destruct (nth_pts i1 q1 R1) as (p1 & T1 & T2 & ->).
  eexists _, _. split; [reflexivity|]. split; [|discriminate]. intros _. cbn [c_point c_pos c_sin]. exists p.
  split; [reflexivity|]. split; [exact P2|]. split; [unfold D; rewrite <- Q2; exact Q3|].
  split; [intros p' Hp'; unfold D; rewrite <- Q2; apply Q4, in_pts, Hp'|].
  right. exists p1. split; [exact T2|]. split; [unfold D; rewrite <- Q2, <- R2; reflexivity|].
  split; [unfold D; rewrite <- R2; exact R3|]. intros p' Hp'. unfold D. rewrite <- R2. apply R4, in_pts, Hp'.
Qed.
Lemma k_results : forall n r, exists l, calls (k_next c f pts) n r = Some l /\ Forall (result_ok (k_inc r)) (reported l).
Proof.
  induction n as [|n IH]; intros r; cbn [calls].
  - exists []. split; [reflexivity|constructor].
  - destruct (k_next_result r) as (r' & a & E & Ha). rewrite E. destruct (IH r') as (l & El & Hl). rewrite El. cbn [option_map].
    eexists. split; [reflexivity|]. destruct a as [y|]; cbn [reported]; [|constructor]. constructor; [exact Ha|].
    destruct (k_next_pos r r' y E) as (_ & _ & _ & A4 & _). rewrite A4 in Hl. exact Hl.
Qed.
End K.
Lemma reported_app rs k : reported (map Some rs ++ repeat None k) = rs.
Proof. induction rs as [|y rs IH]; cbn; [destruct k; reflexivity|congruence]. Qed.
Lemma radius1_le gx gy gz tol : 0 < gx -> 0 < gy -> 0 < gz ->
  let c := new_kray gx gy gz tol in 0 <= k_radius1 c <= 4 * k_gmax c /\ 0 <= k_radius2 c <= 4 * k_gmax c /\ 0 < k_gmin c <= k_gmax c.
Proof.
  intros Hx Hy Hz c. unfold k_radius1, k_radius2.
  assert (S2 : 0 < sqrt 2 < 3 / 2).
  { split; [apply sqrt_lt_R0; lra|]. rewrite <- (sqrt_square (3/2)) by lra. apply sqrt_lt_1; lra. }
  assert (G : 0 < k_gmin c <= k_gmax c).
  { unfold c, new_kray. cbn [k_gmin k_gmax]. split; [repeat apply Rmin_pos; auto|].
    eapply Rle_trans; [apply Rmin_l|apply Rmax_l]. }
  split; [split; nra|]. split; [split; nra|]. exact G.
Qed.
