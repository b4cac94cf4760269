(** Geometry of the voxel traversal (real arithmetic). *)
From Coq Require Import Reals ZArith List Bool Arith Lra Lia Psatz Nsatz.
From Verif Require Import Arith QuatModel StateModel KdModel RayModel RaySpec RayProofs.
Import ListNotations.
Open Scope R_scope.

Lemma vget_add u v a : vget3 (vadd u v) a = vget3 u a + vget3 v a. Proof. destruct a; reflexivity. Qed.
Lemma vget_sub u v a : vget3 (vsub u v) a = vget3 u a - vget3 v a. Proof. destruct a; reflexivity. Qed.
Lemma vget_scale u s a : vget3 (vscale u s) a = vget3 u a * s. Proof. destruct a; reflexivity. Qed.
Lemma vget_div u s a : vget3 (vdiv u s) a = vget3 u a / s. Proof. destruct a; reflexivity. Qed.
Lemma vec_ext u v : (forall a, vget3 u a = vget3 v a) -> u = v.
Proof. intros H. pose proof (H AX). pose proof (H AY). pose proof (H AZ). destruct u, v. cbn in *. congruence. Qed.
Lemma vnorm_pos b e : b <> e -> 0 < vnorm (vsub e b).
Proof.
  intros H. unfold vnorm. apply sqrt_lt_R0. unfold vdot, vsub. cbn [vx vy vz].
  assert (N : forall p q r : R, p <> 0 \/ q <> 0 \/ r <> 0 -> 0 < p * p + q * q + r * r).
  { intros p q r HH. pose proof (Rle_0_sqr p) as P. pose proof (Rle_0_sqr q) as Q. pose proof (Rle_0_sqr r) as S.
    unfold Rsqr in *. destruct HH as [X|[X|X]]; apply Rlt_0_sqr in X; unfold Rsqr in X; lra. }
  apply N. destruct (Req_dec (vx e - vx b) 0) as [Ex|Ex]; [|tauto].
  destruct (Req_dec (vy e - vy b) 0) as [Ey|Ey]; [|tauto].
  destruct (Req_dec (vz e - vz b) 0) as [Ez|Ez]; [|tauto].
  exfalso. apply H. destruct b, e. cbn in *. f_equal; lra.
Qed.

Lemma affine_between x0 d t0 t1 t lo hi : t0 <= t <= t1 ->
  lo <= x0 + d * t0 <= hi -> lo <= x0 + d * t1 <= hi -> lo <= x0 + d * t <= hi.
Proof.
  intros Ht H0 H1. destruct (Rle_dec 0 d) as [Hd|Hd].
  - assert (d * t0 <= d * t <= d * t1) by (split; apply Rmult_le_compat_l; lra). lra.
  - assert (- d * t0 <= - d * t <= - d * t1) by (split; apply Rmult_le_compat_l; lra). lra.
Qed.

Section Geo.
Context (c : dda_cfg) (g : grid) (b e : vec3).
Let G := d_grid c.
Let d := vnormalized (vsub e b).
Let te := vnorm (vsub e b) + d_tol c.
Let E := ray_end_of c b e.
Let mn a := vget3 (g_min g) a.
Let bi a := iget (toIndex exact exact c (g_min g) b) a.
Let ei a := iget (toIndex exact exact c (g_min g) E) a.
Let D a := (ei a - bi a)%Z.
Let x a t := vget3 b a + vget3 d a * t.
Let r0 := start_ray exact exact c g b e.
Context (HG : 0 < G) (Htol : 0 <= d_tol c) (Hbe : b <> e)
  (Hb : forall a, mn a <= vget3 b a) (HE : forall a, mn a <= vget3 E a).

Lemma te_pos : 0 < te. Proof. unfold te. pose proof (vnorm_pos b e Hbe). lra. Qed.
Lemma x_end a : vget3 E a = x a te.
Proof.
  unfold E, ray_end_of, x, te. rewrite vget_add, vget_scale. fold d.
  assert (H : vget3 d a * vnorm (vsub e b) = vget3 (vsub e b) a).
  { unfold d, vnormalized. rewrite vget_div. field. pose proof (vnorm_pos b e Hbe). lra. }
  rewrite vget_sub in H. lra.
Qed.
Lemma floor_cell y k m : Rfloor ((y - m) / G) = k -> m + IZR k * G <= y < m + (IZR k + 1) * G.
Proof.
  intros <-. destruct (Rfloor_spec ((y - m) / G)) as [H1 H2].
  set (f := IZR (Rfloor ((y - m) / G))) in *. assert (Hy : (y - m) / G * G = y - m) by (field; lra).
  split; nra.
Qed.
Lemma index_floor m y : m <= y -> index1 exact exact c m y = Rfloor ((y - m) / G).
Proof.
  intros H. unfold index1, exact. apply trunc_nonneg. apply Rmult_le_pos; [lra|].
  apply Rlt_le, Rinv_0_lt_compat, HG.
Qed.
Lemma b_cell a : mn a + IZR (bi a) * G <= vget3 b a < mn a + (IZR (bi a) + 1) * G.
Proof. apply floor_cell. unfold bi. rewrite toIndex_get, index_floor; [reflexivity|apply Hb]. Qed.
Lemma e_cell a : mn a + IZR (ei a) * G <= x a te < mn a + (IZR (ei a) + 1) * G.
Proof. rewrite <- x_end. apply floor_cell. unfold ei. rewrite toIndex_get, index_floor; [reflexivity|apply HE]. Qed.
Lemma D_sign a : ((0 < D a)%Z -> 0 < vget3 d a) /\ ((D a < 0)%Z -> vget3 d a < 0).
Proof.
  pose proof (b_cell a) as B. pose proof (e_cell a) as Ec. pose proof te_pos. unfold x in Ec. unfold D. split; intros H0.
  - assert (bi a + 1 <= ei a)%Z by lia. apply IZR_le in H1. rewrite plus_IZR in H1.
    assert ((IZR (bi a) + 1) * G <= IZR (ei a) * G) by (apply Rmult_le_compat_r; lra). nra.
  - assert (ei a + 1 <= bi a)%Z by lia. apply IZR_le in H1. rewrite plus_IZR in H1.
    assert ((IZR (ei a) + 1) * G <= IZR (bi a) * G) by (apply Rmult_le_compat_r; lra). nra.
Qed.
(** when the ray leaves cell [k] of an axis *)
Definition lv a (k : Z) : R :=
  if (D a <? 0)%Z then (mn a + IZR k * G - vget3 b a) / vget3 d a
  else (mn a + (IZR k + 1) * G - vget3 b a) / vget3 d a.
Lemma x_lv a k : D a <> 0%Z ->
  x a (lv a k) = if (D a <? 0)%Z then mn a + IZR k * G else mn a + (IZR k + 1) * G.
Proof.
  intros H. destruct (D_sign a) as [Hp Hn]. unfold x, lv.
  destruct (Z.ltb_spec (D a) 0) as [Hlt|Hge]; field; [specialize (Hn Hlt); lra|].
  assert (0 < vget3 d a) by (apply Hp; lia). lra.
Qed.
Lemma edge_lv a : edges r0 a = if (D a =? 0)%Z then None else Some (lv a (bi a)).
Proof.
  change (edges r0 a) with (edge1 c (mn a) (D a) (bi a) (vget3 d a) (vget3 b a)). unfold edge1. fold G.
  destruct (Z.eqb_spec (D a) 0) as [H0|H0]; [reflexivity|]. f_equal.
  pose proof (b_cell a) as B. destruct (D_sign a) as [Hp Hn]. unfold lv.
  destruct (Z.ltb_spec (D a) 0) as [Hlt|Hge].
  - specialize (Hn Hlt). assert (Hr : Rltb (vget3 d a) 0 = true) by (apply Rltb_true; lra). rewrite Hr.
    rewrite (Rplus_comm (IZR _ * G)). apply Rabs_right, Rle_ge.
    replace ((mn a + IZR (bi a) * G - vget3 b a) / vget3 d a)
      with ((vget3 b a - (mn a + IZR (bi a) * G)) * / (- vget3 d a)) by (field; lra).
    apply Rmult_le_pos; [lra|]. apply Rlt_le, Rinv_0_lt_compat. lra.
  - assert (Hd : 0 < vget3 d a) by (apply Hp; lia).
    assert (Hr : Rltb (vget3 d a) 0 = false) by (apply Rltb_false; lra). rewrite Hr.
    rewrite (Rplus_comm (_ * G)). apply Rabs_right, Rle_ge. apply Rmult_le_pos; [lra|].
    apply Rlt_le, Rinv_0_lt_compat. lra.
Qed.
Lemma delta_lv a : delta r0 a = if (D a =? 0)%Z then None else Some (G / Rabs (vget3 d a)).
Proof.
  change (delta r0 a) with (delta1 c (D a) (vget3 d a)). unfold delta1. fold G.
  destruct (Z.eqb_spec (D a) 0) as [H0|H0]; [reflexivity|]. f_equal.
  unfold Rdiv. rewrite Rabs_mult, (Rabs_right G) by lra. f_equal.
  apply Rabs_inv.
Qed.
Lemma step_of a : iget (step r0) a = if (D a <? 0)%Z then (-1)%Z else 1%Z.
Proof. destruct a; reflexivity. Qed.
Lemma lv_add a k n : D a <> 0%Z -> (0 <= (k - bi a) * iget (step r0) a)%Z -> n = Z.abs (k - bi a) ->
  lv a (bi a) + G / Rabs (vget3 d a) * IZR n = lv a k.
Proof.
  intros H0 Hk ->. rewrite step_of in Hk. destruct (D_sign a) as [Hp Hn]. unfold lv.
  destruct (Z.ltb_spec (D a) 0) as [Hlt|Hge].
  - specialize (Hn Hlt). rewrite Rabs_left by lra. rewrite Z.abs_neq by lia. rewrite opp_IZR, minus_IZR. field. lra.
  - assert (Hd : 0 < vget3 d a) by (apply Hp; lia). rewrite Rabs_right by lra. rewrite Z.abs_eq by lia.
    rewrite minus_IZR. field. lra.
Qed.

(** the traversal invariant *)
Definition steps (r : ray) : Z :=
  (Z.abs (ix (cur_idx r) - bi AX) + Z.abs (iy (cur_idx r) - bi AY) + Z.abs (iz (cur_idx r) - bi AZ))%Z.
Record geo (r : ray) (T : R) : Prop := {
  ge_bi : forall a, iget (b_idx r) a = bi a;
  ge_step : step r = step r0; ge_edges : edges r = edges r0; ge_delta : delta r = delta r0;
  ge_max : max_movement r = max_movement r0;
  ge_b : r_begin r = b; ge_d : r_dir r = d;
  ge_T : 0 <= T <= te;
  ge_cell : forall a, mn a + IZR (iget (cur_idx r) a) * G <= x a T <= mn a + (IZR (iget (cur_idx r) a) + 1) * G;
  ge_t : forall a, t_max r a = if (D a =? 0)%Z then None else Some (lv a (iget (cur_idx r) a));
  ge_0 : forall a, D a = 0%Z -> iget (cur_idx r) a = bi a;
  ge_dir : forall a, (0 <= (iget (cur_idx r) a - bi a) * iget (step r0) a)%Z;
  ge_n : steps r = posn r }.
Lemma geo_start : geo r0 0.
Proof.
  assert (Hc : forall a, iget (cur_idx r0) a = bi a) by (intros []; reflexivity).
  constructor; try reflexivity.
  - pose proof te_pos. lra.
  - intros a. rewrite Hc. unfold x. pose proof (b_cell a). lra.
  - intros a. rewrite Hc. change (t_max r0 a) with (edges r0 a). apply edge_lv.
  - intros a. rewrite Hc. lia.
  - unfold steps. change (ix (cur_idx r0)) with (bi AX). change (iy (cur_idx r0)) with (bi AY).
    change (iz (cur_idx r0)) with (bi AZ). change (posn r0) with 0%Z. lia.
Qed.

(** choose picks the smallest time *)
Definition tle (u v : option R) : Prop :=
  match u, v with Some p, Some q => p <= q | None, Some _ => False | _, None => True end.
Lemma choose_min t a : tle (t (choose t)) (t a).
Proof.
  unfold choose, tlt. destruct (t AX) as [tx|] eqn:Ex, (t AY) as [ty|] eqn:Ey, (t AZ) as [tz|] eqn:Ez;
  repeat match goal with |- context [Rltb ?p ?q] => let H := fresh in destruct (Rltb p q) eqn:H;
    [apply Rltb_true in H|apply Rltb_false in H] end;
  destruct a; rewrite ?Ex, ?Ey, ?Ez; cbn; try lra; auto.
Qed.

Lemma lv_mono_in a k t : D a <> 0%Z -> mn a + IZR k * G <= x a t <= mn a + (IZR k + 1) * G -> t <= lv a k.
Proof.
  intros H0 Hx. destruct (D_sign a) as [Hp Hn]. pose proof (x_lv a k H0) as Hl. unfold x in *.
  destruct (Z.ltb_spec (D a) 0) as [Hlt|Hge].
  - specialize (Hn Hlt). assert (vget3 d a * lv a k <= vget3 d a * t) by lra. nra.
  - assert (Hd : 0 < vget3 d a) by (apply Hp; lia). assert (vget3 d a * t <= vget3 d a * lv a k) by lra. nra.
Qed.
(** an axis with steps left is left before the end *)
Lemma lv_left a k : D a <> 0%Z -> (0 <= (k - bi a) * iget (step r0) a)%Z -> (Z.abs (k - bi a) < Z.abs (D a))%Z ->
  lv a k <= te.
Proof.
  intros H0 Hk Hl. rewrite step_of in Hk. destruct (D_sign a) as [Hp Hn]. pose proof (x_lv a k H0) as Hx.
  pose proof (e_cell a) as Ec. unfold x in *. 
  destruct (Z.ltb_spec (D a) 0) as [Hlt|Hge].
  - specialize (Hn Hlt). assert (ei a + 1 <= k)%Z by (unfold D in *; lia). apply IZR_le in H. rewrite plus_IZR in H.
    assert ((IZR (ei a) + 1) * G <= IZR k * G) by (apply Rmult_le_compat_r; lra). nra.
  - assert (Hd : 0 < vget3 d a) by (apply Hp; lia). assert (k + 1 <= ei a)%Z by (unfold D in *; lia).
    apply IZR_le in H. rewrite plus_IZR in H.
    assert ((IZR k + 1) * G <= IZR (ei a) * G) by (apply Rmult_le_compat_r; lra). nra.
Qed.
(** an axis without steps left is not left before the end *)
Definition no_tie := forall a, (D a < 0)%Z -> vget3 E a <> mn a + IZR (ei a) * G.
Lemma lv_end a : no_tie -> D a <> 0%Z -> te < lv a (ei a).
Proof.
  intros Ht H0. destruct (D_sign a) as [Hp Hn]. pose proof (x_lv a (ei a) H0) as Hx.
  pose proof (e_cell a) as Ec. specialize (Ht a). rewrite x_end in Ht. unfold x in *.
  destruct (Z.ltb_spec (D a) 0) as [Hlt|Hge].
  - specialize (Hn Hlt). specialize (Ht Hlt). assert (mn a + IZR (ei a) * G < vget3 b a + vget3 d a * te) by lra. nra.
  - assert (Hd : 0 < vget3 d a) by (apply Hp; lia). nra.
Qed.
Lemma D_max : max_movement r0 = (Z.abs (D AX) + Z.abs (D AY) + Z.abs (D AZ))%Z. Proof. reflexivity. Qed.

(** the time of the next crossing *)
Lemma next_cross r T : geo r T -> (steps r < max_movement r0)%Z ->
  let a := choose (t_max r) in let T' := lv a (iget (cur_idx r) a) in
  D a <> 0%Z /\ T <= T' <= te /\
  (forall a' t, T <= t <= T' -> mn a' + IZR (iget (cur_idx r) a') * G <= x a' t <= mn a' + (IZR (iget (cur_idx r) a') + 1) * G) /\
  (no_tie -> iget (cur_idx r) a <> ei a).
Proof.
  intros Hgeo Hn a T'. 
  assert (Hex : exists a', D a' <> 0%Z /\ (Z.abs (iget (cur_idx r) a' - bi a') < Z.abs (D a'))%Z).
  { rewrite D_max in Hn. unfold steps in Hn.
    assert ((Z.abs (iget (cur_idx r) AX - bi AX) < Z.abs (D AX)) \/ (Z.abs (iget (cur_idx r) AY - bi AY) < Z.abs (D AY)) \/
            (Z.abs (iget (cur_idx r) AZ - bi AZ) < Z.abs (D AZ)))%Z as [H|[H|H]] by (cbn [iget]; lia);
    [exists AX|exists AY|exists AZ]; split; auto; lia. }
  destruct Hex as (a1 & Ha1 & Hs1).
  pose proof (choose_min (t_max r) a1) as Hmin. fold a in Hmin. rewrite !(ge_t _ _ Hgeo) in Hmin.
  destruct (Z.eqb_spec (D a1) 0) as [?|_]; [contradiction|].
  destruct (Z.eqb_spec (D a) 0) as [?|Ha]; [contradiction|]. cbn in Hmin.
  pose proof (lv_left a1 _ Ha1 (ge_dir _ _ Hgeo a1) Hs1) as Hle.
  assert (HT : T <= T') by (apply lv_mono_in; [auto|apply (ge_cell _ _ Hgeo)]).
  split; [auto|]. split; [unfold T' in *; lra|]. split.
  - intros a' t Ht. pose proof (ge_cell _ _ Hgeo a') as C.
    destruct (Z.eq_dec (D a') 0) as [H0|H0].
    + (* whole segment in one cell *)
      pose proof (e_cell a') as Ec. pose proof (b_cell a') as Bc. rewrite (ge_0 _ _ Hgeo a' H0) in *.
      assert (ei a' = bi a') by (unfold D in H0; lia). rewrite H in Ec. unfold x in *.
      assert (0 <= t <= te) by (pose proof (ge_T _ _ Hgeo); unfold T' in *; lra).
      apply (affine_between _ _ 0 te); lra.
    + pose proof (choose_min (t_max r) a') as Hm2. fold a in Hm2. rewrite !(ge_t _ _ Hgeo) in Hm2.
      destruct (Z.eqb_spec (D a') 0) as [?|_]; [contradiction|].
      destruct (Z.eqb_spec (D a) 0) as [?|_]; [contradiction|]. cbn in Hm2.
      assert (Ht2 : t <= lv a' (iget (cur_idx r) a')) by (unfold T' in *; lra).
      pose proof (x_lv a' (iget (cur_idx r) a') H0) as Hx.
      apply (affine_between _ _ T (lv a' (iget (cur_idx r) a'))); [lra|exact C|].
      change (mn a' + IZR (iget (cur_idx r) a') * G <= x a' (lv a' (iget (cur_idx r) a'))
              <= mn a' + (IZR (iget (cur_idx r) a') + 1) * G).
      rewrite Hx. destruct (D a' <? 0)%Z; lra.
  - intros Htie Eq. pose proof (lv_end a Htie Ha) as L. rewrite <- Eq in L. fold T' in L. unfold T' in *. lra.
Qed.

Definition pt_at (t : R) : vec3 := vadd b (vscale d t).
Definition cell (v : i3) (t : R) : Prop :=
  forall a, mn a + IZR (iget v a) * G <= x a t <= mn a + (IZR (iget v a) + 1) * G.
Lemma fromIndex_get v a : vget3 (fromIndex c (g_min g) v) a = (IZR (iget v a) + / 2) * G + mn a.
Proof. destruct a; reflexivity. Qed.
Lemma pt_get t a : vget3 (pt_at t) a = x a t.
Proof. unfold pt_at, x. rewrite vget_add, vget_scale. reflexivity. Qed.
Lemma cell_cube v t : cell v t -> cube G (fromIndex c (g_min g) v) (pt_at t).
Proof. intros H a. rewrite fromIndex_get, pt_get. specialize (H a). apply Rabs_le. lra. Qed.
Lemma pt_on_segment t : 0 <= t <= te -> on_segment b E (pt_at t).
Proof.
  intros Ht. pose proof te_pos as Hp. exists (t / te). split.
  - split; [apply Rmult_le_pos; [lra|apply Rlt_le, Rinv_0_lt_compat; lra]|].
    apply Rmult_le_reg_r with te; [lra|]. replace (t / te * te) with t by (field; lra). lra.
  - apply vec_ext. intros a. rewrite pt_get, vget_add, vget_scale, vget_sub, x_end. unfold x. field. lra.
Qed.
Lemma segment_pt q : on_segment b E q -> exists t, 0 <= t <= te /\ q = pt_at t.
Proof.
  intros (s & Hs & ->). exists (s * te). pose proof te_pos. split; [split; nra|].
  apply vec_ext. intros a. rewrite pt_get, vget_add, vget_scale, vget_sub, x_end. unfold x. ring.
Qed.

(** one step of the traversal *)
Definition next_idx (r : ray) : i3 :=
  let a := choose (t_max r) in iset (cur_idx r) a (iget (cur_idx r) a + iget (step r) a)%Z.
Definition next_T (r : ray) : R := let a := choose (t_max r) in lv a (iget (cur_idx r) a).
Lemma cross_cell r T : geo r T -> (steps r < max_movement r0)%Z -> cell (next_idx r) (next_T r).
Proof.
  intros Hgeo Hn a'. destruct (next_cross r T Hgeo Hn) as (Ha & HT & Hcell & _).
  unfold next_idx, next_T. set (a := choose (t_max r)) in *. rewrite iget_iset.
  destruct (axis_eqb a' a) eqn:Eq.
  - apply axis_eqb_eq in Eq. subst a'. rewrite x_lv by auto. rewrite (ge_step _ _ Hgeo), step_of.
    rewrite plus_IZR. destruct (D a <? 0)%Z; lra.
  - apply Hcell. lra.
Qed.
Lemma geo_next r T r' x0 : geo r T -> dda_next c g r = Some (r', Some x0) -> in_grid (g_size g) (cur_idx r) ->
  geo r' (next_T r) /\ (steps r < max_movement r0)%Z /\ cur_idx r' = next_idx r /\ posn r' = (posn r + 1)%Z /\
  in_grid (g_size g) (cur_idx r') /\ c_pos x0 = fromIndex c (g_min g) (cur_idx r').
Proof.
  intros Hgeo Hd Hin. unfold dda_next in Hd. cbn zeta in Hd. cbn [bump max_movement posn] in Hd.
  destruct (max_movement r <=? posn r + 1)%Z eqn:Em; [discriminate|]. apply Z.leb_gt in Em.
  assert (Hn : (steps r < max_movement r0)%Z) by (rewrite (ge_n _ _ Hgeo), <- (ge_max _ _ Hgeo); lia).
  pose proof (cross_cell r T Hgeo Hn) as Hcell. destruct (next_cross r T Hgeo Hn) as (Ha & HT & _ & _).
  change (t_max (bump r)) with (t_max r) in Hd.
  fold (bump r) in Hd.
  pose proof (increment_cases g (bump r) (choose (t_max r)) Hin) as Hinc. cbn zeta in Hinc.
  assert (Ht : t_max (fst (increment g (bump r) (choose (t_max r)))) = fun a' => if axis_eqb a' (choose (t_max r)) then
     match edges r (choose (t_max r)), delta r (choose (t_max r)) with
     | Some e0, Some d0 => Some (e0 + d0 * IZR (Z.abs (iget (next_idx r) (choose (t_max r)) - iget (b_idx r) (choose (t_max r)))))
     | _, _ => None end else t_max r a').
  { unfold increment. cbn zeta. match goal with |- context [if ?b then _ else _] => destruct b end; reflexivity. }
  destruct (increment g (bump r) (choose (t_max r))) as [r2 ok]. cbn [fst snd] in *.
  destruct Hinc as (I1 & I2 & I3_ & I4 & I5 & I6 & I7 & I8 & [(-> & I9 & I10)|(-> & _)]); [|discriminate].
  destruct (hasIntersection c g r2 (cur_idx r2)) as [hit|]; [|discriminate].
  injection Hd as <- <-. cbn [c_pos].
  change (cur_idx r2 = next_idx r) in I1. change (step r2 = step r) in I6.
  assert (Hnn : (0 <= (iget (next_idx r) (choose (t_max r)) - bi (choose (t_max r))) * iget (step r0) (choose (t_max r)))%Z).
  { unfold next_idx. rewrite iget_iset. replace (axis_eqb _ _) with true by (destruct (choose (t_max r)); reflexivity).
    pose proof (ge_dir _ _ Hgeo (choose (t_max r))). rewrite (ge_step _ _ Hgeo). rewrite step_of in *.
    destruct (D _ <? 0)%Z; lia. }
  split; [|split; [exact Hn|split; [exact I1|split; [exact I10|split; [exact I9|reflexivity]]]]].
  constructor.
  - intros a. rewrite I5. apply (ge_bi _ _ Hgeo).
  - rewrite I6. apply (ge_step _ _ Hgeo).
  - rewrite I7. apply (ge_edges _ _ Hgeo).
  - rewrite I8. apply (ge_delta _ _ Hgeo).
  - rewrite I2. apply (ge_max _ _ Hgeo).
  - rewrite I3_. apply (ge_b _ _ Hgeo).
  - rewrite I4. apply (ge_d _ _ Hgeo).
  - pose proof (ge_T _ _ Hgeo). unfold next_T. lra.
  - rewrite I1. exact Hcell.
  - intros a. rewrite Ht, I1. destruct (axis_eqb a (choose (t_max r))) eqn:Eq.
    + apply axis_eqb_eq in Eq. subst a. rewrite (ge_edges _ _ Hgeo), (ge_delta _ _ Hgeo), edge_lv, delta_lv.
      destruct (Z.eqb_spec (D (choose (t_max r))) 0) as [?|_]; [contradiction|]. f_equal.
      rewrite (ge_bi _ _ Hgeo). apply lv_add; auto.
    + rewrite (ge_t _ _ Hgeo). unfold next_idx. rewrite iget_iset, Eq. reflexivity.
  - intros a H0. rewrite I1. unfold next_idx. rewrite iget_iset. destruct (axis_eqb a (choose (t_max r))) eqn:Eq.
    + apply axis_eqb_eq in Eq. subst a. contradiction.
    + apply (ge_0 _ _ Hgeo); auto.
  - intros a. rewrite I1. destruct (axis_eqb a (choose (t_max r))) eqn:Eq.
    + apply axis_eqb_eq in Eq. subst a. exact Hnn.
    + unfold next_idx. rewrite iget_iset, Eq. apply (ge_dir _ _ Hgeo).
  - rewrite I10. cbn [bump posn]. rewrite <- (ge_n _ _ Hgeo).
    assert (Hs : forall a, iget (next_idx r) a = if axis_eqb a (choose (t_max r)) then (iget (cur_idx r) a + (if (D a <? 0)%Z then -1 else 1))%Z else iget (cur_idx r) a).
    { intros a. unfold next_idx. rewrite iget_iset. destruct (axis_eqb a (choose (t_max r))) eqn:Eq; [|reflexivity].
      apply axis_eqb_eq in Eq. subst a. rewrite (ge_step _ _ Hgeo), step_of. reflexivity. }
    unfold steps. rewrite I1. 
    pose proof (Hs AX) as X1. pose proof (Hs AY) as Y1. pose proof (Hs AZ) as Z1. cbn [iget] in X1, Y1, Z1. rewrite X1, Y1, Z1.
    pose proof (ge_dir _ _ Hgeo AX) as DX. pose proof (ge_dir _ _ Hgeo AY) as DY. pose proof (ge_dir _ _ Hgeo AZ) as DZ.
    rewrite step_of in DX, DY, DZ. cbn [iget] in DX, DY, DZ.
    destruct (choose (t_max r)); cbn [axis_eqb];
    [destruct (D AX <? 0)%Z|destruct (D AY <? 0)%Z|destruct (D AZ <? 0)%Z]; lia.
Qed.

(** the reported voxels form a chain, and each meets the segment *)
Lemma path : forall n r T l, geo r T -> in_grid (g_size g) (cur_idx r) -> calls (dda_next c g) n r = Some l ->
  chain (one_step G d) (fromIndex c (g_min g) (cur_idx r)) (map c_pos (reported l)) /\
  Forall (fun y => exists t, 0 <= t <= te /\ cube G (c_pos y) (pt_at t)) (reported l).
Proof.
  induction n as [|n IH]; intros r T l Hgeo Hin Hc; cbn [calls] in Hc.
  - injection Hc as <-. split; [exact I|constructor].
  - destruct (dda_next c g r) as [[r' [y|]]|] eqn:Ed; [| |discriminate].
    + destruct (calls (dda_next c g) n r') as [l'|] eqn:El; [|discriminate]. injection Hc as <-.
      destruct (geo_next r T r' y Hgeo Ed Hin) as (Hg' & Hn & Hi & Hp & Hin' & Hy).
      destruct (IH r' _ l' Hg' Hin' El) as [C1 C2]. cbn [reported map chain]. split; [split|].
      * destruct (next_cross r T Hgeo Hn) as (Ha & _). exists (choose (t_max r)). rewrite Hy, Hi. unfold next_idx.
        split.
        -- intros a' Hne. rewrite !fromIndex_get, iget_iset. destruct (axis_eqb a' _) eqn:Eq; [|reflexivity].
           apply axis_eqb_eq in Eq. contradiction.
        -- rewrite !fromIndex_get, iget_iset. replace (axis_eqb _ _) with true by (destruct (choose (t_max r)); reflexivity).
           rewrite plus_IZR, (ge_step _ _ Hgeo), step_of. destruct (D_sign (choose (t_max r))) as [Sp Sn].
           destruct (Z.ltb_spec (D (choose (t_max r))) 0) as [Hlt|Hge]; [right|left]; (split; [|lra]); auto.
           apply Sp. lia.
      * rewrite Hy. exact C1.
      * constructor; [|exact C2]. exists (next_T r). split; [apply (ge_T _ _ Hg')|].
        rewrite Hy. apply cell_cube. exact (ge_cell _ _ Hg').
    + destruct (calls (dda_next c g) n r'); [|discriminate]. injection Hc as <-. split; [exact I|constructor].
Qed.

(** no voxel on the way is skipped *)
Definition between (v : i3) : Prop := forall a, ((Z.abs (iget v a - bi a) <= Z.abs (D a)) /\ 0 <= (iget v a - bi a) * iget (step r0) a)%Z.
Definition end_idx : i3 := toIndex exact exact c (g_min g) E.
Lemma i3_ext u v : (forall a, iget u a = iget v a) -> u = v.
Proof. intros H. pose proof (H AX). pose proof (H AY). pose proof (H AZ). destruct u, v. cbn in *. congruence. Qed.
Lemma cell_end : cell end_idx te.
Proof. intros a. change (iget end_idx a) with (ei a). pose proof (e_cell a). lra. Qed.
Lemma all_steps v : between v -> (Z.abs (ix v - bi AX) + Z.abs (iy v - bi AY) + Z.abs (iz v - bi AZ))%Z = max_movement r0 ->
  v = end_idx.
Proof.
  intros Hb' Hs. rewrite D_max in Hs. apply i3_ext. intros a. change (iget end_idx a) with (ei a).
  pose proof (Hb' AX) as [X1 X2]. pose proof (Hb' AY) as [Y1 Y2]. pose proof (Hb' AZ) as [Z1 Z2].
  rewrite step_of in X2, Y2, Z2. cbn [iget] in *.
  assert (Hax : (Z.abs (iget v a - bi a) = Z.abs (D a))%Z) by (destruct a; cbn [iget]; lia).
  pose proof (Hb' a) as [_ A2]. rewrite step_of in A2. unfold D in *. destruct (Z.ltb_spec (ei a - bi a) 0); lia.
Qed.
Lemma next_between r T : no_tie -> geo r T -> (steps r < max_movement r0)%Z -> between (cur_idx r) -> between (next_idx r).
Proof.
  intros Ht Hgeo Hn Hbt a'. destruct (next_cross r T Hgeo Hn) as (Ha & _ & _ & Hne). specialize (Hne Ht).
  unfold next_idx. rewrite iget_iset. destruct (axis_eqb a' _) eqn:Eq; [|apply Hbt].
  apply axis_eqb_eq in Eq. subst a'. set (a := choose (t_max r)) in *. destruct (Hbt a) as [B1 B2].
  rewrite (ge_step _ _ Hgeo). rewrite step_of in *. unfold D in *.
  destruct (Z.ltb_spec (ei a - bi a) 0); lia.
Qed.
Lemma next_steps r T : geo r T -> (steps r < max_movement r0)%Z ->
  (Z.abs (ix (next_idx r) - bi AX) + Z.abs (iy (next_idx r) - bi AY) + Z.abs (iz (next_idx r) - bi AZ) = steps r + 1)%Z.
Proof.
  intros Hgeo Hn.
  assert (Hs : forall a, iget (next_idx r) a = if axis_eqb a (choose (t_max r)) then (iget (cur_idx r) a + (if (D a <? 0)%Z then -1 else 1))%Z else iget (cur_idx r) a).
  { intros a. unfold next_idx. rewrite iget_iset. destruct (axis_eqb a (choose (t_max r))) eqn:Eq; [|reflexivity].
    apply axis_eqb_eq in Eq. subst a. rewrite (ge_step _ _ Hgeo), step_of. reflexivity. }
  unfold steps.
  pose proof (Hs AX) as X1. pose proof (Hs AY) as Y1. pose proof (Hs AZ) as Z1. cbn [iget] in X1, Y1, Z1. rewrite X1, Y1, Z1.
  pose proof (ge_dir _ _ Hgeo AX) as DX. pose proof (ge_dir _ _ Hgeo AY) as DY. pose proof (ge_dir _ _ Hgeo AZ) as DZ.
  rewrite step_of in DX, DY, DZ. cbn [iget] in DX, DY, DZ.
  destruct (choose (t_max r)); cbn [axis_eqb];
  [destruct (D AX <? 0)%Z|destruct (D AY <? 0)%Z|destruct (D AZ <? 0)%Z]; lia.
Qed.
Lemma between_steps v : between v -> (Z.abs (ix v - bi AX) + Z.abs (iy v - bi AY) + Z.abs (iz v - bi AZ) <= max_movement r0)%Z.
Proof.
  intros H. rewrite D_max. pose proof (H AX) as [? _]. pose proof (H AY) as [? _]. pose proof (H AZ) as [? _]. cbn [iget] in *. lia.
Qed.
Lemma cover : no_tie -> (forall v, between v -> in_grid (g_size g) v) ->
  forall n r T l, geo r T -> between (cur_idx r) -> calls (dda_next c g) n r = Some l ->
  (max_movement r0 <= Z.of_nat n + posn r)%Z ->
  Z.of_nat (length (reported l)) = Z.max 0 (max_movement r0 - 1 - posn r) /\
  Forall (fun y => exists v, between v /\ c_pos y = fromIndex c (g_min g) v) (reported l) /\
  forall t, T <= t <= te -> exists p, cube G p (pt_at t) /\
    (p = fromIndex c (g_min g) (cur_idx r) \/ In p (map c_pos (reported l)) \/ p = fromIndex c (g_min g) end_idx).
Proof.
  intros Ht Hgrid. induction n as [|n IH]; intros r T l Hgeo Hbt Hc Hn.
  - (* no call: the traversal was already complete *)
    injection Hc as <-. cbn [reported length map]. rewrite Z.max_l by lia. split; [reflexivity|]. split; [constructor|].
    intros t Htt. exists (fromIndex c (g_min g) (cur_idx r)). split; [|auto].
    assert (Ec : cur_idx r = end_idx).
    { apply all_steps; auto. pose proof (ge_n _ _ Hgeo) as N. unfold steps in N.
      pose proof (between_steps _ Hbt). lia. }
    apply cell_cube. intros a. apply (affine_between _ _ T te); auto; [apply (ge_cell _ _ Hgeo)|].
    rewrite Ec. apply cell_end.
  - cbn [calls] in Hc. destruct (dda_next c g r) as [[r' [y|]]|] eqn:Ed; [| |discriminate].
    + destruct (calls (dda_next c g) n r') as [l'|] eqn:El; [|discriminate]. injection Hc as <-.
      destruct (geo_next r T r' y Hgeo Ed (Hgrid _ Hbt)) as (Hg' & Hs & Hi & Hp & Hin' & Hy).
      assert (Hb' : between (cur_idx r')) by (rewrite Hi; apply (next_between r T); auto).
      destruct (IH r' _ l' Hg' Hb' El ltac:(lia)) as (L1 & L2 & L3). cbn [reported length map].
      assert (Hpm : (posn r + 1 < max_movement r0)%Z).
      { unfold dda_next in Ed. cbn zeta in Ed. cbn [bump max_movement posn] in Ed.
        rewrite (ge_max _ _ Hgeo) in Ed. destruct (max_movement r0 <=? posn r + 1)%Z eqn:Em; [discriminate|]. apply Z.leb_gt in Em. exact Em. }
      split; [lia|]. split; [constructor; eauto|].
      intros t Htt. destruct (Rle_dec t (next_T r)) as [Hle|Hgt].
      * exists (fromIndex c (g_min g) (cur_idx r)). split; [|auto]. apply cell_cube. intros a.
        destruct (next_cross r T Hgeo Hs) as (_ & _ & Hcell & _). apply Hcell. unfold next_T in Hle. lra.
      * destruct (L3 t ltac:(lra)) as (p & Hp1 & [->|[Hp2|Hp2]]).
        -- exists (fromIndex c (g_min g) (cur_idx r')). split; [exact Hp1|]. right; left. left. exact Hy.
        -- exists p. split; [exact Hp1|]. right; left. right. exact Hp2.
        -- exists p. split; [exact Hp1|]. auto.
    + destruct (calls (dda_next c g) n r') as [l'|]; [|discriminate]. injection Hc as <-. cbn [reported length map].
      assert (Hpm : (max_movement r0 <= posn r + 1)%Z).
      { destruct (Z_lt_le_dec (posn r + 1) (max_movement r0)) as [Hlt|]; [|assumption]. exfalso.
        unfold dda_next in Ed. cbn zeta in Ed. cbn [bump max_movement posn] in Ed.
        rewrite (ge_max _ _ Hgeo) in Ed. replace (max_movement r0 <=? posn r + 1)%Z with false in Ed by (symmetry; apply Z.leb_gt; lia).
        fold (bump r) in Ed. change (t_max (bump r)) with (t_max r) in Ed.
        pose proof (increment_cases g (bump r) (choose (t_max r)) (Hgrid _ Hbt)) as Hinc. cbn zeta in Hinc.
        destruct (increment g (bump r) (choose (t_max r))) as [r2 ok]. cbn [fst snd] in Hinc.
        destruct Hinc as (I1 & _ & _ & _ & _ & _ & _ & _ & [(-> & _ & _)|(-> & Hno & _)]).
        - destruct (hasIntersection c g r2 (cur_idx r2)); discriminate.
        - apply Hno. rewrite I1. apply Hgrid. apply (next_between r T); auto. rewrite (ge_n _ _ Hgeo). lia. }
      rewrite Z.max_l by lia. split; [reflexivity|]. split; [constructor|].
      intros t Htt. destruct (Z_lt_le_dec (steps r) (max_movement r0)) as [Hs|Hs].
      * destruct (next_cross r T Hgeo Hs) as (_ & HT & Hcell & _).
        destruct (Rle_dec t (next_T r)) as [Hle|Hgt].
        -- exists (fromIndex c (g_min g) (cur_idx r)). split; [|auto]. apply cell_cube. intros a. apply Hcell. unfold next_T in Hle. lra.
        -- exists (fromIndex c (g_min g) end_idx). split; [|auto].
           assert (Ec : next_idx r = end_idx).
           { apply all_steps; [apply (next_between r T); auto|]. rewrite (next_steps r T) by auto.
             rewrite (ge_n _ _ Hgeo) in *. lia. }
           apply cell_cube. intros a. apply (affine_between _ _ (next_T r) te); [lra| |apply cell_end].
           rewrite <- Ec. apply (cross_cell r T); auto.
      * exists (fromIndex c (g_min g) (cur_idx r)). split; [|auto].
        assert (Ec : cur_idx r = end_idx).
        { apply all_steps; auto. pose proof (between_steps _ Hbt). unfold steps in Hs. lia. }
        apply cell_cube. intros a. apply (affine_between _ _ T te); auto; [apply (ge_cell _ _ Hgeo)|].
        rewrite Ec. apply cell_end.
Qed.
End Geo.

Lemma centre_index c mn p : 0 < d_grid c -> (forall a, vget3 mn a <= vget3 p a) ->
  fromIndex c mn (toIndex exact exact c mn p) = voxel_centre (d_grid c) mn p.
Proof.
  intros HG H. pose proof (H AX) as X. pose proof (H AY) as Y. pose proof (H AZ) as Z. cbn [vget3] in *.
  unfold fromIndex, voxel_centre, toIndex. cbn [ix iy iz]. rewrite !index_floor by (auto; exact HG). reflexivity.
Qed.
Lemma fromIndex_inj c mn u v : 0 < d_grid c -> fromIndex c mn u = fromIndex c mn v -> u = v.
Proof.
  intros HG H. unfold fromIndex in H. injection H as H1 H2 H3.
  assert (Q : forall x y m : R, (x + / 2) * d_grid c + m = (y + / 2) * d_grid c + m -> x = y).
  { intros x y m E. apply Rmult_eq_reg_r with (d_grid c); lra. }
  apply Q in H1, H2, H3. apply eq_IZR in H1, H2, H3. destruct u, v. cbn in *. congruence.
Qed.

(** ** what a result says (any rounding) *)
Section Result.
Context (c : dda_cfg) (g : grid).
Lemma results_hit : forall n r l, ray_ok g r -> calls (dda_next c g) n r = Some l ->
  Forall (fun y => exists v r', in_grid (g_size g) v /\ c_pos y = fromIndex c (g_min g) v /\
    r_begin r' = r_begin r /\ r_dir r' = r_dir r /\ c_sin y = 1 /\
    c_coll y = match c_point y with Some _ => true | None => false end /\
    c_point y = find (near_ray c r') (map snd (filter (fun e => (fst e =? array_index (g_size g) v)%Z) (g_points g))))
    (reported l).
Proof.
  induction n as [|n IH]; intros r l Hok Hc; cbn [calls] in Hc.
  - injection Hc as <-. constructor.
  - destruct (dda_next_defined c g r Hok) as (r1 & a1 & E1 & Hok1 & _).
    rewrite E1 in Hc. destruct (calls (dda_next c g) n r1) as [l'|] eqn:El; [|discriminate].
    injection Hc as <-. destruct a1 as [y|]; [|constructor]. cbn [reported].
    unfold dda_next in E1. cbn zeta in E1. cbn [bump max_movement posn] in E1.
    destruct (max_movement r <=? posn r + 1)%Z eqn:Em; [discriminate|]. apply Z.leb_gt in Em.
    destruct Hok as [?|Hin]; [lia|]. fold (bump r) in E1. change (t_max (bump r)) with (t_max r) in E1.
    pose proof (increment_cases g (bump r) (choose (t_max r)) Hin) as Hinc. cbn zeta in Hinc.
    destruct (increment g (bump r) (choose (t_max r))) as [r2 ok]. cbn [fst snd] in *.
    destruct Hinc as (I1 & I2 & I3_ & I4 & I5 & I6 & I7 & I8 & [(-> & I9 & I10)|(-> & _)]); [|discriminate].
    pose proof (array_index_bound _ _ I9) as [B1 B2]. apply Z.leb_le in B1. apply Z.ltb_lt in B2.
    unfold hasIntersection in E1. rewrite B1, B2 in E1. cbn [andb] in E1. injection E1 as E1 Ey. subst r1.
    constructor.
    + exists (cur_idx r2), r2. split; [exact I9|]. rewrite <- Ey. cbn [c_pos c_sin c_coll c_point].
      split; [reflexivity|]. split; [exact I3_|]. split; [exact I4|]. auto.
    + specialize (IH r2 l' Hok1 El). eapply Forall_impl; [|exact IH]. cbn beta.
      intros z (v & r' & V1 & V2 & V3_ & V4 & V5). exists v, r'. 
      change (r_begin r) with (r_begin (bump r)). change (r_dir r) with (r_dir (bump r)). rewrite <- I3_, <- I4. tauto.
Qed.
End Result.

Lemma dir_unit b e : b <> e -> vdot (vnormalized (vsub e b)) (vnormalized (vsub e b)) = 1.
Proof.
  intros H. pose proof (vnorm_pos b e H) as N. unfold vnormalized. set (n := vnorm (vsub e b)) in *.
  assert (S : n * n = vdot (vsub e b) (vsub e b)).
  { unfold n, vnorm. apply sqrt_def. unfold vdot. nra. }
  unfold vdot in *. unfold vdiv. cbn [vx vy vz]. 
  replace (_ + _ + _) with ((vx (vsub e b) * vx (vsub e b) + vy (vsub e b) * vy (vsub e b) + vz (vsub e b) * vz (vsub e b)) / (n * n)) by (field; lra).
  rewrite S. field. rewrite <- S. nra.
Qed.
Lemma near_ray_iff c r p : vdot (r_dir r) (r_dir r) = 1 ->
  near_ray c r p = true <->
  line_dist_sq (r_begin r) (r_dir r) (p3 p)
    < Rmax ((d_angle c * Rabs (vdot (vsub (p3 p) (r_begin r)) (r_dir r))) ^ 2) (d_thr_sq c).
Proof.
  intros Hu. unfold near_ray. cbn zeta. rewrite Rltb_true.
  assert (Q : vdot (vsub (p3 p) (r_begin r)) (vsub (p3 p) (r_begin r)) -
    Rabs (vdot (vsub (p3 p) (r_begin r)) (r_dir r)) * Rabs (vdot (vsub (p3 p) (r_begin r)) (r_dir r)) = line_dist_sq (r_begin r) (r_dir r) (p3 p)).
  { rewrite <- Rabs_mult, Rabs_right by (apply Rle_ge, Rle_0_sqr). unfold line_dist_sq.
    set (w := vsub (p3 p) (r_begin r)). set (d := r_dir r) in *. unfold vdot, vsub, vscale in *. cbn [vx vy vz].
    revert Hu. generalize (vx w) (vy w) (vz w) (vx d) (vy d) (vz d). intros; nsatz. }
  rewrite Q. reflexivity.
Qed.
Section NoPass.
Context (c : dda_cfg) (g : grid) (b e : vec3).
Context (HG : 0 < d_grid c) (Htol : 0 <= d_tol c) (Hbe : b <> e)
  (Hb : forall a, vget3 (g_min g) a <= vget3 b a) (HE : forall a, vget3 (g_min g) a <= vget3 (ray_end_of c b e) a).
Lemma no_pass : no_tie c g b e -> forall n r T l, geo c g b e r T -> between c g b e (cur_idx r) ->
  in_grid (g_size g) (cur_idx r) -> calls (dda_next c g) n r = Some l ->
  Forall (fun y => exists v, between c g b e v /\ c_pos y = fromIndex c (g_min g) v) (reported l).
Proof.
  intros Ht. induction n as [|n IH]; intros r T l Hgeo Hbt Hin Hc; cbn [calls] in Hc.
  - injection Hc as <-. constructor.
  - destruct (dda_next c g r) as [[r' [y|]]|] eqn:Ed; [| |discriminate].
    + destruct (calls (dda_next c g) n r') as [l'|] eqn:El; [|discriminate]. injection Hc as <-.
      destruct (geo_next c g b e HG Htol Hbe Hb HE r T r' y Hgeo Ed Hin) as (Hg' & Hn & Hi & Hp & Hin' & Hy).
      assert (Hb' : between c g b e (cur_idx r')) by (rewrite Hi; apply (next_between c g b e HG Htol Hbe Hb HE r T); auto).
      cbn [reported]. constructor; [eauto|]. eapply IH; eauto.
    + destruct (calls (dda_next c g) n r') as [l'|]; [|discriminate]. injection Hc as <-. constructor.
Qed.
End NoPass.
Lemma dda_next_some c g r : (posn r + 1 < max_movement r)%Z -> in_grid (g_size g) (cur_idx r) ->
  in_grid (g_size g) (next_idx r) ->
  exists r' y, dda_next c g r = Some (r', Some y) /\ c_pos y = fromIndex c (g_min g) (next_idx r).
Proof.
  intros Hp Hin Hnext. unfold dda_next. cbn zeta. cbn [bump max_movement posn].
  replace (max_movement r <=? posn r + 1)%Z with false by (symmetry; apply Z.leb_gt; lia).
  fold (bump r). change (t_max (bump r)) with (t_max r).
  pose proof (increment_cases g (bump r) (choose (t_max r)) Hin) as Hinc. cbn zeta in Hinc.
  destruct (increment g (bump r) (choose (t_max r))) as [r2 ok]. cbn [fst snd] in *.
  destruct Hinc as (I1 & _ & _ & _ & _ & _ & _ & _ & [(-> & I9 & _)|(-> & Hno & _)]).
  - pose proof (array_index_bound _ _ I9) as [B1 B2]. apply Z.leb_le in B1. apply Z.ltb_lt in B2.
    unfold hasIntersection. rewrite B1, B2. cbn [andb]. eexists _, _. split; [reflexivity|].
    cbn [c_pos]. rewrite I1. reflexivity.
  - exfalso. apply Hno. rewrite I1. exact Hnext.
Qed.
Lemma filter_snd (f : lpt -> Z) i pts :
  map snd (filter (fun e => (fst e =? i)%Z) (map (fun q => (f q, q)) pts)) = filter (fun q => (f q =? i)%Z) pts.
Proof. induction pts as [|p ps IH]; [reflexivity|]. cbn. destruct (f p =? i)%Z; cbn; congruence. Qed.
Lemma find_first {X} (f p : X -> bool) (P : X -> Prop) l : (forall x, In x l -> (f x = true /\ p x = true) <-> P x) ->
  first_with P l (find p (filter f l)).
Proof.
  induction l as [|x l IH]; intros H; cbn.
  - intros y [].
  - assert (IH' : first_with P l (find p (filter f l))) by (apply IH; intros; apply H; right; auto).
    pose proof (H x (or_introl eq_refl)) as Hx.
    assert (Sk : (f x = true /\ p x = true -> False) -> first_with P (x :: l) (find p (filter f l))).
    { intros N. assert (NP : ~ P x) by (intros PX; apply N, Hx, PX). revert IH'. generalize (find p (filter f l)). intros [y|]; cbn.
      - intros (l1 & l2 & -> & Py & Hy). exists (x :: l1), l2. split; [reflexivity|]. split; [exact Py|].
        intros z [<-|Hz]; auto.
      - intros Hn z [<-|Hz]; auto. }
    destruct (f x) eqn:Ef; cbn [find]; [|apply Sk; intros [? ?]; discriminate].
    destruct (p x) eqn:Ep; [|apply Sk; intros [? ?]; discriminate].
    exists [], l. split; [reflexivity|]. split; [apply Hx; auto|]. intros y [].
Qed.
