(** Proofs about the DDA ray caster. *)
From Coq Require Import Reals ZArith List Bool Arith Lra Lia Psatz.
From Verif Require Import Arith QuatModel StateModel KdModel RayModel RaySpec.
Import ListNotations.
Open Scope R_scope.

(** ** integers from reals *)
Lemma floor_mono x y : x <= y -> (Rfloor x <= Rfloor y)%Z.
Proof.
  intros H. destruct (Rfloor_spec x), (Rfloor_spec y).
  assert (A : IZR (Rfloor x) < IZR (Rfloor y + 1)) by (rewrite plus_IZR; lra). apply lt_IZR in A. lia.
Qed.
Lemma ceil_mono x y : x <= y -> (Rceil x <= Rceil y)%Z.
Proof. intros H. unfold Rceil. assert (Rfloor (- y) <= Rfloor (- x))%Z by (apply floor_mono; lra). lia. Qed.
Lemma floor_nonneg x : 0 <= x -> (0 <= Rfloor x)%Z.
Proof. intros H. apply floor_mono in H. rewrite (Rfloor_unique 0 0) in H by lra. exact H. Qed.
Lemma trunc_nonneg x : 0 <= x -> Rtrunc x = Rfloor x.
Proof. intros H. unfold Rtrunc. apply Rltb_false in H. rewrite H. reflexivity. Qed.
Lemma trunc_mono x y : x <= y -> (Rtrunc x <= Rtrunc y)%Z.
Proof.
  intros H. unfold Rtrunc. destruct (Rltb x 0) eqn:Ex, (Rltb y 0) eqn:Ey.
  - apply ceil_mono; auto.
  - apply Rltb_true in Ex. apply Rltb_false in Ey. apply floor_nonneg in Ey.
    assert (Rceil x <= Rceil 0)%Z by (apply ceil_mono; lra).
    unfold Rceil in H0 at 2. rewrite (Rfloor_unique (- 0) 0) in H0 by (simpl; lra). lia.
  - apply Rltb_true in Ey. apply Rltb_false in Ex. lra.
  - apply floor_mono; auto.
Qed.
Lemma trunc_0 : Rtrunc 0 = 0%Z.
Proof. rewrite trunc_nonneg by lra. apply Rfloor_unique. simpl; lra. Qed.

(** ** the grid *)
Section Grid.
Context (rf rd : R -> R) (Hrf : rounding rf) (Hrd : rounding rd).
Lemma index_mono c mn x y : 0 < d_grid c -> x <= y ->
  (index1 rf rd c mn x <= index1 rf rd c mn y)%Z.
Proof.
  intros Hg H. unfold index1. apply trunc_mono. apply Hrd. unfold Rdiv.
  apply Rmult_le_compat_r; [apply Rlt_le, Rinv_0_lt_compat; auto|]. apply Hrf. lra.
Qed.
Lemma index_min c mn : 0 < d_grid c -> index1 rf rd c mn mn = 0%Z.
Proof.
  intros Hg. unfold index1. replace (mn - mn) with 0 by ring. destruct Hrf as [_ ->].
  unfold Rdiv. rewrite Rmult_0_l. destruct Hrd as [_ ->]. apply trunc_0.
Qed.
Lemma toIndex_get c mn p a : iget (toIndex rf rd c mn p) a = index1 rf rd c (vget3 mn a) (vget3 p a).
Proof. destruct a; reflexivity. Qed.
Lemma map_size_get c mn mx a : iget (map_size rf rd c mn mx) a = (index1 rf rd c (vget3 mn a) (vget3 mx a) + 1)%Z.
Proof. destruct a; reflexivity. Qed.
Lemma toIndex_in_grid c mn mx p : 0 < d_grid c ->
  (forall a, vget3 mn a <= vget3 p a <= vget3 mx a) -> in_grid (map_size rf rd c mn mx) (toIndex rf rd c mn p).
Proof.
  intros Hg H a. rewrite toIndex_get, map_size_get. destruct (H a) as [H1 H2].
  pose proof (index_mono c (vget3 mn a) _ _ Hg H1). pose proof (index_mono c (vget3 mn a) _ _ Hg H2).
  rewrite index_min in H0 by auto. lia.
Qed.
End Grid.

Lemma vmin_get a b x : vget3 (vmin a b) x = Rmin (vget3 a x) (vget3 b x).
Proof. destruct x; reflexivity. Qed.
Lemma vmax_get a b x : vget3 (vmax a b) x = Rmax (vget3 a x) (vget3 b x).
Proof. destruct x; reflexivity. Qed.
Lemma fold_min_spec a : forall ps m,
  let r := fold_left (fun m q => vmin m (p3 q)) ps m in
  vget3 r a <= vget3 m a /\ (forall q, In q ps -> vget3 r a <= vget3 (p3 q) a) /\
  (vget3 r a = vget3 m a \/ exists q, In q ps /\ vget3 (p3 q) a = vget3 r a).
Proof.
  induction ps as [|p ps IH]; intros m; cbn [fold_left].
  - simpl. split; [lra|]. split; [tauto|auto].
  - destruct (IH (vmin m (p3 p))) as (H1 & H2 & H3). rewrite vmin_get in H1, H3.
    pose proof (Rmin_l (vget3 m a) (vget3 (p3 p) a)). pose proof (Rmin_r (vget3 m a) (vget3 (p3 p) a)).
    split; [lra|]. split.
    + intros q [->|Hq]; [lra|auto].
    + destruct H3 as [H3|(q & Hq & E)].
      * rewrite H3. unfold Rmin. destruct (Rle_dec _ _); [left; auto|right; exists p; simpl; auto].
      * right. exists q. simpl; auto.
Qed.
Lemma fold_max_spec a : forall ps m,
  let r := fold_left (fun m q => vmax m (p3 q)) ps m in
  vget3 m a <= vget3 r a /\ (forall q, In q ps -> vget3 (p3 q) a <= vget3 r a) /\
  (vget3 r a = vget3 m a \/ exists q, In q ps /\ vget3 (p3 q) a = vget3 r a).
Proof.
  induction ps as [|p ps IH]; intros m; cbn [fold_left].
  - simpl. split; [lra|]. split; [tauto|auto].
  - destruct (IH (vmax m (p3 p))) as (H1 & H2 & H3). rewrite vmax_get in H1, H3.
    pose proof (Rmax_l (vget3 m a) (vget3 (p3 p) a)). pose proof (Rmax_r (vget3 m a) (vget3 (p3 p) a)).
    split; [lra|]. split.
    + intros q [->|Hq]; [lra|auto].
    + destruct H3 as [H3|(q & Hq & E)].
      * rewrite H3. unfold Rmax. destruct (Rle_dec _ _); [right; exists p; simpl; auto|left; auto].
      * right. exists q. simpl; auto.
Qed.
Lemma cloud_bounding p ps : bounding (p :: ps) (cloud_min p ps) (cloud_max p ps).
Proof.
  intros a. destruct (fold_min_spec a ps (p3 p)) as (A1 & A2 & A3).
  destruct (fold_max_spec a ps (p3 p)) as (B1 & B2 & B3).
  fold (cloud_min p ps) in A1, A2, A3. fold (cloud_max p ps) in B1, B2, B3.
  split; [|split].
  - intros q [<-|Hq]; split; auto.
  - destruct A3 as [A3|(q & Hq & E)]; [exists p|exists q]; simpl; auto.
  - destruct B3 as [B3|(q & Hq & E)]; [exists p|exists q]; simpl; auto.
Qed.

Lemma array_index_bound sz c : in_grid sz c -> (0 <= array_index sz c < point_total sz)%Z.
Proof.
  intros H. pose proof (H AX) as HX. pose proof (H AY) as HY. pose proof (H AZ) as HZ. cbn [iget] in *.
  unfold array_index, point_total. revert HX HY HZ.
  generalize (ix c) (iy c) (iz c) (ix sz) (iy sz) (iz sz). intros x y z X Y Z HX HY HZ.
  assert (0 <= y * X)%Z by nia. assert (0 <= X * Y)%Z by nia. assert (0 <= z * (X * Y))%Z by nia.
  assert (x + y * X <= X * Y - 1)%Z by nia. assert (z * (X * Y) <= (Z - 1) * (X * Y))%Z by nia. nia.
Qed.
Lemma array_index_inj sz c d : in_grid sz c -> in_grid sz d -> array_index sz c = array_index sz d -> c = d.
Proof.
  intros Hc Hd. pose proof (Hc AX) as C1. pose proof (Hc AY) as C2. pose proof (Hd AX) as D1. pose proof (Hd AY) as D2.
  destruct c as [x y z], d as [x' y' z'], sz as [X Y Z]. cbn [iget ix iy iz] in *.
  unfold array_index. cbn [ix iy iz]. intros E.
  assert (X1 : (x + X * (y + z * Y) = x' + X * (y' + z' * Y))%Z) by lia.
  assert (x = x' /\ y + z * Y = y' + z' * Y)%Z as [-> E2].
  { assert (y + z * Y = y' + z' * Y)%Z by nia. split; lia. }
  assert (y = y' /\ z = z')%Z as [-> ->]; [|reflexivity].
  assert (z = z')%Z by nia. split; lia.
Qed.

Lemma build_grid_some rf rd c cl g : build_grid rf rd c cl = Some g ->
  exists p ps, cl_pts cl = p :: ps /\ g_min g = cloud_min p ps /\ g_max g = cloud_max p ps /\
    g_size g = map_size rf rd c (g_min g) (g_max g) /\ g_src g = cl_id cl /\
    (point_total (g_size g) <= int_max)%Z /\
    g_points g = map (fun q => (array_index (g_size g) (toIndex rf rd c (g_min g) (p3 q)), q)) (cl_pts cl).
Proof.
  unfold build_grid. destruct (cl_pts cl) as [|p ps]; [discriminate|].
  destruct (point_total _ <=? int_max)%Z eqn:E; [|discriminate].
  destruct (forallb _ _); [|discriminate]. intros H. injection H as <-. cbn [g_min g_max g_size g_src g_points].
  exists p, ps. apply Z.leb_le in E. tauto.
Qed.
Lemma build_grid_defined rf rd c cl p ps : rounding rf -> rounding rd -> 0 < d_grid c -> cl_pts cl = p :: ps ->
  (point_total (map_size rf rd c (cloud_min p ps) (cloud_max p ps)) <= int_max)%Z ->
  exists g, build_grid rf rd c cl = Some g.
Proof.
  intros Hrf Hrd Hg E Ht. unfold build_grid. rewrite E. apply Z.leb_le in Ht. rewrite Ht.
  match goal with |- context [forallb ?f ?l] => replace (forallb f l) with true; [eauto|] end.
  symmetry. apply forallb_forall. intros [i q] Hin. apply in_map_iff in Hin. destruct Hin as (q' & [= <- <-] & Hq).
  apply andb_true_iff. cbn [fst]. rewrite Z.leb_le, Z.ltb_lt. apply array_index_bound.
  apply toIndex_in_grid; auto. intros a. apply (cloud_bounding p ps a). exact Hq.
Qed.

Lemma within_map_iff g p : within_map g p = true <-> forall a, vget3 (g_min g) a <= vget3 p a <= vget3 (g_max g) a.
Proof.
  unfold within_map. rewrite negb_true_iff, !orb_false_iff, !Rltb_false. split.
  - intros (((((?&?)&?)&?)&?)&?) []; cbn [vget3]; split; assumption.
  - intros H. pose proof (H AX). pose proof (H AY). pose proof (H AZ). cbn [vget3] in *. tauto.
Qed.

(** ** stepping *)
Definition ray_ok (g : grid) (r : ray) : Prop := (max_movement r <= posn r)%Z \/ in_grid (g_size g) (cur_idx r).

Lemma iget_iset c a x b : iget (iset c a x) b = if axis_eqb b a then x else iget c b.
Proof. destruct a, b; reflexivity. Qed.
Lemma axis_eqb_eq a b : axis_eqb a b = true <-> a = b.
Proof. destruct a, b; simpl; split; congruence. Qed.

Definition set_posn (r : ray) (n : Z) : ray :=
  {| r_begin := r_begin r; r_dir := r_dir r; b_idx := b_idx r; cur_idx := cur_idx r; step := step r;
     edges := edges r; delta := delta r; t_max := t_max r; max_movement := max_movement r; posn := n |}.
Lemma increment_cases g r a : in_grid (g_size g) (cur_idx r) ->
  let r' := fst (increment g r a) in
  cur_idx r' = iset (cur_idx r) a (iget (cur_idx r) a + iget (step r) a) /\
  max_movement r' = max_movement r /\ r_begin r' = r_begin r /\ r_dir r' = r_dir r /\ b_idx r' = b_idx r /\
  step r' = step r /\ edges r' = edges r /\ delta r' = delta r /\
  ((snd (increment g r a) = true /\ in_grid (g_size g) (cur_idx r') /\ posn r' = posn r) \/
   (snd (increment g r a) = false /\ ~ in_grid (g_size g) (cur_idx r') /\ posn r' = max_movement r)).
Proof.
  intros Hin. unfold increment. cbn zeta.
  match goal with |- context [if ?b then _ else _] => destruct b eqn:E end; cbn; repeat split; auto.
  - right. split; [auto|]. split; [|auto]. intros G. specialize (G a).
    rewrite iget_iset in *. replace (axis_eqb a a) with true in * by (destruct a; auto).
    apply orb_true_iff in E. rewrite Z.ltb_lt, Z.leb_le in E. lia.
  - left. split; [auto|]. split; [|auto]. intros b. rewrite iget_iset in *.
    replace (axis_eqb a a) with true in * by (destruct a; auto).
    apply orb_false_iff in E. rewrite Z.ltb_ge, Z.leb_gt in E. destruct (axis_eqb b a) eqn:Eb; [|apply Hin].
    apply axis_eqb_eq in Eb. subst. lia.
Qed.
Lemma dda_next_defined c g r : ray_ok g r ->
  exists r' a, dda_next c g r = Some (r', a) /\ ray_ok g r' /\ max_movement r' = max_movement r /\
    ((a = None /\ max_movement r <= posn r')%Z \/
     (exists x, a = Some x /\ posn r' = posn r + 1 /\ posn r' < max_movement r /\
        c_pos x = fromIndex c (g_min g) (cur_idx r') /\ in_grid (g_size g) (cur_idx r'))%Z).
Proof.
  intros Hok. unfold dda_next. cbn zeta. cbn [max_movement bump posn].
  destruct (max_movement r <=? posn r + 1)%Z eqn:E.
  - apply Z.leb_le in E. exists (bump r), None. split; [reflexivity|]. split; [left; cbn; lia|].
    split; [reflexivity|]. left. split; [auto|]. cbn. lia.
  - apply Z.leb_gt in E. destruct Hok as [?|Hin]; [lia|].
    set (ax := choose (t_max (bump r))).
    destruct (increment_cases g (bump r) ax Hin) as (Hc & Hm & _ & _ & _ & _ & _ & _ & Hcase).
    destruct (increment g (bump r) ax) as [r2 ok]. cbn [fst snd] in *.
    destruct Hcase as [(-> & Hin2 & Hp)|(-> & _ & Hp)].
    + unfold hasIntersection. pose proof (array_index_bound _ _ Hin2) as [B1 B2].
      apply Z.leb_le in B1. apply Z.ltb_lt in B2. rewrite B1, B2. cbn [andb].
      eexists _, _. split; [reflexivity|]. split; [right; auto|]. split; [auto|].
      right. eexists. split; [reflexivity|]. cbn in Hp, Hm. split; [lia|]. split; [lia|].
      split; [reflexivity|exact Hin2].
    + exists r2, None. split; [reflexivity|]. cbn in Hp, Hm. split; [left; lia|].
      split; [exact Hm|]. left. split; [auto|]. lia.
Qed.
Lemma finished c g r : (max_movement r <= posn r)%Z -> forall n, calls (dda_next c g) n r = Some (repeat None n).
Proof.
  intros H n. revert r H. induction n as [|n IH]; intros r H; [reflexivity|].
  cbn [calls repeat]. unfold dda_next at 1. cbn zeta. cbn [bump max_movement posn].
  replace (max_movement r <=? posn r + 1)%Z with true by (symmetry; apply Z.leb_le; lia).
  rewrite IH; [reflexivity|]. cbn. lia.
Qed.
(** The answers: finitely many results, then "false" for ever. *)
Lemma calls_shape c g : forall n r, ray_ok g r ->
  exists rs k, calls (dda_next c g) n r = Some (map Some rs ++ repeat None k) /\ (length rs + k = n)%nat /\
    (Z.of_nat (length rs) <= Z.max 0 (max_movement r - posn r - 1))%Z /\
    Forall (fun x => exists v, in_grid (g_size g) v /\ c_pos x = fromIndex c (g_min g) v) rs.
Proof.
  induction n as [|n IH]; intros r Hok.
  - exists [], O. cbn. repeat split; auto; lia.
  - destruct (dda_next_defined c g r Hok) as (r' & a & E & Hok' & Hm & [(-> & Hp)|(x & -> & Hp & Hlt & Hx & Hin)]).
    + exists [], (S n). cbn [calls]. rewrite E. rewrite finished by lia. cbn. repeat split; auto; lia.
    + destruct (IH r' Hok') as (rs & k & Ec & Hl & Hb & Hf). exists (x :: rs), k. cbn [calls]. rewrite E, Ec.
      cbn [map app length option_map]. split; [reflexivity|]. split; [lia|]. split; [lia|]. constructor; eauto.
Qed.
Lemma setRay_ok rf rd c g cl old b e : rounding rf -> rounding rd -> 0 < d_grid c ->
  build_grid rf rd c cl = Some g -> ray_ok g (setRay rf rd c g old b e).
Proof.
  intros Hrf Hrd Hg Hb. unfold setRay. destruct (within_map g b) eqn:E.
  - right. cbn [start_ray cur_idx]. destruct (build_grid_some _ _ _ _ _ Hb) as (p & ps & _ & _ & _ & -> & _).
    apply toIndex_in_grid; auto. apply within_map_iff, E.
  - left. cbn. lia.
Qed.
