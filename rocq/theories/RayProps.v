(** C52-C58, C89: ray casting.  Vocabulary: RaySpec.v. *)
From Coq Require Import Reals ZArith List Bool Arith Lra Lia Psatz.
From Flocq Require Import Core.
From Verif Require Import Arith QuatModel StateModel KdModel RayModel KdSpec KdProofs KdProps NnSpec NnProofs RaySpec RayProofs RayGeo KRayProofs.
Import ListNotations.
Open Scope R_scope.

(** ** C52: no access outside the voxel grid, for every ray and every monotone rounding of
    the index computation ([calls] is [None] when an access is out of bounds). *)
Theorem C52_no_access_outside : forall rf rd gx gy gz G angle tol cl g old b e n,
  let c := new_dda gx gy gz G angle tol in
  rounding rf -> rounding rd -> 0 < G -> build_grid rf rd c cl = Some g ->
  exists l, calls (dda_next c g) n (setRay rf rd c g old b e) = Some l /\
    Forall (fun y => exists v, in_grid (g_size g) v /\ c_pos y = fromIndex c (g_min g) v /\
                               (0 <= array_index (g_size g) v < point_total (g_size g))%Z) (reported l).
Proof.
  intros rf rd gx gy gz G angle tol cl g old b e n c Hrf Hrd HG Hb.
  destruct (calls_shape c g n (setRay rf rd c g old b e)) as (rs & k & E & _ & _ & Hf).
  { eapply setRay_ok; eauto. }
  exists (map Some rs ++ repeat None k). split; [exact E|].
  replace (reported (map Some rs ++ repeat None k)) with rs.
  - eapply Forall_impl; [|exact Hf]. cbn beta. intros y (v & V1 & V2). exists v. split; [exact V1|]. split; [exact V2|]. apply array_index_bound; auto.
  - clear. induction rs as [|y rs IH]; cbn; [destruct k; reflexivity|congruence].
Qed.
(** The grid is built exactly when the map is not empty and the number of voxels of its
    bounding box fits in an int; every point of the map is then filed under its voxel. *)
Theorem C52_grid_built_iff : forall rf rd gx gy gz G angle tol cl p ps,
  let c := new_dda gx gy gz G angle tol in
  rounding rf -> rounding rd -> 0 < G -> cl_pts cl = p :: ps ->
  exists mn mx, bounding (cl_pts cl) mn mx /\
  ((exists g, build_grid rf rd c cl = Some g) <-> (point_total (map_size rf rd c mn mx) <= int_max)%Z) /\
  (forall g, build_grid rf rd c cl = Some g ->
     g_min g = mn /\ g_max g = mx /\ g_size g = map_size rf rd c mn mx /\
     g_points g = map (fun q => (array_index (g_size g) (toIndex rf rd c mn (p3 q)), q)) (cl_pts cl)).
Proof.
  intros rf rd gx gy gz G angle tol cl p ps c Hrf Hrd HG Ep. exists (cloud_min p ps), (cloud_max p ps).
  split; [rewrite Ep; apply cloud_bounding|]. split.
  - split.
    + intros [g Hg]. destruct (build_grid_some _ _ _ _ _ Hg) as (p' & ps' & E & M1 & M2 & M3 & _ & M5 & _).
      rewrite Ep in E. injection E as <- <-. rewrite <- M1, <- M2, <- M3. exact M5.
    + intros Ht. eapply build_grid_defined; eauto.
  - intros g Hg. destruct (build_grid_some _ _ _ _ _ Hg) as (p' & ps' & E & M1 & M2 & M3 & _ & M5 & M6).
    rewrite Ep in E. injection E as <- <-. rewrite <- M1, <- M2. tauto.
Qed.
Theorem C52_empty_map_undefined : forall rf rd c cl, cl_pts cl = [] -> build_grid rf rd c cl = None.
Proof. intros rf rd c cl E. unfold build_grid. rewrite E. reflexivity. Qed.
Theorem C52_distinct_voxels_distinct_cells : forall sz u v, in_grid sz u -> in_grid sz v ->
  array_index sz u = array_index sz v -> u = v.
Proof. exact array_index_inj. Qed.
(** IEEE rounding satisfies the hypothesis: round to nearest even in any binary format. *)
Theorem C52_ieee_roundings : forall emin prec, (0 < prec)%Z ->
  rounding (round radix2 (FLT_exp emin prec) ZnearestE).
Proof.
  intros emin prec Hp. assert (Hv : Valid_exp (FLT_exp emin prec)) by (apply FLT_exp_valid; exact Hp). split.
  - intros x y H. apply round_le; auto. apply valid_rnd_N.
  - apply round_0. apply valid_rnd_N.
Qed.

Definition pt3 (x y z : R) : lpt := {| p3 := V3 x y z; lab := 0 |}.
Lemma floor_eq x k : IZR k <= x < IZR k + 1 -> Rfloor x = k. Proof. apply Rfloor_unique. Qed.
Lemma exact_rounding : rounding exact. Proof. split; [intros; assumption|reflexivity]. Qed.
(** A map with 2^31 voxels overflows int. *)
Theorem C52_overflow_refuted : exists cl,
  cl_pts cl = [pt3 0 0 0; pt3 2047 1023 1023] /\
  build_grid exact exact (new_dda 1 1 1 1 0 0) cl = None.
Proof.
  exists {| cl_id := 0; cl_stamp := 0; cl_pts := [pt3 0 0 0; pt3 2047 1023 1023] |}. split; [reflexivity|].
  unfold build_grid. cbn [cl_pts]. 
  set (cl := cloud_min _ _). set (cu := cloud_max _ _).
  assert (E1 : cl = V3 0 0 0) by (unfold cl, cloud_min, vmin; cbn; rewrite !Rmin_left by lra; reflexivity).
  assert (E2 : cu = V3 2047 1023 1023) by (unfold cu, cloud_max, vmax; cbn; rewrite !Rmax_right by lra; reflexivity).
  rewrite E1, E2. cbn zeta.
  assert (F : forall k, (0 <= k)%Z -> index1 exact exact (new_dda 1 1 1 1 0 0) 0 (IZR k) = k).
  { intros k Hk. apply IZR_le in Hk. unfold index1, exact. cbn [d_grid new_dda]. rewrite trunc_nonneg by lra.
    apply floor_eq. lra. }
  unfold map_size. cbn [vx vy vz]. rewrite !F by lia. reflexivity.
Qed.

(** ** C53: termination.  At most |dx|+|dy|+|dz|-1 results (index distances between the
    voxels of the two ends), then "false" for ever. *)
Theorem C53_terminates : forall rf rd gx gy gz G angle tol cl g old b e n,
  let c := new_dda gx gy gz G angle tol in
  rounding rf -> rounding rd -> 0 < G -> build_grid rf rd c cl = Some g ->
  let bi := toIndex rf rd c (g_min g) b in let ei := toIndex rf rd c (g_min g) (ray_end_of c b e) in
  let m := (Z.abs (ix ei - ix bi) + Z.abs (iy ei - iy bi) + Z.abs (iz ei - iz bi))%Z in
  exists rs k, calls (dda_next c g) n (setRay rf rd c g old b e) = Some (map Some rs ++ repeat None k) /\
    (length rs + k = n)%nat /\ (Z.of_nat (length rs) <= Z.max 0 (m - 1))%Z.
Proof.
  intros rf rd gx gy gz G angle tol cl g old b e n c Hrf Hrd HG Hb bi ei m.
  destruct (calls_shape c g n (setRay rf rd c g old b e)) as (rs & k & E & El & Hm & _).
  { eapply setRay_ok; eauto. }
  exists rs, k. split; [exact E|]. split; [exact El|]. revert Hm. unfold setRay. destruct (within_map g b).
  - cbn [start_ray max_movement posn]. fold bi ei. cbn [iget]. fold m. lia.
  - cbn [no_ray max_movement posn]. lia.
Qed.
(** A ray that starts outside the map's bounding box reports nothing. *)
Theorem C53_outside_start : forall gx gy gz G angle tol cl g old b e n a,
  let c := new_dda gx gy gz G angle tol in
  build_grid exact exact c cl = Some g -> (vget3 b a < vget3 (g_min g) a \/ vget3 (g_max g) a < vget3 b a) ->
  calls (dda_next c g) n (setRay exact exact c g old b e) = Some (repeat None n).
Proof.
  intros gx gy gz G angle tol cl g old b e n a c Hb Ha. unfold setRay.
  destruct (within_map g b) eqn:Ew.
  - exfalso. apply within_map_iff with (a := a) in Ew. lra.
  - apply finished. cbn. lia.
Qed.

(** ** C54: the reported voxels are a chain of face neighbours along the ray and each of
    them meets the ray (real arithmetic). *)
Theorem C54_chain_along_ray : forall gx gy gz G angle tol cl g old b e n l,
  let c := new_dda gx gy gz G angle tol in
  0 < G -> 0 <= tol -> build_grid exact exact c cl = Some g ->
  within_map g b = true -> b <> e -> all_ge (extended_end tol b e) (g_min g) ->
  calls (dda_next c g) n (setRay exact exact c g old b e) = Some l ->
  chain (one_step G (vsub e b)) (voxel_centre G (g_min g) b) (map c_pos (reported l)) /\
  Forall (fun y => exists q, on_segment b (extended_end tol b e) q /\ cube G (c_pos y) q) (reported l).
Proof.
  intros gx gy gz G angle tol cl g old b e n l c HG Htol Hg Hw Hbe HE Hc.
  change (extended_end tol b e) with (ray_end_of c b e) in *.
  assert (Hb : forall a, vget3 (g_min g) a <= vget3 b a) by (intros a; apply (proj1 (within_map_iff g b) Hw a)).
  unfold setRay in Hc. rewrite Hw in Hc.
  assert (Hin : in_grid (g_size g) (cur_idx (start_ray exact exact c g b e))).
  { destruct (build_grid_some _ _ _ _ _ Hg) as (p & ps & _ & _ & _ & -> & _). cbn [start_ray cur_idx].
    apply toIndex_in_grid; auto using exact_rounding. apply within_map_iff, Hw. }
  destruct (path c g b e HG Htol Hbe Hb HE n _ 0 l (geo_start c g b e HG Htol Hbe Hb HE) Hin Hc) as [C1 C2].
  split.
  - cbn [start_ray cur_idx] in C1. rewrite centre_index in C1 by auto. cbn [d_grid new_dda c] in C1.
    revert C1. generalize (voxel_centre G (g_min g) b). induction (map c_pos (reported l)) as [|q qs IH]; intros p; [auto|].
    cbn [chain]. intros [(a & S1 & S2) S3]. split; [|auto]. exists a. split; [exact S1|].
    pose proof (vnorm_pos b e Hbe) as N. 
    assert (Q : vget3 (vnormalized (vsub e b)) a * vnorm (vsub e b) = vget3 (vsub e b) a).
    { unfold vnormalized. rewrite vget_div. field. lra. }
    destruct S2 as [[S2 S2']|[S2 S2']]; [left|right]; (split; [nra|exact S2']).
  - eapply Forall_impl; [|exact C2]. cbn beta. intros y (t & Ht & Hcu). exists (pt_at b e t). split; [|exact Hcu].
    apply pt_on_segment; auto.
Qed.
Lemma face_tie c g b e : 0 < d_grid c -> 0 <= d_tol c -> b <> e ->
  (forall a, vget3 (g_min g) a <= vget3 b a) -> (forall a, vget3 (g_min g) a <= vget3 (ray_end_of c b e) a) ->
  (forall a, vget3 e a < vget3 b a -> ~ on_face (d_grid c) (g_min g) (ray_end_of c b e) a) -> no_tie c g b e.
Proof.
  intros HG Htol Hbe Hb HE Hf a Ha Eq. 
  destruct (D_sign c g b e HG Htol Hbe Hb HE a) as [_ Hn]. specialize (Hn Ha).
  pose proof (vnorm_pos b e Hbe) as N.
  assert (Q : vget3 (vnormalized (vsub e b)) a * vnorm (vsub e b) = vget3 (vsub e b) a).
  { unfold vnormalized. rewrite vget_div. field. lra. }
  rewrite vget_sub in Q. apply (Hf a); [nra|]. eexists. exact Eq.
Qed.
Lemma between_begin c g b e : between c g b e (cur_idx (start_ray exact exact c g b e)).
Proof. intros a. cbn [start_ray cur_idx]. rewrite Z.sub_diag. lia. Qed.
Lemma between_centre c g b e v a : 0 < d_grid c -> b <> e ->
  (forall a, vget3 (g_min g) a <= vget3 b a) -> (forall a, vget3 (g_min g) a <= vget3 (ray_end_of c b e) a) ->
  between c g b e v ->
  Rmin (vget3 (voxel_centre (d_grid c) (g_min g) b) a) (vget3 (voxel_centre (d_grid c) (g_min g) (ray_end_of c b e)) a)
    <= vget3 (fromIndex c (g_min g) v) a
    <= Rmax (vget3 (voxel_centre (d_grid c) (g_min g) b) a) (vget3 (voxel_centre (d_grid c) (g_min g) (ray_end_of c b e)) a).
Proof.
  intros HG Hbe Hb HE Hv. rewrite <- !centre_index by auto. rewrite !fromIndex_get.
  destruct (Hv a) as [V1 V2]. rewrite step_of in V2.
  set (bi := iget (toIndex exact exact c (g_min g) b) a) in *.
  set (ei := iget (toIndex exact exact c (g_min g) (ray_end_of c b e)) a) in *. set (k := iget v a) in *.
  assert (H : (bi <= k <= ei \/ ei <= k <= bi)%Z) by (destruct (Z.ltb_spec (ei - bi) 0); lia).
  assert (Q : forall x y : R, x <= y -> (x + / 2) * d_grid c + vget3 (g_min g) a <= (y + / 2) * d_grid c + vget3 (g_min g) a).
  { intros x y Hxy. apply Rplus_le_compat_r, Rmult_le_compat_r; lra. }
  destruct H as [[H1 H2]|[H1 H2]]; apply IZR_le in H1, H2; apply Q in H1, H2; split.
  - eapply Rle_trans; [apply Rmin_l|auto].
  - eapply Rle_trans; [|apply Rmax_r]. auto.
  - eapply Rle_trans; [apply Rmin_r|auto].
  - eapply Rle_trans; [|apply Rmax_l]. auto.
Qed.
(** ... never beyond the end voxel, unless the ray ends exactly on a voxel face while
    moving in the negative direction of that axis. *)
Theorem C54_never_passes_end : forall gx gy gz G angle tol cl g old b e n l,
  let c := new_dda gx gy gz G angle tol in let e' := extended_end tol b e in
  0 < G -> 0 <= tol -> build_grid exact exact c cl = Some g ->
  within_map g b = true -> b <> e -> all_ge e' (g_min g) ->
  (forall a, vget3 e a < vget3 b a -> ~ on_face G (g_min g) e' a) ->
  calls (dda_next c g) n (setRay exact exact c g old b e) = Some l ->
  Forall (fun y => forall a,
    Rmin (vget3 (voxel_centre G (g_min g) b) a) (vget3 (voxel_centre G (g_min g) e') a) <= vget3 (c_pos y) a
    <= Rmax (vget3 (voxel_centre G (g_min g) b) a) (vget3 (voxel_centre G (g_min g) e') a)) (reported l).
Proof.
  intros gx gy gz G angle tol cl g old b e n l c e' HG Htol Hg Hw Hbe HE Hface Hc.
  change e' with (ray_end_of c b e) in *. clear e'.
  assert (Hb : forall a, vget3 (g_min g) a <= vget3 b a) by (intros a; apply (proj1 (within_map_iff g b) Hw a)).
  unfold setRay in Hc. rewrite Hw in Hc.
  assert (Hin : in_grid (g_size g) (cur_idx (start_ray exact exact c g b e))).
  { destruct (build_grid_some _ _ _ _ _ Hg) as (p & ps & _ & _ & _ & -> & _). cbn [start_ray cur_idx].
    apply toIndex_in_grid; auto using exact_rounding. apply within_map_iff, Hw. }
  assert (Ht : no_tie c g b e) by (eapply face_tie; eauto).
  pose proof (no_pass c g b e HG Htol Hbe Hb HE Ht n _ 0 l (geo_start c g b e HG Htol Hbe Hb HE)
    (between_begin c g b e) Hin Hc) as F.
  eapply Forall_impl; [|exact F]. cbn beta. intros y (v & Hv & ->) a.
  apply (between_centre c g b e v a); auto.
Qed.

(** ** C89: no voxel on the way is skipped.  If the whole ray is inside the map and does not
    end exactly on a voxel face in a negative direction, every point of the ray lies in the
    begin voxel, the end voxel or a reported voxel, and the number of reported voxels is
    exactly the number of voxel faces between the two ends minus one. *)
Theorem C89_no_voxel_skipped : forall gx gy gz G angle tol cl g old b e n l,
  let c := new_dda gx gy gz G angle tol in let e' := extended_end tol b e in
  0 < G -> 0 <= tol -> build_grid exact exact c cl = Some g ->
  within_map g b = true -> within_map g e' = true -> b <> e ->
  (forall a, vget3 e a < vget3 b a -> ~ on_face G (g_min g) e' a) ->
  calls (dda_next c g) n (setRay exact exact c g old b e) = Some l ->
  (faces_between G (g_min g) b e' <= Z.of_nat n)%Z ->
  Z.of_nat (length (reported l)) = Z.max 0 (faces_between G (g_min g) b e' - 1) /\
  forall q, on_segment b e' q -> exists p, cube G p q /\
    (p = voxel_centre G (g_min g) b \/ In p (map c_pos (reported l)) \/ p = voxel_centre G (g_min g) e').
Proof.
  intros gx gy gz G angle tol cl g old b e n l c e0 HG Htol Hg Hw Hw' Hbe Hface Hc Hn.
  change e0 with (ray_end_of c b e) in *. clear e0. set (e' := ray_end_of c b e) in *.
  pose proof (proj1 (within_map_iff g b) Hw) as Hbb. pose proof (proj1 (within_map_iff g e') Hw') as Hee.
  assert (Hb : forall a, vget3 (g_min g) a <= vget3 b a) by (intros a; apply Hbb).
  assert (HE : forall a, vget3 (g_min g) a <= vget3 (ray_end_of c b e) a) by (intros a; apply Hee).
  unfold setRay in Hc. rewrite Hw in Hc.
  assert (Ht : no_tie c g b e) by (eapply face_tie; eauto).
  destruct (build_grid_some _ _ _ _ _ Hg) as (p & ps & _ & _ & _ & Hsz & _).
  assert (Hgrid : forall v, between c g b e v -> in_grid (g_size g) v).
  { intros v Hv a. destruct (Hv a) as [V1 V2]. rewrite step_of in V2. rewrite Hsz.
    pose proof (toIndex_in_grid exact exact exact_rounding exact_rounding c (g_min g) (g_max g) b HG Hbb a) as B.
    pose proof (toIndex_in_grid exact exact exact_rounding exact_rounding c (g_min g) (g_max g) e' HG Hee a) as B'.
    unfold e' in B'.
    destruct (Z.ltb_spec (iget (toIndex exact exact c (g_min g) (ray_end_of c b e)) a - iget (toIndex exact exact c (g_min g) b) a) 0); lia. }
  assert (Em : max_movement (start_ray exact exact c g b e) = faces_between G (g_min g) b e').
  { rewrite D_max. unfold faces_between. rewrite !toIndex_get. rewrite !index_floor by auto. reflexivity. }
  destruct (cover c g b e HG Htol Hbe Hb HE Ht Hgrid n _ 0 l (geo_start c g b e HG Htol Hbe Hb HE)
    (between_begin c g b e) Hc) as (L1 & _ & L3).
  { rewrite Em. cbn [start_ray posn]. lia. }
  rewrite Em in L1. cbn [start_ray posn] in L1. split; [lia|].
  intros q Hq. destruct (segment_pt c b e Htol Hbe q Hq) as (t & T1 & ->). destruct (L3 t T1) as (p' & P1 & P2).
  exists p'. split; [exact P1|]. cbn [start_ray cur_idx] in P2. unfold end_idx in P2. rewrite !centre_index in P2 by auto. exact P2.
Qed.

(** Examples on the map with corners (0,0,0) and (4,4,4) and voxels of side 1. *)
Definition ex_cloud : cloud := {| cl_id := 7; cl_stamp := 100; cl_pts := [pt3 0 0 0; pt3 4 4 4] |}.
Definition ex_cfg : dda_cfg := new_dda (1/4) (1/4) (1/4) 1 0 0.
Lemma ex_index k x : (0 <= k)%Z -> IZR k <= x < IZR k + 1 -> index1 exact exact ex_cfg 0 x = k.
Proof.
  intros Hk Hx. apply IZR_le in Hk. unfold index1, exact. cbn [d_grid ex_cfg new_dda].
  replace ((x - 0) / 1) with x by field. rewrite trunc_nonneg by lra. apply floor_eq. lra.
Qed.
Lemma ex_grid : exists g, build_grid exact exact ex_cfg ex_cloud = Some g /\
  g_min g = V3 0 0 0 /\ g_max g = V3 4 4 4 /\ g_size g = I3 5 5 5 /\ g_src g = 7%nat.
Proof.
  assert (E1 : cloud_min (pt3 0 0 0) [pt3 4 4 4] = V3 0 0 0) by (unfold cloud_min, vmin; cbn; rewrite !Rmin_left by lra; reflexivity).
  assert (E2 : cloud_max (pt3 0 0 0) [pt3 4 4 4] = V3 4 4 4) by (unfold cloud_max, vmax; cbn; rewrite !Rmax_right by lra; reflexivity).
  assert (E3 : map_size exact exact ex_cfg (V3 0 0 0) (V3 4 4 4) = I3 5 5 5).
  { unfold map_size. cbn [vx vy vz]. rewrite (ex_index 4) by (lia || lra). reflexivity. }
  destruct (build_grid_defined exact exact ex_cfg ex_cloud (pt3 0 0 0) [pt3 4 4 4] exact_rounding exact_rounding) as [g Hg].
  - cbn. lra.
  - reflexivity.
  - rewrite E1, E2, E3. cbn. unfold int_max. lia.
  - exists g. split; [exact Hg|]. destruct (build_grid_some _ _ _ _ _ Hg) as (p & ps & Ep & M1 & M2 & M3 & M4 & _).
    injection Ep as <- <-. rewrite M3, M1, M2, E1, E2. auto.
Qed.
Lemma ex_in_grid g v : g_size g = I3 5 5 5 ->
  ((0 <= ix v < 5) /\ (0 <= iy v < 5) /\ (0 <= iz v < 5))%Z -> in_grid (g_size g) v.
Proof. intros -> H a. destruct a; cbn [iget ix iy iz]; lia. Qed.

(** A ray that ends exactly on voxel edges in a negative direction passes its end voxel:
    from (0,0,3) to (1,2,1) the fourth voxel has z index 0 although the end has 1. *)
Theorem C54_tie_refuted : exists cl g b e l,
  let c := new_dda (1/4) (1/4) (1/4) 1 0 0 in
  build_grid exact exact c cl = Some g /\ within_map g b = true /\ b <> e /\
  extended_end 0 b e = e /\ within_map g e = true /\
  calls (dda_next c g) 4 (setRay exact exact c g (start_ray exact exact c g b e) b e) = Some l /\
  exists y, In y (reported l) /\ vz (c_pos y) < vz (voxel_centre 1 (g_min g) e) /\ vz e < vz b.
Proof.
  destruct ex_grid as (g & Hg & Emn & Emx & Esz & _).
  set (b := V3 0 0 3). set (e := V3 1 2 1). exists ex_cloud, g, b, e.
  change (new_dda (1/4) (1/4) (1/4) 1 0 0) with ex_cfg. cbn zeta.
  assert (Hbe : b <> e) by (unfold b, e; intros X; injection X; intros; lra).
  assert (Hn : vnorm (vsub e b) = 3).
  { unfold vnorm, vdot, vsub, b, e. cbn [vx vy vz]. replace (_ + _) with (3 * 3) by ring. apply sqrt_square. lra. }
  assert (Hd : vnormalized (vsub e b) = V3 (1/3) (2/3) (-2/3)).
  { unfold vnormalized. rewrite Hn. unfold vsub, vdiv, b, e. cbn [vx vy vz]. f_equal; field. }
  assert (He : ray_end_of ex_cfg b e = e).
  { unfold ray_end_of. rewrite Hd. unfold vadd, vscale, ex_cfg, new_dda, e. cbn [vx vy vz d_tol]. f_equal; field. }
  assert (Hb : forall a, vget3 (g_min g) a <= vget3 b a) by (rewrite Emn; intros []; cbn; lra).
  assert (HE : forall a, vget3 (g_min g) a <= vget3 (ray_end_of ex_cfg b e) a) by (rewrite He, Emn; intros []; cbn; lra).
  assert (Hw : within_map g b = true) by (apply within_map_iff; rewrite Emn, Emx; intros []; cbn; lra).
  assert (HG : 0 < d_grid ex_cfg) by (cbn; lra). assert (Ht : 0 <= d_tol ex_cfg) by (cbn; lra).
  assert (Ib : toIndex exact exact ex_cfg (g_min g) b = I3 0 0 3).
  { unfold toIndex. rewrite Emn. unfold b. cbn [vx vy vz]. rewrite (ex_index 0), (ex_index 3) by (lia || lra). reflexivity. }
  assert (Ie : toIndex exact exact ex_cfg (g_min g) e = I3 1 2 1).
  { unfold toIndex. rewrite Emn. unfold e. cbn [vx vy vz]. rewrite (ex_index 1), (ex_index 2) by (lia || lra). reflexivity. }
  set (r0 := start_ray exact exact ex_cfg g b e).
  assert (Em : max_movement r0 = 5%Z) by (unfold r0; rewrite D_max, He, Ie, Ib; reflexivity).
  assert (Lv : forall i j k, lv ex_cfg g b e AX i = 3 * (IZR i + 1) /\ lv ex_cfg g b e AY j = 3 / 2 * (IZR j + 1) /\
     lv ex_cfg g b e AZ k = 3 / 2 * (3 - IZR k)).
  { intros i j k. unfold lv. rewrite He, Ib, Ie, Hd, Emn. cbn [iget ix iy iz vget3 vx vy vz d_grid ex_cfg new_dda]. unfold b. cbn [vx vy vz].
    change (1 - 0 <? 0)%Z with false. change (2 - 0 <? 0)%Z with false. change (1 - 3 <? 0)%Z with true. cbn iota.
    repeat split; field. }
  assert (Ch : forall r T i j k, geo ex_cfg g b e r T -> cur_idx r = I3 i j k ->
     choose (t_max r) = choose (fun a => match a with AX => Some (3 * (IZR i + 1)) | AY => Some (3 / 2 * (IZR j + 1)) | AZ => Some (3 / 2 * (3 - IZR k)) end)).
  { intros r T i j k Hgeo Hc. destruct (Lv i j k) as (L1 & L2 & L3). unfold choose.
    assert (T1 := ge_t _ _ _ _ _ _ Hgeo AX). assert (T2 := ge_t _ _ _ _ _ _ Hgeo AY). assert (T3 := ge_t _ _ _ _ _ _ Hgeo AZ).
    rewrite He, Ib, Ie, Hc in T1, T2, T3. cbn [iget ix iy iz] in T1, T2, T3.
    change (1 - 0 =? 0)%Z with false in T1. change (2 - 0 =? 0)%Z with false in T2. change (1 - 3 =? 0)%Z with false in T3. cbn iota in T1, T2, T3.
    rewrite T1, T2, T3, L1, L2, L3. reflexivity. }
  assert (Stp : step r0 = I3 1 1 (-1)).
  { unfold r0, start_ray. cbn [step]. rewrite He, Ib, Ie. reflexivity. }
  assert (One : forall r T i j k ax v, geo ex_cfg g b e r T -> cur_idx r = I3 i j k -> (posn r + 1 < 5)%Z ->
     in_grid (g_size g) (I3 i j k) ->
     choose (fun a => match a with AX => Some (3 * (IZR i + 1)) | AY => Some (3 / 2 * (IZR j + 1)) | AZ => Some (3 / 2 * (3 - IZR k)) end) = ax ->
     iset (I3 i j k) ax (iget (I3 i j k) ax + iget (I3 1 1 (-1)) ax) = v -> in_grid (g_size g) v ->
     exists r' y T', dda_next ex_cfg g r = Some (r', Some y) /\ geo ex_cfg g b e r' T' /\ cur_idx r' = v /\
       posn r' = (posn r + 1)%Z /\ c_pos y = fromIndex ex_cfg (g_min g) v).
  { intros r T i j k ax v Hgeo Hc Hp Hin Hax Hv Hvin. 
    assert (Nx : next_idx r = v).
    { unfold next_idx. rewrite (Ch r T i j k Hgeo Hc), Hax, Hc, (ge_step _ _ _ _ _ _ Hgeo). fold r0. rewrite Stp. exact Hv. }
    destruct (dda_next_some ex_cfg g r) as (r' & y & Ed & _).
    - rewrite (ge_max _ _ _ _ _ _ Hgeo). fold r0. rewrite Em. exact Hp.
    - rewrite Hc. exact Hin.
    - rewrite Nx. exact Hvin.
    - destruct (geo_next ex_cfg g b e HG Ht Hbe Hb HE r T r' y Hgeo Ed) as (Hg' & _ & Hi & Hpp & _ & Hy); [rewrite Hc; exact Hin|].
      rewrite Nx in Hi. exists r', y, (next_T ex_cfg g b e r). rewrite Hi in Hy. auto. }
  assert (G0 : geo ex_cfg g b e r0 0) by (apply geo_start; auto).
  assert (C0 : cur_idx r0 = I3 0 0 3) by (unfold r0; cbn [start_ray cur_idx]; exact Ib).
  assert (P0 : posn r0 = 0%Z) by reflexivity.
  Ltac cmp := unfold choose, tlt; repeat match goal with |- context [Rltb ?p ?q] =>
    (replace (Rltb p q) with true by (symmetry; apply Rltb_true; lra)) || (replace (Rltb p q) with false by (symmetry; apply Rltb_false; lra)) end; reflexivity.
  destruct (One r0 0 0%Z 0%Z 3%Z AZ (I3 0 0 2) G0 C0) as (r1 & y1 & T1 & E1 & G1 & C1 & P1 & _);
    [lia|apply ex_in_grid; cbn; auto; lia|cmp|reflexivity|apply ex_in_grid; cbn; auto; lia|].
  destruct (One r1 T1 0%Z 0%Z 2%Z AZ (I3 0 0 1) G1 C1) as (r2 & y2 & T2 & E2 & G2 & C2 & P2 & _);
    [lia|apply ex_in_grid; cbn; auto; lia|cmp|reflexivity|apply ex_in_grid; cbn; auto; lia|].
  destruct (One r2 T2 0%Z 0%Z 1%Z AY (I3 0 1 1) G2 C2) as (r3 & y3 & T3 & E3 & G3 & C3 & P3 & _);
    [lia|apply ex_in_grid; cbn; auto; lia|cmp|reflexivity|apply ex_in_grid; cbn; auto; lia|].
  destruct (One r3 T3 0%Z 1%Z 1%Z AZ (I3 0 1 0) G3 C3) as (r4 & y4 & T4 & E4 & G4 & C4 & P4 & Y4);
    [lia|apply ex_in_grid; cbn; auto; lia|cmp|reflexivity|apply ex_in_grid; cbn; auto; lia|].
  exists [Some y1; Some y2; Some y3; Some y4]. split; [exact Hg|]. split; [exact Hw|]. split; [exact Hbe|].
  split; [exact He|]. split; [apply within_map_iff; rewrite Emn, Emx; intros []; cbn; lra|].
  split.
  - unfold setRay. rewrite Hw. fold r0. cbn [calls]. rewrite E1, E2, E3, E4. reflexivity.
  - exists y4. split; [cbn; auto|]. split; [|unfold e, b; cbn; lra]. rewrite Y4, Emn. unfold fromIndex, voxel_centre, ex_cfg, new_dda.
    cbn [vx vy vz ix iy iz d_grid e]. replace (Rfloor ((1 - 0) / 1)) with 1%Z by (symmetry; apply floor_eq; lra). lra.
Qed.

(** If the ray leaves the map below its minimum, truncation towards zero makes the end
    index wrong and a voxel off the ray is reported. *)
Theorem C54_below_map_refuted : exists cl g b e l,
  let c := new_dda (1/4) (1/4) (1/4) 1 0 0 in
  build_grid exact exact c cl = Some g /\ within_map g b = true /\ b <> e /\
  calls (dda_next c g) 1 (setRay exact exact c g (start_ray exact exact c g b e) b e) = Some l /\
  exists y, In y (reported l) /\ forall q, on_segment b (extended_end 0 b e) q -> ~ cube 1 (c_pos y) q.
Proof.
  destruct ex_grid as (g & Hg & Emn & Emx & Esz & _).
  set (b := V3 (1/2) (1/4) (1/2)). set (e := V3 (21/10) (-19/20) (1/2)). exists ex_cloud, g, b, e.
  change (new_dda (1/4) (1/4) (1/4) 1 0 0) with ex_cfg. cbn zeta.
  assert (Hbe : b <> e) by (unfold b, e; intros X; injection X; intros; lra).
  assert (Hn : vnorm (vsub e b) = 2).
  { unfold vnorm, vdot, vsub, b, e. cbn [vx vy vz]. replace (_ + _) with (2 * 2) by lra. apply sqrt_square. lra. }
  assert (Hd : vnormalized (vsub e b) = V3 (4/5) (-3/5) 0).
  { unfold vnormalized. rewrite Hn. unfold vsub, vdiv, b, e. cbn [vx vy vz]. f_equal; field. }
  assert (He : ray_end_of ex_cfg b e = e).
  { unfold ray_end_of. rewrite Hd. unfold vadd, vscale, ex_cfg, new_dda, e. cbn [vx vy vz d_tol]. f_equal; field. }
  assert (Hw : within_map g b = true) by (apply within_map_iff; rewrite Emn, Emx; intros []; cbn; lra).
  assert (Ib : toIndex exact exact ex_cfg (g_min g) b = I3 0 0 0).
  { unfold toIndex. rewrite Emn. unfold b. cbn [vx vy vz]. rewrite !(ex_index 0) by (lia || lra). reflexivity. }
  assert (Ie : toIndex exact exact ex_cfg (g_min g) e = I3 2 0 0).
  { unfold toIndex. rewrite Emn. unfold e. cbn [vx vy vz]. rewrite (ex_index 2), (ex_index 0 (1/2)) by (lia || lra). f_equal.
    unfold index1, exact. cbn [d_grid ex_cfg new_dda]. unfold Rtrunc.
    replace (Rltb _ _) with true by (symmetry; apply Rltb_true; lra). unfold Rceil.
    rewrite (floor_eq _ 0) by lra. reflexivity. }
  set (r0 := start_ray exact exact ex_cfg g b e).
  assert (Nx : next_idx r0 = I3 1 0 0).
  { unfold next_idx, r0, start_ray. cbn [t_max cur_idx step]. rewrite He, Ib, Ie. cbn [iget ix iy iz].
    unfold edge1, choose, tlt. cbn. reflexivity. }
  destruct (dda_next_some ex_cfg g r0) as (r1 & y & Ed & Hy).
  - unfold r0, start_ray. cbn [posn max_movement]. rewrite He, Ib, Ie. cbn. lia.
  - unfold r0, start_ray. cbn [cur_idx]. rewrite Ib. apply ex_in_grid; cbn; auto; lia.
  - rewrite Nx. apply ex_in_grid; cbn; auto; lia.
  - exists [Some y]. split; [exact Hg|]. split; [exact Hw|]. split; [exact Hbe|]. split.
    + unfold setRay. rewrite Hw. fold r0. cbn [calls]. rewrite Ed. reflexivity.
    + exists y. split; [cbn; auto|]. intros q (s & Hs & ->) Hc. change (extended_end 0 b e) with (ray_end_of ex_cfg b e) in Hc. rewrite He in Hc.
      pose proof (Hc AX) as X. pose proof (Hc AY) as Y. rewrite Hy, Nx, Emn in X, Y.
      unfold fromIndex, vadd, vscale, vsub, b, e, ex_cfg, new_dda in X, Y. cbn [vget3 vx vy vz ix iy iz d_grid] in X, Y.
      apply Rabs_le_inv in X, Y. lra.
Qed.
(** The hypotheses of C54 and C89 are met by a ray along the diagonal of the map. *)
Example C54_C89_nonvacuous : exists g, let c := new_dda (1/4) (1/4) (1/4) 1 0 0 in
  let b := V3 (1/2) (1/2) (1/2) in let e := V3 (7/2) (1/2) (1/2) in
  build_grid exact exact c ex_cloud = Some g /\ within_map g b = true /\ within_map g (extended_end 0 b e) = true /\
  b <> e /\ (forall a, vget3 e a < vget3 b a -> ~ on_face 1 (g_min g) (extended_end 0 b e) a) /\
  faces_between 1 (g_min g) b (extended_end 0 b e) = 3%Z.
Proof.
  destruct ex_grid as (g & Hg & Emn & Emx & Esz & _). exists g. cbn zeta.
  set (b := V3 (1/2) (1/2) (1/2)). set (e := V3 (7/2) (1/2) (1/2)).
  assert (He : ray_end_of (new_dda (1/4) (1/4) (1/4) 1 0 0) b e = e).
  { unfold ray_end_of. unfold vadd, vscale, new_dda, e. cbn [vx vy vz d_tol]. rewrite !Rmult_0_r, !Rplus_0_r. reflexivity. }
  split; [exact Hg|]. change (extended_end 0 b e) with (ray_end_of (new_dda (1/4) (1/4) (1/4) 1 0 0) b e). rewrite He. split; [|split; [|split; [|split]]].
  - apply within_map_iff. rewrite Emn, Emx. intros []; cbn; lra.
  - apply within_map_iff. rewrite Emn, Emx. intros []; cbn; lra.
  - unfold b, e. intros X. injection X. intros. lra.
  - intros [] H; unfold b, e in H; cbn in H; lra.
  - unfold faces_between. rewrite Emn. unfold b, e. cbn [vget3 vx vy vz].
    rewrite (floor_eq _ 3) by lra. rewrite !(floor_eq _ 0) by lra. reflexivity.
Qed.

(** ** C55: a voxel reports a collision iff it contains a map point near the ray line; the
    reported point is the first such point of the map.  The fixed threshold is
    gx^2+2gy^2: the z grid size does not enter. *)
Theorem C55_collision_criterion : forall gx gy gz G angle tol cl g old b e n l,
  let c := new_dda gx gy gz G angle tol in
  0 < G -> build_grid exact exact c cl = Some g -> b <> e ->
  calls (dda_next c g) n (setRay exact exact c g old b e) = Some l ->
  Forall (fun y =>
    first_with (fun q => voxel_centre G (g_min g) (p3 q) = c_pos y /\
                         near_line angle (gx * gx + gy * gy + gy * gy) b e q) (cl_pts cl) (c_point y) /\
    (c_coll y = true <-> c_point y <> None) /\ c_sin y = 1) (reported l).
Proof.
  intros gx gy gz G angle tol cl g old b e n l c HG Hg Hbe Hc.
  destruct (within_map g b) eqn:Hw.
  2: { assert (E : calls (dda_next c g) n (setRay exact exact c g old b e) = Some (repeat None n)).
       { unfold setRay. rewrite Hw. apply finished. cbn. lia. }
       rewrite E in Hc. injection Hc as <-. destruct n; constructor. }
  pose proof (results_hit c g n _ l (setRay_ok exact exact c g cl old b e exact_rounding exact_rounding HG Hg) Hc) as F.
  destruct (build_grid_some _ _ _ _ _ Hg) as (p & ps & Ep & M1 & M2 & M3 & _ & _ & M6).
  assert (Hge : forall q, In q (cl_pts cl) -> forall a, vget3 (g_min g) a <= vget3 (p3 q) a <= vget3 (g_max g) a).
  { intros q Hq a. rewrite M1, M2. apply (cloud_bounding p ps a). rewrite <- Ep. exact Hq. }
  eapply Forall_impl; [|exact F]. cbn beta. intros y (v & r' & V1 & V2 & V3_ & V4 & V5 & V6 & V7).
  unfold setRay in V3_, V4. rewrite Hw in V3_, V4. cbn [start_ray r_begin r_dir] in V3_, V4.
  split; [|split; [|exact V5]].
  - rewrite V7, M6, filter_snd. apply find_first. intros q Hq.
    rewrite near_ray_iff by (rewrite V4; apply dir_unit; auto). rewrite V3_, V4, V2.
    rewrite Z.eqb_eq. unfold near_line. cbn [d_angle d_thr_sq new_dda c].
    replace (gx ^ 2 + gy ^ 2 + gy ^ 2) with (gx * gx + gy * gy + gy * gy) by ring.
    assert (Q : array_index (g_size g) (toIndex exact exact c (g_min g) (p3 q)) = array_index (g_size g) v <->
      voxel_centre G (g_min g) (p3 q) = fromIndex c (g_min g) v).
    { change G with (d_grid c). rewrite <- (centre_index c (g_min g) (p3 q) HG) by (intros a; apply Hge; auto). split.
      - intros E. apply array_index_inj in E; [rewrite E; reflexivity| |exact V1].
        rewrite M3. apply toIndex_in_grid; auto using exact_rounding.
      - intros E. apply fromIndex_inj in E; [rewrite E; reflexivity|exact HG]. }
    rewrite Q. reflexivity.
  - rewrite V6. destruct (c_point y); split; congruence.
Qed.
(** The z size of the map grid has no influence at all. *)
Theorem C55_z_grid_ignored : forall gx gy gz gz' G angle tol cl g old b e n,
  calls (dda_next (new_dda gx gy gz G angle tol) g) n (setRay exact exact (new_dda gx gy gz G angle tol) g old b e)
  = calls (dda_next (new_dda gx gy gz' G angle tol) g) n (setRay exact exact (new_dda gx gy gz' G angle tol) g old b e)
  /\ build_grid exact exact (new_dda gx gy gz G angle tol) cl = build_grid exact exact (new_dda gx gy gz' G angle tol) cl.
Proof. intros. split; reflexivity. Qed.

(** ** C56: the grid follows the current map.  Consecutive calls of setRay see the map
    clouds [h]; each call uses the grid of the current cloud, provided that clouds of the
    history with equal stamps are the same object. *)
Theorem C56_grid_is_current : forall gx gy gz G angle tol h cl st,
  let c := new_dda gx gy gz G angle tol in
  (forall u v, In u (h ++ [cl]) -> In v (h ++ [cl]) -> cl_stamp u = cl_stamp v -> u = v) ->
  grid_after c None (h ++ [cl]) = Some st ->
  exists g, build_grid exact exact c cl = Some g /\ st = Some (cl_stamp cl, g) /\ g_src g = cl_id cl.
Proof.
  intros gx gy gz G angle tol h cl st c Hinj Hst.
  assert (Gen : forall h' cl' s0, (forall u v, In u (h' ++ [cl']) -> In v (h' ++ [cl']) -> cl_stamp u = cl_stamp v -> u = v) ->
     (s0 = None \/ exists u g, s0 = Some (cl_stamp u, g) /\ build_grid exact exact c u = Some g /\
        forall v, In v (h' ++ [cl']) -> cl_stamp u = cl_stamp v -> u = v) ->
     grid_after c s0 (h' ++ [cl']) = Some st -> exists g, build_grid exact exact c cl' = Some g /\ st = Some (cl_stamp cl', g)).
  { induction h' as [|u h' IH]; intros cl' s0 Hi Hs Ha.
    - cbn [app grid_after] in Ha. destruct (updatePointCloud exact exact c s0 cl') as [[z g]|] eqn:Eu; [|discriminate].
      injection Ha as <-. unfold updatePointCloud in Eu. destruct Hs as [->|(u & g0 & -> & Hb & Hu)].
      + destruct (build_grid exact exact c cl') as [g'|] eqn:Eb; [|discriminate]. injection Eu as <- <-. eauto.
      + destruct ((cl_stamp cl' =? cl_stamp u)%Z && negb match g_points g0 with [] => true | _ :: _ => false end) eqn:Et.
        * apply andb_true_iff in Et. destruct Et as [Et _]. apply Z.eqb_eq in Et. injection Eu as <- <-.
          rewrite <- Et. rewrite (Hu cl') in Hb; [eauto|cbn; auto|auto].
        * destruct (build_grid exact exact c cl') as [g'|] eqn:Eb; [|discriminate]. injection Eu as <- <-. eauto.
    - cbn [app grid_after] in Ha. destruct (updatePointCloud exact exact c s0 u) as [[z g]|] eqn:Eu; [|discriminate].
      apply (IH cl' _) in Ha; auto.
      + intros v w Hv Hw'. apply Hi; cbn; auto.
      + right. unfold updatePointCloud in Eu.
        assert (Q : z = cl_stamp u /\ build_grid exact exact c u = Some g).
        { destruct Hs as [->|(u0 & g0 & -> & Hb & Hu)].
          - destruct (build_grid exact exact c u) as [g'|] eqn:Eb; [|discriminate]. injection Eu as <- <-. auto.
          - destruct ((cl_stamp u =? cl_stamp u0)%Z && negb match g_points g0 with [] => true | _ :: _ => false end) eqn:Et.
            + apply andb_true_iff in Et. destruct Et as [Et _]. apply Z.eqb_eq in Et. injection Eu as <- <-.
              rewrite (Hu u) in Hb; [auto|cbn; auto|auto].
            + destruct (build_grid exact exact c u) as [g'|] eqn:Eb; [|discriminate]. injection Eu as <- <-. auto. }
        destruct Q as [-> Qb]. exists u, g. split; [reflexivity|]. split; [exact Qb|].
        intros v Hv Es. apply Hi; cbn; auto. }
  destruct (Gen h cl None Hinj (or_introl eq_refl) Hst) as (g & Hg & Es). exists g. split; [exact Hg|]. split; [exact Es|].
  destruct (build_grid_some _ _ _ _ _ Hg) as (p & ps & _ & _ & _ & _ & M & _). exact M.
Qed.
(** With an equal stamp the old grid is kept, whatever the new map contains: the stored
    pointers still point into the old cloud object (which may have been freed). *)
Theorem C56_equal_stamp_refuted : forall gx gy gz G angle tol old new g,
  let c := new_dda gx gy gz G angle tol in
  build_grid exact exact c old = Some g -> cl_stamp new = cl_stamp old -> cl_id new <> cl_id old ->
  exists s, grid_after c None [old; new] = Some (Some (s, g)) /\ g_src g <> cl_id new /\
    map snd (g_points g) = cl_pts old.
Proof.
  intros gx gy gz G angle tol old new g c Hg Hs Hid. exists (cl_stamp old).
  destruct (build_grid_some _ _ _ _ _ Hg) as (p & ps & Ep & _ & _ & _ & M & _ & M6).
  cbn [grid_after updatePointCloud]. rewrite Hg. cbn [option_map]. rewrite Hs, Z.eqb_refl. 
  rewrite M6, Ep. cbn [map negb andb]. rewrite M. split; [reflexivity|]. split; [congruence|].
  cbn [snd]. f_equal. rewrite map_map. cbn [snd]. apply map_id.
Qed.
Example C56_nonvacuous : exists st, grid_after ex_cfg None [ex_cloud; {| cl_id := 8; cl_stamp := 101; cl_pts := [pt3 0 0 0; pt3 4 4 4] |}] = Some st.
Proof.
  destruct ex_grid as (g & Hg & _). cbn [grid_after updatePointCloud]. rewrite Hg. cbn [option_map].
  change (cl_stamp {| cl_id := 8; cl_stamp := 101; cl_pts := [pt3 0 0 0; pt3 4 4 4] |} =? cl_stamp ex_cloud)%Z with false. cbn [andb].
  unfold build_grid in *. cbn [cl_pts ex_cloud cl_id] in *.
  destruct (point_total _ <=? int_max)%Z; [|discriminate]. destruct (forallb _ _); [|discriminate]. cbn. eauto.
Qed.

(** ** C57: the k-d tree ray caster samples the ray at multiples of the smallest grid size;
    with L = floor((length + tolerance) / grid) it returns exactly max(0, L-1) results (or
    as many as it was asked for), none beyond the ray end plus the tolerance. *)
Theorem C57_uniform_samples : forall gx gy gz tol f pts b e n l,
  let c := new_kray gx gy gz tol in let gmin := Rmin gx (Rmin gy gz) in
  0 < gx -> 0 < gy -> 0 < gz ->
  calls (k_next c f pts) n (k_setRay c b e) = Some l ->
  exists rs k, l = map Some rs ++ repeat None k /\
    length rs = Nat.min n (Z.to_nat (Rfloor ((vnorm (vsub e b) + tol) / gmin) - 1)) /\
    (length rs + k = n)%nat /\
    forall i y, nth_error rs i = Some y ->
      c_pos y = vadd b (vscale (vnormalized (vsub e b)) (gmin * INR (S i))) /\
      gmin * INR (S i) < vnorm (vsub e b) + tol.
Proof.
  intros gx gy gz tol f pts b e n l c gmin Hx Hy Hz Hc.
  destruct (k_calls c f pts n (k_setRay c b e) l Hc) as (rs & k & -> & L1 & L2 & L3).
  exists rs, k. split; [reflexivity|]. split; [exact L2|]. split; [exact L1|].
  intros i y Hi. split.
  - rewrite (L3 i y Hi). cbn [k_setRay k_pos k_inc]. rewrite S_INR. cbn [k_gmin new_kray c]. fold gmin.
    destruct b, (vnormalized _). unfold vadd, vscale. cbn. f_equal; ring.
  - assert (Hlt : (i < length rs)%nat) by (apply nth_error_Some; congruence).
    rewrite L2 in Hlt. cbn [k_setRay k_length k_count] in Hlt. cbn [k_gmin k_tol new_kray c] in Hlt. fold gmin in Hlt.
    assert (Hg : 0 < gmin) by (unfold gmin; repeat apply Rmin_pos; auto).
    set (len := vnorm (vsub e b) + tol) in *. destruct (Rfloor_spec (len / gmin)) as [F1 _].
    assert (Hz' : (Z.of_nat (S i) + 1 <= Rfloor (len / gmin))%Z) by lia.
    apply IZR_le in Hz'. rewrite plus_IZR, <- INR_IZR_INZ in Hz'.
    assert (A : (INR (S i) + 1) * gmin <= len / gmin * gmin) by (apply Rmult_le_compat_r; lra).
    replace (len / gmin * gmin) with len in A by (field; lra). lra.
Qed.

(** ** C58: with the chunked kd-tree as search structure (any history of configuration and
    loading calls, weights at least 1, search limit at least four times the largest grid
    size and at most half a chunk), every cast is defined and a sample is a collision iff a
    map point is closer than sqrt(2)/2 of the largest grid size; the reported point is a
    nearest one.  [eps] is the relative tolerance of the search. *)
Theorem C58_collision_iff_near : forall gx gy gz tol cs L rmax keep pts f b e n,
  let c := new_kray gx gy gz tol in let gmax := Rmax gx (Rmax gy gz) in
  let s := scale_of (last_rep cs None) in let eps := eps_of (last_eps cs None) in
  0 < gx -> 0 < gy -> 0 < gz -> 4 * gmax <= rmax -> rmax <= L / 2 -> at_least_one s -> 0 <= eps ->
  last_load cs None = Some (map (fun p => to_pt (p3 p)) pts) ->
  (forall q r, radiusSearch (kd_after cs L rmax keep) q r 1 (f q r)) ->
  let d p y := dist_sq s (to_pt (p3 p)) (to_pt (c_pos y)) in
  let near_sq := (sqrt 2 / 2 * gmax) * (sqrt 2 / 2 * gmax) in
  exists l, calls (k_next c f pts) n (k_setRay c b e) = Some l /\
    Forall (fun y =>
      match c_point y with
      | Some p => c_coll y = true /\ In p pts /\ d p y < near_sq /\ forall p', In p' pts -> d p y <= (1 + eps) * d p' y
      | None => c_coll y = false /\ forall p, In p pts -> near_sq <= (1 + eps) * d p y
      end) (reported l).
Proof.
  intros gx gy gz tol cs L rmax keep pts f b e n c gmax s eps Hx Hy Hz Hrm HL Hw He Hl Hf d near_sq.
  destruct (radius1_le gx gy gz tol Hx Hy Hz) as (R1 & R2 & R3). fold c in R1, R2, R3. change (k_gmax c) with gmax in R1, R2, R3.
  assert (HL0 : 0 < L) by lra.
  pose proof (kd_nn cs L rmax keep _ f HL0 HL Hw He Hl Hf) as Hnn.
  destruct (k_results c f pts s eps rmax Hnn ltac:(lra) ltac:(lra) n (k_setRay c b e)) as (l & El & F).
  exists l. split; [exact El|]. eapply Forall_impl; [|exact F]. cbn beta. intros y (A & B).
  assert (Er : k_radius1 c * k_radius1 c = near_sq).
  { unfold k_radius1, near_sq. change (k_gmax c) with gmax. field. }
  destruct (c_coll y).
  - destruct (A eq_refl) as (p & -> & P1 & P2 & P3 & _). rewrite Er in P2. auto.
  - destruct (B eq_refl) as (-> & _ & P). rewrite Er in P. auto.
Qed.
(** With unit weights and exact search the reported sine is between 0 and 1. *)
Theorem C58_sine_in_range : forall gx gy gz tol cs L rmax keep pts f b e n l,
  let c := new_kray gx gy gz tol in
  0 < gx -> 0 < gy -> 0 < gz -> 4 * Rmax gx (Rmax gy gz) <= rmax -> rmax <= L / 2 -> b <> e ->
  scale_of (last_rep cs None) = (1, 1, 1) -> eps_of (last_eps cs None) = 0 ->
  last_load cs None = Some (map (fun p => to_pt (p3 p)) pts) ->
  (forall q r, radiusSearch (kd_after cs L rmax keep) q r 1 (f q r)) ->
  calls (k_next c f pts) n (k_setRay c b e) = Some l ->
  Forall (fun y => 0 <= c_sin y <= 1) (reported l).
Proof.
  intros gx gy gz tol cs L rmax keep pts f b e n l c Hx Hy Hz Hrm HL Hbe Hw He Hl Hf Hc.
  set (gmax := Rmax gx (Rmax gy gz)) in *.
  destruct (radius1_le gx gy gz tol Hx Hy Hz) as (R1 & R2 & R3). fold c in R1, R2, R3. change (k_gmax c) with gmax in R1, R2, R3.
  assert (HL0 : 0 < L) by lra.
  assert (Hw1 : at_least_one (scale_of (last_rep cs None))) by (rewrite Hw; cbn; lra).
  pose proof (kd_nn cs L rmax keep _ f HL0 HL Hw1 ltac:(lra) Hl Hf) as Hnn. rewrite Hw, He in Hnn.
  destruct (k_results c f pts (1,1,1) 0 rmax Hnn ltac:(lra) ltac:(lra) n (k_setRay c b e)) as (l' & El & F).
  rewrite Hc in El. injection El as <-. eapply Forall_impl; [|exact F]. cbn beta. intros y (A & B).
  destruct (c_coll y); [|destruct (B eq_refl) as (_ & -> & _); lra].
  destruct (A eq_refl) as (p & Ep & P1 & P2 & P3 & [[-> _]|(p1 & Q1 & -> & Q3 & Q4)]); [lra|].
  set (inc := k_inc (k_setRay c b e)) in *.
  assert (Ninc : vnorm (vscale inc 2) = 2 * k_gmin c).
  { rewrite vnorm_scale by lra. unfold inc. cbn [k_setRay k_inc]. rewrite vnorm_scale by lra. rewrite dir_norm by auto. ring. }
  rewrite !unit_dist.
  assert (M1 : vnorm (vsub (p3 p) (c_pos y)) <= vnorm (vsub (p3 p1) (c_pos y))).
  { rewrite <- !unit_dist. apply sqrt_le_1_alt. pose proof (P3 p1 Q1). lra. }
  assert (M2 : vnorm (vsub (p3 p1) (vsub (c_pos y) (vscale inc 2))) <= vnorm (vsub (p3 p) (vsub (c_pos y) (vscale inc 2)))).
  { rewrite <- !unit_dist. apply sqrt_le_1_alt. pose proof (Q4 p P1). lra. }
  pose proof (dist_shift (p3 p) (c_pos y) (vscale inc 2)) as T1. pose proof (dist_shift' (p3 p1) (c_pos y) (vscale inc 2)) as T2.
  rewrite Ninc in T1, T2.
  assert (Hab : Rabs (vnorm (vsub (p3 p1) (vsub (c_pos y) (vscale inc 2))) - vnorm (vsub (p3 p) (c_pos y))) <= 2 * k_gmin c) by (apply Rabs_le; lra).
  pose proof (Rabs_pos (vnorm (vsub (p3 p1) (vsub (c_pos y) (vscale inc 2))) - vnorm (vsub (p3 p) (c_pos y)))) as Hp.
  split.
  - apply Rmult_le_pos; [exact Hp|]. apply Rlt_le, Rinv_0_lt_compat. lra.
  - apply Rmult_le_reg_r with (k_gmin c * 2); [lra|]. unfold Rdiv. rewrite Rmult_assoc, Rinv_l by lra. lra.
Qed.
(** With a z weight above 1 (the default configuration has 5) the "sine" can exceed 1:
    a map point exactly at the third sample of a vertical ray. *)
Theorem C58_weighted_sine_refuted : exists cs pts b e,
  let c := new_kray 1 1 1 0 in let s := scale_of (last_rep cs None) in
  at_least_one s /\ eps_of (last_eps cs None) = 0 /\ b <> e /\
  last_load cs None = Some (map (fun p => to_pt (p3 p)) pts) /\
  forall f, (forall q r, radiusSearch (kd_after cs 20 4 false) q r 1 (f q r)) ->
  exists l y, calls (k_next c f pts) 2 (k_setRay c b e) = Some l /\ In y (reported l) /\ c_coll y = true /\ 1 < c_sin y.
Proof.
  set (p := pt3 5 5 2). exists [CRep (1, 1, 6/5); CLoad [to_pt (p3 p)]], [p], (V3 5 5 0), (V3 5 5 5).
  cbn zeta. set (cs := [CRep (1, 1, 6/5); CLoad [to_pt (p3 p)]]).
  assert (Hs : at_least_one (scale_of (last_rep cs None))) by (cbn; lra).
  split; [exact Hs|]. split; [reflexivity|]. split; [intros X; injection X; lra|]. split; [reflexivity|].
  intros f Hf. set (c := new_kray 1 1 1 0). set (r0 := k_setRay c (V3 5 5 0) (V3 5 5 5)).
  assert (Hnn : nn_spec (1, 1, 6/5) 0 (map (fun p => to_pt (p3 p)) [p]) 4 f).
  { apply (kd_nn cs 20 4 false _ f); try lra; auto. cbn. lra. }
  assert (Gmin : k_gmin c = 1) by (unfold c, new_kray; cbn [k_gmin]; rewrite (Rmin_left 1 1) by lra; apply Rmin_left; lra).
  assert (Gmax : k_gmax c = 1) by (unfold c, new_kray; cbn [k_gmax]; rewrite (Rmax_left 1 1) by lra; apply Rmax_left; lra).
  assert (S2 : 1 < sqrt 2 < 3 / 2).
  { split; [rewrite <- sqrt_1 at 1; apply sqrt_lt_1; lra|]. rewrite <- (sqrt_square (3/2)) by lra. apply sqrt_lt_1; lra. }
  assert (Inc : k_inc r0 = V3 0 0 1).
  { unfold r0, k_setRay. cbn [k_inc]. rewrite Gmin. unfold vnormalized.
    replace (vnorm (vsub (V3 5 5 5) (V3 5 5 0))) with 5.
    - unfold vscale, vdiv, vsub. cbn. f_equal; field.
    - unfold vnorm, vdot, vsub. cbn [vx vy vz]. replace (_ + _) with (5 * 5) by ring. symmetry. apply sqrt_square. lra. }
  assert (Len : k_length r0 = 5%Z).
  { unfold r0, k_setRay. cbn [k_length]. rewrite Gmin. 
    replace (vnorm (vsub (V3 5 5 5) (V3 5 5 0))) with 5.
    - apply floor_eq. cbn. lra.
    - unfold vnorm, vdot, vsub. cbn [vx vy vz]. replace (_ + _) with (5 * 5) by ring. symmetry. apply sqrt_square. lra. }
  assert (K1 : 0 <= k_radius1 c <= 4) by (unfold k_radius1; rewrite Gmax; lra).
  assert (K2 : 0 <= k_radius2 c <= 4) by (unfold k_radius2; rewrite Gmax, Gmin; lra).
  destruct (k_results c f [p] (1,1,6/5) 0 4 Hnn K1 K2 2 r0) as (l & El & F).
  destruct (k_calls c f [p] 2 r0 l El) as (rs & k & -> & L1 & L2 & L3).
  change (k_count r0) with 1%Z in L2. rewrite Len in L2. change (Nat.min 2 (Z.to_nat (5 - 1))) with 2%nat in L2.
  destruct rs as [|y0 [|y1 [|? ?]]]; try discriminate. clear L1 L2.
  rewrite reported_app in F. exists (map Some [y0; y1] ++ repeat None k), y1. split; [exact El|].
  rewrite reported_app. split; [cbn; auto|].
  pose proof (L3 1%nat y1 eq_refl) as Hy. rewrite Inc in Hy. unfold r0, k_setRay in Hy. cbn [k_pos] in Hy.
  change (vscale (vnormalized (vsub (V3 5 5 5) (V3 5 5 0))) (k_gmin c)) with (k_inc r0) in Hy. rewrite Inc in Hy.
  assert (Hy' : c_pos y1 = V3 5 5 2) by (rewrite Hy; unfold vadd, vscale; cbn; f_equal; ring). clear Hy.
  inversion_clear F as [|? ? _ F']. inversion_clear F' as [|? ? [FA FB] _]. cbn beta in FA, FB. 
  assert (D0 : dist_sq (1, 1, 6/5) (to_pt (p3 p)) (to_pt (c_pos y1)) = 0).
  { rewrite Hy'. unfold dist_sq, p, pt3, to_pt. cbn [p3 vx vy vz px py pz]. ring. }
  assert (D1 : dist_sq (1, 1, 6/5) (to_pt (p3 p)) (to_pt (vsub (c_pos y1) (vscale (k_inc r0) 2))) = (12/5) * (12/5)).
  { rewrite Hy', Inc. unfold dist_sq, p, pt3, to_pt, vsub, vscale. cbn [p3 vx vy vz px py pz]. field. }
  destruct (c_coll y1) eqn:Ec.
  - split; [reflexivity|]. destruct (FA eq_refl) as (p' & _ & P1 & _ & _ & [[_ Hno]|(p1 & Q1 & -> & _)]).
    + exfalso. specialize (Hno p (or_introl eq_refl)). rewrite D1 in Hno. unfold k_radius2 in Hno. rewrite Gmin, Gmax in Hno. nra.
    + destruct P1 as [<-|[]]. destruct Q1 as [<-|[]]. rewrite D0, D1, sqrt_0, sqrt_square by lra. rewrite Gmin.
      rewrite Rabs_right by lra. lra.
  - exfalso. destruct (FB eq_refl) as (_ & _ & Hn). specialize (Hn p (or_introl eq_refl)). rewrite D0 in Hn.
    unfold k_radius1 in Hn. rewrite Gmax in Hn. nra.
Qed.
(** The search radii stay below the beam model's maximum search range of four times the
    largest grid size, so the search never throws and never misses (C24, C27). *)
Theorem C58_radii_in_range : forall gx gy gz tol, 0 < gx -> 0 < gy -> 0 < gz ->
  let c := new_kray gx gy gz tol in
  0 <= k_radius1 c <= 4 * Rmax gx (Rmax gy gz) /\ 0 <= k_radius2 c <= 4 * Rmax gx (Rmax gy gz).
Proof. intros gx gy gz tol Hx Hy Hz c. destruct (radius1_le gx gy gz tol Hx Hy Hz) as (R1 & R2 & _). auto. Qed.
(** A search function as required exists for every kd-tree. *)
Theorem C58_search_exists : forall cs L rmax keep cloud, last_load cs None = Some cloud -> 0 <= eps_of (last_eps cs None) ->
  exists f, forall q r, radiusSearch (kd_after cs L rmax keep) q r 1 (f q r).
Proof. intros cs L rmax keep cloud Hl He. exists (pick (kd_after cs L rmax keep)). eapply pick_search; eauto. Qed.
Example C57_C58_nonvacuous : exists cs pts,
  at_least_one (scale_of (last_rep cs None)) /\ 4 * Rmax (1/5) (Rmax (1/5) (1/5)) <= 4 /\ 4 <= 20 / 2 /\
  last_load cs None = Some (map (fun p => to_pt (p3 p)) pts) /\ pts <> [].
Proof.
  exists [CRep (1,1,5); CEps (1/80); CLoad [to_pt (p3 (pt3 1 2 3))]], [pt3 1 2 3].
  assert (E : Rmax (1/5) (1/5) = 1/5) by (apply Rmax_left; lra). rewrite !E. cbn [last_rep last_load scale_of at_least_one map]. split; [lra|]. split; [lra|]. split; [lra|]. split; [reflexivity|discriminate].
Qed.
