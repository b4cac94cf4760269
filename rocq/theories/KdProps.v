(** Properties C24-C29 of the chunked kd-tree (vocabulary: KdSpec.v). *)
From Coq Require Import Reals ZArith List Bool Arith Lra Lia Permutation.
From Verif Require Import Arith KdModel KdSpec KdProofs.
Import ListNotations.
Local Open Scope R_scope.

(** An object that was configured and loaded by any sequence of calls. *)
Notation kd_after cs L rmax keep := (fold_left apply_call cs (new_kdt L rmax keep)).
Definition eps_of (o : option R) : R := match o with Some e => e | None => 0 end.
(** all three distance weights are at least one *)
Notation weights_ge_1 s := (at_least_one s).

(** The distance every search works with: weighted per axis, Euclidean without weights. *)
Theorem C24_metric s p q : dist_sq s p q =
  (fst (fst s) * (px p - px q)) ^ 2 + (snd (fst s) * (py p - py q)) ^ 2 + (snd s * (pz p - pz q)) ^ 2.
Proof. destruct s as [[a b] c]. unfold dist_sq. cbn [fst snd]. ring. Qed.

(** C24. Completeness, with the relative tolerance epsilon of setEpsilon. *)
Theorem C24_misses_nothing cs L rmax keep cloud q r res :
  0 < L -> 0 <= r <= rmax -> rmax <= L / 2 -> weights_ge_1 (weights_used cs) ->
  0 <= eps_of (last_eps cs None) ->
  last_load cs None = Some cloud ->
  radiusSearch (kd_after cs L rmax keep) q r 0 res ->
  (forall i p, nth_error cloud i = Some p ->
     (1 + eps_of (last_eps cs None)) * dist_sq (weights_used cs) p q < r * r ->
     exists out, res = Found out /\ In (i, dist_sq (weights_used cs) p q) out).
Proof.
  intros HL Hr Hm Hs He Hl Hsearch i p Hi Hd.
  set (s := weights_used cs) in *. set (e := eps_of (last_eps cs None)) in *.
  assert (Hd0 : 0 <= dist_sq s p q).
  { unfold dist_sq. destruct s as [[a b] c]. 
    repeat apply Rplus_le_le_0_compat; apply Rle_0_sqr. }
  assert (Hd1 : dist_sq s p q < r * r) by nra.
  assert (Hin : In (i, p) (mem L rmax (getChunkId L q) 0 cloud)).
  { apply members_spec. rewrite Nat.sub_0_r. split; [lia|]. split; [exact Hi|].
    apply near_target with (s := s) (r := r); assumption. }
  destruct (search_inv cs L rmax keep cloud q r 0 res Hl Hsearch) as [[Hx _]|[(_ & Hx & _)|(_ & inner & out & F1 & F2 & F3 & F4 & F5 & _)]].
  - lra.
  - rewrite Hx in Hin. contradiction.
  - exists out. split; [exact F2|]. apply F5.
    apply In_nth_error in Hin. destruct Hin as [j Hj].
    destruct F1 as (_ & G2 & _ & _ & G5 & _).
    assert (Hj' : nth_error (map snd (mem L rmax (getChunkId L q) 0 cloud)) j = Some p) by (rewrite nth_error_map, Hj; reflexivity).
    assert (Gin := G5 (or_introl eq_refl) j p Hj' Hd).
    apply in_map_iff in Gin. destruct Gin as ([j' d] & E & Gin). cbn in E. subst j'.
    destruct (G2 j d Gin) as (p' & P1 & P2 & _). rewrite Hj' in P1. injection P1 as <-.
    exists j, p. split; [|exact Hj]. change (scale_of (last_rep cs None)) with s in P2. rewrite <- P2. exact Gin.
Qed.

(** C24, nearest neighbour queries (limit 1): a hit is reported if any point is in
    range, and no point is closer by more than the tolerance. *)
Theorem C24_nearest cs L rmax keep cloud q r res i p :
  0 < L -> 0 <= r <= rmax -> rmax <= L / 2 -> weights_ge_1 (weights_used cs) ->
  0 <= eps_of (last_eps cs None) ->
  last_load cs None = Some cloud ->
  radiusSearch (kd_after cs L rmax keep) q r 1 res ->
  nth_error cloud i = Some p ->
  (1 + eps_of (last_eps cs None)) * dist_sq (weights_used cs) p q < r * r ->
  exists j d, res = Found [(j, d)]
    /\ d <= (1 + eps_of (last_eps cs None)) * dist_sq (weights_used cs) p q.
Proof.
  intros HL Hr Hm Hs He Hl Hsearch Hi Hd.
  set (s := weights_used cs) in *. set (e := eps_of (last_eps cs None)) in *.
  assert (Hd0 : 0 <= dist_sq s p q).
  { unfold dist_sq. destruct s as [[a b] c].
    repeat apply Rplus_le_le_0_compat; apply Rle_0_sqr. }
  assert (Hd1 : dist_sq s p q < r * r) by nra.
  assert (Hin : In (i, p) (mem L rmax (getChunkId L q) 0 cloud)).
  { apply members_spec. rewrite Nat.sub_0_r. split; [lia|]. split; [exact Hi|].
    apply near_target with (s := s) (r := r); assumption. }
  destruct (search_inv cs L rmax keep cloud q r 1 res Hl Hsearch) as [[Hx _]|[(_ & Hx & _)|(_ & inner & out & F1 & F2 & F3 & F4 & F5 & F6)]].
  - lra.
  - rewrite Hx in Hin. contradiction.
  - apply In_nth_error in Hin. destruct Hin as [j Hj].
    assert (Hj' : nth_error (map snd (mem L rmax (getChunkId L q) 0 cloud)) j = Some p) by (rewrite nth_error_map, Hj; reflexivity).
    destruct F1 as (_ & G2 & _ & G4 & G5 & G6). specialize (G4 ltac:(lia)).
    destruct inner as [|[j1 d1] inner].
    { exfalso. exact (G5 (or_intror (Nat.lt_0_succ 0)) j p Hj' Hd). }
    destruct inner as [|x inner]; [|cbn in G4; lia].
    destruct (F6 0%nat j1 d1 eq_refl) as (i1 & p1 & P1 & P2).
    destruct out as [|o out]; [discriminate|]. destruct out as [|o' out]; [|cbn in F3; lia].
    cbn in P2. injection P2 as ->. exists i1, d1. split; [exact F2|].
    destruct (Rlt_dec ((1 + e) * dist_sq s p q) d1) as [Hlt|Hge]; [|lra].
    destruct (G6 (j1, d1) eq_refl eq_refl j p Hj' Hlt) as [E|[]]. cbn in E. subst j1.
    destruct (G2 j d1 (or_introl eq_refl)) as (p' & Q1 & Q2 & _). rewrite Hj' in Q1. injection Q1 as <-.
    change (scale_of (last_rep cs None)) with s in Q2. nra.
Qed.

(** C25. Soundness of the returned ids, for every radius and every configuration. *)
Theorem C25_ids_are_cloud_ids cs L rmax keep cloud q r num res out :
  last_load cs None = Some cloud ->
  radiusSearch (kd_after cs L rmax keep) q r num res -> res = Found out ->
  NoDup (map fst out)
  /\ (forall i d, In (i, d) out -> exists p, nth_error cloud i = Some p
        /\ d = dist_sq (weights_used cs) p q /\ d < r * r)
  /\ (forall a b x y, (a < b)%nat -> nth_error out a = Some x -> nth_error out b = Some y -> snd x <= snd y)
  /\ ((0 < num)%nat -> (length out <= num)%nat).
Proof.
  intros Hl Hsearch ->.
  destruct (search_inv cs L rmax keep cloud q r num _ Hl Hsearch) as [[_ Hx]|[(_ & _ & Hx)|(_ & inner & out' & F1 & F2 & F3 & F4 & F5 & F6)]];
    try discriminate. injection F2 as <-.
  destruct F1 as (G1 & G2 & G3 & G4 & _).
  split; [|split; [|split]].
  - assert (E : map fst out = map (fun j => match nth_error (mem L rmax (getChunkId L q) 0 cloud) j with Some x => fst x | None => 0%nat end) (map fst inner)).
    { apply nth_ext with (d := 0%nat) (d' := 0%nat); [rewrite !map_length; exact F3|].
      intros n Hn. rewrite map_length in Hn.
      destruct (nth_error inner n) as [[j d]|] eqn:Hi; [|apply nth_error_None in Hi; lia].
      destruct (F6 n j d Hi) as (i & p & P1 & P2).
      erewrite !nth_error_nth; [reflexivity| |].
      - rewrite !nth_error_map, Hi. cbn. rewrite P1. reflexivity.
      - rewrite nth_error_map, P2. reflexivity. }
    rewrite E. clear E.
    assert (M := members_NoDup (getChunkId L) (bounds L rmax) (getChunkId L q) 0 cloud).
    fold (mem L rmax) in M.
    assert (V : forall j, In j (map fst inner) -> nth_error (mem L rmax (getChunkId L q) 0 cloud) j <> None).
    { intros j Hj. apply in_map_iff in Hj. destruct Hj as ([j' d] & E & Hin). cbn in E. subst j'.
      destruct (G2 j d Hin) as (p & P1 & _). rewrite nth_error_map in P1.
      destruct (nth_error _ j); [discriminate|discriminate]. }
    revert V G1. generalize (map fst inner) as js. induction js as [|j js IH]; intros V G1; cbn; [constructor|].
    inversion_clear G1 as [|? ? N1 N2]. constructor; [|apply IH; auto; intros; apply V; right; assumption].
    intros Hin. apply in_map_iff in Hin. destruct Hin as (j' & E & Hj').
    assert (V1 := V j (or_introl eq_refl)). assert (V2 := V j' (or_intror Hj')).
    set (ml := mem L rmax (getChunkId L q) 0 cloud) in *.
    destruct (nth_error ml j) as [x1|] eqn:X1; [|congruence].
    destruct (nth_error ml j') as [x2|] eqn:X2; [|congruence].
    apply N1. replace j with j'; [exact Hj'|].
    apply (proj1 (NoDup_nth_error (map fst ml)) M).
    + rewrite map_length. apply nth_error_Some. congruence.
    + rewrite !nth_error_map, X1, X2. cbn. congruence.
  - intros i d Hin. apply F5 in Hin. destruct Hin as (j & p & Hin & Hj).
    destruct (G2 j d Hin) as (p' & P1 & P2 & P3). rewrite nth_error_map, Hj in P1. cbn in P1. injection P1 as <-.
    apply members_in_cloud in Hj. exists p. tauto.
  - intros a b x y Hab Hx Hy.
    assert (Ex : nth_error (map snd inner) a = Some (snd x)) by (rewrite <- F4, nth_error_map, Hx; reflexivity).
    assert (Ey : nth_error (map snd inner) b = Some (snd y)) by (rewrite <- F4, nth_error_map, Hy; reflexivity).
    destruct (map_snd_nth _ _ _ Ex) as (i1 & I1). destruct (map_snd_nth _ _ _ Ey) as (i2 & I2).
    exact (G3 a b _ _ Hab I1 I2).
  - intros Hn. rewrite F3. auto.
Qed.
(** The remapping never reads outside its table: whatever the kd-tree library returns,
    the call has a result. *)
Theorem C25_remap_defined cs L rmax keep cloud q r num c inner :
  last_load cs None = Some cloud -> r <= L ->
  vfind (chunks (kd_after cs L rmax keep)) (getChunkId L q) = Some c ->
  flann_result (scale_of (rep c)) (eps_of (eps c)) (tree c) q r num inner ->
  exists out, radiusSearch (kd_after cs L rmax keep) q r num (Found out).
Proof.
  intros Hl Hr Hc Hf.
  destruct (state_after cs (new_kdt L rmax keep) eq_refl) as (E1 & E2 & E3 & E4).
  unfold radiusSearch. rewrite E1. cbn [chunk_length new_kdt].
  replace (Rltb L r) with false by (symmetry; apply Rltb_false; exact Hr).
  rewrite Hc. rewrite E4 in Hc. cbn in Hc. rewrite Hl, built_find in Hc.
  destruct (mem L rmax (getChunkId L q) 0 cloud) as [|m0 m'] eqn:Em; [discriminate|].
  rewrite <- Em in Hc. injection Hc as <-. cbn [rep eps tree original_ids] in *.
  destruct (remap_total _ _ _ _ _ _ _ Hf) as (out & O1 & _).
  exists out, inner, out. auto.
Qed.

(** C26. With exact search (epsilon 0) the chunked search agrees with a brute force
    search of the whole cloud: same hit/miss answer, same distances, any limit. *)
Theorem C26_equals_whole_cloud cs L rmax keep cloud q r num res whole :
  0 < L -> 0 <= r <= rmax -> rmax <= L / 2 -> weights_ge_1 (weights_used cs) ->
  eps_of (last_eps cs None) = 0 -> last_load cs None = Some cloud ->
  radiusSearch (kd_after cs L rmax keep) q r num res ->
  flann_result (weights_used cs) 0 cloud q r num whole ->
  match res with
  | Throws => False
  | NoChunk => whole = []
  | Found out => map snd out = map snd whole
  end.
Proof.
  intros HL Hr Hm Hs He Hl Hsearch Hw.
  assert (Ew : within (weights_used cs) q r (map snd (mem L rmax (getChunkId L q) 0 cloud))
               = within (weights_used cs) q r cloud).
  { rewrite within_mem, chunk_neighbours by assumption. apply within_neighbours. }
  destruct (search_inv cs L rmax keep cloud q r num res Hl Hsearch) as [[Hx ->]|[(_ & Hx & ->)|(_ & inner & out & F1 & -> & F3 & F4 & _)]].
  - lra.
  - rewrite Hx in Ew. cbn [map] in Ew.
    assert (Z : flann_result (weights_used cs) 0 [] q r num []).
    { repeat split; cbn; try constructor; try contradiction; intros; try lia; try (destruct a; discriminate); try (destruct i; discriminate). }
    assert (E := same_distances _ _ _ _ _ _ _ _ Ew Z Hw). destruct whole; [reflexivity|discriminate].
  - rewrite F4. unfold eps_of in He. rewrite He in F1. exact (same_distances _ _ _ _ _ _ _ _ Ew F1 Hw).
Qed.
(** In particular the number of neighbours within the radius is the true number. *)
Theorem C26_count cs L rmax keep cloud q r res out :
  0 < L -> 0 <= r <= rmax -> rmax <= L / 2 -> weights_ge_1 (weights_used cs) ->
  eps_of (last_eps cs None) = 0 -> last_load cs None = Some cloud ->
  radiusSearch (kd_after cs L rmax keep) q r 0 res -> res = Found out ->
  Permutation (map snd out) (map (fun ip => dist_sq (weights_used cs) (snd ip) q)
                                (neighbours (weights_used cs) cloud q r)).
Proof.
  intros HL Hr Hm Hs He Hl Hsearch ->. set (s := weights_used cs) in *.
  destruct (C25_ids_are_cloud_ids cs L rmax keep cloud q r 0 _ out Hl Hsearch eq_refl) as (N1 & S1 & _).
  set (NB := neighbours s cloud q r).
  assert (E1 : map snd out = map (fun i => match nth_error cloud i with Some p => dist_sq s p q | None => 0 end) (map fst out)).
  { rewrite map_map. apply map_ext_in. intros [i d] Hin. cbn. destruct (S1 i d Hin) as (p & -> & -> & _). reflexivity. }
  assert (E2 : map (fun ip => dist_sq s (snd ip) q) NB
             = map (fun i => match nth_error cloud i with Some p => dist_sq s p q | None => 0 end) (map fst NB)).
  { rewrite map_map. apply map_ext_in. intros [i p] Hin. cbn. unfold NB, neighbours in Hin.
    apply filter_In in Hin. destruct Hin as [Hin _]. apply indexed_In in Hin. rewrite Hin. reflexivity. }
  rewrite E1, E2. apply Permutation_map. apply NoDup_Permutation; [exact N1| |].
  - apply NoDup_map_filter. apply combine_fst_NoDup.
  - intros i. split; intros Hin; apply in_map_iff in Hin; destruct Hin as ([i' x] & E & Hin); cbn in E; subst i'.
    + destruct (S1 i x Hin) as (p & P1 & P2 & P3). apply in_map_iff. exists (i, p). split; [reflexivity|].
      unfold NB, neighbours. apply filter_In. split; [apply indexed_In; exact P1|]. cbn. apply Rltb_true. fold s in P2. rewrite <- P2. exact P3.
    + unfold NB, neighbours in Hin. apply filter_In in Hin. destruct Hin as [P1 P2]. apply indexed_In in P1. apply Rltb_true in P2. cbn in P2.
      destruct (C24_misses_nothing cs L rmax keep cloud q r _ HL Hr Hm Hs ltac:(rewrite He; lra) Hl Hsearch i x P1) as (o & O1 & O2).
      { rewrite He. fold s. lra. }
      injection O1 as <-. apply in_map_iff. eexists. split; [|exact O2]. reflexivity.
Qed.

(** C27. A radius above the chunk length throws; ... *)
Theorem C27_throws_iff cs L rmax keep cloud q r num res :
  last_load cs None = Some cloud -> radiusSearch (kd_after cs L rmax keep) q r num res ->
  res = Throws <-> L < r.
Proof.
  intros Hl Hs.
  destruct (search_inv cs L rmax keep cloud q r num res Hl Hs) as [[Hx ->]|[(Hx & _ & ->)|(Hx & inner & out & _ & -> & _)]].
  - split; auto.
  - split; [discriminate|lra].
  - split; [discriminate|lra].
Qed.

Lemma floor_one_below L x : 0 < L -> - L <= x < 0 -> Rfloor (x * (1 / L)) = (-1)%Z.
Proof.
  intros HL [H1 H2]. apply Rfloor_unique. 
  assert (E : x * (1 / L) * L = x) by (field; lra).
  split; apply Rmult_le_reg_r with L || apply Rmult_lt_reg_r with L; try assumption; rewrite E; lra.
Qed.
Lemma floor_zero L x : 0 < L -> 0 <= x < L -> Rfloor (x * (1 / L)) = 0%Z.
Proof.
  intros HL [H1 H2]. apply Rfloor_unique.
  assert (E : x * (1 / L) * L = x) by (field; lra).
  split; apply Rmult_le_reg_r with L || apply Rmult_lt_reg_r with L; try assumption; rewrite E; lra.
Qed.
(** a point on the border of the copy zone is invisible from the chunk below *)
Lemma invisible cs L rmax keep x r num :
  0 < L -> 0 <= rmax <= L / 2 -> r <= L -> - L <= x < 0 ->
  last_load cs None = Some [mkpt rmax (L/2) (L/2)] ->
  radiusSearch (kd_after cs L rmax keep) (mkpt x (L/2) (L/2)) r num NoChunk.
Proof.
  intros HL Hm Hr Hx Hl.
  destruct (state_after cs (new_kdt L rmax keep) eq_refl) as (E1 & E2 & E3 & E4).
  unfold radiusSearch. rewrite E1. cbn [chunk_length new_kdt].
  replace (Rltb L r) with false by (symmetry; apply Rltb_false; exact Hr).
  rewrite E4. cbn [chunk_length max_search_radius keep_clouds input_cloud new_kdt]. rewrite Hl, built_find.
  destruct (mem L rmax (getChunkId L (mkpt x (L / 2) (L / 2))) 0 [mkpt rmax (L / 2) (L / 2)]) as [|[i p] m] eqn:Em; [reflexivity|exfalso].
  assert (Hin : In (i, p) (mem L rmax (getChunkId L (mkpt x (L / 2) (L / 2))) 0 [mkpt rmax (L / 2) (L / 2)])) by (rewrite Em; left; reflexivity).
  apply members_spec in Hin. destruct Hin as (_ & Hi & Ht). rewrite Nat.sub_0_r in Hi.
  destruct i as [|i]; cbn in Hi; [|destruct i; discriminate]. injection Hi as <-.
  assert (Eq : getChunkId L (mkpt x (L / 2) (L / 2)) = (-1, 0, 0)%Z).
  { unfold getChunkId. cbn. rewrite floor_one_below, floor_zero by lra. reflexivity. }
  assert (Ep : getChunkId L (mkpt rmax (L / 2) (L / 2)) = (0, 0, 0)%Z).
  { unfold getChunkId. cbn. rewrite !floor_zero by lra. reflexivity. }
  rewrite Eq in Ht. unfold targets in Ht. rewrite Ep in Ht. destruct Ht as [Ht|Ht]; [discriminate|].
  apply copies_spec in Ht. destruct Ht as (dx & dy & dz & E & _ & Hb). unfold bounds in Hb. rewrite Ep in Hb.
  destruct Hb as (Hb & _). cbn in E. injection E as E _ _. unfold bound1 in Hb. cbn [px mkpt] in Hb.
  replace (Rltb (rmax - 0 * L) rmax) with false in Hb by (symmetry; apply Rltb_false; lra).
  replace (Rltb (L - rmax) (rmax - 0 * L)) with false in Hb by (symmetry; apply Rltb_false; lra).
  lia.
Qed.

(** ... every radius between max_search_radius and the chunk length is accepted but
    misses a neighbour (for some cloud and query). *)
Theorem C27_guard_insufficient_refuted L rmax keep r :
  0 < L -> 0 <= rmax <= L / 2 -> rmax < r <= L ->
  exists cloud q p, nth_error cloud 0 = Some p /\ dist_sq (1, 1, 1) p q < r * r
    /\ radiusSearch (kd_after [CLoad cloud] L rmax keep) q r 0 NoChunk.
Proof.
  intros HL Hm Hr. exists [mkpt rmax (L/2) (L/2)], (mkpt (- ((r - rmax) / 2)) (L/2) (L/2)), (mkpt rmax (L/2) (L/2)).
  split; [reflexivity|]. split.
  - unfold dist_sq. cbn. nra.
  - apply invisible; try reflexivity; lra.
Qed.
(** The node's defaults: chunk length 20, max_search_radius 0.4 (from match_dist_min
    0.2 and flat 0.05 ...), unmatch_output_dist 0.5: see C90_unmatched_output_refuted. *)
Example C27_defaults : exists cloud q p, nth_error cloud 0 = Some p /\ dist_sq (1, 1, 1) p q < (1/2) * (1/2)
    /\ radiusSearch (kd_after [CLoad cloud] 20 (4/10) false) q (1/2) 0 NoChunk.
Proof. apply C27_guard_insufficient_refuted; lra. Qed.

(** C28. After any history the searches depend on the last cloud only (and on the last
    representation and epsilon). *)
Theorem C28_no_memory cs cs' L rmax keep q r num res :
  last_load cs None = last_load cs' None -> last_load cs None <> None ->
  last_rep cs None = last_rep cs' None -> last_eps cs None = last_eps cs' None ->
  radiusSearch (kd_after cs L rmax keep) q r num res ->
  radiusSearch (kd_after cs' L rmax keep) q r num res.
Proof.
  intros H1 _ H2 H3.
  destruct (state_after cs (new_kdt L rmax keep) eq_refl) as (E1 & _ & _ & E4).
  destruct (state_after cs' (new_kdt L rmax keep) eq_refl) as (E1' & _ & _ & E4').
  unfold radiusSearch. rewrite E1, E1', E4, E4'. cbn [chunk_length max_search_radius keep_clouds point_rep epsilon input_cloud new_kdt].
  rewrite H1, H2, H3. auto.
Qed.
(** before the first load every search finds nothing *)
Theorem C28_before_load cs L rmax keep q r num res :
  last_load cs None = None -> r <= L ->
  radiusSearch (kd_after cs L rmax keep) q r num res -> res = NoChunk.
Proof.
  intros H1 Hr.
  destruct (state_after cs (new_kdt L rmax keep) eq_refl) as (E1 & _ & _ & E4).
  unfold radiusSearch. rewrite E1, E4. cbn [chunk_length max_search_radius keep_clouds input_cloud new_kdt].
  rewrite H1. replace (Rltb L r) with false by (symmetry; apply Rltb_false; exact Hr). cbn. auto.
Qed.

(** C29. For every x weight below one the search misses a point that is closer than
    the radius in the weighted metric although radius = max_search_radius. *)
Theorem C29_small_weight_refuted L rmax keep wx :
  0 < L -> 0 < rmax <= L / 2 -> 0 < wx < 1 ->
  exists cloud q p, nth_error cloud 0 = Some p /\ dist_sq (wx, 1, 1) p q < rmax * rmax
    /\ radiusSearch (kd_after [CRep (wx, 1, 1); CLoad cloud] L rmax keep) q rmax 0 NoChunk.
Proof.
  intros HL Hm Hw.
  exists [mkpt rmax (L/2) (L/2)], (mkpt (- (rmax * (1 - wx) / 2)) (L/2) (L/2)), (mkpt rmax (L/2) (L/2)).
  split; [reflexivity|]. split.
  - unfold dist_sq. cbn.
    assert (A : 0 <= wx * (rmax + rmax * (1 - wx) / 2) < rmax).
    { split; [apply Rmult_le_pos; nra|].
      assert (0 < (1 - wx) * rmax) by nra. nra. }
    nra.
  - apply invisible; try reflexivity; try lra; try nra.
Qed.

(** Non-vacuity: a cloud with a neighbour across a chunk border. *)
Example C24_nonvacuous :
  let cs := [CRep (1, 1, 5); CLoad [mkpt (1/10) 3 3; mkpt 5 5 5]] in
  weights_ge_1 (weights_used cs) /\ eps_of (last_eps cs None) = 0
  /\ last_load cs None = Some [mkpt (1/10) 3 3; mkpt 5 5 5]
  /\ exists res, radiusSearch (kd_after cs 20 1 false) (mkpt (-1/10) 3 3) 1 0 res.
Proof.
  cbn zeta. split; [cbn; lra|]. split; [reflexivity|]. split; [reflexivity|].
  set (cs := [CRep (1, 1, 5); CLoad [mkpt (1/10) 3 3; mkpt 5 5 5]]).
  set (q := mkpt (-1/10) 3 3).
  set (m := mem 20 1 (getChunkId 20 q) 0 [mkpt (1/10) 3 3; mkpt 5 5 5]).
  assert (Eq : getChunkId 20 q = (-1, 0, 0)%Z).
  { unfold getChunkId, q. cbn. rewrite floor_one_below, floor_zero by lra. reflexivity. }
  assert (E1 : getChunkId 20 (mkpt (1/10) 3 3) = (0, 0, 0)%Z) by (unfold getChunkId; cbn; rewrite !floor_zero by lra; reflexivity).
  assert (E2 : getChunkId 20 (mkpt 5 5 5) = (0, 0, 0)%Z) by (unfold getChunkId; cbn; rewrite !floor_zero by lra; reflexivity).
  assert (Em : m = [(0%nat, mkpt (1/10) 3 3)]).
  { unfold m, mem, members, targets. cbn [length seq combine filter snd]. rewrite Eq, E1, E2. unfold bounds. rewrite E1, E2.
    unfold bound1. cbn [px py pz mkpt].
    repeat match goal with |- context [Rltb ?a ?b] =>
      first [ replace (Rltb a b) with true by (symmetry; apply Rltb_true; lra)
            | replace (Rltb a b) with false by (symmetry; apply Rltb_false; lra) ] end.
    reflexivity. }
  assert (Hc : vfind (chunks (kd_after cs 20 1 false)) (getChunkId 20 q)
    = Some {| tree := map snd m; rep := Some (1, 1, 5); eps := None; original_ids := map fst m; kept := [] |}).
  { destruct (state_after cs (new_kdt 20 1 false) eq_refl) as (_ & _ & _ & E4). rewrite E4.
    cbn [chunk_length max_search_radius keep_clouds point_rep epsilon input_cloud new_kdt last_rep last_eps last_load cs].
    rewrite built_find. fold m. rewrite Em. reflexivity. }
  destruct (C25_remap_defined cs 20 1 false _ q 1 0 _ [(0%nat, dist_sq (1,1,5) (mkpt (1/10) 3 3) q)] eq_refl ltac:(lra) Hc) as [out Ho].
  - cbn [rep eps tree scale_of eps_of]. rewrite Em. cbn [map snd fst].
    split; [repeat constructor; intros []|].
    split; [intros i d [E|[]]; injection E as <- <-; eexists; split; [reflexivity|split; [reflexivity|unfold dist_sq, q; cbn; lra]]|].
    split; [intros [|a] [|b] x y Hab Hx Hy; cbn in *; try lia; try (destruct b; discriminate); destruct a; discriminate|].
    split; [lia|]. split; [|cbn; intros last _ E; discriminate].
    intros _ [|i] p Hp _; [left; reflexivity|]. destruct i; discriminate.
  - eauto.
Qed.
