(** Property C124: the chunks of the map on C++ floats. *)
From Coq Require Import Reals ZArith List Bool Lra Lia Psatz.
From Flocq Require Import Core.Core IEEE754.BinarySingleNaN.
From Verif Require Import Arith Ieee KdModel KdProofs KdFloatModel KdFloatProofs.
Import ListNotations.
Local Open Scope R_scope.

(** ** vocabulary *)
(** all coordinates are finite and at most [M] in size *)
Definition within_box (M : R) (p : fpt) : Prop :=
  (is_finite (fx p) = true /\ Rabs (f2r (fx p)) <= M) /\ (is_finite (fy p) = true /\ Rabs (f2r (fy p)) <= M) /\
  (is_finite (fz p) = true /\ Rabs (f2r (fz p)) <= M).
(** the distance of the points the floats stand for *)
Definition distance (p q : fpt) : R :=
  sqrt ((f2r (fx p) - f2r (fx q)) ^ 2 + (f2r (fy p) - f2r (fy q)) ^ 2 + (f2r (fz p) - f2r (fz q)) ^ 2).
(** entry [j] of the chunk that a search at [q] looks into is the cloud's point number [i] *)
Definition searched (L rmax : f32) (cloud : list fpt) (q : fpt) (j i : nat) (p : fpt) : Prop :=
  nth_error (vget (fst (place32 L rmax cloud)) (getChunkId32 L q)) j = Some p /\
  nth_error (vget (snd (place32 L rmax cloud)) (getChunkId32 L q)) j = Some i.

Lemma axis_dist a b c : Rabs a <= sqrt (a ^ 2 + b + c) \/ b + c < 0.
Proof.
  destruct (Rle_dec 0 (b + c)); [left|right; lra]. rewrite <- sqrt_Rsqr_abs. apply sqrt_le_1_alt. unfold Rsqr. nra.
Qed.
Lemma three_axes p q : Rabs (f2r (fx p) - f2r (fx q)) <= distance p q /\ Rabs (f2r (fy p) - f2r (fy q)) <= distance p q /\ Rabs (f2r (fz p) - f2r (fz q)) <= distance p q.
Proof.
  unfold distance. set (a := f2r (fx p) - f2r (fx q)). set (b := f2r (fy p) - f2r (fy q)). set (c := f2r (fz p) - f2r (fz q)).
  pose proof (pow2_ge_0 a). pose proof (pow2_ge_0 b). pose proof (pow2_ge_0 c).
  split; [|split].
  - destruct (axis_dist a (b ^ 2) (c ^ 2)); [assumption|lra].
  - destruct (axis_dist b (a ^ 2) (c ^ 2)) as [E|E]; [|lra]. replace (a ^ 2 + b ^ 2 + c ^ 2) with (b ^ 2 + a ^ 2 + c ^ 2) by ring. exact E.
  - destruct (axis_dist c (a ^ 2) (b ^ 2)) as [E|E]; [|lra]. replace (a ^ 2 + b ^ 2 + c ^ 2) with (c ^ 2 + a ^ 2 + b ^ 2) by ring. exact E.
Qed.

Lemma searched_members L rmax cloud q j i p : searched L rmax cloud q j i p <->
  nth_error (members (getChunkId32 L) (bounds32 L rmax) (getChunkId32 L q) 0 cloud) j = Some (i, p).
Proof.
  unfold searched, place32. pose proof (place_find (getChunkId32 L) (bounds32 L rmax) (getChunkId32 L q) cloud 0 [] []) as H.
  destruct (place (getChunkId32 L) (bounds32 L rmax) 0 cloud [] []) as [c d]. destruct H as (H1 & H2 & _). cbn [fst snd]. rewrite H1, H2. cbn [vget vfind app].
  rewrite !nth_error_map. destruct (nth_error (members _ _ _ _ _) j) as [[i' p']|]; cbn [option_map fst snd]; split; intros H.
  - destruct H as [E1 E2]. injection E1 as ->. injection E2 as ->. reflexivity.
  - injection H as -> ->. auto.
  - destruct H; discriminate.
  - discriminate.
Qed.

(** Every map point closer than the search radius of the map minus a few roundings of the
    coordinates, 2^-21 (M + chunk length), is in the chunk that is searched - for map coordinates
    up to 2^22 chunk lengths. *)
Theorem C124_nothing_near_is_missed : forall L rmax M cloud q i p,
  is_finite L = true -> is_finite rmax = true -> bpow radix2 (-60) <= f2r L <= bpow radix2 60 -> 0 <= f2r rmax <= f2r L / 2 ->
  0 <= M <= 4194304 * f2r L -> within_box M q -> within_box M p -> nth_error cloud i = Some p ->
  distance p q <= f2r rmax - (M + f2r L) / 2097152 ->
  exists j, searched L rmax cloud q j i p.
Proof.
  intros L rmax M cloud q i p FL Fr BL Br HM ([Qx1 Qx2] & [Qy1 Qy2] & [Qz1 Qz2]) ([Px1 Px2] & [Py1 Py2] & [Pz1 Pz2]) Hi Hd.
  destruct (three_axes p q) as (Dx & Dy & Dz).
  pose proof (axis32 L rmax FL Fr BL Br M HM (fx p) (fx q) Px1 Qx1 Px2 Qx2 ltac:(lra)) as Ax.
  pose proof (axis32 L rmax FL Fr BL Br M HM (fy p) (fy q) Py1 Qy1 Py2 Qy2 ltac:(lra)) as Ay.
  pose proof (axis32 L rmax FL Fr BL Br M HM (fz p) (fz q) Pz1 Qz1 Pz2 Qz2 ltac:(lra)) as Az. cbn zeta in *.
  assert (T : In (getChunkId32 L q) (targets (getChunkId32 L) (bounds32 L rmax) p)).
  { unfold targets.
    set (cx := chunk1_32 L (fx p)) in *. set (cy := chunk1_32 L (fy p)) in *. set (cz := chunk1_32 L (fz p)) in *.
    set (dx := chunk1_32 L (fx q)) in *. set (dy := chunk1_32 L (fy q)) in *. set (dz := chunk1_32 L (fz q)) in *.
    assert (Ep : getChunkId32 L p = (cx, cy, cz)) by reflexivity.
    assert (Eq : getChunkId32 L q = (dx, dy, dz)) by reflexivity.
    rewrite Eq. destruct (Z.eq_dec dx cx) as [E1|N1]; [destruct (Z.eq_dec dy cy) as [E2|N2]; [destruct (Z.eq_dec dz cz) as [E3|N3]|]|].
    1: { left. rewrite Ep. congruence. }
    all: right; apply copies_spec; exists (dx - cx)%Z, (dy - cy)%Z, (dz - cz)%Z; rewrite Ep;
      (split; [cbn; repeat f_equal; lia|split; [intros E; injection E; intros; lia|]]);
      unfold bounds32; rewrite Ep; auto. }
  assert (Hm : In (i, p) (members (getChunkId32 L) (bounds32 L rmax) (getChunkId32 L q) 0 cloud)).
  { apply members_spec. split; [lia|]. rewrite Nat.sub_0_r. auto. }
  apply In_nth_error in Hm. destruct Hm as [j Hj]. exists j. apply searched_members. exact Hj.
Qed.

(** Whatever the floats are (NaN included): what a chunk holds are points of the cloud under their
    own indices, each at most once. *)
Theorem C124_nothing_is_invented : forall L rmax cloud q j i p,
  searched L rmax cloud q j i p -> nth_error cloud i = Some p /\ (forall j' p', searched L rmax cloud q j' i p' -> j' = j /\ p' = p).
Proof.
  intros L rmax cloud q j i p H. apply searched_members in H. split.
  - apply nth_error_In in H. apply members_spec in H. rewrite Nat.sub_0_r in H. tauto.
  - intros j' p' H'. apply searched_members in H'.
    pose proof (members_NoDup (getChunkId32 L) (bounds32 L rmax) (getChunkId32 L q) 0 cloud) as N.
    assert (E : j' = j).
    { apply (proj1 (NoDup_nth_error _) N).
      - rewrite map_length. apply nth_error_Some. congruence.
      - rewrite !nth_error_map, H, H'. reflexivity. }
    split; [exact E|]. subst. congruence.
Qed.
(** A search at a map point always looks into a chunk that holds this point. *)
Theorem C124_own_chunk : forall L rmax cloud i p, nth_error cloud i = Some p -> exists j, searched L rmax cloud p j i p.
Proof.
  intros L rmax cloud i p H.
  assert (Hm : In (i, p) (members (getChunkId32 L) (bounds32 L rmax) (getChunkId32 L p) 0 cloud)).
  { apply members_spec. split; [lia|]. rewrite Nat.sub_0_r. split; [exact H|]. left. reflexivity. }
  apply In_nth_error in Hm. destruct Hm as [j Hj]. exists j. apply searched_members. exact Hj.
Qed.

(** Without the tolerance the claim is false: with the default chunk length of 20 m and a search
    radius of 1 m, the map point at x = -(1 - 2^-24) is missed by a search at the origin, less than
    1 m away. *)
Definition edge_pt : fpt := {| fx := fdiv32 (f32_of_Z (-16777215)) (f32_of_Z 16777216); fy := f32_of_Z 0; fz := f32_of_Z 0 |}.
Definition origin : fpt := {| fx := f32_of_Z 0; fy := f32_of_Z 0; fz := f32_of_Z 0 |}.
Lemma val (x : f32) s : B2SF x = s -> f2r x = SF2R radix2 s.
Proof. intros <-. unfold f2r. symmetry. apply SF2R_B2SF. Qed.
Theorem C124_edge_of_the_radius_refuted :
  let L := f32_of_Z 20 in let rmax := f32_of_Z 1 in
  f2r L = 20 /\ f2r rmax = 1 /\ within_box 1 edge_pt /\ within_box 1 origin /\ distance edge_pt origin < f2r rmax /\
  ~ exists j i p, searched L rmax [edge_pt] origin j i p.
Proof.
  cbn zeta.
  assert (V1 : f2r (f32_of_Z 20) = 20) by (erewrite val by (vm_compute; reflexivity); unfold SF2R, F2R; cbn; lra).
  assert (V2 : f2r (f32_of_Z 1) = 1) by (erewrite val by (vm_compute; reflexivity); unfold SF2R, F2R; cbn; lra).
  assert (V3 : f2r (f32_of_Z 0) = 0) by reflexivity.
  assert (V4 : f2r (fx edge_pt) = - (16777215 / 16777216)) by (unfold edge_pt; cbn [fx]; erewrite val by (vm_compute; reflexivity); unfold SF2R, F2R; cbn; lra).
  split; [exact V1|]. split; [exact V2|]. split; [|split; [|split]].
  - unfold within_box. rewrite V4. cbn [edge_pt fx fy fz]. rewrite V3, Rabs_R0, Rabs_Ropp, Rabs_pos_eq by lra. repeat split; try lra; vm_compute; reflexivity.
  - unfold within_box. cbn [origin fx fy fz]. rewrite V3, Rabs_R0. repeat split; try lra; vm_compute; reflexivity.
  - rewrite V2. unfold distance. rewrite V4. cbn [edge_pt origin fx fy fz]. rewrite V3.
    rewrite <- sqrt_1. apply sqrt_lt_1_alt. lra.
  - intros (j & i & p & H1 & _).
    assert (E : vget (fst (place32 (f32_of_Z 20) (f32_of_Z 1) [edge_pt])) (getChunkId32 (f32_of_Z 20) origin) = []) by (vm_compute; reflexivity).
    rewrite E in H1. clear E. destruct j; discriminate H1.
Qed.
Example C124_nonvacuous :
  let L := f32_of_Z 20 in let rmax := f32_of_Z 1 in let p := {| fx := fdiv32 (f32_of_Z (-1)) (f32_of_Z 2); fy := f32_of_Z 0; fz := f32_of_Z 0 |} in
  is_finite L = true /\ is_finite rmax = true /\ bpow radix2 (-60) <= f2r L <= bpow radix2 60 /\ 0 <= f2r rmax <= f2r L / 2 /\
  within_box 1000 origin /\ within_box 1000 p /\ distance p origin <= f2r rmax - (1000 + f2r L) / 2097152 /\
  getChunkId32 L p = (-1, 0, 0)%Z /\ getChunkId32 L origin = (0, 0, 0)%Z.
Proof.
  cbn zeta.
  assert (V1 : f2r (f32_of_Z 20) = 20) by (erewrite val by (vm_compute; reflexivity); unfold SF2R, F2R; cbn; lra).
  assert (V2 : f2r (f32_of_Z 1) = 1) by (erewrite val by (vm_compute; reflexivity); unfold SF2R, F2R; cbn; lra).
  assert (V3 : f2r (f32_of_Z 0) = 0) by reflexivity.
  assert (V4 : f2r (fdiv32 (f32_of_Z (-1)) (f32_of_Z 2)) = - (1 / 2)) by (erewrite val by (vm_compute; reflexivity); unfold SF2R, F2R; cbn; lra).
  rewrite V1, V2. split; [vm_compute; reflexivity|]. split; [vm_compute; reflexivity|]. split; [cbn; lra|]. split; [lra|].
  split; [|split; [|split; [|split; vm_compute; reflexivity]]].
  - unfold within_box. cbn [origin fx fy fz]. rewrite V3, Rabs_R0. repeat split; try lra; vm_compute; reflexivity.
  - unfold within_box. cbn [fx fy fz]. rewrite V4, V3, Rabs_R0, Rabs_Ropp, Rabs_pos_eq by lra. repeat split; try lra; vm_compute; reflexivity.
  - unfold distance. cbn [origin fx fy fz]. rewrite V4, V3.
    replace ((- (1 / 2) - 0) ^ 2 + (0 - 0) ^ 2 + (0 - 0) ^ 2) with ((1 / 2) * (1 / 2)) by ring. rewrite sqrt_square by lra. lra.
Qed.
