From Coq Require Import Reals ZArith List Bool Arith Lra Lia Permutation.
From Verif Require Import Arith KdModel KdSpec.
Import ListNotations.

Lemma cid_eqb_eq a b : cid_eqb a b = true <-> a = b.
Proof.
  destruct a as [[x y] z], b as [[x' y'] z']. cbn. rewrite !andb_true_iff, !Z.eqb_eq.
  split; [intros [[-> ->] ->]; reflexivity|intros H; injection H as -> -> ->; auto].
Qed.
Lemma cid_eqb_refl a : cid_eqb a a = true.
Proof. apply cid_eqb_eq. reflexivity. Qed.
Lemma cid_eqb_sym a b : cid_eqb a b = cid_eqb b a.
Proof. apply eq_true_iff_eq. rewrite !cid_eqb_eq. split; congruence. Qed.
Lemma cid_eqb_neq a b : cid_eqb a b = false <-> a <> b.
Proof. rewrite <- cid_eqb_eq. destruct (cid_eqb a b); split; congruence. Qed.

Definition memb (k : cid) (ks : list cid) : bool := existsb (cid_eqb k) ks.
Lemma memb_In k ks : memb k ks = true <-> In k ks.
Proof.
  unfold memb. rewrite existsb_exists. split.
  - intros (x & H1 & H2). apply cid_eqb_eq in H2. subst. assumption.
  - intros H. exists k. split; [assumption|apply cid_eqb_refl].
Qed.

Lemma push_find {X} (m : vmap X) k x k' :
  vfind (push m k x) k' = if cid_eqb k' k then Some (vget m k' ++ [x]) else vfind m k'.
Proof.
  unfold vget. induction m as [|[k0 l] m IH]; cbn.
  - destruct (cid_eqb k' k); reflexivity.
  - destruct (cid_eqb k k0) eqn:E; cbn.
    + apply cid_eqb_eq in E. subst k0. destruct (cid_eqb k' k); reflexivity.
    + destruct (cid_eqb k' k0) eqn:E'; [|exact IH].
      apply cid_eqb_eq in E'. subst k0. rewrite cid_eqb_sym, E. reflexivity.
Qed.
Lemma push_all_find {X} ks (x : X) m k' :
  NoDup ks ->
  vfind (push_all ks x m) k' = if memb k' ks then Some (vget m k' ++ [x]) else vfind m k'.
Proof.
  unfold push_all. intros H. revert m. induction H as [|k ks Hk Hnd IH]; intros m; cbn [fold_left memb existsb]; [reflexivity|].
  rewrite IH. unfold vget. rewrite push_find.
  destruct (cid_eqb k' k) eqn:E; cbn [orb]; [|reflexivity].
  apply cid_eqb_eq in E. subst k'.
  destruct (memb k ks) eqn:E; [|unfold memb in E; reflexivity].
  apply memb_In in E. contradiction.
Qed.

Section Place.
Context {P : Type} (gid : P -> cid) (bnd : P -> Z * Z * Z).

Lemma copies_spec c b k :
  In k (copies c b) <-> exists dx dy dz,
    k = cid_add c (dx, dy, dz) /\ (dx, dy, dz) <> (0, 0, 0)%Z
    /\ let '(bx, by_, bz) := b in (dx = 0 \/ dx = bx)%Z /\ (dy = 0 \/ dy = by_)%Z /\ (dz = 0 \/ dz = bz)%Z.
Proof.
  destruct b as [[bx by_] bz]. unfold copies.
  assert (N : forall v, negb (v =? 0)%Z = true <-> v <> 0%Z).
  { intros v. rewrite negb_true_iff, Z.eqb_neq. tauto. }
  assert (N' : forall v, negb (v =? 0)%Z = false <-> v = 0%Z).
  { intros v. rewrite negb_false_iff, Z.eqb_eq. tauto. }
  cbn zeta.
  destruct (Z.eqb_spec bx 0) as [->|Ex], (Z.eqb_spec by_ 0) as [->|Ey], (Z.eqb_spec bz 0) as [->|Ez];
    cbn [andb app negb]; split.
  all: try solve [cbn; intros H; repeat (destruct H as [<-|H]); try contradiction;
      match goal with |- exists dx dy dz, cid_add ?cc (?a, ?b, ?d) = _ /\ _ => exists a, b, d end;
      (split; [reflexivity|split; [intros HH; injection HH; intros; subst; congruence|auto]])].
  all: intros (dx & dy & dz & -> & Hn & H1 & H2 & H3);
    destruct H1 as [->| ->], H2 as [->| ->], H3 as [->| ->]; cbn; try tauto; auto 10.
Qed.
Lemma targets_NoDup p : NoDup (targets gid bnd p).
Proof.
  unfold targets. destruct (gid p) as [[x y] z], (bnd p) as [[bx by_] bz]. unfold copies.
  destruct (Z.eqb_spec bx 0), (Z.eqb_spec by_ 0), (Z.eqb_spec bz 0); cbn;
    repeat constructor; cbn; intros H;
    repeat (destruct H as [H|H]); try contradiction; injection H; intros; lia.
Qed.

(** the entries of a chunk: indices and points, in order *)
Definition members (k : cid) (i : nat) (ps : list P) : list (nat * P) :=
  filter (fun ip => memb k (targets gid bnd (snd ip))) (combine (seq i (length ps)) ps).

Lemma place_find k ps : forall i clouds ids,
  let '(c, d) := place gid bnd i ps clouds ids in
  vget c k = vget clouds k ++ map snd (members k i ps)
  /\ vget d k = vget ids k ++ map fst (members k i ps)
  /\ (vfind c k = None <-> vfind clouds k = None /\ members k i ps = []).
Proof.
  induction ps as [|p ps IH]; intros i clouds ids; cbn [place].
  - unfold members. cbn. rewrite !app_nil_r. tauto.
  - specialize (IH (S i) (push_all (targets gid bnd p) p clouds) (push_all (targets gid bnd p) i ids)).
    destruct (place gid bnd (S i) ps _ _) as [c d]. destruct IH as (H1 & H2 & H3).
    unfold vget in *. rewrite push_all_find in H1 by apply targets_NoDup.
    rewrite push_all_find in H2 by apply targets_NoDup. rewrite push_all_find in H3 by apply targets_NoDup.
    unfold members in *. cbn [length seq combine filter snd fst].
    destruct (memb k (targets gid bnd p)).
    + rewrite H1, H2. cbn [map fst snd]. rewrite <- !app_assoc. split; [reflexivity|]. split; [reflexivity|].
      rewrite H3. split; [intros [E _]; discriminate|intros [_ E]; discriminate].
    + auto.
Qed.

Lemma build_find {Rep Eps} keep (r : option Rep) (e : option Eps) clouds ids k :
  vfind (build_chunks (P := P) keep r e clouds ids) k
  = option_map (fun l => {| tree := l; rep := r; eps := e; original_ids := vget ids k;
                            kept := if keep then l else [] |}) (vfind clouds k).
Proof.
  unfold build_chunks. induction clouds as [|[k0 l] m IH]; cbn [map vfind fst snd]; [reflexivity|].
  destruct (cid_eqb k k0) eqn:E; [|exact IH]. apply cid_eqb_eq in E. subst. reflexivity.
Qed.

Lemma members_spec k i ps j p :
  In (j, p) (members k i ps) <-> (i <= j)%nat /\ nth_error ps (j - i) = Some p /\ In k (targets gid bnd p).
Proof.
  unfold members. rewrite filter_In. cbn [snd]. rewrite memb_In.
  assert (E : In (j, p) (combine (seq i (length ps)) ps) <-> (i <= j)%nat /\ nth_error ps (j - i) = Some p); [|tauto].
  revert i. induction ps as [|q ps IH]; intros i; cbn [length seq combine In].
  - split; [contradiction|]. intros [_ H]. destruct (j - i)%nat; discriminate.
  - rewrite IH. destruct (Nat.eq_dec i j) as [->|Hne].
    + rewrite Nat.sub_diag. cbn. split.
      * intros [H|[H _]]; [injection H as ->; auto|lia].
      * intros [_ H]. injection H as ->. auto.
    + split.
      * intros [H|[H1 H2]]; [injection H; intros; congruence|]. split; [lia|].
        replace (j - i)%nat with (S (j - S i)) by lia. exact H2.
      * intros [H1 H2]. right. split; [lia|]. replace (j - i)%nat with (S (j - S i)) in H2 by lia. exact H2.
Qed.
Lemma combine_fst_NoDup (ps : list P) i : NoDup (map fst (combine (seq i (length ps)) ps)).
Proof.
  assert (E : map fst (combine (seq i (length ps)) ps) = seq i (length ps)).
  { revert i. induction ps as [|p ps IH]; intros i; cbn; [reflexivity|]. rewrite IH. reflexivity. }
  rewrite E. apply seq_NoDup.
Qed.
Lemma NoDup_map_filter {X Y} (f : X -> Y) (b : X -> bool) l : NoDup (map f l) -> NoDup (map f (filter b l)).
Proof.
  induction l as [|x l IH]; cbn; intros H; [constructor|]. inversion_clear H as [|? ? H1 H2].
  destruct (b x); cbn; [|auto]. constructor; [|auto].
  intros Hin. apply H1. apply in_map_iff in Hin. destruct Hin as (y & E & Hy). apply filter_In in Hy.
  apply in_map_iff. exists y. tauto.
Qed.
Lemma members_NoDup k i ps : NoDup (map fst (members k i ps)).
Proof. apply NoDup_map_filter. apply combine_fst_NoDup. Qed.
End Place.

(** ** state after any history *)
Definition built (L rmax : R) (keep : bool) (r : option scale) (e : option R) (cloud : option (list pt))
  : list (cid * chunk (P := pt) scale R) :=
  match cloud with
  | None => []
  | Some c => let '(clouds, ids) := place (getChunkId L) (bounds L rmax) 0 c [] [] in
              build_chunks keep r e clouds ids
  end.
Lemma state_after cs : forall k,
  chunks k = built (chunk_length k) (max_search_radius k) (keep_clouds k) (point_rep k) (epsilon k) (input_cloud k) ->
  let k' := fold_left apply_call cs k in
  chunk_length k' = chunk_length k /\ max_search_radius k' = max_search_radius k
  /\ keep_clouds k' = keep_clouds k
  /\ chunks k' = built (chunk_length k) (max_search_radius k) (keep_clouds k)
                   (last_rep cs (point_rep k)) (last_eps cs (epsilon k)) (last_load cs (input_cloud k)).
Proof.
  induction cs as [|c cs IH]; intros k Hk; cbn [fold_left last_rep last_eps last_load].
  - auto.
  - destruct c as [e|r|cl]; cbn [apply_call].
    + apply (IH (setEpsilon e k)). cbn. rewrite Hk. unfold built. destruct (input_cloud k) as [cl|]; [|reflexivity].
      destruct (place _ _ 0 cl [] []) as [clouds ids]. unfold build_chunks. rewrite map_map. reflexivity.
    + apply (IH (setPointRepresentation r k)). cbn. rewrite Hk. unfold built. destruct (input_cloud k) as [cl|]; [|reflexivity].
      destruct (place _ _ 0 cl [] []) as [clouds ids]. unfold build_chunks. rewrite map_map. reflexivity.
    + assert (E : chunks (setInputCloud cl k)
        = built (chunk_length k) (max_search_radius k) (keep_clouds k) (point_rep k) (epsilon k) (Some cl)).
      { unfold setInputCloud, built. destruct (place _ _ 0 cl [] []) as [clouds ids]. reflexivity. }
      assert (F : chunk_length (setInputCloud cl k) = chunk_length k
         /\ max_search_radius (setInputCloud cl k) = max_search_radius k
         /\ keep_clouds (setInputCloud cl k) = keep_clouds k
         /\ point_rep (setInputCloud cl k) = point_rep k /\ epsilon (setInputCloud cl k) = epsilon k
         /\ input_cloud (setInputCloud cl k) = Some cl).
      { unfold setInputCloud. destruct (place _ _ 0 cl [] []) as [clouds ids]. cbn. auto 10. }
      destruct F as (F1 & F2 & F3 & F4 & F5 & F6).
      specialize (IH (setInputCloud cl k)). rewrite F1, F2, F3, F4, F5, F6 in IH. apply IH. exact E.
Qed.

Definition mem (L rmax : R) := members (getChunkId L) (bounds L rmax).
Lemma built_find L rmax keep r e cloud c :
  vfind (built L rmax keep r e (Some cloud)) c
  = match mem L rmax c 0 cloud with
    | [] => None
    | m => Some {| tree := map snd m; rep := r; eps := e; original_ids := map fst m;
                   kept := if keep then map snd m else [] |}
    end.
Proof.
  unfold built. assert (H := place_find (getChunkId L) (bounds L rmax) c cloud 0 [] []).
  destruct (place (getChunkId L) (bounds L rmax) 0 cloud [] []) as [clouds ids].
  destruct H as (H1 & H2 & H3). rewrite build_find. unfold mem.
  unfold vget in H1. destruct (vfind clouds c) as [l|] eqn:E.
  - cbn in *. destruct (members (getChunkId L) (bounds L rmax) c 0 cloud) as [|m0 m] eqn:Em.
    + destruct H3 as [_ H3]. specialize (H3 (conj eq_refl eq_refl)). discriminate H3.
    + cbn in H1, H2. rewrite H1, H2. reflexivity.
  - cbn. destruct H3 as [H3 _]. destruct (H3 eq_refl) as [_ ->]. reflexivity.
Qed.

(** ** geometry *)
Local Open Scope R_scope.
Lemma axis L rmax r a b :
  0 < L -> r <= rmax -> rmax <= L / 2 -> - r < a - b < r ->
  let ca := Rfloor (a * (1 / L)) in let cb := Rfloor (b * (1 / L)) in
  (cb - ca = 0 \/ cb - ca = bound1 L rmax a ca)%Z.
Proof.
  intros HL Hr Hm [H1 H2] ca cb. assert (Ha := Rfloor_spec (a * (1 / L))). assert (Hb := Rfloor_spec (b * (1 / L))).
  fold ca in Ha. fold cb in Hb.
  assert (Ea : a * (1 / L) * L = a) by (field; lra). assert (Eb : b * (1 / L) * L = b) by (field; lra).
  assert (A1 : IZR ca * L <= a) by (rewrite <- Ea; apply Rmult_le_compat_r; lra).
  assert (A2 : a < (IZR ca + 1) * L) by (rewrite <- Ea at 1; apply Rmult_lt_compat_r; lra).
  assert (B1 : IZR cb * L <= b) by (rewrite <- Eb; apply Rmult_le_compat_r; lra).
  assert (B2 : b < (IZR cb + 1) * L) by (rewrite <- Eb at 1; apply Rmult_lt_compat_r; lra).
  assert (C1 : (cb <= ca + 1)%Z).
  { apply Z.lt_succ_r. apply lt_IZR. rewrite succ_IZR, plus_IZR.
    apply Rmult_lt_reg_r with L; [assumption|]. lra. }
  assert (C2 : (ca - 1 <= cb)%Z).
  { apply Z.lt_succ_r. apply lt_IZR. rewrite succ_IZR, minus_IZR.
    apply Rmult_lt_reg_r with L; [assumption|]. lra. }
  unfold bound1.
  destruct (Z.eq_dec cb ca) as [->|Hne]; [left; lia|right].
  destruct (Z.eq_dec cb (ca - 1)) as [E|Hne2].
  - assert (E2 : IZR cb = IZR ca - 1) by (rewrite E, minus_IZR; reflexivity).
    rewrite E2 in B2. replace (Rltb (a - IZR ca * L) rmax) with true; [lia|].
    symmetry. apply Rltb_true. lra.
  - assert (E : cb = (ca + 1)%Z) by lia.
    assert (E2 : IZR cb = IZR ca + 1) by (rewrite E, plus_IZR; reflexivity).
    rewrite E2 in B1. replace (Rltb (a - IZR ca * L) rmax) with false.
    + replace (Rltb (L - rmax) (a - IZR ca * L)) with true; [lia|]. symmetry. apply Rltb_true. lra.
    + symmetry. apply Rltb_false. lra.
Qed.


Lemma sq_bound x r : 0 <= r -> x * x < r * r -> - r < x < r.
Proof. intros Hr H. split; nra. Qed.
Lemma near_axes s p q r :
  at_least_one s -> 0 <= r -> dist_sq s p q < r * r ->
  - r < px p - px q < r /\ - r < py p - py q < r /\ - r < pz p - pz q < r.
Proof.
  destruct s as [[a b] c]. intros (Ha & Hb & Hc) Hr H. unfold dist_sq in H.
  assert (S : forall k x y, 1 <= k -> (x - y) * (x - y) <= (k * x - k * y) * (k * x - k * y)).
  { intros k x y Hk. replace ((k * x - k * y) * (k * x - k * y)) with ((k * k) * ((x - y) * (x - y))) by ring.
    assert (0 <= (x - y) * (x - y)) by apply Rle_0_sqr.
    assert (1 <= k * k) by nra. nra. }
  assert (Sx := S a (px p) (px q) Ha). assert (Sy := S b (py p) (py q) Hb). assert (Sz := S c (pz p) (pz q) Hc).
  assert (Qx := Rle_0_sqr (px p - px q)). assert (Qy := Rle_0_sqr (py p - py q)). assert (Qz := Rle_0_sqr (pz p - pz q)).
  unfold Rsqr in *.
  split; [|split]; (apply sq_bound; [assumption|lra]).
Qed.

Lemma near_target L rmax s p q r :
  0 < L -> 0 <= r <= rmax -> rmax <= L / 2 -> at_least_one s -> dist_sq s p q < r * r ->
  In (getChunkId L q) (targets (getChunkId L) (bounds L rmax) p).
Proof.
  intros HL [Hr0 Hr] Hm Hs Hd. destruct (near_axes s p q r Hs Hr0 Hd) as (Hx & Hy & Hz).
  assert (Ax := axis L rmax r (px p) (px q) HL Hr Hm Hx). assert (Ay := axis L rmax r (py p) (py q) HL Hr Hm Hy).
  assert (Az := axis L rmax r (pz p) (pz q) HL Hr Hm Hz). cbn zeta in *.
  unfold targets.
  set (cx := Rfloor (px p * (1 / L))) in *. set (cy := Rfloor (py p * (1 / L))) in *. set (cz := Rfloor (pz p * (1 / L))) in *.
  set (dx := Rfloor (px q * (1 / L))) in *. set (dy := Rfloor (py q * (1 / L))) in *. set (dz := Rfloor (pz q * (1 / L))) in *.
  assert (Ep : getChunkId L p = (cx, cy, cz)) by reflexivity.
  assert (Eq : getChunkId L q = (dx, dy, dz)) by reflexivity.
  rewrite Eq. destruct (Z.eq_dec dx cx) as [E1|N1]; [destruct (Z.eq_dec dy cy) as [E2|N2]; [destruct (Z.eq_dec dz cz) as [E3|N3]|]|].
  1: { left. rewrite Ep. congruence. }
  all: right; apply copies_spec; exists (dx - cx)%Z, (dy - cy)%Z, (dz - cz)%Z; rewrite Ep;
    (split; [cbn; repeat f_equal; lia|split; [intros E; injection E; intros; lia|]]);
    unfold bounds; rewrite Ep; auto.
Qed.

(** the neighbours inside the chunk are all neighbours *)
Lemma chunk_neighbours L rmax s cloud q r :
  0 < L -> 0 <= r <= rmax -> rmax <= L / 2 -> at_least_one s ->
  filter (fun ip => Rltb (dist_sq s (snd ip) q) (r * r)) (mem L rmax (getChunkId L q) 0 cloud)
  = neighbours s cloud q r.
Proof.
  intros HL Hr Hm Hs. unfold mem, members, neighbours.
  induction (combine (seq 0 (length cloud)) cloud) as [|[i p] l IH]; [reflexivity|].
  cbn [filter snd]. destruct (memb (getChunkId L q) (targets (getChunkId L) (bounds L rmax) p)) eqn:E; cbn [filter snd].
  - rewrite IH. reflexivity.
  - destruct (Rltb (dist_sq s p q) (r * r)) eqn:D; [|exact IH]. exfalso.
    apply Rltb_true in D. assert (H := near_target L rmax s p q r HL Hr Hm Hs D).
    apply memb_In in H. congruence.
Qed.

(** ** counting the results of an exact search *)
Definition cnt (x : R) (l : list R) : nat := length (filter (fun y => Rleb y x) l).
Lemma cnt_app x l l' : cnt x (l ++ l') = (cnt x l + cnt x l')%nat.
Proof. unfold cnt. rewrite filter_app, app_length. reflexivity. Qed.
Lemma cnt_le_length x l : (cnt x l <= length l)%nat.
Proof. unfold cnt. induction l as [|y l IH]; cbn; [lia|]. destruct (Rleb y x); cbn; lia. Qed.
Lemma cnt_perm x l l' : Permutation l l' -> cnt x l = cnt x l'.
Proof.
  unfold cnt. induction 1; cbn; auto; try congruence.
  - destruct (Rleb x0 x); cbn; congruence.
  - destruct (Rleb x0 x), (Rleb y x); reflexivity.
Qed.
Definition ascending (l : list R) : Prop :=
  forall a b x y, (a < b)%nat -> nth_error l a = Some x -> nth_error l b = Some y -> x <= y.
Lemma ascending_tail x l : ascending (x :: l) -> ascending l /\ forall y, In y l -> x <= y.
Proof.
  intros H. split.
  - intros a b u v Hab Hu Hv. exact (H (S a) (S b) u v ltac:(lia) Hu Hv).
  - intros y Hy. apply In_nth_error in Hy. destruct Hy as [n Hn].
    exact (H 0%nat (S n) x y ltac:(lia) eq_refl Hn).
Qed.
Lemma cnt_zero_above x l : (forall y, In y l -> x < y) -> cnt x l = 0%nat.
Proof.
  unfold cnt. induction l as [|y l IH]; cbn; intros H; [reflexivity|].
  replace (Rleb y x) with false; [apply IH; auto|].
  symmetry. apply Rleb_false. apply H. auto.
Qed.
Lemma cnt_determines l l' :
  ascending l -> ascending l' -> (forall x, cnt x l = cnt x l') -> l = l'.
Proof.
  revert l'. induction l as [|a l IH]; intros [|b l'] H1 H2 H.
  - reflexivity.
  - exfalso. specialize (H b). unfold cnt in H. cbn in H.
    replace (Rleb b b) with true in H by (symmetry; apply Rleb_true; lra). discriminate.
  - exfalso. specialize (H a). unfold cnt in H. cbn in H.
    replace (Rleb a a) with true in H by (symmetry; apply Rleb_true; lra). discriminate.
  - destruct (ascending_tail _ _ H1) as [T1 M1]. destruct (ascending_tail _ _ H2) as [T2 M2].
    assert (E : a = b).
    { destruct (Rlt_dec a b) as [Hlt|Hge]; [exfalso|destruct (Rlt_dec b a) as [Hlt|Hge2]; [exfalso|lra]].
      - specialize (H a). rewrite (cnt_zero_above a (b :: l')) in H.
        + unfold cnt in H. cbn in H. replace (Rleb a a) with true in H by (symmetry; apply Rleb_true; lra). discriminate.
        + intros y [<-|Hy]; [lra|]. specialize (M2 y Hy). lra.
      - specialize (H b). rewrite (cnt_zero_above b (a :: l)) in H.
        + unfold cnt in H. cbn in H. replace (Rleb b b) with true in H by (symmetry; apply Rleb_true; lra). discriminate.
        + intros y [<-|Hy]; [lra|]. specialize (M1 y Hy). lra. }
    subst b. f_equal. apply IH; auto. intros x. specialize (H x). unfold cnt in *. cbn in H.
    destruct (Rleb a x); cbn in H; congruence.
Qed.

Lemma map_filter_combine {X Y} (g : X -> Y) (b : X -> bool) (l : list X) : forall (is_ : list nat),
  length is_ = length l ->
  map (fun ip => g (snd ip)) (filter (fun ip => b (snd ip)) (combine is_ l)) = map g (filter b l).
Proof.
  induction l as [|x l IH]; intros [|i is_] H; cbn; try discriminate; [reflexivity|].
  injection H as H. destruct (b x); cbn; rewrite (IH _ H); reflexivity.
Qed.
Definition within (s : scale) (q : pt) (r : R) (l : list pt) : list R :=
  map (fun p => dist_sq s p q) (filter (fun p => Rltb (dist_sq s p q) (r * r)) l).
Lemma within_neighbours s q r cloud :
  map (fun ip => dist_sq s (snd ip) q) (neighbours s cloud q r) = within s q r cloud.
Proof.
  unfold neighbours, within.
  apply (map_filter_combine (fun p => dist_sq s p q) (fun p => Rltb (dist_sq s p q) (r * r))). apply seq_length.
Qed.
Lemma within_mem s q r (m : list (nat * pt)) :
  within s q r (map snd m)
  = map (fun ip => dist_sq s (snd ip) q) (filter (fun ip => Rltb (dist_sq s (snd ip) q) (r * r)) m).
Proof.
  unfold within. induction m as [|[i p] m IH]; cbn; [reflexivity|].
  destruct (Rltb (dist_sq s p q) (r * r)); cbn; rewrite IH; reflexivity.
Qed.

Lemma map_snd_nth {X Y} (l : list (X * Y)) n y :
  nth_error (map snd l) n = Some y -> exists x, nth_error l n = Some (x, y).
Proof.
  rewrite nth_error_map. destruct (nth_error l n) as [[a b]|]; cbn; [|discriminate].
  intros H. injection H as ->. exists a. reflexivity.
Qed.

Lemma filter_map_comm {X Y} (f : X -> Y) (b : Y -> bool) l :
  filter b (map f l) = map f (filter (fun x => b (f x)) l).
Proof. induction l as [|x l IH]; cbn; [reflexivity|]. destruct (b (f x)); cbn; rewrite IH; reflexivity. Qed.

Lemma indexed_In {X} (l : list X) i x :
  In (i, x) (combine (seq 0 (length l)) l) <-> nth_error l i = Some x.
Proof.
  assert (E : forall k, In (i, x) (combine (seq k (length l)) l) <-> (k <= i)%nat /\ nth_error l (i - k) = Some x).
  { revert x. induction l as [|y l IH]; intros x k; cbn [length seq combine In].
    - split; [contradiction|]. intros [_ H]. destruct (i - k)%nat; discriminate.
    - rewrite IH. destruct (Nat.eq_dec k i) as [->|Hne].
      + rewrite Nat.sub_diag. cbn. split.
        * intros [H|[H _]]; [injection H as ->; auto|lia].
        * intros [_ H]. injection H as ->. auto.
      + split.
        * intros [H|[H1 H2]]; [injection H; intros; congruence|]. split; [lia|].
          replace (i - k)%nat with (S (i - S k)) by lia. exact H2.
        * intros [H1 H2]. right. split; [lia|]. replace (i - k)%nat with (S (i - S k)) in H2 by lia. exact H2. }
  rewrite E, Nat.sub_0_r. split; [intros [_ H]; exact H|intros H; split; [lia|exact H]].
Qed.

Section Exact.
Context (s : scale) (pts : list pt) (q : pt) (r : R) (num : nat) (out : list (nat * R)).
Hypothesis H : flann_result s 0 pts q r num out.

Let W := filter (fun ip => Rltb (dist_sq s (snd ip) q) (r * r)) (combine (seq 0 (length pts)) pts).
Lemma W_cnt x : cnt x (within s q r pts) = length (filter (fun ip => Rleb (dist_sq s (snd ip) q) x) W).
Proof.
  unfold cnt, within.
  rewrite <- (map_filter_combine (fun p => dist_sq s p q) (fun p => Rltb (dist_sq s p q) (r * r)) pts (seq 0 (length pts))) by apply seq_length.
  fold W. rewrite filter_map_comm, map_length. reflexivity.
Qed.
Lemma out_cnt x : cnt x (map snd out) = length (filter (fun y => Rleb (snd y) x) out).
Proof. unfold cnt. rewrite filter_map_comm, map_length. reflexivity. Qed.

Lemma out_le x : (cnt x (map snd out) <= cnt x (within s q r pts))%nat.
Proof.
  destruct H as (H1 & H2 & _). rewrite W_cnt, out_cnt.
  rewrite <- (map_length fst (filter (fun y => Rleb (snd y) x) out)).
  rewrite <- (map_length fst (filter _ W)).
  apply NoDup_incl_length; [apply NoDup_map_filter; exact H1|].
  intros i Hi. apply in_map_iff in Hi. destruct Hi as ([i' d] & E & Hd). cbn in E. subst i'.
  apply filter_In in Hd. destruct Hd as [Hd1 Hd2]. cbn in Hd2.
  destruct (H2 i d Hd1) as (p & P1 & -> & P3).
  apply in_map_iff. exists (i, p). split; [reflexivity|]. apply filter_In. cbn. split; [|exact Hd2].
  apply filter_In. cbn. split; [apply indexed_In; exact P1|apply Rltb_true; exact P3].
Qed.
Lemma out_ge x :
  (forall i p, nth_error pts i = Some p -> dist_sq s p q < r * r -> dist_sq s p q <= x -> In i (map fst out)) ->
  (cnt x (within s q r pts) <= cnt x (map snd out))%nat.
Proof.
  intros Hc. destruct H as (H1 & H2 & _). rewrite W_cnt, out_cnt.
  rewrite <- (map_length fst (filter (fun y => Rleb (snd y) x) out)).
  rewrite <- (map_length fst (filter _ W)).
  apply NoDup_incl_length; [apply NoDup_map_filter; apply NoDup_map_filter; apply combine_fst_NoDup|].
  intros i Hi. apply in_map_iff in Hi. destruct Hi as ([i' p] & E & Hp). cbn in E. subst i'.
  apply filter_In in Hp. destruct Hp as [Hp1 Hp2]. apply filter_In in Hp1. destruct Hp1 as [Hp1 Hp3].
  cbn in *. apply indexed_In in Hp1. apply Rltb_true in Hp3. apply Rleb_true in Hp2.
  assert (Hin := Hc i p Hp1 Hp3 Hp2). apply in_map_iff in Hin. destruct Hin as ([i' d] & E & Hd). cbn in E. subst i'.
  destruct (H2 i d Hd) as (p' & P1 & -> & _). rewrite Hp1 in P1. injection P1 as <-.
  apply in_map_iff. exists (i, dist_sq s p q). split; [reflexivity|]. apply filter_In. split; [exact Hd|].
  cbn. apply Rleb_true. exact Hp2.
Qed.

Lemma exact_cnt x :
  cnt x (map snd out)
  = let c := cnt x (within s q r pts) in if (num =? 0)%nat then c else Nat.min num c.
Proof.
  destruct H as (H1 & H2 & H3 & H4 & H5 & H6).
  assert (Hle := out_le x). cbn zeta.
  assert (Hlen : (cnt x (map snd out) <= length out)%nat).
  { etransitivity; [apply cnt_le_length|]. rewrite map_length. lia. }
  assert (Full : num = 0%nat \/ (length out < num)%nat -> (cnt x (within s q r pts) <= cnt x (map snd out))%nat).
  { intros Hc. apply out_ge. intros i p P1 P2 _. apply (H5 Hc i p P1). lra. }
  destruct (Nat.eqb_spec num 0) as [->|Hn].
  - specialize (Full (or_introl eq_refl)). lia.
  - specialize (H4 ltac:(lia)). destruct (Nat.lt_ge_cases (length out) num) as [Hlt|Hge].
    + specialize (Full (or_intror Hlt)). lia.
    + assert (El : length out = num) by lia.
      destruct (nth_error out (length out - 1)) as [last|] eqn:Hlast; [|apply nth_error_None in Hlast; lia].
      destruct (Rlt_dec x (snd last)) as [Hx|Hx].
      * assert (G : (cnt x (within s q r pts) <= cnt x (map snd out))%nat).
        { apply out_ge. intros i p P1 P2 P3. apply (H6 last eq_refl El i p P1). lra. }
        lia.
      * assert (G : cnt x (map snd out) = length out).
        { rewrite out_cnt. clear - H3 Hlast Hx.
          assert (A : forall y, In y out -> snd y <= x).
          { intros y Hy. apply In_nth_error in Hy. destruct Hy as [n Hn].
            assert (Hl : (n < length out)%nat) by (apply nth_error_Some; congruence).
            destruct (Nat.eq_dec n (length out - 1)) as [->|Hne]; [rewrite Hlast in Hn; injection Hn as <-; lra|].
            assert (E := H3 n (length out - 1)%nat y last ltac:(lia) Hn Hlast). lra. }
          clear - A. induction out as [|y l IH]; cbn; [reflexivity|].
          replace (Rleb (snd y) x) with true; [cbn; rewrite IH; auto; intros z Hz; apply A; right; exact Hz|].
          symmetry. apply Rleb_true. apply A. left. reflexivity. }
        lia.
Qed.
Lemma exact_ascending : ascending (map snd out).
Proof.
  destruct H as (_ & _ & H3 & _). intros a b x y Hab Hx Hy.
  destruct (map_snd_nth _ _ _ Hx) as (i & Hi). destruct (map_snd_nth _ _ _ Hy) as (j & Hj).
  exact (H3 a b _ _ Hab Hi Hj).
Qed.
End Exact.

Lemma same_distances s pts1 pts2 q r num out1 out2 :
  within s q r pts1 = within s q r pts2 ->
  flann_result s 0 pts1 q r num out1 -> flann_result s 0 pts2 q r num out2 ->
  map snd out1 = map snd out2.
Proof.
  intros E H1 H2. apply cnt_determines.
  - eapply exact_ascending; exact H1.
  - eapply exact_ascending; exact H2.
  - intros x. rewrite (exact_cnt _ _ _ _ _ _ H1), (exact_cnt _ _ _ _ _ _ H2), E. reflexivity.
Qed.

(** ** radiusSearch *)
Lemma remap_total s e m q r num inner :
  flann_result s e (map snd m) q r num inner ->
  exists out, remap (map fst m) inner = map (fun x => (Some (fst x), snd x)) out
    /\ length out = length inner /\ map snd out = map snd inner
    /\ (forall i d, In (i, d) out <-> exists j p, In (j, d) inner /\ nth_error m j = Some (i, p))
    /\ (forall n j d, nth_error inner n = Some (j, d) -> exists i p, nth_error m j = Some (i, p) /\ nth_error out n = Some (i, d)).
Proof.
  intros (_ & H2 & _). 
  assert (Hr : forall j d, In (j, d) inner -> exists i p, nth_error m j = Some (i, p)).
  { intros j d Hin. destruct (H2 j d Hin) as (p & P1 & _). rewrite nth_error_map in P1.
    destruct (nth_error m j) as [[i p']|]; [eauto|discriminate]. }
  clear H2. unfold remap. induction inner as [|[j d] inner IH].
  - exists []. repeat split; auto; try (intros; contradiction).
    + intros (j & p & [] & _).
    + intros [|n] j d E; discriminate.
  - destruct IH as (out & O1 & O2 & O3 & O4 & O5); [intros j' d' Hin; apply (Hr j' d'); right; exact Hin|].
    destruct (Hr j d (or_introl eq_refl)) as (i & p & Hj).
    exists ((i, d) :: out). cbn [map fst snd length]. rewrite O1, O2, O3.
    rewrite nth_error_map, Hj. cbn. repeat split; auto.
    + intros [E|Hin].
      * injection E as <- <-. exists j, p. auto.
      * apply O4 in Hin. destruct Hin as (j' & p' & A & B). exists j', p'. auto.
    + intros (j' & p' & [E|A] & B).
      * injection E as <- <-. rewrite Hj in B. injection B as <- <-. auto.
      * right. apply O4. eauto.
    + intros [|n] j' d' E; cbn in E.
      * injection E as <- <-. exists i, p. auto.
      * apply (O5 n j' d' E).
Qed.
Lemma remap_inj (out out' : list (nat * R)) :
  map (fun x => (Some (fst x), snd x)) out = map (fun x => (Some (fst x), snd x)) out' -> out = out'.
Proof.
  revert out'. induction out as [|[i d] out IH]; intros [|[i' d'] out'] E; try discriminate; [reflexivity|].
  cbn in E. injection E as -> -> E. f_equal. auto.
Qed.
Lemma members_in_cloud L rmax c cloud j i p :
  nth_error (mem L rmax c 0 cloud) j = Some (i, p) ->
  nth_error cloud i = Some p /\ In c (targets (getChunkId L) (bounds L rmax) p).
Proof.
  intros Hj. apply nth_error_In in Hj. unfold mem in Hj. apply members_spec in Hj.
  rewrite Nat.sub_0_r in Hj. tauto.
Qed.

(** Everything a search after a load does, in terms of the chunk's members. *)
Lemma search_inv cs L rmax keep cloud q radius num res :
  last_load cs None = Some cloud ->
  radiusSearch (fold_left apply_call cs (new_kdt L rmax keep)) q radius num res ->
  let s := scale_of (last_rep cs None) in
  let e := match last_eps cs None with Some e => e | None => 0 end in
  let m := mem L rmax (getChunkId L q) 0 cloud in
  (L < radius /\ res = Throws)
  \/ (radius <= L /\ m = [] /\ res = NoChunk)
  \/ (radius <= L /\ exists inner out, flann_result s e (map snd m) q radius num inner
        /\ res = Found out /\ length out = length inner /\ map snd out = map snd inner
        /\ (forall i d, In (i, d) out <-> exists j p, In (j, d) inner /\ nth_error m j = Some (i, p))
        /\ (forall n j d, nth_error inner n = Some (j, d) -> exists i p, nth_error m j = Some (i, p) /\ nth_error out n = Some (i, d))).
Proof.
  intros Hl Hs s e m.
  destruct (state_after cs (new_kdt L rmax keep) eq_refl) as (E1 & E2 & E3 & E4).
  set (k := fold_left apply_call cs (new_kdt L rmax keep)) in *. cbn in E1, E2, E3, E4.
  unfold radiusSearch in Hs. rewrite E1 in Hs. rewrite E4, Hl, built_find in Hs. fold m in Hs.
  destruct (Rltb L radius) eqn:El.
  - left. apply Rltb_true in El. auto.
  - right. apply Rltb_false in El.
    destruct m as [|m0 m'] eqn:Em; [left; auto|right]. rewrite <- Em in *.
    split; [exact El|].
    destruct Hs as (inner & out & F1 & F2 & F3). cbn [rep eps tree original_ids] in F1, F2.
    exists inner, out. split; [exact F1|]. split; [exact F3|].
    destruct (remap_total _ _ _ _ _ _ _ F1) as (out' & O1 & O2 & O3 & O4 & O5).
    rewrite O1 in F2. apply remap_inj in F2. subst out'. auto.
Qed.
