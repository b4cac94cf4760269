(** The chunked kd-tree provides the nearest neighbour search its clients rely on. *)
From Coq Require Import Reals ZArith List Bool Arith Lra Lia.
From Verif Require Import Arith KdModel KdSpec KdProofs KdProps NnSpec.
Import ListNotations.
Open Scope R_scope.

Lemma dist_sq_nonneg s p q : 0 <= dist_sq s p q.
Proof. unfold dist_sq. destruct s as [[a b] c]. repeat apply Rplus_le_le_0_compat; apply Rle_0_sqr. Qed.
Lemma kd_nn cs L rmax keep cloud f :
  0 < L -> rmax <= L / 2 -> weights_ge_1 (scale_of (last_rep cs None)) ->
  0 <= eps_of (last_eps cs None) -> last_load cs None = Some cloud ->
  (forall q r, radiusSearch (kd_after cs L rmax keep) q r 1 (f q r)) ->
  nn_spec (scale_of (last_rep cs None)) (eps_of (last_eps cs None)) cloud rmax f.
Proof.
  intros HL Hm Hs He Hl Hf q r Hr. specialize (Hf q r).
  set (s := scale_of (last_rep cs None)) in *. set (e := eps_of (last_eps cs None)) in *.
  assert (Hhit : forall p, In p cloud -> (1 + e) * dist_sq s p q < r * r ->
     exists j d, f q r = Found [(j, d)] /\ d <= (1 + e) * dist_sq s p q).
  { intros p Hp Hd. apply In_nth_error in Hp. destruct Hp as [i Hi].
    apply (C24_nearest cs L rmax keep cloud q r (f q r) i p); auto. }
  assert (Hmiss : (f q r = NoChunk \/ f q r = Found []) -> forall p, In p cloud -> r * r <= (1 + e) * dist_sq s p q).
  { intros Hx p Hp. destruct (Rle_dec (r * r) ((1 + e) * dist_sq s p q)) as [|Hn]; [assumption|].
    destruct (Hhit p Hp ltac:(lra)) as (j & d & E & _). rewrite E in Hx. destruct Hx; discriminate. }
  destruct (f q r) as [| |[|[i d] out]] eqn:Ef.
  - apply (C27_throws_iff cs L rmax keep cloud q r 1 Throws Hl) in Hf. destruct Hf as [Hf _]. specialize (Hf eq_refl). lra.
  - apply Hmiss; auto.
  - apply Hmiss; auto.
  - destruct (C25_ids_are_cloud_ids cs L rmax keep cloud q r 1 _ _ Hl Hf eq_refl) as (_ & A & _ & B).
    destruct (A i d (or_introl eq_refl)) as (p & P1 & P2 & P3). exists p. split; [exact P1|]. split; [exact P2|].
    split; [exact P3|]. intros p' Hp'.
    destruct (Rlt_dec ((1 + e) * dist_sq s p' q) (r * r)) as [Hlt|Hge].
    + destruct (Hhit p' Hp' Hlt) as (j & d' & E & Hd). injection E as -> -> _. exact Hd.
    + fold s in P2, P3. lra.
Qed.

(** Such a search exists: the brute force one. *)
Fixpoint best (s : scale) (q : pt) (i : nat) (pts : list pt) (acc : option (nat * R)) : option (nat * R) :=
  match pts with
  | [] => acc
  | p :: ps =>
      let d := dist_sq s p q in
      best s q (S i) ps (match acc with
                         | Some (_, d') => if Rltb d d' then Some (i, d) else acc
                         | None => Some (i, d) end)
  end.
Lemma best_spec s q : forall pts i acc,
  match best s q i pts acc with
  | None => pts = [] /\ acc = None
  | Some (j, d) =>
      (acc = Some (j, d) \/ exists k p, j = (i + k)%nat /\ nth_error pts k = Some p /\ d = dist_sq s p q) /\
      (forall p, In p pts -> d <= dist_sq s p q) /\ (forall j' d', acc = Some (j', d') -> d <= d')
  end.
Proof.
  induction pts as [|p ps IH]; intros i acc; cbn [best].
  - destruct acc as [[j d]|]; [|auto]. split; [auto|]. split; [intros ? []|]. intros j' d' [= <- <-]. lra.
  - cbn zeta. set (acc' := match acc with Some (_, d') => if Rltb (dist_sq s p q) d' then Some (i, dist_sq s p q) else acc
                           | None => Some (i, dist_sq s p q) end).
    specialize (IH (S i) acc'). destruct (best s q (S i) ps acc') as [[j d]|].
    + destruct IH as (A & B & C).
      assert (Hacc : exists j' d', acc' = Some (j', d') /\ d' <= dist_sq s p q /\
        (acc' = Some (i, dist_sq s p q) \/ acc' = acc) /\ forall j0 d0, acc = Some (j0, d0) -> d' <= d0).
      { unfold acc'. destruct acc as [[j0 d0]|].
        - destruct (Rltb (dist_sq s p q) d0) eqn:E.
          + apply Rltb_true in E. exists i, (dist_sq s p q). split; [reflexivity|]. split; [lra|]. split; [auto|].
            intros j1 d1 [= <- <-]. lra.
          + apply Rltb_false in E. exists j0, d0. split; [reflexivity|]. split; [lra|]. split; [auto|].
            intros j1 d1 [= <- <-]. lra.
        - exists i, (dist_sq s p q). split; [reflexivity|]. split; [lra|]. split; [auto|]. discriminate. }
      destruct Hacc as (j' & d' & E1 & E2 & E3 & E4). specialize (C j' d' E1).
      split; [|split].
      * destruct A as [A|(k & p' & -> & Hk & Hd)].
        -- destruct E3 as [E3|E3]; [|left; congruence]. right. exists O, p. rewrite E3 in A. injection A as <- <-.
           split; [lia|]. auto.
        -- right. exists (S k), p'. split; [lia|]. auto.
      * intros p' [<-|Hp']; [lra|auto].
      * intros j0 d0 E. specialize (E4 j0 d0 E). lra.
    + destruct IH as [_ IH]. exfalso. unfold acc' in IH. destruct acc as [[? ?]|]; [destruct (Rltb _ _)|]; discriminate.
Qed.
Definition brute (s : scale) (pts : list pt) (q : pt) (r : R) : list (nat * R) :=
  match best s q 0 pts None with
  | Some (j, d) => if Rltb d (r * r) then [(j, d)] else []
  | None => []
  end.
Lemma brute_flann s e pts q r : 0 <= e -> flann_result s e pts q r 1 (brute s pts q r).
Proof.
  intros He. unfold brute. pose proof (best_spec s q pts 0 None) as B.
  destruct (best s q 0 pts None) as [[j d]|].
  - destruct B as ([B1|(k & p & -> & Hk & Hd)] & B2 & _); [discriminate|]. cbn [Nat.add].
    destruct (Rltb d (r * r)) eqn:E.
    + apply Rltb_true in E. unfold flann_result. repeat split.
      * cbn. constructor; [tauto|constructor].
      * intros i d' [[= <- <-]|[]]. eauto.
      * intros a b x y Hab Ha Hb. destruct a, b; cbn in *; try lia; try discriminate; destruct b; discriminate.
      * cbn. lia.
      * cbn. intros [?|?]; lia.
      * cbn. intros last [= <-] _ i p' Hi Hlt. cbn in Hlt. apply nth_error_In in Hi. apply B2 in Hi.
        pose proof (dist_sq_nonneg s p' q). nra.
    + apply Rltb_false in E. unfold flann_result. repeat split.
      * constructor.
      * intros i d' [].
      * intros a b x y Hab Ha Hb. destruct a; discriminate.
      * cbn. lia.
      * intros _ i p' Hi Hlt. apply nth_error_In in Hi. apply B2 in Hi. pose proof (dist_sq_nonneg s p' q). nra.
      * intros last Hl. discriminate.
  - destruct B as [-> _]. unfold flann_result. repeat split.
    * constructor.
    * intros i d' [].
    * intros a b x y Hab Ha Hb. destruct a; discriminate.
    * cbn. lia.
    * intros _ i p' Hi. destruct i; discriminate.
    * intros last Hl. discriminate.
Qed.
Lemma nth_error_ext {X} : forall u v : list X, (forall n, nth_error u n = nth_error v n) -> u = v.
Proof.
  induction u as [|x u IH]; intros [|y v] H; [reflexivity|specialize (H O); discriminate|specialize (H O); discriminate|].
  pose proof (H O) as H0. injection H0 as ->. f_equal. apply IH. intros n. apply (H (S n)).
Qed.
Definition pick (k : kdt) (q : pt) (r : R) : search :=
  if Rltb (chunk_length k) r then Throws
  else match vfind (chunks k) (getChunkId (chunk_length k) q) with
       | None => NoChunk
       | Some c => Found (map (fun x => (nth (fst x) (original_ids c) O, snd x)) (brute (scale_of (rep c)) (tree c) q r))
       end.
Lemma pick_search cs L rmax keep cloud : last_load cs None = Some cloud -> 0 <= eps_of (last_eps cs None) ->
  forall q r, radiusSearch (kd_after cs L rmax keep) q r 1 (pick (kd_after cs L rmax keep) q r).
Proof.
  intros Hl He q r.
  destruct (state_after cs (new_kdt L rmax keep) eq_refl) as (E1 & E2 & E3 & E4).
  set (k := fold_left apply_call cs (new_kdt L rmax keep)) in *. cbn in E1, E2, E3, E4.
  unfold radiusSearch, pick. rewrite E1. destruct (Rltb L r); [reflexivity|].
  rewrite E4, Hl, built_find. destruct (mem L rmax (getChunkId L q) 0 cloud) as [|m0 m'] eqn:Em; [reflexivity|].
  rewrite <- Em. cbn [rep eps tree original_ids].
  set (m := mem L rmax (getChunkId L q) 0 cloud) in *.
  pose proof (brute_flann (scale_of (last_rep cs None)) (eps_of (last_eps cs None)) (map snd m) q r He) as F.
  exists (brute (scale_of (last_rep cs None)) (map snd m) q r).
  eexists. split; [exact F|]. split; [|reflexivity].
  destruct (remap_total _ _ _ _ _ _ _ F) as (out & O1 & _ & O3 & _ & O5). rewrite O1. f_equal.
  apply nth_error_ext. intros n. rewrite nth_error_map.
  destruct (nth_error (brute (scale_of (last_rep cs None)) (map snd m) q r) n) as [[j d]|] eqn:En.
  - destruct (O5 n j d En) as (i & p & P1 & P2). rewrite P2. cbn. f_equal. f_equal.
    symmetry. apply nth_error_nth. rewrite nth_error_map, P1. reflexivity.
  - cbn. apply nth_error_None. apply nth_error_None in En.
    assert (length (map snd out) = length (map snd (brute (scale_of (last_rep cs None)) (map snd m) q r))) by congruence.
    rewrite !map_length in H. lia.
Qed.
