(** C120: how the samplers use their engine, for any number of points. *)
From Coq Require Import Reals ZArith NArith List Bool Arith Permutation Lra Lia.
From Verif Require Import Arith QuatModel StateModel LidarModel SamplerModel SamplerSpec SamplerProofs SamplerProps SamplerDrawSpec.
Import ListNotations.
Open Scope R_scope.
Open Scope list_scope.

Lemma cum_last (ws : list R) : ws <> [] -> last (cumulative (A := RA) ws) 0 = sum_first (length ws) ws.
Proof.
  intro H. assert (L : (0 < length ws)%nat) by (destruct ws; [congruence|cbn; lia]).
  etransitivity; [exact (last_nth (A := RA) (cumulative (A := RA) ws) (0 : RA))|]. unfold cumulative. rewrite (cumulate_length (A := RA)).
  change (@length (F RA) ws) with (@length R ws). assert (Q : (length ws - 1 < length ws)%nat) by lia.
  etransitivity; [exact (cum_sum_first ws 0 _ Q)|]. rewrite Rplus_0_l. f_equal. lia.
Qed.
Lemma wheel (ws : list R) v : ws <> [] -> v <= sum_first (length ws) ws -> hit ws v (lower_bound (A := RA) (cumulative (A := RA) ws) v).
Proof.
  intros Hne Hv. set (cum := cumulative (A := RA) ws).
  assert (Hl : length cum = length ws) by (unfold cum, cumulative; rewrite cumulate_length; reflexivity).
  assert (Hc : cum <> []) by (intro Hz; rewrite Hz in Hl; destruct ws; [congruence|discriminate]).
  assert (Hin : (lower_bound (A := RA) cum v < length cum)%nat).
  { apply lower_bound_inside; [exact Hc|]. apply Rltb_false. change (v <= last cum 0). unfold cum. rewrite (cum_last ws Hne). exact Hv. }
  destruct (lower_bound_spec (A := RA) cum v) as (_ & L1 & L2). cbn zeta in *. set (r := lower_bound (A := RA) cum v) in *. change (@f0 RA) with 0 in L1, L2.
  split; [lia|].
  assert (U : v <= sum_first (Datatypes.S r) ws).
  { destruct L2 as [L2|L2]; [lia|]. apply Rltb_false in L2. assert (Q0 : (r < length ws)%nat) by lia. pose proof (cum_sum_first ws 0 r Q0) as Q. rewrite Rplus_0_l in Q. rewrite <- Q. exact L2. }
  destruct (Nat.eq_dec r 0) as [Z|Z].
  { rewrite Z. rewrite Z in U. cbn [sum_first]. destruct (Rle_dec v 0) as [Z'|Z']; [right; auto|left; split; [lra|exact U]]. }
  destruct L1 as [L1|L1]; [lia|]. left. split; [|exact U]. apply Rltb_true in L1. assert (Q0 : (r - 1 < length ws)%nat) by lia.
  pose proof (cum_sum_first ws 0 (r - 1) Q0) as Q. rewrite Rplus_0_l in Q. replace (Datatypes.S (r - 1)) with r in Q by lia. rewrite <- Q. exact L1.
Qed.
Lemma insert_added i sel : added i sel (insert_id i sel).
Proof.
  unfold insert_id, added. destruct (existsb (Nat.eqb i) sel) eqn:E1.
  - left. apply existsb_exists in E1. destruct E1 as (x & H1 & H2). apply Nat.eqb_eq in H2. subst. auto.
  - right. split; [|reflexivity]. intro H. assert (existsb (Nat.eqb i) sel = true); [|congruence]. apply existsb_exists. exists i. rewrite Nat.eqb_refl. auto.
Qed.
Lemma select_spun {E} (draw : R -> E -> R * E) (ws : list R) num : ws <> [] -> (forall b g, fst (draw b g) <= b) ->
  forall fuel sel g sel' g', select_loop (A := RA) draw (cumulative (A := RA) ws) num fuel sel g = Done (sel', g') -> spun draw ws num sel g sel' g'.
Proof.
  intros Hne Hd. induction fuel as [|fuel IH]; intros sel g sel' g' H; [discriminate|]. cbn [select_loop] in H.
  destruct (draw (last (cumulative (A := RA) ws) f0) g) as [v g1] eqn:Ed.
  assert (Ed' : draw (sum_first (length ws) ws) g = (v, g1)) by (rewrite <- (cum_last ws Hne); exact Ed).
  assert (Hv : v <= sum_first (length ws) ws) by (pose proof (Hd (sum_first (length ws) ws) g) as Q; rewrite Ed' in Q; exact Q).
  pose proof (wheel ws v Hne Hv) as Hh. set (i := lower_bound (A := RA) (cumulative (A := RA) ws) v) in *.
  destruct (Nat.leb_spec num (length (insert_id i sel))) as [L|L].
  - injection H as <- <-. exact (spun_last _ _ _ sel g v g1 i _ Ed' Hh (insert_added i sel) L).
  - exact (spun_more _ _ _ sel g v g1 i _ _ _ Ed' Hh (insert_added i sel) L (IH _ _ _ _ H)).
Qed.
Lemma all_points_at {X} (pc : list X) : forall ids l, all_points pc ids = Some l -> Forall2 (fun i x => nth_error pc i = Some x) ids l.
Proof.
  induction ids as [|i ids IH]; intros l H; cbn [all_points] in H; [injection H as <-; constructor|].
  destruct (nth_error pc i) eqn:E1; [|discriminate]. destruct (all_points pc ids) eqn:E2; [|discriminate]. injection H as <-. constructor; auto.
Qed.
(** The weighted sampler spins a wheel whose sectors are the weights of C67. *)
Theorem C120_weighted_sampler : forall E X lo hi w (draw : R -> E -> R * E) order e1 e2 d normals fuel (pc : list X) num g out g',
  (forall b g, fst (draw b g) <= b) -> (forall s, Permutation (order s) s) -> length (normals pc) = length pc ->
  real_sample lo hi w draw order e1 e2 d normals fuel pc num g = Done (out, g') ->
  roulette draw (map (point_weight (ratio_weight lo hi w (sqrt (e2 / e1))) d) (normals pc)) pc num g out g'.
Proof.
  intros E X lo hi w draw order e1 e2 d normals fuel pc num g out g' Hd Ho Hn H. unfold real_sample, weighted_sample in H. unfold roulette.
  destruct (Nat.eqb_spec num 0) as [->|N0]; [rewrite orb_true_r in H; injection H as <- <-; auto|].
  destruct (Nat.eqb_spec (length pc) 0) as [E0|E0]; cbn [orb] in H.
  { injection H as <- <-. destruct pc; [|discriminate]. change (length (@nil X) <=? num)%nat with true. cbv iota. auto. }
  destruct (length pc <=? num)%nat; [injection H as <- <-; auto|]. cbv zeta in H.
  set (ws := map (point_weight (ratio_weight lo hi w (sqrt (e2 / e1))) d) (normals pc)).
  assert (Ecum : cumulative (A := RA) (map (weight (A := RA) acos Rabs (PI / 2) (max_weight (A := RA) sqrt (real_params lo hi w) e1 e2) d) (normals pc)) = cumulative (A := RA) ws).
  { f_equal. unfold ws. apply map_ext. intros n. rewrite weight_is, max_weight_is. reflexivity. }
  rewrite Ecum in H.
  assert (Hne : ws <> []). { intro Hz. apply (f_equal (@length R)) in Hz. unfold ws in Hz. rewrite map_length, Hn in Hz. cbn in Hz. lia. }
  destruct (select_loop _ _ _ _ _ _) as [[sel g1]| |] eqn:Es; try discriminate.
  destruct (all_points pc (order sel)) as [t|] eqn:Ea; [|discriminate]. injection H as <- <-.
  exists sel, (order sel). split; [exact (select_spun draw ws num Hne Hd _ _ _ _ _ Es)|]. split; [apply Ho|exact (all_points_at _ _ _ Ea)].
Qed.
Lemma uniform_draws {E X} (draw : nat -> E -> nat * E) (pc : list X) num : forall g out g', uniform_loop draw pc num g = Some (out, g') ->
  length out = num /\ g' = draws draw (length pc - 1)%nat num g
  /\ forall i, (i < num)%nat -> nth_error out i = nth_error pc (fst (draw (length pc - 1)%nat (draws draw (length pc - 1)%nat i g))).
Proof.
  induction num as [|num IH]; intros g out g' H; cbn [uniform_loop] in H.
  - injection H as <- <-. split; [reflexivity|]. split; [reflexivity|]. intros i Hi. lia.
  - destruct (draw (length pc - 1)%nat g) as [j g1] eqn:Ed. destruct (nth_error pc j) as [x|] eqn:Ex; [|discriminate].
    destruct (uniform_loop draw pc num g1) as [[t g2]|] eqn:Eu; [|discriminate]. injection H as <- <-.
    destruct (IH _ _ _ Eu) as (A1 & A2 & A3). split; [cbn [length]; congruence|]. split; [cbn [draws]; rewrite Ed; exact A2|].
    intros [|i] Hi; cbn [draws nth_error]; rewrite Ed; [cbn [fst]; symmetry; exact Ex|]. cbn [snd]. apply A3. lia.
Qed.
Theorem C120_uniform_sampler : forall E X (draw : nat -> E -> nat * E) (pc : list X) num g out g',
  uniform_sample draw pc num g = Some (out, g') -> uniform draw pc num g out g'.
Proof.
  intros E X draw pc num g out g' H. unfold uniform_sample in H. unfold uniform. destruct pc as [|x pc]; [injection H as <- <-; auto|].
  exact (uniform_draws draw (x :: pc) num g out g' H).
Qed.
