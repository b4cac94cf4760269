(** Counting, means, covariance, argmax and histories over the reals. *)
From Coq Require Import Reals ZArith List Arith Bool Permutation Lra Lia.
From Verif Require Import Arith PfModel PfSpec PfProofs RsumLemmas PfReal.
Import ListNotations.
Local Open Scope R_scope.

Lemma Forall2_length {X Y} (Q : X -> Y -> Prop) l l' : Forall2 Q l l' -> length l = length l'.
Proof. induction 1; cbn; congruence. Qed.

Lemma floor_diff x y : floor_or_ceil y (Rfloor (x + y) - Rfloor x).
Proof.
  unfold floor_or_ceil.
  assert (Hx := Rfloor_spec x). assert (Hxy := Rfloor_spec (x + y)).
  assert (Hf := Rfloor_spec y). assert (Hc := Rceil_spec y).
  assert (A1 : (Rfloor y <= Rfloor (x + y) - Rfloor x)%Z).
  { assert (E : (Rfloor y + Rfloor x < Rfloor (x + y) + 1)%Z); [|lia].
    apply lt_IZR. rewrite !plus_IZR. lra. }
  assert (A2 : (Rfloor (x + y) - Rfloor x <= Rceil y)%Z).
  { assert (E : (Rfloor (x + y) < Rfloor x + 1 + Rceil y)%Z); [|lia].
    apply lt_IZR. rewrite !plus_IZR. lra. }
  assert (A3 : (Rceil y <= Rfloor y + 1)%Z).
  { assert (E : (Rceil y - 1 < Rfloor y + 1)%Z); [|lia].
    apply lt_IZR. rewrite minus_IZR, plus_IZR. lra. }
  lia.
Qed.

Section Counting.
Context {T : Type}.
Implicit Types (f : filter RA T).

Lemma prefix_range (ws : list R) j : Forall (fun x => 0 <= x) ws -> 0 <= prefix ws j <= Rsum ws.
Proof.
  intros H. split.
  - assert (E := prefix_mono ws 0 j H ltac:(lia)). unfold prefix at 1 in E. cbn in E. lra.
  - assert (E := prefix_mono ws j (Nat.max j (length ws)) H ltac:(lia)). rewrite (prefix_all ws (Nat.max j (length ws))) in E by lia. lra.
Qed.

(** number of scan positions s*m+u not beyond b, m = 0..n-1 *)
Lemma count_positions n s u b :
  0 < s -> 0 <= u -> 0 <= b -> b - u < INR n * s -> - s <= b - u ->
  Z.of_nat (length (List.filter (fun m => Rleb (s * INR m + u) b) (seq 0 n)))
  = (Rfloor ((b - u) / s) + 1)%Z.
Proof.
  intros Hs Hu Hb Hhi Hlo.
  assert (E : forall m, Rleb (s * INR m + u) b = Rleb (INR m) ((b - u) / s)).
  { intros m. apply eq_true_iff_eq. rewrite !Rleb_true. split; intros H.
    - apply Rmult_le_reg_r with s; [assumption|]. unfold Rdiv. rewrite Rmult_assoc, Rinv_l by lra. lra.
    - apply Rmult_le_compat_r with (r := s) in H; [|lra]. unfold Rdiv in H. rewrite Rmult_assoc, Rinv_l in H by lra. lra. }
  rewrite (filter_ext _ _ E). apply count_floor.
  assert (Hf := Rfloor_spec ((b - u) / s)).
  assert (B1 : -1 <= (b - u) / s).
  { apply Rmult_le_reg_r with s; [assumption|]. unfold Rdiv. rewrite Rmult_assoc, Rinv_l by lra. lra. }
  assert (B2 : (b - u) / s < INR n).
  { apply Rmult_lt_reg_r with s; [assumption|]. unfold Rdiv. rewrite Rmult_assoc, Rinv_l by lra. lra. }
  split.
  - assert (X : (-1 < Rfloor ((b - u) / s) + 1)%Z); [|lia]. apply lt_IZR. rewrite plus_IZR. lra.
  - assert (X : (Rfloor ((b - u) / s) < Z.of_nat n)%Z); [|lia]. apply lt_IZR.
    rewrite <- INR_IZR_INZ. lra.
Qed.

Lemma scan_counts (ws : list R) n s u sel :
  Forall (fun x => 0 <= x) ws -> 0 < s -> Rsum ws = INR n * s -> 0 < u <= s ->
  Forall2 (fun m j => in_slot ws (s * INR m + u) j) (seq 0 n) sel ->
  forall j x, nth_error ws j = Some x ->
    floor_or_ceil (INR n * x / Rsum ws) (occurrences j sel).
Proof.
  intros Hw Hs Hsum Hu H j x Hx. unfold occurrences.
  rewrite (count_slots ws (fun m => s * INR m + u) (seq 0 n) sel H Hw j).
  assert (R1 := prefix_range ws j Hw). assert (R2 := prefix_range ws (S j) Hw).
  rewrite !count_positions; try lra.
  rewrite (prefix_S ws j x Hx).
  replace ((prefix ws j + x - u) / s) with ((prefix ws j - u) / s + x / s) by (field; lra).
  replace (INR n * x / Rsum ws) with (x / s).
  2:{ rewrite Hsum. destruct (Req_dec (INR n) 0) as [Hn|Hn].
      - rewrite Hn in *. assert (0 <= x) by (rewrite Forall_forall in Hw; apply Hw; eapply nth_error_In; eauto).
        assert (x <= Rsum ws) by (apply Rsum_in_le; [assumption|eapply nth_error_In; eauto]).
        assert (x = 0) by lra. subst. unfold Rdiv. rewrite !Rmult_0_l. reflexivity.
      - field. split; lra. }
  replace (Rfloor ((prefix ws j - u) / s + x / s) + 1 - (Rfloor ((prefix ws j - u) / s) + 1))%Z
    with (Rfloor ((prefix ws j - u) / s + x / s) - Rfloor ((prefix ws j - u) / s))%Z by lia.
  apply floor_diff.
Qed.

Lemma step_real f : resample_step RA f = Rsum (weights RA f) / INR (length (parts RA f)).
Proof.
  unfold resample_step. destruct (accumulate_spec RA (parts RA f) f0) as (_ & _ & _ & _ & H & _).
  rewrite H. cbn. rewrite fold_left_Rplus. unfold weights. change (F RA) with R. f_equal. lra.
Qed.

(** In-order scan: complete description. *)
Lemma resample_in_order plus normalize offset noise f :
  Forall (fun x => 0 <= x) (weights RA f) -> 0 < Rsum (weights RA f) ->
  0 < offset < resample_step RA f ->
  exists f' sel,
    resample RA plus normalize offset noise (dup_of RA 0 (parts RA f)) f = Some f'
    /\ length (parts RA f') = length (parts RA f)
    /\ from_pool_strict plus normalize noise (poses RA f) 0 0 (poses RA f') sel
    /\ length sel = length (parts RA f)
    /\ (forall j p, nth_error (parts RA f) j = Some p ->
          floor_or_ceil (INR (length (parts RA f)) * w RA p / Rsum (weights RA f)) (occurrences j sel))
    /\ (forall j, In j sel -> exists p, nth_error (parts RA f) j = Some p /\ 0 < w RA p).
Proof.
  intros Hw Hsum Hoff. rewrite step_real in Hoff.
  set (n := length (parts RA f)) in *.
  assert (Hn : 0 < INR n).
  { apply lt_0_INR. unfold n. destruct (parts RA f) eqn:E; [|cbn; lia].
    exfalso. unfold weights in Hsum. rewrite E in Hsum. cbn in Hsum. lra. }
  set (s := Rsum (weights RA f) / INR n) in *.
  assert (Hs : 0 < s) by (apply Rdiv_lt_0_compat; assumption).
  assert (Hns : Rsum (weights RA f) = INR n * s) by (unfold s; field; lra).
  assert (Hnn : (0 < n)%nat) by (apply INR_lt; cbn; lra).
  unfold resample.
  destruct (accumulate_spec RA (parts RA f) f0) as (H1 & H2 & H3 & H4 & H5 & _).
  destruct (accumulate RA f0 (parts RA f)) as [ps t]. cbn in H1, H2, H3, H4, H5.
  rewrite fold_left_Rplus, Rplus_0_l in H5.
  replace (fdiv t (fofnat (length ps))) with s
    by (unfold s; cbn; rewrite H1, H5; reflexivity).
  destruct (resample_loop_real plus normalize s offset noise (parts RA f) (length ps)) with (i := 0%nat) (it := 0%nat) (k := 0%nat)
    as (ss & sel & E1 & E2 & E3); try assumption; try lra.
  { intros m Hm. lia. }
  { intros _. cbn. lra. }
  { intros _. rewrite H1. fold n. change (Rsum (map (w RA) (parts RA f))) with (Rsum (weights RA f)).
    rewrite Hns. replace (0 + n - 1)%nat with (n - 1)%nat by lia.
    rewrite minus_INR by lia. cbn. lra. }
  rewrite E1. eexists _, sel. split; [reflexivity|].
  assert (Hlen : length ss = length ps).
  { clear -E2 E3. apply Forall2_length in E3. rewrite seq_length in E3. rewrite E3. clear E3.
    induction E2; cbn; congruence. }
  destruct (assign_spec RA (frecip (length ps)) ps ss Hlen) as (G1 & G2 & G3 & G4).
  unfold poses. cbn [parts]. rewrite G1. split; [|split; [exact E2|split; [|split]]].
  - rewrite <- (map_length (st RA)), G1, Hlen. exact H1.
  - apply Forall2_length in E3. rewrite seq_length in E3. rewrite <- E3. exact H1.
  - intros j p Hp. rewrite H1 in E3. fold n in E3.
    eapply (scan_counts (map (w RA) (parts RA f)) n s offset sel); try assumption; try lra.
    rewrite nth_error_map, Hp. reflexivity.
  - intros j Hj.
    assert (Hslot : exists m, in_slot (map (w RA) (parts RA f)) (s * INR m + offset) j).
    { clear -E3 Hj. induction E3 as [|m k l l' Hs H IH]; cbn in Hj; [contradiction|].
      destruct Hj as [->|Hj]; [exists m; exact Hs|auto]. }
    destruct Hslot as [m [Ha Hb]].
    assert (Hj2 : exists p, nth_error (parts RA f) j = Some p).
    { destruct (nth_error (parts RA f) j) as [p|] eqn:E; [exists p; reflexivity|exfalso].
      apply nth_error_None in E. rewrite !prefix_all in * by (rewrite map_length; lia). lra. }
    destruct Hj2 as [p Hp]. exists p. split; [exact Hp|].
    rewrite (prefix_S _ j (w RA p)) in Hb by (rewrite nth_error_map, Hp; reflexivity). lra.
Qed.

Lemma resample_low_variance plus normalize offset noise d f :
  parts RA f <> [] -> Forall (fun x => 0 < x) (weights RA f) ->
  sorted_copy RA (dup_of RA f0 (parts RA f)) d ->
  0 < offset < resample_step RA f ->
  exists f' sel,
    resample RA plus normalize offset noise d f = Some f'
    /\ from_pool_strict plus normalize noise (poses RA f) 0 0 (poses RA f') sel
    /\ length sel = length (parts RA f)
    /\ (forall j p, nth_error (parts RA f) j = Some p ->
          floor_or_ceil (INR (length (parts RA f)) * w RA p / Rsum (weights RA f)) (occurrences j sel)).
Proof.
  intros Hne Hw Hs Hoff. rewrite (positive_sort_unique _ _ Hw Hs).
  assert (Hw0 : Forall (fun x => 0 <= x) (weights RA f)) by (eapply Forall_impl; [|exact Hw]; cbn; intros; lra).
  assert (Hsum : 0 < Rsum (weights RA f)).
  { unfold weights in *. destruct (parts RA f) as [|p ps]; [congruence|]. cbn in *.
    inversion Hw; subst. assert (0 <= Rsum (map (w RA) ps)).
    { apply Rsum_nonneg. inversion Hw0; assumption. }
    unfold Rsum in *. lra. }
  destruct (resample_in_order plus normalize offset noise f Hw0 Hsum Hoff) as (f' & sel & E1 & _ & E2 & E3 & E4 & _).
  exists f', sel. auto.
Qed.

(** ** resize *)
Lemma resize_loop_real pstep (ps : list (particle RA T)) n :
  Forall (fun x => 0 <= x) (map (@w RA T) ps) -> 0 < pstep ->
  forall i it, (it < length ps)%nat ->
  (forall m, (m < it)%nat -> prefix (map (w RA) ps) (S m) < pstep * INR i + pstep) ->
  (n <> 0%nat -> pstep * INR (i + n - 1) + pstep <= Rsum (map (w RA) ps)) ->
  exists ss sel, resize_loop RA pstep (dup_of RA 0 ps) n (pstep * INR i) it it = Some ss
    /\ picks (map (st RA) ps) ss sel
    /\ Forall2 (fun m j => in_slot (map (w RA) ps) (pstep * INR m + pstep) j) (seq i n) sel.
Proof.
  intros Hw Hps. induction n as [|n IH]; intros i it Hit Hpre Hhi.
  - exists [], []. cbn. repeat split; constructor.
  - cbn [resize_loop].
    change (@fadd RA (pstep * INR i) pstep) with (pstep * INR i + pstep).
    destruct (lower_bound_from_range RA (dup_of RA 0 ps) it (pstep * INR i + pstep)) as (r & Hr & Hrange).
    { rewrite dup_length. lia. }
    rewrite Hr.
    assert (H0i := pos_INR i).
    assert (Hlast : pstep * INR i + pstep <= Rsum (map (w RA) ps)).
    { specialize (Hhi ltac:(lia)).
      assert (INR i <= INR (i + S n - 1)) by (apply le_INR; lia). nra. }
    destruct (scan_step ps it (pstep * INR i + pstep) r) as [Hrl Hslot]; try assumption; try lia.
    { split; [nra|exact Hlast]. }
    change (F RA) with R.
    destruct (nth_error (dup_of RA 0 ps : list (R * T)) r) as [x|] eqn:Hx.
    2:{ apply nth_error_None in Hx. assert (Hdl := dup_length RA ps 0). lia. }
    assert (Hx' : nth_error (map (st RA) ps) r = Some (snd x)).
    { apply dup_nth in Hx. destruct Hx as (p & Hp & _ & ->). rewrite nth_error_map, Hp. reflexivity. }
    replace (pstep * INR i + pstep) with (pstep * INR (S i)) by (rewrite S_INR; lra).
    destruct (IH (S i) r Hrl) as (ss & sel & E1 & E2 & E3).
    { intros m Hm. eapply in_slot_before; [exact Hw|exact Hslot| |exact Hm]. left. rewrite S_INR. lra. }
    { intros Hn. replace (S i + n - 1)%nat with (i + S n - 1)%nat by lia. apply Hhi. lia. }
    rewrite E1. eexists _, (r :: sel). split; [reflexivity|]. split.
    + constructor; assumption.
    + cbn [seq]. constructor; assumption.
Qed.

Lemma resize_in_order dflt num f :
  Forall (fun x => 0 <= x) (weights RA f) -> 0 < Rsum (weights RA f) -> (0 < num)%nat ->
  exists f' sel,
    resize RA dflt (dup_of RA 0 (parts RA f)) num f = Some f'
    /\ picks (poses RA f) (poses RA f') sel /\ length sel = num
    /\ (forall j p, nth_error (parts RA f) j = Some p ->
          floor_or_ceil (INR num * w RA p / Rsum (weights RA f)) (occurrences j sel)).
Proof.
  intros Hw Hsum Hnum.
  assert (Hn : 0 < INR num) by (apply lt_0_INR; lia).
  set (s := Rsum (weights RA f) / INR num) in *.
  assert (Hs : 0 < s) by (apply Rdiv_lt_0_compat; assumption).
  assert (Hns : Rsum (weights RA f) = INR num * s) by (unfold s; field; lra).
  unfold resize.
  destruct (accumulate_spec RA (parts RA f) f0) as (H1 & H2 & H3 & H4 & H5 & _).
  destruct (accumulate RA f0 (parts RA f)) as [ps t]. cbn in H1, H2, H3, H4, H5.
  rewrite fold_left_Rplus, Rplus_0_l in H5.
  replace (fdiv t (fofnat num)) with s by (unfold s; cbn; rewrite H5; reflexivity).
  destruct (resize_loop_real s (parts RA f) num) with (i := 0%nat) (it := 0%nat)
    as (ss & sel & E1 & E2 & E3); try assumption; try lra.
  { destruct (parts RA f) eqn:E; [|cbn; lia].
    exfalso. unfold weights in Hsum. rewrite E in Hsum. cbn in Hsum. lra. }
  { intros m Hm. lia. }
  { intros _. change (Rsum (map (w RA) (parts RA f))) with (Rsum (weights RA f)).
    rewrite Hns. replace (0 + num - 1)%nat with (num - 1)%nat by lia.
    rewrite minus_INR by lia. cbn. lra. }
  cbn [INR] in E1. rewrite Rmult_0_r in E1.
  change (@f0 RA) with 0. rewrite E1. eexists _, sel. split; [reflexivity|].
  assert (Hls : length sel = num).
  { apply Forall2_length in E3. rewrite seq_length in E3. congruence. }
  assert (Hlen : length ss = length (vec_resize RA dflt num ps)).
  { rewrite vec_resize_length. apply Forall2_length in E2. congruence. }
  destruct (assign_spec RA (frecip num) _ ss Hlen) as (G1 & _).
  unfold poses. cbn [parts]. rewrite G1. split; [exact E2|]. split; [exact Hls|].
  intros j p Hp. eapply (scan_counts (map (w RA) (parts RA f)) num s s sel); try assumption; try lra.
  rewrite nth_error_map, Hp. reflexivity.
Qed.

Lemma resize_low_variance dflt d num f :
  parts RA f <> [] -> Forall (fun x => 0 < x) (weights RA f) -> (0 < num)%nat ->
  sorted_copy RA (dup_of RA f0 (parts RA f)) d ->
  exists f' sel,
    resize RA dflt d num f = Some f'
    /\ picks (poses RA f) (poses RA f') sel /\ length sel = num
    /\ (forall j p, nth_error (parts RA f) j = Some p ->
          floor_or_ceil (INR num * w RA p / Rsum (weights RA f)) (occurrences j sel)).
Proof.
  intros Hne Hw Hnum Hs. rewrite (positive_sort_unique _ _ Hw Hs).
  apply resize_in_order; [|  |exact Hnum].
  - eapply Forall_impl; [|exact Hw]; cbn; intros; lra.
  - unfold weights in *. destruct (parts RA f) as [|p ps]; [congruence|]. cbn in *.
    inversion Hw; subst. assert (0 <= Rsum (map (w RA) ps)).
    { apply Rsum_nonneg. eapply Forall_impl; [|eassumption]; cbn; intros; lra. }
    unfold Rsum in *. lra.
Qed.

(** ** max *)
Lemma max_loop_spec (wt : particle RA T -> R) m mp (ps : list (particle RA T)) :
  (exists i p, nth_error ps i = Some p /\ max_loop RA wt m mp ps = st RA p /\ mp < wt p
     /\ (forall q, In q ps -> wt q <= wt p)
     /\ (forall j q, (j < i)%nat -> nth_error ps j = Some q -> wt q < wt p))
  \/ (max_loop RA wt m mp ps = m /\ forall q, In q ps -> wt q <= mp).
Proof.
  revert m mp. induction ps as [|p ps IH]; intros m mp; cbn [max_loop].
  - right. split; [reflexivity|]. intros q [].
  - change (@flt RA mp (wt p)) with (Rltb mp (wt p)).
    destruct (Rltb mp (wt p)) eqn:E; [apply Rltb_true in E|apply Rltb_false in E].
    + left. destruct (IH (st RA p) (wt p)) as [(i & q & H1 & H2 & H3 & H4 & H5)|[H1 H2]].
      * exists (S i), q. repeat split; auto; [lra| |].
        -- intros q' [<-|Hin]; [lra|auto].
        -- intros [|j] q' Hj Hq'; cbn in Hq'; [injection Hq' as <-; lra|]. apply (H5 j); [lia|assumption].
      * exists 0%nat, p. repeat split; auto.
        -- intros q' [<-|Hin]; [lra|auto].
        -- intros j q' Hj; lia.
    + destruct (IH m mp) as [(i & q & H1 & H2 & H3 & H4 & H5)|[H1 H2]].
      * left. exists (S i), q. repeat split; auto.
        -- intros q' [<-|Hin]; [lra|auto].
        -- intros [|j] q' Hj Hq'; cbn in Hq'; [injection Hq' as <-; lra|]. apply (H5 j); [lia|assumption].
      * right. split; [exact H1|]. intros q [<-|Hin]; [lra|auto].
Qed.
Lemma max_spec_gen (wt : particle RA T -> R) p0 ps :
  exists i p, nth_error (p0 :: ps) i = Some p
    /\ max_loop RA wt (st RA p0) (wt p0) (p0 :: ps) = st RA p
    /\ (forall q, In q (p0 :: ps) -> wt q <= wt p)
    /\ (forall j q, (j < i)%nat -> nth_error (p0 :: ps) j = Some q -> wt q < wt p).
Proof.
  destruct (max_loop_spec wt (st RA p0) (wt p0) (p0 :: ps)) as [(i & p & H1 & H2 & _ & H4 & H5)|[H1 H2]].
  - exists i, p. auto.
  - exists 0%nat, p0. repeat split; auto. intros j q Hj; lia.
Qed.
Lemma max_spec f :
  parts RA f <> [] ->
  exists i p, nth_error (parts RA f) i = Some p /\ max RA f = Some (st RA p)
    /\ (forall q, In q (parts RA f) -> w RA q <= w RA p)
    /\ (forall j q, (j < i)%nat -> nth_error (parts RA f) j = Some q -> w RA q < w RA p).
Proof.
  intros Hne. unfold max. destruct (parts RA f) as [|p0 ps]; [congruence|].
  destruct (max_spec_gen (w RA) p0 ps) as (i & p & H1 & H2 & H3 & H4).
  exists i, p. repeat split; auto. f_equal. exact H2.
Qed.
Lemma max_biased_spec f :
  parts RA f <> [] ->
  exists i p, nth_error (parts RA f) i = Some p /\ max_biased RA f = Some (st RA p)
    /\ (forall q, In q (parts RA f) -> w RA q * bias RA q <= w RA p * bias RA p)
    /\ (forall j q, (j < i)%nat -> nth_error (parts RA f) j = Some q ->
          w RA q * bias RA q < w RA p * bias RA p).
Proof.
  intros Hne. unfold max_biased. destruct (parts RA f) as [|p0 ps]; [congruence|].
  destruct (max_spec_gen (biased_weight RA) p0 ps) as (i & p & H1 & H2 & H3 & H4).
  exists i, p. repeat split; auto. f_equal. exact H2.
Qed.
End Counting.

(** ** expectation *)
Section Mean.
Context (d : nat).
Notation P := (particle RA (list R)).
Notation Fi := (filter RA (list R)).

Lemma vadd_comp (x y : list R) c :
  length x = length y -> comp c (vadd RA x y) = comp c x + comp c y.
Proof.
  unfold comp, vadd. revert y c. induction x as [|a x IH]; intros [|b y] c H; try discriminate.
  - destruct c; cbn; lra.
  - destruct c as [|c]; cbn; [lra|]. apply IH. injection H as H. exact H.
Qed.
Lemma scale_comp (s : list R) k c : comp c (map (fun x => x * k) s) = comp c s * k.
Proof.
  unfold comp. revert c. induction s as [|a s IH]; intros [|c]; cbn; try lra. apply IH.
Qed.
Lemma vadd_length (x y : list R) : length x = length y -> length (vadd RA x y) = length y.
Proof. intros H. unfold vadd. rewrite map_length, combine_length. lia. Qed.

Lemma fold_mean (wt : P -> R) (ps : list P) (m : list R * R) :
  Forall (fun p => length (st RA p) = d) ps -> length (fst m) = d ->
  let m' := fold_left (fun m p => wm_add RA m (st RA p) (wt p)) ps m in
  length (fst m') = d
  /\ snd m' = snd m + Rsum (map wt ps)
  /\ forall c, comp c (fst m') = comp c (fst m) + Rsum (map (fun p => wt p * comp c (st RA p)) ps).
Proof.
  revert m. induction ps as [|p ps IH]; intros m Hd Hm; cbn [fold_left].
  - cbn. repeat split; auto; intros; lra.
  - assert (Hp := Forall_inv Hd). assert (Hd' := Forall_inv_tail Hd). cbn beta in Hp.
    destruct (IH (wm_add RA m (st RA p) (wt p))) as (H1 & H2 & H3); auto.
    { cbn. rewrite vadd_length; [exact Hm|]. rewrite map_length. congruence. }
    cbn zeta in *. split; [exact H1|]. split.
    + etransitivity; [exact H2|]. cbn. unfold Rsum. lra.
    + intros c. etransitivity; [exact (H3 c)|]. cbn [wm_add fst].
      rewrite vadd_comp by (rewrite map_length; etransitivity; [exact Hp|symmetry; exact Hm]).
      change (fun x : RA => fmul x (wt p)) with (fun x : R => x * wt p).
      rewrite scale_comp. unfold Rsum. cbn. lra.
Qed.

(** the pass loop stops at [pass_count] (any pass ratio) *)
Lemma expect_loop_prefix pass (ps : list P) (m : list R * R) :
  expect_loop RA (weighted_mean RA d) pass m ps
  = fold_left (fun m p => wm_add RA m (st RA p) (w RA p)) (firstn (pass_count RA pass (snd m) ps) ps) m.
Proof.
  revert m. induction ps as [|p ps IH]; intros m; [reflexivity|].
  cbn [expect_loop pass_count weighted_mean mean_add mean_total mean_st].
  cbn [firstn]. cbn [fold_left].
  change (snd (wm_add RA m (st RA p) (w RA p))) with (@fadd RA (snd m) (w RA p)).
  destruct (@flt RA pass (@fadd RA (snd m) (w RA p))); [reflexivity|].
  apply IH.
Qed.
Lemma pass_count_all (ps : list P) a :
  Forall (fun x => 0 <= x) (map (w RA) ps) -> a + Rsum (map (w RA) ps) <= 1 ->
  pass_count RA 1 a ps = length ps.
Proof.
  revert a. induction ps as [|p ps IH]; intros a Hw Hs; cbn [pass_count length map] in *; [reflexivity|].
  inversion Hw as [|? ? Hp Hw']; subst.
  assert (0 <= Rsum (map (w RA) ps)) by (apply Rsum_nonneg; assumption).
  unfold Rsum in Hs. cbn in Hs. unfold Rsum in *.
  change (@flt RA 1 (@fadd RA a (w RA p))) with (Rltb 1 (a + w RA p)).
  assert (E : Rltb 1 (a + w RA p) = false) by (apply Rltb_false; lra).
  rewrite E, IH; auto. cbn. lra.
Qed.

Lemma wm_get_comp (m : list R * R) c : comp c (wm_get RA m) = comp c (fst m) / snd m.
Proof.
  unfold wm_get, comp. destruct m as [l t]. cbn. revert c.
  induction l as [|a l IH]; intros [|c]; cbn; try lra; try apply IH; unfold Rdiv; lra.
Qed.

(** mean of a prefix, for any pass ratio *)
Lemma expectation_prefix pass (f : Fi) :
  Forall (fun p => length (st RA p) = d) (parts RA f) ->
  let used := firstn (pass_count RA pass 0 (parts RA f)) (parts RA f) in
  0 < Rsum (map (w RA) used) ->
  exists e, expectation RA (weighted_mean RA d) pass f = Some e
    /\ length e = d /\ forall c, comp c e = wmean c used.
Proof.
  intros Hd used Hpos.
  pose (m := fold_left (fun m p => wm_add RA m (st RA p) (w RA p)) used (repeat 0 d, 0) : list R * R).
  assert (HE : expectation RA (weighted_mean RA d) pass f
               = if Rltb 0 (snd m) then Some (wm_get RA m) else None).
  { unfold expectation. rewrite expect_loop_prefix. reflexivity. }
  assert (Hdu : Forall (fun p => length (st RA p) = d) used).
  { unfold used. apply Forall_forall. intros p Hp. rewrite Forall_forall in Hd. apply Hd.
    rewrite <- (firstn_skipn (pass_count RA pass 0 (parts RA f)) (parts RA f)). apply in_or_app. left. exact Hp. }
  destruct (fold_mean (w RA) used (repeat (f0 : RA) d, f0 : RA) Hdu) as (H1 & H2 & H3).
  { cbn. apply repeat_length. }
  cbn zeta in *.
  change (snd m = 0 + Rsum (map (w RA) used)) in H2.
  change (length (fst m) = d) in H1.
  change (forall c, comp c (fst m) = comp c (repeat 0 d) + Rsum (map (fun p => w RA p * comp c (st RA p)) used)) in H3.
  clearbody m. rewrite Rplus_0_l in H2.
  assert (E : Rltb 0 (snd m) = true) by (apply Rltb_true; rewrite H2; exact Hpos).
  exists (wm_get RA m). split; [|split].
  - rewrite HE, E. reflexivity.
  - unfold wm_get. rewrite map_length. exact H1.
  - intros c. rewrite wm_get_comp, H2, H3. unfold wmean. f_equal.
    assert (Hz : comp c (repeat 0 d) = 0).
    { unfold comp. clear. revert c. induction d as [|n IH]; intros [|c]; cbn; auto. }
    rewrite Hz. lra.
Qed.

Lemma expectation_mean (f : Fi) :
  Forall (fun p => length (st RA p) = d) (parts RA f) ->
  Forall (fun x => 0 <= x) (weights RA f) -> 0 < Rsum (weights RA f) <= 1 ->
  exists e, expectation RA (weighted_mean RA d) 1 f = Some e
    /\ length e = d /\ forall c, comp c e = wmean c (parts RA f).
Proof.
  intros Hd Hw [Hp Hs].
  destruct (expectation_prefix 1 f Hd) as (e & H1 & H2 & H3).
  - rewrite pass_count_all; [|exact Hw|unfold weights in Hs; lra]. rewrite firstn_all. exact Hp.
  - exists e. split; [exact H1|]. split; [exact H2|]. intros c. rewrite H3.
    rewrite pass_count_all; [|exact Hw|unfold weights in Hs; lra]. rewrite firstn_all. reflexivity.
Qed.

Lemma wmean_bounds (ps : list P) c lo hi :
  Forall (fun x => 0 <= x) (map (w RA) ps) -> 0 < Rsum (map (w RA) ps) ->
  (forall p, In p ps -> lo <= comp c (st RA p) <= hi) ->
  lo <= wmean c ps <= hi.
Proof.
  intros Hw Hp Hb. unfold wmean.
  assert (A1 : Rsum (map (fun p : P => w RA p * lo) ps) <= Rsum (map (fun p : P => w RA p * comp c (st RA p)) ps)).
  { apply Rsum_le. intros p Hin. rewrite Forall_forall in Hw.
    assert (0 <= w RA p) by (apply Hw; apply in_map; assumption).
    destruct (Hb p Hin). apply Rmult_le_compat_l; assumption. }
  assert (A2 : Rsum (map (fun p : P => w RA p * comp c (st RA p)) ps) <= Rsum (map (fun p : P => w RA p * hi) ps)).
  { apply Rsum_le. intros p Hin. rewrite Forall_forall in Hw.
    assert (0 <= w RA p) by (apply Hw; apply in_map; assumption).
    destruct (Hb p Hin). apply Rmult_le_compat_l; assumption. }
  rewrite (Rsum_map_scale_r lo (w RA)) in A1. rewrite (Rsum_map_scale_r hi (w RA)) in A2.
  set (N := Rsum (map (fun p : P => w RA p * comp c (st RA p)) ps)) in *.
  change (Rsum (map (w RA) ps) * lo <= N) in A1. change (N <= Rsum (map (w RA) ps) * hi) in A2.
  change (lo <= N / Rsum (map (w RA) ps) <= hi).
  change (0 < Rsum (map (w RA) ps)) in Hp.
  clearbody N. clear Hw. revert A1 A2 Hp. generalize (Rsum (map (w RA) ps)) as S. intros S A1 A2 Hp.
  split; apply Rmult_le_reg_r with S; try assumption; unfold Rdiv; rewrite Rmult_assoc, Rinv_l by lra; lra.
Qed.
Lemma wmean_perm (ps qs : list P) c : Permutation ps qs -> wmean c ps = wmean c qs.
Proof.
  intros H. unfold wmean.
  rewrite (Rsum_perm _ _ (Permutation_map (fun p => w RA p * comp c (st RA p)) H)).
  rewrite (Rsum_perm _ _ (Permutation_map (w RA) H)). reflexivity.
Qed.

Lemma expectation_biased_mean (f : Fi) :
  Forall (fun p => length (st RA p) = d) (parts RA f) ->
  0 < Rsum (map (fun p => w RA p * bias RA p) (parts RA f)) ->
  exists e, expectation_biased RA (weighted_mean RA d) f = Some e
    /\ length e = d /\ forall c,
       comp c e = Rsum (map (fun p => w RA p * bias RA p * comp c (st RA p)) (parts RA f))
                  / Rsum (map (fun p => w RA p * bias RA p) (parts RA f)).
Proof.
  intros Hd Hpos.
  destruct (fold_mean (fun p => w RA p * bias RA p) (parts RA f) (repeat (f0 : RA) d, f0 : RA) Hd) as (H1 & H2 & H3).
  { cbn. apply repeat_length. }
  cbn zeta in *.
  pose (m := fold_left (fun m p => wm_add RA m (st RA p) (w RA p * bias RA p)) (parts RA f) (repeat 0 d, 0) : list R * R).
  assert (HE : expectation_biased RA (weighted_mean RA d) f = if Rltb 0 (snd m) then Some (wm_get RA m) else None) by reflexivity.
  change (snd m = 0 + Rsum (map (fun p => w RA p * bias RA p) (parts RA f))) in H2.
  change (length (fst m) = d) in H1.
  change (forall c, comp c (fst m) = comp c (repeat 0 d)
    + Rsum (map (fun p => w RA p * bias RA p * comp c (st RA p)) (parts RA f))) in H3.
  clearbody m. rewrite Rplus_0_l in H2.
  assert (E : Rltb 0 (snd m) = true) by (apply Rltb_true; rewrite H2; exact Hpos).
  exists (wm_get RA m). split; [|split].
  - etransitivity; [exact HE|]. rewrite E. reflexivity.
  - unfold wm_get. rewrite map_length. exact H1.
  - intros c. rewrite wm_get_comp, H2, H3. f_equal.
    assert (Hz : comp c (repeat 0 d) = 0).
    { unfold comp. clear. revert c. induction d as [|n IH]; intros [|c]; cbn; auto. }
    rewrite Hz. lra.
Qed.
End Mean.
