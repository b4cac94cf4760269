(** The particle filter over the real numbers. *)
From Coq Require Import Reals ZArith List Arith Bool Permutation Lra Lia.
From Verif Require Import Arith PfModel PfSpec PfProofs RsumLemmas.
Import ListNotations.
Local Open Scope R_scope.
Ltac lra := try change (F RA) with R in *; Lra.lra.
Ltac lia := try change (F RA) with R in *; Lia.lia.

Section Real.
Context {T : Type}.
Implicit Types (f : filter RA T) (p : particle RA T).

(** ** measure (C01, C04) *)
Lemma measure_real L f :
  0 < Rsum (scores RA L f) ->
  weights RA (measure RA L f) = map (fun x => x / Rsum (scores RA L f)) (scores RA L f)
  /\ Rsum (weights RA (measure RA L f)) = 1
  /\ entropy RA (measure RA L f) = Some (shannon (weights RA (measure RA L f))).
Proof.
  intros Hpos.
  assert (Hs : fold_left fadd (scores RA L f) (f0 : RA) = Rsum (scores RA L f)).
  { change (fold_left Rplus (scores RA L f) 0 = Rsum (scores RA L f)). rewrite fold_left_Rplus. lra. }
  unfold measure. rewrite measure_sum, Hs.
  assert (Hb : flt (f0 : RA) (Rsum (scores RA L f)) = true) by (apply Rltb_true; exact Hpos).
  rewrite Hb. unfold weights. cbn [parts entropy].
  rewrite map_map. cbn [w set_w].
  assert (Hw : map (fun x : particle RA T => w RA x / Rsum (scores RA L f))
     (mapi (fun (i : nat) (p : particle RA T) => set_w RA p (fmul (w RA p) (L i (st RA p)))) (parts RA f))
     = map (fun x => x / Rsum (scores RA L f)) (scores RA L f)).
  { rewrite <- (map_map (w RA) (fun x => x / Rsum (scores RA L f))).
    rewrite (measure_scores RA L f). reflexivity. }
  split; [exact Hw|].
  split.
  - transitivity (Rsum (map (fun x => (fun y => y) x / Rsum (scores RA L f)) (scores RA L f)));
      [f_equal; exact Hw|].
    rewrite Rsum_map_div, map_id. apply Rinv_r. lra.
  - f_equal. unfold shannon. 
    match goal with |- fmul (entropy_sum RA ?qs) _ = _ => set (Q := qs) end.
    transitivity (- Rsum (map xlnx (map (w RA) Q)));
      [|unfold Q; rewrite !map_map; reflexivity].
    clearbody Q. clear.
    assert (E : forall a, fold_left (fun e p => if flt f0 (w RA p) then fadd e (fmul (w RA p) (flog (w RA p))) else e) Q a
                = a + Rsum (map xlnx (map (w RA) Q))).
    { induction Q as [|p Q IH]; intros a; cbn [fold_left map]; [unfold Rsum; cbn; lra|].
      rewrite IH. unfold Rsum. cbn [fold_right]. unfold xlnx at 2.
      cbn [flt RA f0]. unfold Rltb. destruct (Rlt_dec 0 (w RA p)); cbn; lra. }
    unfold entropy_sum. rewrite E. cbn. lra.
Qed.

Lemma nth_scores L f i p :
  nth_error (parts RA f) i = Some p -> nth_error (scores RA L f) i = Some (w RA p * L i (st RA p)).
Proof.
  intros H. rewrite <- measure_scores. rewrite nth_error_map, mapi_nth, H. reflexivity.
Qed.

Lemma measure_bayes L f :
  0 < Rsum (scores RA L f) ->
  (forall i p, nth_error (parts RA f) i = Some p ->
     nth_error (weights RA (measure RA L f)) i
     = Some (w RA p * L i (st RA p) / Rsum (scores RA L f)))
  /\ Rsum (weights RA (measure RA L f)) = 1
  /\ length (parts RA (measure RA L f)) = length (parts RA f)
  /\ poses RA (measure RA L f) = poses RA f
  /\ biases RA (measure RA L f) = biases RA f.
Proof.
  intros Hpos. destruct (measure_real L f Hpos) as (H1 & H2 & _).
  destruct (measure_shape RA L f) as (H3 & H4 & H5 & _).
  split; [|auto]. intros i p Hp. rewrite H1.
  etransitivity; [apply nth_error_map|].
  exact (f_equal (option_map (fun x => x / Rsum (scores RA L f))) (nth_scores L f i p Hp)).
Qed.

End Real.

(** ** Shannon entropy bounds *)
Lemma ln_le_minus1 x : 0 < x -> ln x <= x - 1.
Proof.
  intros Hx. destruct (Req_dec x 1) as [->|Hne]; [rewrite ln_1; lra|].
  assert (H := exp_ineq1 (ln x)). 
  destruct (Req_dec (ln x) 0) as [H0|H0].
  - exfalso. apply Hne. rewrite <- (exp_ln x Hx), H0. apply exp_0.
  - specialize (H H0). rewrite exp_ln in H by assumption. lra.
Qed.

Lemma ln_nonpos x : 0 < x <= 1 -> ln x <= 0.
Proof. intros [H1 H2]. assert (H := ln_le_minus1 x H1). lra. Qed.

Lemma shannon_nonneg l : Forall (fun x => 0 <= x <= 1) l -> 0 <= shannon l.
Proof.
  intros H. unfold shannon.
  assert (E : Rsum (map xlnx l) <= 0); [|lra].
  induction H as [|x l [Hx1 Hx2] Hl IH]; [cbn; lra|].
  cbn. unfold xlnx at 1. destruct (Rlt_dec 0 x) as [Hp|Hp].
  - assert (ln x <= 0) by (apply ln_nonpos; lra).
    assert (x * ln x <= 0) by nra. unfold Rsum in *. lra.
  - unfold Rsum in *. lra.
Qed.

Lemma shannon_le_ln l :
  l <> [] -> Forall (fun x => 0 <= x) l -> Rsum l = 1 -> shannon l <= ln (INR (length l)).
Proof.
  intros Hne Hl Hs. unfold shannon.
  set (n := INR (length l)).
  assert (Hn : 0 < n) by (unfold n; apply lt_0_INR; destruct l; [congruence|cbn; lia]).
  assert (H1 : Rsum (map (fun x => - xlnx x - x * ln n) l) <= Rsum (map (fun x => / n - x) l)).
  { apply Rsum_le. intros x Hin. rewrite Forall_forall in Hl. specialize (Hl x Hin).
    unfold xlnx. destruct (Rlt_dec 0 x) as [Hx|Hx].
    - assert (Hi : 0 < / (n * x)) by (apply Rinv_0_lt_compat; nra).
      assert (Hln := ln_le_minus1 _ Hi). rewrite ln_Rinv in Hln by nra.
      rewrite ln_mult in Hln by assumption.
      assert (Hmul : x * (- (ln n + ln x)) <= x * (/ (n * x) - 1)) by (apply Rmult_le_compat_l; lra).
      replace (x * (/ (n * x) - 1)) with (/ n - x) in Hmul by (field; lra).
      lra.
    - assert (x = 0) by lra. subst. assert (0 < / n) by (apply Rinv_0_lt_compat; lra). lra. }
  assert (H2 : Rsum (map (fun x => - xlnx x - x * ln n) l) = - Rsum (map xlnx l) - ln n).
  { rewrite (Rsum_map_minus (fun x => - xlnx x) (fun x => x * ln n)).
    rewrite (Rsum_map_scale_r (ln n) (fun x => x)), map_id, Hs.
    replace (map (fun x => - xlnx x) l) with (map (fun x => (-1) * xlnx x) l)
      by (apply map_ext; intros; lra).
    rewrite Rsum_map_scale. lra. }
  assert (H3 : Rsum (map (fun x => / n - x) l) = 0).
  { rewrite (Rsum_map_minus (fun _ => / n) (fun x => x)), map_id, Hs, Rsum_const.
    fold n. rewrite Rinv_r by lra. lra. }
  lra.
Qed.

Lemma shannon_uniform n : (0 < n)%nat -> shannon (repeat (/ INR n) n) = ln (INR n).
Proof.
  intros Hn. assert (Hp : 0 < INR n) by (apply lt_0_INR; lia).
  assert (Hi : 0 < / INR n) by (apply Rinv_0_lt_compat; lra).
  unfold shannon.
  assert (E : map xlnx (repeat (/ INR n) n) = repeat (xlnx (/ INR n)) n).
  { clear. generalize (/ INR n) as c. intros c. induction n as [|n IH]; cbn; [reflexivity|]. rewrite IH. reflexivity. }
  rewrite E, Rsum_repeat. unfold xlnx. destruct (Rlt_dec 0 (/ INR n)); [|lra].
  rewrite ln_Rinv by lra. field. lra.
Qed.

Lemma shannon_single l1 l2 :
  Forall (fun x => x = 0) l1 -> Forall (fun x => x = 0) l2 -> shannon (l1 ++ 1 :: l2) = 0.
Proof.
  assert (Z : forall l, Forall (fun x => x = 0) l -> Rsum (map xlnx l) = 0).
  { induction 1 as [|x l -> Hl IH]; [reflexivity|]. cbn. unfold xlnx at 1.
    destruct (Rlt_dec 0 0); unfold Rsum in *; lra. }
  intros H1 H2. unfold shannon. rewrite map_app, Rsum_app. cbn.
  fold (Rsum (map xlnx l2)). rewrite (Z l1 H1), (Z l2 H2).
  unfold xlnx. destruct (Rlt_dec 0 1); [rewrite ln_1|]; lra.
Qed.

Section Real2.
Context {T : Type}.
Implicit Types (f : filter RA T) (p : particle RA T).

Lemma scores_nonneg L f :
  Forall (fun x => 0 <= x) (weights RA f) ->
  (forall i s, 0 <= L i s) -> Forall (fun x : R => 0 <= x) (scores RA L f).
Proof.
  intros Hw HL. rewrite <- measure_scores. unfold mapi. rewrite map_mapi_from. cbn.
  unfold weights in Hw. revert Hw. generalize 0%nat.
  induction (parts RA f) as [|p ps IH]; intros k Hw; cbn; constructor.
  - inversion Hw; subst. apply Rmult_le_pos; [assumption|apply HL].
  - apply IH. inversion Hw; assumption.
Qed.

Lemma measure_weights_range L f :
  Forall (fun x => 0 <= x) (weights RA f) -> (forall i s, 0 <= L i s) ->
  0 < Rsum (scores RA L f) ->
  Forall (fun x => 0 <= x <= 1) (weights RA (measure RA L f)).
Proof.
  intros Hw HL Hpos. destruct (measure_real L f Hpos) as (H1 & _).
  rewrite H1. assert (Hn := scores_nonneg L f Hw HL).
  set (S := Rsum (scores RA L f)) in *.
  apply Forall_forall. intros x Hx. apply in_map_iff in Hx. destruct Hx as (y & <- & Hy).
  rewrite Forall_forall in Hn. split.
  - apply Rmult_le_pos; [apply Hn; assumption|]. apply Rlt_le, Rinv_0_lt_compat; assumption.
  - apply Rmult_le_reg_r with S; [assumption|]. unfold Rdiv. rewrite Rmult_assoc, Rinv_l by lra.
    rewrite Rmult_1_r, Rmult_1_l. apply Rsum_in_le; [apply Forall_forall; assumption|assumption].
Qed.

Lemma measure_entropy L f :
  Forall (fun x => 0 <= x) (weights RA f) -> (forall i s, 0 <= L i s) ->
  0 < Rsum (scores RA L f) ->
  exists h, entropy RA (measure RA L f) = Some h
    /\ h = shannon (weights RA (measure RA L f))
    /\ 0 <= h <= ln (INR (length (parts RA f))).
Proof.
  intros Hw HL Hpos. destruct (measure_real L f Hpos) as (H1 & H2 & H3).
  assert (Hr := measure_weights_range L f Hw HL Hpos).
  eexists. split; [exact H3|]. split; [reflexivity|]. split.
  - apply shannon_nonneg. exact Hr.
  - destruct (measure_shape RA L f) as (Hlen & _).
    replace (length (parts RA f)) with (length (weights RA (measure RA L f)))
      by (unfold weights; rewrite map_length; exact Hlen).
    apply shannon_le_ln; [|eapply Forall_impl; [|exact Hr]; cbn; intros; lra|exact H2].
    intros E. rewrite E in H2. cbn in H2. lra.
Qed.

(** ** prefix sums *)
Definition prefix (ws : list R) (j : nat) : R := Rsum (firstn j ws).

Lemma dup_nth ps (a : R) j (x : R * T) :
  nth_error (dup_of RA a ps : list (R * T)) j = Some x ->
  exists p, nth_error ps j = Some p /\ fst x = a + prefix (map (@w RA T) ps) (S j) /\ snd x = st RA p.
Proof.
  revert a j. induction ps as [|p ps IH]; intros a [|j] H; cbn in H; try discriminate.
  - injection H as <-. exists p. cbn. repeat split. unfold prefix. cbn. lra.
  - destruct (IH _ _ H) as (q & H1 & H2 & H3). exists q. cbn. repeat split; auto.
    etransitivity; [exact H2|]. unfold prefix. cbn. unfold Rsum. cbn. lra.
Qed.
Lemma prefix_mono (ws : list R) i j : Forall (fun x => 0 <= x) ws -> (i <= j)%nat -> prefix ws i <= prefix ws j.
Proof.
  intros H. revert i j. induction H as [|x ws Hx Hws IH]; intros i j Hij.
  - unfold prefix. rewrite !firstn_nil. lra.
  - destruct i as [|i], j as [|j]; try lia; unfold prefix; cbn; try lra.
    + assert (0 <= Rsum (firstn j ws)).
      { apply Rsum_nonneg. apply Forall_forall. intros y Hy. rewrite Forall_forall in Hws.
        apply Hws. rewrite <- (firstn_skipn j ws). apply in_or_app. left. exact Hy. }
      unfold Rsum in *. lra.
    + assert (H2 := IH i j ltac:(lia)). unfold prefix, Rsum in *. lra.
Qed.
Lemma prefix_all ws n : (length ws <= n)%nat -> prefix ws n = Rsum ws.
Proof. intros H. unfold prefix. rewrite firstn_all2 by assumption. reflexivity. Qed.
Lemma prefix_S ws j x : nth_error ws j = Some x -> prefix ws (S j) = prefix ws j + x.
Proof.
  revert j. induction ws as [|y ws IH]; intros [|j] H; cbn in H; try discriminate.
  - injection H as ->. unfold prefix, Rsum. cbn. lra.
  - apply IH in H. unfold prefix, Rsum in *. cbn in *. lra.
Qed.

(** ** lower_bound on a sorted list *)
Definition sorted_R (d : list (R * T)) : Prop :=
  forall i j x y, (i < j)%nat -> nth_error d i = Some x -> nth_error d j = Some y -> fst x <= fst y.

Lemma lower_bound_spec fuel (d : list (R * T)) first len v r :
  sorted_R d -> (first + len <= length d)%nat ->
  lower_bound RA fuel d first len v = Some r ->
  (forall i x, (first <= i < r)%nat -> nth_error d i = Some x -> fst x < v)
  /\ (forall i x, (r <= i < first + len)%nat -> nth_error d i = Some x -> v <= fst x).
Proof.
  intros Hs. revert first len r. induction fuel as [|fuel IH]; intros first len r Hl H.
  - destruct len; cbn in H; [|discriminate]. injection H as <-. split; intros; lia.
  - destruct len as [|len]; [cbn in H; injection H as <-; split; intros; lia|].
    cbn [lower_bound] in H. change (F RA) with R in H.
    assert (Hh : (Nat.div2 (S len) < S len)%nat) by (apply Nat.lt_div2; lia).
    set (half := Nat.div2 (S len)) in *.
    destruct (nth_error d (first + half)) as [x|] eqn:Hx; [|discriminate].
    change (flt (a:=RA) (fst x) v) with (Rltb (fst x) v) in H.
    destruct (Rltb (fst x) v) eqn:Hc.
    + apply Rltb_true in Hc. destruct (IH (first + half + 1)%nat (S len - half - 1)%nat r) as [H1 H2]; [lia|exact H|].
      split.
      * intros i y Hi Hy. destruct (Nat.lt_trichotomy i (first + half)) as [Hlt|[->|Hgt]].
        -- assert (fst y <= fst x) by (eapply Hs; eauto). lra.
        -- rewrite Hx in Hy. injection Hy as <-. exact Hc.
        -- apply (H1 i y); [lia|assumption].
      * intros i y Hi Hy. apply (H2 i y); [lia|assumption].
    + apply Rltb_false in Hc. destruct (IH first half r) as [H1 H2]; [lia|exact H|].
      split.
      * exact H1.
      * intros i y Hi Hy. destruct (Nat.lt_trichotomy i (first + half)) as [Hlt|[->|Hgt]].
        -- apply (H2 i y); [lia|assumption].
        -- rewrite Hx in Hy. injection Hy as <-. exact Hc.
        -- assert (fst x <= fst y) by (eapply Hs; eauto). lra.
Qed.

(** The scan in real arithmetic, in original order, when no particle is dead ... *)
Definition in_slot (ws : list R) (v : R) (j : nat) : Prop := prefix ws j < v <= prefix ws (S j).

Lemma dup_sorted ps : Forall (fun x => 0 <= x) (map (@w RA T) ps) -> sorted_R (dup_of RA 0 ps).
Proof.
  intros H i j x y Hij Hx Hy. apply dup_nth in Hx, Hy.
  destruct Hx as (p & _ & -> & _), Hy as (q & _ & -> & _).
  assert (prefix (map (w RA) ps) (S i) <= prefix (map (w RA) ps) (S j)) by (apply prefix_mono; [assumption|lia]).
  lra.
Qed.

Lemma sorted_copy_R (orig d : list (R * T)) : sorted_copy RA orig d -> sorted_R d.
Proof. intros [_ H] i j x y Hij Hx Hy. assert (E := H i j x y Hij Hx Hy). apply Rltb_false in E. exact E. Qed.

(* strictly sorted lists are determined by their elements *)
Lemma perm_sorted_unique (l1 l2 : list (R * T)) :
  Permutation l1 l2 ->
  (forall i j x y, (i < j)%nat -> nth_error l1 i = Some x -> nth_error l1 j = Some y -> fst x < fst y) ->
  sorted_R l2 -> l1 = l2.
Proof.
  revert l2. induction l1 as [|a l1 IH]; intros l2 HP H1 H2.
  - apply Permutation_nil in HP. congruence.
  - destruct l2 as [|b l2]; [apply Permutation_sym, Permutation_nil in HP; discriminate|].
    assert (Hab : a = b).
    { assert (Ha : In a (b :: l2)) by (eapply Permutation_in; [exact HP|left; reflexivity]).
      assert (Hb : In b (a :: l1)) by (eapply Permutation_in; [apply Permutation_sym; exact HP|left; reflexivity]).
      destruct Hb as [Hb|Hb]; [exact Hb|]. destruct Ha as [Ha|Ha]; [congruence|].
      apply In_nth_error in Ha, Hb. destruct Ha as [i Hi], Hb as [j Hj].
      assert (E1 : fst b <= fst a) by (apply (H2 0%nat (S i) b a); [lia|reflexivity|exact Hi]).
      assert (E2 : fst a < fst b) by (apply (H1 0%nat (S j) a b); [lia|reflexivity|exact Hj]).
      lra. }
    subst b. f_equal. apply IH.
    + eapply Permutation_cons_inv; exact HP.
    + intros i j x y Hij Hx Hy. apply (H1 (S i) (S j) x y); [lia|exact Hx|exact Hy].
    + intros i j x y Hij Hx Hy. apply (H2 (S i) (S j) x y); [lia|exact Hx|exact Hy].
Qed.
Lemma positive_sort_unique ps d :
  Forall (fun x => 0 < x) (map (@w RA T) ps) ->
  sorted_copy RA (dup_of RA f0 ps) d -> d = dup_of RA 0 ps.
Proof.
  intros Hw Hs. symmetry. apply perm_sorted_unique.
  - apply Hs.
  - intros i j x y Hij Hx Hy. apply dup_nth in Hx, Hy.
    destruct Hx as (p & Hp & -> & _), Hy as (q & Hq & -> & _).
    assert (Hq' : nth_error (map (w RA) ps) j = Some (w RA q)) by (rewrite nth_error_map, Hq; reflexivity).
    rewrite (prefix_S _ _ _ Hq').
    assert (prefix (map (w RA) ps) (S i) <= prefix (map (w RA) ps) j).
    { apply prefix_mono; [|lia]. eapply Forall_impl; [|exact Hw]. cbn. intros; lra. }
    rewrite Forall_forall in Hw. assert (0 < w RA q) by (apply Hw; eapply nth_error_In; eauto). lra.
  - eapply sorted_copy_R. exact Hs.
Qed.

(** one lower_bound step of the scan *)
Lemma scan_step ps it v r :
  Forall (fun x => 0 <= x) (map (@w RA T) ps) ->
  (forall i, (i < it)%nat -> prefix (map (w RA) ps) (S i) < v) ->
  0 < v <= Rsum (map (w RA) ps) -> (it <= length ps)%nat ->
  lower_bound_from RA (dup_of RA 0 ps) it v = Some r ->
  (r < length ps)%nat /\ in_slot (map (w RA) ps) v r.
Proof.
  intros Hw Hpre Hv Hit Hr.
  unfold lower_bound_from in Hr.
  assert (Hlen : length (dup_of RA 0 ps) = length ps) by apply dup_length.
  destruct (lower_bound_from_range RA (dup_of RA 0 ps) it v) as (r' & Hr' & Hrange); [lia|].
  unfold lower_bound_from in Hr'. rewrite Hr in Hr'. injection Hr' as <-.
  change (F RA) with R in *.
  apply lower_bound_spec in Hr; [|apply dup_sorted; assumption|change (F RA) with R in *; lia].
  destruct Hr as [H1 H2].
  assert (Hbefore : forall i, (i < r)%nat -> prefix (map (w RA) ps) (S i) < v).
  { intros i Hi. destruct (Nat.lt_ge_cases i it) as [Hlt|Hge]; [auto|].
    destruct (nth_error (dup_of RA 0 ps : list (R * T)) i) as [x|] eqn:Hx.
    - assert (E := H1 i x ltac:(lia) Hx). apply dup_nth in Hx. destruct Hx as (p & _ & Hf & _). lra.
    - apply nth_error_None in Hx. lia. }
  assert (Hrl : (r < length ps)%nat).
  { destruct (Nat.lt_ge_cases r (length ps)) as [H|H]; [exact H|exfalso].
    assert (r = length ps) by lia. subst r.
    destruct (length ps) as [|n] eqn:En.
    - destruct ps; [|discriminate]. cbn in Hv. lra.
    - assert (E := Hbefore n ltac:(lia)). rewrite prefix_all in E by (rewrite map_length; lia). lra. }
  split; [exact Hrl|]. split.
  - destruct r as [|r]; [unfold prefix; cbn; lra|]. apply Hbefore. lia.
  - destruct (nth_error (dup_of RA 0 ps : list (R * T)) r) as [x|] eqn:Hx.
    + assert (E := H2 r x ltac:(lia) Hx). apply dup_nth in Hx. destruct Hx as (p & _ & Hf & _). lra.
    + apply nth_error_None in Hx. lia.
Qed.

Lemma in_slot_before ws v v' r :
  Forall (fun x => 0 <= x) ws -> in_slot ws v r -> v < v' \/ v = v' ->
  forall i, (i < r)%nat -> prefix ws (S i) < v'.
Proof.
  intros Hw [H1 H2] Hv i Hi. assert (prefix ws (S i) <= prefix ws r) by (apply prefix_mono; [assumption|lia]).
  lra.
Qed.

Lemma resample_loop_real plus normalize pstep offset noise (ps : list (particle RA T)) n :
  Forall (fun x => 0 <= x) (map (@w RA T) ps) ->
  0 <= pstep -> 
  forall i it k,
  (it < length ps)%nat ->
  (forall m, (m < it)%nat -> prefix (map (w RA) ps) (S m) < pstep * INR i + offset) ->
  (n <> 0%nat -> 0 < pstep * INR i + offset) ->
  (n <> 0%nat -> pstep * INR (i + n - 1) + offset <= Rsum (map (w RA) ps)) ->
  exists ss sel, resample_loop RA plus normalize pstep offset noise (dup_of RA 0 ps) n i it it k = Some ss
    /\ from_pool_strict plus normalize noise (map (st RA) ps) it k ss sel
    /\ Forall2 (fun m j => in_slot (map (w RA) ps) (pstep * INR m + offset) j) (seq i n) sel.
Proof.
  intros Hw Hps. induction n as [|n IH]; intros i it k Hit Hpre Hlo Hhi.
  - exists [], []. cbn. repeat split; constructor.
  - cbn [resample_loop].
    change (@fadd RA (@fmul RA pstep (@fofnat RA i)) offset) with (pstep * INR i + offset).
    destruct (lower_bound_from_range RA (dup_of RA 0 ps) it (pstep * INR i + offset)) as (r & Hr & Hrange).
    { rewrite dup_length. lia. }
    rewrite Hr.
    assert (Hlast : pstep * INR i + offset <= Rsum (map (w RA) ps)).
    { specialize (Hhi ltac:(lia)). 
      assert (INR i <= INR (i + S n - 1)) by (apply le_INR; lia). nra. }
    destruct (scan_step ps it (pstep * INR i + offset) r) as [Hrl Hslot]; try assumption; try lia.
    { split; [apply Hlo; lia|exact Hlast]. }
    change (F RA) with R.
    destruct (nth_error (dup_of RA 0 ps : list (R * T)) r) as [x|] eqn:Hx.
    2:{ apply nth_error_None in Hx. assert (Hdl := dup_length RA ps 0). lia. }
    assert (Hx' : nth_error (map (st RA) ps) r = Some (snd x)).
    { apply dup_nth in Hx. destruct Hx as (p & Hp & _ & ->). rewrite nth_error_map, Hp. reflexivity. }
    assert (Hnext : forall k', exists ss sel,
        resample_loop RA plus normalize pstep offset noise (dup_of RA 0 ps) n (S i) r r k' = Some ss
        /\ from_pool_strict plus normalize noise (map (st RA) ps) r k' ss sel
        /\ Forall2 (fun m j => in_slot (map (w RA) ps) (pstep * INR m + offset) j) (seq (S i) n) sel).
    { intros k'. apply IH; try assumption.
      - intros m Hm. eapply in_slot_before; [exact Hw|exact Hslot| |exact Hm].
        rewrite S_INR. destruct (Rle_lt_or_eq_dec _ _ Hps) as [Hp|Hp]; [left; lra|right; rewrite <- Hp; lra].
      - intros Hn. rewrite S_INR. assert (0 < pstep * INR i + offset) by (apply Hlo; lia). lra.
      - intros Hn. replace (S i + n - 1)%nat with (i + S n - 1)%nat by lia. apply Hhi. lia. }
    destruct (Nat.eqb_spec r it) as [->|Hne].
    + destruct (Hnext (S k)) as (ss & sel & E1 & E2 & E3). rewrite E1.
      eexists _, (it :: sel). split; [reflexivity|]. split.
      * apply fps_noisy; assumption.
      * cbn [seq]. constructor; assumption.
    + destruct (Hnext k) as (ss & sel & E1 & E2 & E3). rewrite E1.
      eexists _, (r :: sel). split; [reflexivity|]. split.
      * apply fps_copy; [lia|assumption|assumption].
      * cbn [seq]. constructor; assumption.
Qed.

(** ** counting *)
Lemma count_slots ws v (is_ : list nat) sel :
  Forall2 (fun m j => in_slot ws (v m) j) is_ sel ->
  Forall (fun x => 0 <= x) ws ->
  forall j, 
  Z.of_nat (count_occ Nat.eq_dec sel j)
  = (Z.of_nat (length (List.filter (fun m => Rleb (v m) (prefix ws (S j))) is_))
     - Z.of_nat (length (List.filter (fun m => Rleb (v m) (prefix ws j)) is_)))%Z.
Proof.
  intros H Hw j. induction H as [|m k is_ sel [Hs1 Hs2] H IH]; [reflexivity|].
  cbn [count_occ List.filter].
  assert (Hm1 := prefix_mono ws j (S j) Hw ltac:(lia)).
  destruct (Nat.eq_dec k j) as [->|Hne].
  - assert (E1 : Rleb (v m) (prefix ws (S j)) = true) by (apply Rleb_true; assumption).
    assert (E2 : Rleb (v m) (prefix ws j) = false) by (apply Rleb_false; assumption).
    rewrite E1, E2. cbn [length]. lia.
  - destruct (Nat.lt_ge_cases k j) as [Hlt|Hge].
    + assert (prefix ws (S k) <= prefix ws j) by (apply prefix_mono; [assumption|lia]).
      assert (E1 : Rleb (v m) (prefix ws (S j)) = true) by (apply Rleb_true; lra).
      assert (E2 : Rleb (v m) (prefix ws j) = true) by (apply Rleb_true; lra).
      rewrite E1, E2. cbn [length]. lia.
    + assert (prefix ws (S j) <= prefix ws k) by (apply prefix_mono; [assumption|lia]).
      assert (E1 : Rleb (v m) (prefix ws (S j)) = false) by (apply Rleb_false; lra).
      assert (E2 : Rleb (v m) (prefix ws j) = false) by (apply Rleb_false; lra).
      rewrite E1, E2. exact IH.
Qed.

Lemma count_floor n x :
  (-1 <= Rfloor x <= Z.of_nat n - 1)%Z ->
  Z.of_nat (length (List.filter (fun m => Rleb (INR m) x) (seq 0 n))) = (Rfloor x + 1)%Z.
Proof.
  intros H. 
  assert (Hf := Rfloor_spec x).
  assert (E : forall m, Rleb (INR m) x = (Z.of_nat m <=? Rfloor x)%Z).
  { intros m. destruct (Z.leb_spec (Z.of_nat m) (Rfloor x)) as [Hle|Hgt].
    - apply Rleb_true. apply IZR_le in Hle. rewrite <- INR_IZR_INZ in Hle. lra.
    - apply Rleb_false. assert (Hg : (Rfloor x + 1 <= Z.of_nat m)%Z) by lia. apply IZR_le in Hg.
      rewrite plus_IZR, <- INR_IZR_INZ in Hg. lra. }
  rewrite (filter_ext _ _ E).
  remember (Rfloor x) as z eqn:Hz. clear Hz Hf E x.
  assert (G : forall n, Z.of_nat (length (List.filter (fun m => (Z.of_nat m <=? z)%Z) (seq 0 n)))
              = Z.min (z + 1) (Z.of_nat n)).
  { assert (Hz : (-1 <= z)%Z) by lia. clear n H. induction n as [|n IH]; [cbn; lia|].
    rewrite seq_S, filter_app, app_length, Nat2Z.inj_add, IH. cbn.
    destruct (Z.leb_spec (Z.of_nat n) z); cbn [length]; lia. }
  rewrite G. lia.
Qed.
End Real2.
