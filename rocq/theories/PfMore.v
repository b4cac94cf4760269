(** Further facts: arbitrary legal sort outcomes, and counterexamples. *)
From Coq Require Import Reals ZArith List Arith Bool Permutation Lra Lia.
From Verif Require Import Arith PfModel PfSpec PfProofs RsumLemmas PfReal PfReal2 PfHist.
Import ListNotations.
Local Open Scope R_scope.

Section S.
Context {T : Type}.

Lemma resample_loop_strict plus normalize (pstep offset : R) noise (d : list (R * T)) n :
  sorted_R d ->
  forall i it k, (it < length d)%nat ->
  (forall m, (i <= m < i + n)%nat -> exists x, In x d /\ pstep * INR m + offset <= fst x) ->
  exists ss sel, resample_loop RA plus normalize pstep offset noise d n i it it k = Some ss
    /\ length sel = n
    /\ from_pool_strict plus normalize noise (map snd d) it k ss sel.
Proof.
  intros Hs. induction n as [|n IH]; intros i it k Hit Hin.
  - exists [], []. split; [reflexivity|]. split; [reflexivity|]. constructor.
  - cbn [resample_loop].
    destruct (lower_bound_from_range RA d it (@fadd RA (@fmul RA pstep (@fofnat RA i)) offset)) as (r & Hr & Hr2); [lia|].
    rewrite Hr. unfold lower_bound_from in Hr.
    destruct (lower_bound_spec _ d it (length d - it) _ r Hs ltac:(lia) Hr) as [L1 L2].
    destruct (Hin i ltac:(lia)) as (x & Hx & Hle).
    apply In_nth_error in Hx. destruct Hx as [jx Hx].
    assert (Hjx : (jx < length d)%nat) by (apply nth_error_Some; congruence).
    assert (Hrl : (r < length d)%nat).
    { destruct (Nat.lt_ge_cases r (length d)) as [|Hge]; [assumption|exfalso].
      destruct (nth_error d (length d - 1)) as [y|] eqn:Hy; [|apply nth_error_None in Hy; lia].
      assert (E := L1 (length d - 1)%nat y ltac:(lia) Hy).
      assert (fst x <= fst y).
      { destruct (Nat.eq_dec jx (length d - 1)) as [->|Hne]; [rewrite Hy in Hx; injection Hx as ->; lra|].
        exact (Hs jx (length d - 1)%nat x y ltac:(lia) Hx Hy). }
      cbn in E. lra. }
    destruct (@nth_error (RA * T) d r) as [y|] eqn:Hy; [|apply nth_error_None in Hy; change (F RA) with R in *; lia].
    assert (Hpool : nth_error (map snd d) r = Some (snd y)) by (exact (map_nth_error snd r d Hy)).
    destruct (Nat.eqb_spec r it) as [->|Hne].
    + destruct (IH (S i) it (S k) Hit) as (ss & sel & E1 & E2 & E3); [intros m Hm; apply Hin; lia|].
      rewrite E1. cbn [option_map]. eexists; exists (it :: sel). split; [reflexivity|].
      split; [cbn; lia|]. apply fps_noisy; assumption.
    + destruct (IH (S i) r k Hrl) as (ss & sel & E1 & E2 & E3); [intros m Hm; apply Hin; lia|].
      rewrite E1. cbn [option_map]. eexists; exists (r :: sel). split; [reflexivity|].
      split; [cbn; lia|]. apply fps_copy; [lia|assumption|assumption].
Qed.

Lemma dup_last (ps : list (particle RA T)) (a : R) :
  ps <> [] -> exists x, In x (dup_of RA a ps : list (R * T)) /\ fst x = a + Rsum (map (w RA) ps).
Proof.
  revert a. induction ps as [|p ps IH]; intros a Hne; [congruence|].
  destruct ps as [|q ps].
  - eexists. split; [left; reflexivity|]. cbn. lra.
  - destruct (IH (a + w RA p) ltac:(congruence)) as (x & H1 & H2).
    exists x. split; [right; exact H1|]. rewrite H2. cbn. unfold Rsum. lra.
Qed.

(** Any legal sort outcome: the positions are relative to the sorted copy. *)
Lemma resample_strict plus normalize offset noise d (f : filter RA T) f' :
  parts RA f <> [] -> Forall (fun x => 0 <= x) (weights RA f) ->
  sorted_copy RA (dup_of RA f0 (parts RA f)) d -> 0 <= offset <= resample_step RA f ->
  resample RA plus normalize offset noise d f = Some f' ->
  exists sel, Permutation (poses RA f) (map snd d) /\ length sel = length (parts RA f)
    /\ from_pool_strict plus normalize noise (map snd d) 0 0 (poses RA f') sel.
Proof.
  intros Hne Hw Hs Hoff Hr.
  destruct (sorted_copy_pool RA f d Hs) as [HP Hlen].
  rewrite step_real in Hoff.
  assert (Hn : (0 < length (parts RA f))%nat) by (destruct (parts RA f); [congruence|cbn; lia]).
  assert (HnR : 0 < INR (length (parts RA f))) by (apply lt_0_INR; assumption).
  unfold resample in Hr.
  destruct (accumulate_spec RA (parts RA f) f0) as (H1 & H2 & H3 & H4 & H5 & H6).
  destruct (accumulate RA f0 (parts RA f)) as [ps total]. cbn [fst snd] in *.
  assert (Ht : total = Rsum (weights RA f)).
  { rewrite H5. cbn. etransitivity; [apply fold_left_Rplus|]. unfold weights. change (F RA) with R. lra. }
  rewrite H1 in Hr.
  set (pstep := @fdiv RA total (fofnat (length (parts RA f)))) in *.
  assert (Hps : pstep = Rsum (weights RA f) / INR (length (parts RA f))) by (unfold pstep; rewrite Ht; reflexivity).
  destruct (dup_last (parts RA f) 0 Hne) as (x & Hx1 & Hx2).
  assert (Hnn : 0 <= Rsum (weights RA f)) by (apply Rsum_nonneg; exact Hw).
  destruct (resample_loop_strict plus normalize pstep offset noise d (length (parts RA f)) (sorted_copy_R _ _ Hs) 0 0 0)
    as (ss & sel & E1 & E2 & E3).
  - exact (eq_ind_r (fun z => (0 < z)%nat) Hn Hlen).
  - intros m Hm. exists x. split; [eapply Permutation_in; [apply Hs|exact Hx1]|].
    rewrite Hx2. fold (weights RA f). rewrite Hps.
    assert (Hm1 : INR m <= INR (length (parts RA f)) - 1).
    { replace (INR (length (parts RA f)) - 1) with (INR (length (parts RA f) - 1)) by (rewrite minus_INR by lia; reflexivity).
      apply le_INR. lia. }
    change (Rsum (map (w RA) (parts RA f))) with (Rsum (weights RA f)).
    set (S := Rsum (weights RA f)) in *. set (N := INR (length (parts RA f))) in *.
    assert (Hq : 0 <= S / N) by (apply Rmult_le_pos; [assumption|left; apply Rinv_0_lt_compat; assumption]).
    assert (E : S = S / N * N) by (field; lra).
    assert (S / N * INR m <= S / N * (N - 1)) by (apply Rmult_le_compat_l; assumption).
    lra.
  - rewrite E1 in Hr. injection Hr as <-. exists sel. split; [exact HP|]. split; [exact E2|].
    unfold poses. cbn [parts].
    assert (Hlss : length ss = length ps).
    { rewrite H1, <- E2. clear - E3. induction E3; cbn; auto. }
    destruct (assign_spec RA (frecip (length (parts RA f))) ps ss Hlss) as (HA & _). rewrite <- HA in E3. exact E3.
Qed.
End S.
