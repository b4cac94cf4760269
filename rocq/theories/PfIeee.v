(** The measurement update in IEEE-754 binary32. *)
From Coq Require Import Reals ZArith List Bool Lra Lia.
From Flocq Require Import Core.Core IEEE754.BinarySingleNaN.
From Verif Require Import Arith PfModel PfSpec PfProofs Ieee.
Import ListNotations.

Section I.
Context (log : f32 -> f32) {T : Type}.
Notation A := (B32 log).
Implicit Type (f : filter A T).

Lemma nth_scores32 (L : nat -> T -> f32) f i p :
  nth_error (parts A f) i = Some p -> nth_error (scores A L f) i = Some (fmult32 (w A p) (L i (st A p))).
Proof. intros H. rewrite <- measure_scores. rewrite nth_error_map, mapi_nth, H. reflexivity. Qed.

Lemma scores_in (L : nat -> T -> f32) f (x : A) :
  In x (scores A L f) -> exists i p, nth_error (parts A f) i = Some p /\ x = fmult32 (w A p) (L i (st A p)).
Proof.
  intros H. apply In_nth_error in H. destruct H as [i H].
  assert (Hi : i < length (parts A f)).
  { assert (E : nth_error (scores A L f) i <> None) by congruence.
    apply nth_error_Some in E. unfold scores in E. rewrite map_length, combine_length, seq_length in E.
    rewrite Nat.min_id in E. exact E. }
  destruct (nth_error (parts A f) i) as [p|] eqn:Hp; [|apply nth_error_None in Hp; lia].
  exists i, p. split; [exact Hp|]. assert (H2 := nth_scores32 L f i p Hp). cbn in H, H2. congruence.
Qed.

Lemma measure_nan (L : nat -> T -> f32) f i p :
  nth_error (parts A f) i = Some p -> is_nan (L i (st A p)) = true \/ is_nan (w A p : f32) = true ->
  measure A L f = f.
Proof.
  intros Hp Hn. apply measure_noop.
  assert (E : fold_left fplus32 (scores A L f) (B754_zero false) = nan32).
  { apply fold_plus_in_nan. eapply nth_error_In with (n := i).
    etransitivity; [apply nth_scores32; exact Hp|]. f_equal.
    destruct Hn as [Hn|Hn]; [destruct (L i (st A p)), (w A p : f32)|destruct (L i (st A p)), (w A p : f32)];
      cbn in Hn; try discriminate; reflexivity. }
  change (Bltb (B754_zero false) (fold_left fplus32 (scores A L f) (B754_zero false)) = false).
  rewrite E. reflexivity.
Qed.

Definition total32 (L : nat -> T -> f32) f : f32 := fold_left fplus32 (scores A L f) (B754_zero false).

Lemma scores_nn (L : nat -> T -> f32) f :
  (forall p, In p (parts A f) -> nonneg32 (w A p)) ->
  (forall i p, nth_error (parts A f) i = Some p -> nonneg32 (L i (st A p))) ->
  Forall nn (scores A L f : list f32).
Proof.
  intros Hw HL. apply Forall_forall. intros x Hx. destruct (scores_in L f x Hx) as (i & p & H1 & ->).
  apply mult_nn; [apply Hw; eapply nth_error_In; eauto|eapply HL; eauto].
Qed.

Lemma measure_weight32 (L : nat -> T -> f32) f i p :
  nth_error (parts A f) i = Some p -> Bltb (B754_zero false) (total32 L f) = true ->
  nth_error (weights A (measure A L f)) i
  = Some (fdiv32 (fmult32 (w A p) (L i (st A p))) (total32 L f)).
Proof.
  intros Hp Ht. unfold measure. rewrite measure_sum.
  change (flt f0 (fold_left fadd (scores A L f) f0)) with (Bltb (B754_zero false) (total32 L f)).
  rewrite Ht. unfold weights. cbn [parts]. rewrite !nth_error_map, mapi_nth, Hp. reflexivity.
Qed.

Lemma measure_weights_unit (L : nat -> T -> f32) f :
  (forall p, In p (parts A f) -> nonneg32 (w A p)) ->
  (forall i p, nth_error (parts A f) i = Some p -> nonneg32 (L i (st A p))) ->
  is_finite (total32 L f) = true -> (0 < f2r (total32 L f))%R ->
  forall x, In x (weights A (measure A L f) : list f32) -> is_finite x = true /\ (0 <= f2r x <= 1)%R.
Proof.
  intros Hw HL Hf Hp x Hx.
  assert (Hs := scores_nn L f Hw HL).
  destruct (fold_plus_nn (scores A L f) (B754_zero false) ltac:(cbn; apply Rle_refl) Hs) as [H1 H2].
  destruct (H2 Hf) as (_ & _ & H3). clear H2.
  assert (Ht : Bltb (B754_zero false) (total32 L f) = true).
  { rewrite Bltb_correct by (reflexivity || exact Hf). apply Rlt_bool_true. exact Hp. }
  apply In_nth_error in Hx. destruct Hx as [i Hx].
  assert (Hi : i < length (parts A f)).
  { destruct (measure_shape A L f) as (E & _). rewrite <- E.
    assert (H : @nth_error f32 (weights A (measure A L f)) i <> None) by congruence.
    apply nth_error_Some in H. unfold weights in H. rewrite map_length in H. exact H. }
  destruct (nth_error (parts A f) i) as [p|] eqn:Hpi; [|apply nth_error_None in Hpi; lia].
  assert (Hx2 := measure_weight32 L f i p Hpi Ht). assert (Hx3 : x = fdiv32 (fmult32 (w A p) (L i (st A p))) (total32 L f)) by (cbn in Hx, Hx2; congruence). subst x.
  rewrite Forall_forall in Hs, H3.
  assert (Hin : In (fmult32 (w A p) (L i (st A p))) (scores A L f)).
  { eapply nth_error_In. apply nth_scores32. exact Hpi. }
  specialize (Hs _ Hin). destruct (H3 _ Hin) as [Q1 Q2].
  apply div_unit.
  - apply nn_finite; assumption.
  - apply nn_finite; assumption.
  - exact Hp.
  - exact Q2.
Qed.

(** An overflowing total destroys the distribution. *)
Lemma measure_overflow (L : nat -> T -> f32) f i p :
  total32 L f = inf32 -> nth_error (parts A f) i = Some p ->
  let s := fmult32 (w A p) (L i (st A p)) in
  nn s ->
  exists x, nth_error (weights A (measure A L f)) i = Some x
    /\ (s = inf32 -> is_nan x = true) /\ (is_finite s = true -> f2r x = 0%R /\ is_finite x = true).
Proof.
  intros Ht Hp s Hs. assert (Hb : Bltb (B754_zero false) (total32 L f) = true) by (rewrite Ht; reflexivity).
  eexists. split; [apply measure_weight32; eassumption|]. fold s. rewrite Ht.
  split; [intros ->; reflexivity|].
  destruct s as [b|b| |b m e H]; cbn; intros Hf; try discriminate; split; reflexivity.
Qed.
End I.
