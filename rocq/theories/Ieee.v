(** IEEE-754 binary32 with round to nearest even (C++ float), from Flocq, as an
    instance of [arith], and order facts about its rounded operations.  NaN payloads
    are not distinguished. *)
From Coq Require Import Reals ZArith List Bool Lra Lia Psatz.
From Flocq Require Import Core.Core IEEE754.BinarySingleNaN.
From Verif Require Import Arith.
Import ListNotations.

Definition f32 : Type := binary_float 24 128.
Definition f64 : Type := binary_float 53 1024.
Definition p24 : Prec_gt_0 24 := eq_refl.
Definition p53 : Prec_gt_0 53 := eq_refl.
Definition e128 : Prec_lt_emax 24 128 := eq_refl.
Definition e1024 : Prec_lt_emax 53 1024 := eq_refl.
#[global] Existing Instance p24. #[global] Existing Instance p53.
#[global] Existing Instance e128. #[global] Existing Instance e1024.

(** conversions: integer to float / double, double to float *)
Definition f32_of_Z (n : Z) : f32 := binary_normalize 24 128 _ _ mode_NE n 0 false.
Definition f64_of_Z (n : Z) : f64 := binary_normalize 53 1024 _ _ mode_NE n 0 false.
Definition f32_of_f64 (x : f64) : f32 :=
  match x with
  | B754_zero s => B754_zero s
  | B754_infinity s => B754_infinity s
  | B754_nan => B754_nan
  | B754_finite s m e _ => binary_normalize 24 128 _ _ mode_NE (cond_Zopp s (Zpos m)) e s
  end.
Definition fplus32 : f32 -> f32 -> f32 := Bplus mode_NE.
Definition fminus32 : f32 -> f32 -> f32 := Bminus mode_NE.
Definition fmult32 : f32 -> f32 -> f32 := Bmult mode_NE.
Definition fdiv32 : f32 -> f32 -> f32 := Bdiv mode_NE.
Definition nan32 : f32 := B754_nan.
Definition inf32 : f32 := B754_infinity false.

(** [log] is whatever std::log computes. *)
Definition B32 (log : f32 -> f32) : arith := {|
  F := f32; f0 := B754_zero false; f1 := f32_of_Z 1;
  fadd := fplus32; fsub := fminus32; fmul := fmult32; fdiv := fdiv32;
  fopp := Bopp;
  flt := Bltb;
  fofnat := fun n => f32_of_Z (Z.of_nat n);
  frecip := fun n => f32_of_f64 (Bdiv mode_NE (f64_of_Z 1) (f64_of_Z (Z.of_nat n)));
  flog := log;
  ftrunc := fun x => Z.to_nat (Btrunc x)
|}.

(** the real number a finite float stands for *)
Definition f2r (x : f32) : R := B2R x.
(** finite, and not negative *)
Definition nonneg32 (x : f32) : Prop := is_finite x = true /\ (0 <= f2r x)%R.
(** not NaN, and not negative: [+infinity] allowed *)
Definition nn (x : f32) : Prop :=
  match x with
  | B754_nan => False
  | B754_infinity s => s = false
  | _ => (0 <= f2r x)%R
  end.

Local Open Scope R_scope.
Notation rnd := (round radix2 (SpecFloat.fexp 24 128) (round_mode mode_NE)).
#[local] Instance fexp_ok : Valid_exp (SpecFloat.fexp 24 128).
Proof. apply fexp_correct. exact p24. Qed.

Lemma nonneg_nn x : nonneg32 x -> nn x.
Proof. intros [H1 H2]. destruct x; cbn in *; try discriminate; assumption. Qed.
Lemma nn_finite x : nn x -> is_finite x = true -> nonneg32 x.
Proof. intros H1 H2. split; [assumption|]. destruct x; cbn in *; try discriminate; assumption. Qed.
Lemma nn_cases x : nn x -> x = inf32 \/ nonneg32 x.
Proof.
  destruct x as [s|s| |s m e H]; cbn; intros Hn; try contradiction.
  - right. split; [reflexivity|assumption].
  - left. subst. reflexivity.
  - right. split; [reflexivity|assumption].
Qed.
Lemma pos_sign (x : f32) : is_finite x = true -> 0 < f2r x -> Bsign x = false.
Proof.
  unfold f2r. destruct x as [s|s| |s m e H]; cbn; intros Hf Hp; try discriminate; try lra.
  destruct s; [|reflexivity]. exfalso.
  assert (H2 : F2R (Float radix2 (Z.neg m) e) < 0) by (apply F2R_lt_0; cbn; lia).
  exact (Rlt_irrefl 0 (Rlt_trans _ _ _ Hp H2)).
Qed.

Lemma plus_nn a b :
  nn a -> nn b ->
  nn (fplus32 a b) /\
  (is_finite (fplus32 a b) = true ->
   is_finite a = true /\ is_finite b = true /\ f2r a <= f2r (fplus32 a b) /\ f2r b <= f2r (fplus32 a b)).
Proof.
  intros Ha Hb. destruct (nn_cases _ Ha) as [->|[Fa Pa]].
  { destruct b as [s|s| |s m e H]; cbn in *; try contradiction; subst; cbn; split; auto; discriminate. }
  destruct (nn_cases _ Hb) as [->|[Fb Pb]].
  { destruct a as [s|s| |s m e H]; cbn in *; try contradiction; try discriminate; cbn; split; auto; discriminate. }
  assert (H := Bplus_correct 24 128 _ _ mode_NE a b Fa Fb).
  assert (Ga : f2r a <= rnd (f2r a + f2r b)).
  { apply round_ge_generic; [exact fexp_ok|apply valid_rnd_N|apply generic_format_B2R|lra]. }
  assert (Gb : f2r b <= rnd (f2r a + f2r b)).
  { apply round_ge_generic; [exact fexp_ok|apply valid_rnd_N|apply generic_format_B2R|lra]. }
  fold (f2r a) (f2r b) in H.
  destruct (Rlt_bool _ _).
  - destruct H as (H1 & H2 & _). fold (fplus32 a b) in H1, H2. fold (f2r (fplus32 a b)) in H1.
    split; [|intros _; repeat split; auto; rewrite H1; assumption].
    apply nonneg_nn. split; [assumption|]. rewrite H1. lra.
  - destruct H as (H1 & H2). fold (fplus32 a b) in H1.
    assert (E : Bsign a = false).
    { destruct (Rlt_dec 0 (f2r a)) as [Hp|Hp]; [apply pos_sign; assumption|].
      destruct (Rlt_dec 0 (f2r b)) as [Hq|Hq]; [rewrite H2; apply pos_sign; assumption|].
      assert (E0 : f2r a + f2r b = 0) by lra.
      assert (Bad : is_finite (fplus32 a b) = true).
      { assert (H := Bplus_correct 24 128 _ _ mode_NE a b Fa Fb). fold (f2r a) (f2r b) in H.
        rewrite E0 in H. rewrite round_0 in H by apply valid_rnd_N. rewrite Rabs_R0 in H.
        rewrite Rlt_bool_true in H by apply bpow_gt_0. apply H. }
      rewrite <- is_finite_SF_B2SF in Bad. rewrite H1 in Bad. discriminate. }
    rewrite E in H1. unfold binary_overflow in H1. cbn in H1.
    destruct (fplus32 a b) as [s|s| |s m e Hb']; cbn in H1; try discriminate.
    injection H1 as ->. cbn. split; [reflexivity|discriminate].
Qed.

Lemma mult_nn a b : nonneg32 a -> nonneg32 b -> nn (fmult32 a b).
Proof.
  intros [Fa Pa] [Fb Pb].
  assert (H := Bmult_correct 24 128 _ _ mode_NE a b). fold (f2r a) (f2r b) in H.
  assert (G : 0 <= rnd (f2r a * f2r b)).
  { apply round_ge_generic; [exact fexp_ok|apply valid_rnd_N|apply generic_format_0|].
    apply Rmult_le_pos; assumption. }
  destruct (Rlt_bool _ _) eqn:Hlt.
  - destruct H as (H1 & H2 & _). fold (fmult32 a b) in H1, H2. fold (f2r (fmult32 a b)) in H1.
    rewrite Fa, Fb in H2. apply nonneg_nn. split; [assumption|]. rewrite H1. lra.
  - fold (fmult32 a b) in H.
    assert (E : Bsign a = false /\ Bsign b = false).
    { destruct (Rlt_dec 0 (f2r a)) as [Hp|Hp]; [destruct (Rlt_dec 0 (f2r b)) as [Hq|Hq]|].
      - split; apply pos_sign; assumption.
      - assert (f2r b = 0) as Z by lra. rewrite Z, Rmult_0_r, round_0, Rabs_R0 in Hlt by apply valid_rnd_N.
        rewrite Rlt_bool_true in Hlt by apply bpow_gt_0. discriminate.
      - assert (f2r a = 0) as Z by lra. rewrite Z, Rmult_0_l, round_0, Rabs_R0 in Hlt by apply valid_rnd_N.
        rewrite Rlt_bool_true in Hlt by apply bpow_gt_0. discriminate. }
    destruct E as [Ea Eb]. rewrite Ea, Eb in H. unfold binary_overflow in H. cbn in H.
    destruct (fmult32 a b) as [s|s| |s m e Hb']; cbn in H; try discriminate.
    injection H as ->. reflexivity.
Qed.

Lemma div_unit a s :
  nonneg32 a -> nonneg32 s -> 0 < f2r s -> f2r a <= f2r s ->
  is_finite (fdiv32 a s) = true /\ 0 <= f2r (fdiv32 a s) <= 1.
Proof.
  intros [Fa Pa] [Fs Ps] Hs Has.
  assert (H := Bdiv_correct 24 128 _ _ mode_NE a s). fold (f2r a) (f2r s) in H.
  specialize (H ltac:(lra)).
  assert (Q : 0 <= f2r a / f2r s <= 1).
  { split.
    - apply Rmult_le_pos; [assumption|]. left. apply Rinv_0_lt_compat. assumption.
    - apply Rmult_le_reg_r with (f2r s); [assumption|]. unfold Rdiv.
      rewrite Rmult_assoc, Rinv_l by lra. lra. }
  assert (G0 : 0 <= rnd (f2r a / f2r s)).
  { apply round_ge_generic; [exact fexp_ok|apply valid_rnd_N|apply generic_format_0|apply Q]. }
  assert (G1 : rnd (f2r a / f2r s) <= 1).
  { apply round_le_generic; [exact fexp_ok|apply valid_rnd_N| |apply Q].
    change 1 with (bpow radix2 0). apply generic_format_bpow. cbn. lia. }
  rewrite Rlt_bool_true in H.
  - destruct H as (H1 & H2 & _). fold (fdiv32 a s) in H1, H2. fold (f2r (fdiv32 a s)) in H1.
    rewrite Fa in H2. split; [assumption|]. rewrite H1. lra.
  - rewrite Rabs_pos_eq by assumption. apply Rle_lt_trans with 1; [assumption|].
    change 1 with (bpow radix2 0). apply bpow_lt. lia.
Qed.

Lemma fold_plus_nan (l : list f32) : fold_left fplus32 l nan32 = nan32.
Proof. induction l as [|x l IH]; [reflexivity|]. exact IH. Qed.
Lemma fold_plus_in_nan (l : list f32) a : In nan32 l -> fold_left fplus32 l a = nan32.
Proof.
  revert a. induction l as [|x l IH]; intros a Hin; [contradiction|].
  destruct Hin as [->|Hin]; cbn [fold_left]; [|apply IH; assumption].
  replace (fplus32 a nan32) with nan32 by (destruct a; reflexivity). apply fold_plus_nan.
Qed.

Lemma fold_plus_nn (l : list f32) a :
  nn a -> Forall nn l ->
  nn (fold_left fplus32 l a) /\
  (is_finite (fold_left fplus32 l a) = true ->
   is_finite a = true /\ f2r a <= f2r (fold_left fplus32 l a) /\
   Forall (fun x => is_finite x = true /\ f2r x <= f2r (fold_left fplus32 l a)) l).
Proof.
  intros Ha Hl. revert a Ha. induction Hl as [|x l Hx Hl IH]; intros a Ha; cbn [fold_left].
  - split; [assumption|]. intros Hf. repeat split; auto. apply Rle_refl.
  - destruct (plus_nn a x Ha Hx) as [P1 P2]. destruct (IH _ P1) as [Q1 Q2].
    split; [exact Q1|]. intros Hf. destruct (Q2 Hf) as (R1 & R2 & R3). destruct (P2 R1) as (S1 & S2 & S3 & S4).
    split; [assumption|]. split; [lra|]. constructor; [split; [assumption|lra]|exact R3].
Qed.

Lemma fold_plus_inf (l : list f32) a : Forall nn l -> a = inf32 \/ (nn a /\ In inf32 l) -> fold_left fplus32 l a = inf32.
Proof.
  intros Hl. revert a. induction Hl as [|x l Hx Hl IH]; intros a [->|[Ha Hin]]; cbn [fold_left].
  - reflexivity.
  - contradiction.
  - apply IH. left. destruct x as [s|s| |s m e H]; cbn in *; try contradiction; subst; reflexivity.
  - apply IH. destruct Hin as [->|Hin].
    + left. destruct a as [s|s| |s m e H]; cbn in *; try contradiction; subst; reflexivity.
    + right. split; [apply plus_nn; assumption|assumption].
Qed.
