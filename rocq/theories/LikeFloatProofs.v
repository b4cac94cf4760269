(** Order facts about the likelihood score in binary32. *)
From Coq Require Import Reals ZArith List Bool Lra Lia Psatz.
From Flocq Require Import Core.Core IEEE754.BinarySingleNaN.
Require Import Flocq.Prop.Plus_error.
From Verif Require Import Arith Ieee LikeFloatModel LikeFloatSpec.
Import ListNotations.
Local Open Scope R_scope.
Notation rnd := (round radix2 (SpecFloat.fexp 24 128) (round_mode mode_NE)).
Notation fmt := (generic_format radix2 (SpecFloat.fexp 24 128)).
#[local] Instance fexp_ok : Valid_exp (SpecFloat.fexp 24 128).
Proof. apply fexp_correct. exact p24. Qed.

Lemma rnd_mono a b : a <= b -> rnd a <= rnd b.
Proof. intros H. apply round_le; [exact fexp_ok|apply valid_rnd_N|exact H]. Qed.
Lemma rnd_le a b : fmt b -> a <= b -> rnd a <= b.
Proof. intros. apply round_le_generic; [exact fexp_ok|apply valid_rnd_N|assumption|assumption]. Qed.
Lemma rnd_ge a b : fmt b -> b <= a -> b <= rnd a.
Proof. intros. apply round_ge_generic; [exact fexp_ok|apply valid_rnd_N|assumption|assumption]. Qed.
Lemma rnd_id a : fmt a -> rnd a = a.
Proof. intros. apply round_generic; [apply valid_rnd_N|assumption]. Qed.
Lemma fmt_0 : fmt 0. Proof. apply generic_format_0. Qed.
Lemma fmt_f (x : f32) : fmt (f2r x). Proof. apply generic_format_B2R. Qed.
Lemma fmt_bpow e : (-149 <= e <= 127)%Z -> fmt (bpow radix2 e).
Proof. intros. apply generic_format_bpow. unfold SpecFloat.fexp, SpecFloat.emin. lia. Qed.
Lemma fmt_int_bpow k e : (0 <= k <= 16777216)%Z -> (-149 <= e <= 100)%Z -> fmt (IZR k * bpow radix2 e).
Proof.
  intros Hk He. destruct (Z.eq_dec k 16777216) as [->|N].
  - change (IZR 16777216) with (bpow radix2 24). rewrite <- bpow_plus. apply fmt_bpow. lia.
  - destruct (Z.eq_dec k 0) as [->|N0]; [rewrite Rmult_0_l; apply fmt_0|].
    change (IZR k * bpow radix2 e) with (F2R (Float radix2 k e)). apply generic_format_F2R. intros _.
    unfold cexp. rewrite mag_F2R by exact N0.
    assert (M : (mag radix2 (IZR k) <= 24)%Z).
    { apply mag_le_bpow; [apply IZR_neq; exact N0|]. rewrite Rabs_pos_eq by (apply IZR_le; lia).
      change (bpow radix2 24) with (IZR 16777216). apply IZR_lt. lia. }
    unfold SpecFloat.fexp, SpecFloat.emin. lia.
Qed.

Lemma small (x : f32) : is_finite x = true -> Rabs (f2r x) < bpow radix2 128.
Proof. intros. apply abs_B2R_lt_emax. Qed.

Lemma minus_ok a m : nonneg32 a -> nonneg32 m -> is_finite (fminus32 a m) = true /\ f2r (fminus32 a m) = rnd (f2r a - f2r m).
Proof.
  intros [Fa Pa] [Fm Pm]. assert (H := Bminus_correct 24 128 _ _ mode_NE a m Fa Fm). fold (f2r a) (f2r m) in H.
  rewrite Rlt_bool_true in H.
  - destruct H as (H1 & H2 & _). split; [exact H2|exact H1].
  - apply Rabs_lt. pose proof (small a Fa) as Sa. pose proof (small m Fm) as Sm.
    rewrite Rabs_pos_eq in Sa, Sm by assumption. split.
    + apply Rlt_le_trans with (- f2r m); [lra|]. apply rnd_ge; [apply generic_format_opp, fmt_f|lra].
    + apply Rle_lt_trans with (f2r a); [|exact Sa]. apply rnd_le; [apply fmt_f|lra].
Qed.
Lemma minus_sign a b : fmt a -> fmt b -> (rnd (a - b) < 0 <-> a < b).
Proof.
  intros Ha Hb. split; intros H.
  - apply Rnot_le_lt. intros L. assert (0 <= rnd (a - b)) by (apply rnd_ge; [apply fmt_0|lra]). lra.
  - assert (rnd (a - b) <= 0) by (apply rnd_le; [apply fmt_0|lra]).
    assert (rnd (a - b) <> 0).
    { unfold Rminus. apply round_plus_neq_0; [exact fexp_ok| |apply valid_rnd_N|exact Ha|apply generic_format_opp; exact Hb|lra].
      change (SpecFloat.fexp 24 128) with (FLT.FLT_exp (-149) 24). apply FLT.FLT_exp_monotone || typeclasses eauto. }
    lra.
Qed.
Lemma mult_ok a b e : nonneg32 a -> nonneg32 b -> f2r a * f2r b <= bpow radix2 e -> (-149 <= e <= 127)%Z ->
  nonneg32 (fmult32 a b) /\ f2r (fmult32 a b) = rnd (f2r a * f2r b) /\ f2r (fmult32 a b) <= bpow radix2 e.
Proof.
  intros [Fa Pa] [Fb Pb] L He. assert (H := Bmult_correct 24 128 _ _ mode_NE a b). fold (f2r a) (f2r b) in H.
  assert (G0 : 0 <= rnd (f2r a * f2r b)) by (apply rnd_ge; [apply fmt_0|apply Rmult_le_pos; assumption]).
  assert (G1 : rnd (f2r a * f2r b) <= bpow radix2 e) by (apply rnd_le; [apply fmt_bpow; exact He|exact L]).
  rewrite Rlt_bool_true in H.
  - destruct H as (H1 & H2 & _). fold (fmult32 a b) in H1, H2. rewrite Fa, Fb in H2. fold (f2r (fmult32 a b)) in H1.
    split; [split; [exact H2|rewrite H1; exact G0]|]. split; [exact H1|]. rewrite H1. exact G1.
  - rewrite Rabs_pos_eq by exact G0. apply Rle_lt_trans with (1 := G1). apply bpow_lt. lia.
Qed.
Lemma plus_ok a b k e : nonneg32 a -> nonneg32 b -> f2r a + f2r b <= IZR k * bpow radix2 e ->
  (0 <= k <= 16777216)%Z -> (-149 <= e <= 100)%Z ->
  nonneg32 (fplus32 a b) /\ f2r (fplus32 a b) = rnd (f2r a + f2r b) /\ f2r (fplus32 a b) <= IZR k * bpow radix2 e.
Proof.
  intros [Fa Pa] [Fb Pb] L Hk He. assert (H := Bplus_correct 24 128 _ _ mode_NE a b Fa Fb). fold (f2r a) (f2r b) in H.
  assert (G0 : 0 <= rnd (f2r a + f2r b)) by (apply rnd_ge; [apply fmt_0|lra]).
  assert (G1 : rnd (f2r a + f2r b) <= IZR k * bpow radix2 e) by (apply rnd_le; [apply fmt_int_bpow; assumption|exact L]).
  rewrite Rlt_bool_true in H.
  - destruct H as (H1 & H2 & _). fold (fplus32 a b) in H1, H2. fold (f2r (fplus32 a b)) in H1.
    split; [split; [exact H2|rewrite H1; exact G0]|]. split; [exact H1|]. rewrite H1. exact G1.
  - rewrite Rabs_pos_eq by exact G0. apply Rle_lt_trans with (1 := G1).
    apply Rle_lt_trans with (bpow radix2 24 * bpow radix2 e).
    + apply Rmult_le_compat_r; [apply bpow_ge_0|]. change (bpow radix2 24) with (IZR 16777216). apply IZR_le. lia.
    + rewrite <- bpow_plus. apply bpow_lt. lia.
Qed.

Lemma sqrt_nn x : nn x -> (x = inf32 /\ Bsqrt mode_NE x = inf32) \/ (nonneg32 x /\ nonneg32 (Bsqrt mode_NE x) /\ f2r (Bsqrt mode_NE x) = rnd (sqrt (f2r x))).
Proof.
  intros H. destruct (nn_cases _ H) as [->|[F P]]; [left; split; reflexivity|right].
  destruct (Bsqrt_correct 24 128 _ _ mode_NE x) as (H1 & H2 & _). fold (f2r x) in H1. split; [split; assumption|].
  assert (P2 : 0 <= f2r (Bsqrt mode_NE x)).
  { unfold f2r. rewrite H1. apply rnd_ge; [apply fmt_0|apply sqrt_pos]. }
  split; [split; [|exact P2]|exact H1]. rewrite H2. destruct x as [s|s| |[|] m e Hb]; try discriminate; try reflexivity.
  exfalso. unfold f2r in P. cbn in P. assert (Z : F2R (Float radix2 (Z.neg m) e) < 0) by (apply F2R_lt_0; cbn; lia).
  cbn in Z. lra.
Qed.

Section Score.
Variable log : f32 -> f32.
Notation B := (B32 log).
Variables dmin flat weight : f32.
Hypothesis Hs : sane dmin flat weight.
Let reach (sq : f32) : R := Rmax (f2r (Bsqrt mode_NE sq)) (f2r flat).
Notation dist := (like_dist (A := B) (Bsqrt mode_NE) dmin flat).

Lemma max_ok (a : f32) : nonneg32 a -> nonneg32 (cxx_max (A := B) a flat) /\ f2r (cxx_max (A := B) a flat) = Rmax (f2r a) (f2r flat).
Proof.
  intros [Fa Pa]. destruct Hs as (_ & [Ff Pf] & _). unfold cxx_max. cbn [flt B32].
  pose proof (Bltb_correct 24 128 a flat Fa Ff) as E. fold (f2r a) (f2r flat) in E. rewrite E.
  destruct (Rlt_bool_spec (f2r a) (f2r flat)).
  - split; [split; assumption|]. symmetry. apply Rmax_right. lra.
  - split; [split; assumption|]. symmetry. apply Rmax_left. lra.
Qed.

Lemma dist_cases sq : nn sq ->
  (exists d, dist sq = Some d /\ nonneg32 sq /\ nonneg32 d /\ f2r d = rnd (f2r dmin - reach sq) /\ f2r d <= f2r dmin /\ reach sq <= f2r dmin)
  \/ (dist sq = None /\ (sq = inf32 \/ (nonneg32 sq /\ f2r dmin < reach sq))).
Proof.
  intros H. destruct Hs as (Hd & Hf & _). unfold like_dist. destruct (sqrt_nn _ H) as [[-> E]|(Nq & Nr & E)].
  - right. split; [|left; reflexivity]. rewrite E.
    assert (C : cxx_max (A := B) inf32 flat = inf32).
    { unfold cxx_max. cbn [flt B32]. destruct Hf as [Ff _]. destruct flat as [?|?| |[] ? ? ?]; try discriminate; reflexivity. }
    rewrite C. cbv zeta. cbn [fsub flt f0 B32]. destruct Hd as [Fd _]. destruct dmin as [?|?| |[] ? ? ?]; try discriminate; reflexivity.
  - destruct (max_ok _ Nr) as [Nm Em]. cbv zeta. cbn [fsub flt f0 B32].
    destruct (minus_ok dmin _ Hd Nm) as [Fd Ed]. rewrite Em in Ed. fold (reach sq) in Ed, Em.
    pose proof (Bltb_correct 24 128 _ (B754_zero false) Fd eq_refl) as L. fold (f2r (fminus32 dmin (cxx_max (A := B) (Bsqrt mode_NE sq) flat))) in L.
    cbn [B2R] in L. cbn [F B32] in *.
    assert (Q : rnd (f2r dmin - reach sq) < 0 <-> f2r dmin < reach sq).
    { rewrite <- Em. apply minus_sign; apply fmt_f. }
    destruct (Rlt_bool_spec (f2r (fminus32 dmin (cxx_max (A := B) (Bsqrt mode_NE sq) flat))) 0) as [K|K]; rewrite L.
    + right. split; [reflexivity|]. right. split; [exact Nq|]. rewrite Ed in K. tauto.
    + left. eexists. split; [reflexivity|]. split; [exact Nq|]. split; [split; [exact Fd|exact K]|]. split; [exact Ed|].
      split; [rewrite Ed; apply rnd_le; [apply fmt_f|]|].
      * assert (0 <= reach sq) by (rewrite <- Em; apply Nm). lra.
      * apply Rnot_lt_le. intros X. apply Q in X. rewrite Ed in K. lra.
Qed.

(** ** the loop *)
Variable e : Z.
Hypothesis He : (-149 <= e <= 100)%Z.
Hypothesis Hw : f2r dmin * f2r weight <= bpow radix2 e.
Notation fold := (like_fold (A := B) (Bsqrt mode_NE) dmin flat weight).

Lemma term_ok sq d : nn sq -> dist sq = Some d -> nonneg32 (fmult32 d weight) /\ f2r (fmult32 d weight) = rnd (f2r d * f2r weight) /\ f2r (fmult32 d weight) <= bpow radix2 e.
Proof.
  intros Hn E. destruct (dist_cases sq Hn) as [(d' & E' & _ & Nd & _ & Ld & _)|(E' & _)]; rewrite E in E'; [injection E' as <-|discriminate].
  destruct Hs as (_ & _ & Hwt). apply mult_ok; [exact Nd|exact Hwt| |lia].
  eapply Rle_trans; [|exact Hw]. apply Rmult_le_compat_r; [apply Hwt|exact Ld].
Qed.
Lemma add_ok sq d (score : f32) k : nn sq -> dist sq = Some d -> nonneg32 score -> (0 <= k < 16777216)%Z -> f2r score <= IZR k * bpow radix2 e ->
  nonneg32 (fplus32 score (fmult32 d weight)) /\ f2r (fplus32 score (fmult32 d weight)) = rnd (f2r score + f2r (fmult32 d weight)) /\
  f2r (fplus32 score (fmult32 d weight)) <= IZR (k + 1) * bpow radix2 e /\ f2r score <= f2r (fplus32 score (fmult32 d weight)).
Proof.
  intros Hn E Ns Hk L. destruct (term_ok sq d Hn E) as (Nt & _ & Lt).
  destruct (plus_ok score (fmult32 d weight) (k + 1) e Ns Nt) as (P1 & P2 & P3); [rewrite plus_IZR; lra|lia|lia|].
  split; [exact P1|]. split; [exact P2|]. split; [exact P3|]. rewrite P2. apply rnd_ge; [apply fmt_f|]. destruct Nt. lra.
Qed.

Lemma fold_ok : forall found (score : f32) num k, Forall a_distance found -> nonneg32 score -> (0 <= k)%Z ->
  (k + Z.of_nat (length found) <= 16777216)%Z -> f2r score <= IZR k * bpow radix2 e ->
  let r := fold found score num in
  nonneg32 (fst r) /\ f2r score <= f2r (fst r) <= IZR (k + Z.of_nat (snd r - num)) * bpow radix2 e /\ (num <= snd r <= num + length found)%nat.
Proof.
  induction found as [|[sq|] found IH]; intros score num k HF Ns Hk Hn L; cbn [like_fold length] in *.
  - cbv zeta. cbn [fst snd]. split; [exact Ns|]. replace (k + Z.of_nat (num - num))%Z with k by lia. split; [lra|lia].
  - inversion HF as [|? ? H1 H2]; subst. cbn [a_distance] in H1. destruct (dist sq) as [d|] eqn:E.
    + cbn [fadd fmul B32]. destruct (add_ok sq d score k H1 E Ns ltac:(lia) L) as (P1 & _ & P3 & P4).
      destruct (IH (fplus32 score (fmult32 d weight)) (num + 1)%nat (k + 1)%Z H2 P1 ltac:(lia) ltac:(lia) P3) as (Q1 & Q2 & Q3).
      revert Q1 Q2 Q3. cbv zeta. cbn [F B32]. generalize (fold found (fplus32 score (fmult32 d weight)) (num + 1)). intros [v m]. cbn [fst snd].
      intros Q1 Q2 Q3. split; [exact Q1|]. split; [|lia].
      replace (k + 1 + Z.of_nat (m - (num + 1)))%Z with (k + Z.of_nat (m - num))%Z in Q2 by lia. cbn [F B32] in *. lra.
    + destruct (IH score num k H2 Ns Hk ltac:(lia) L) as (Q1 & Q2 & Q3). split; [exact Q1|]. split; [exact Q2|lia].
  - inversion HF as [|? ? H1 H2]; subst. destruct (IH score num k H2 Ns Hk ltac:(lia) L) as (Q1 & Q2 & Q3). split; [exact Q1|]. split; [exact Q2|lia].
Qed.

(** the number of matches is the number of points within reach, exactly *)
Lemma within_dist sq : nn sq -> (within dmin flat (Some sq) <-> dist sq <> None).
Proof.
  intros Hn. destruct (dist_cases sq Hn) as [(d & E & Nq & _ & _ & _ & R)|(E & C)]; rewrite E; split; try congruence.
  - intros _. exists sq. split; [reflexivity|]. split; [apply Nq|]. unfold reach in R. split; (eapply Rle_trans; [|exact R]); [apply Rmax_l|apply Rmax_r].
  - intros (x & X & Fx & L1 & L2). injection X as <-. destruct C as [->|[_ C]]; [discriminate|].
    unfold reach in C. exfalso. pose proof (Rmax_lub _ _ _ L1 L2). lra.
Qed.
Lemma fold_count : forall found (score : f32) num, Forall a_distance found ->
  exists hits, Forall2 (fun d (h : bool) => h = true <-> within dmin flat d) found hits /\
    snd (fold found score num) = (num + count_occ Bool.bool_dec hits true)%nat.
Proof.
  induction found as [|[sq|] found IH]; intros score num HF; cbn [like_fold].
  - exists []. split; [constructor|cbn; lia].
  - inversion HF as [|? ? H1 H2]; subst. cbn [a_distance] in H1. pose proof (within_dist sq H1) as W. destruct (dist sq) as [d|].
    + destruct (IH (fadd (a := B) score (fmul (a := B) d weight)) (num + 1)%nat H2) as (hits & A & C). exists (true :: hits). split.
      * constructor; [|exact A]. split; [|reflexivity]. intros _. apply W. discriminate.
      * etransitivity; [exact C|]. cbn. lia.
    + destruct (IH score num H2) as (hits & A & C). exists (false :: hits). split.
      * constructor; [|exact A]. split; [discriminate|]. intros X. apply W in X. congruence.
      * etransitivity; [exact C|]. cbn. lia.
  - inversion HF as [|? ? H1 H2]; subst. destruct (IH score num H2) as (hits & A & C). exists (false :: hits). split.
    + constructor; [|exact A]. split; [discriminate|]. intros (x & X & _). discriminate.
    + etransitivity; [exact C|]. cbn. lia.
Qed.

(** ** closer points never lower the score *)
Lemma le_reals (x y : f32) : nn x -> nonneg32 y -> Bleb x y = true -> nonneg32 x /\ f2r x <= f2r y.
Proof.
  intros Hx [Fy Py] L. destruct (nn_cases _ Hx) as [->|[Fx Px]].
  - destruct y as [?|?| |[] ? ? ?]; discriminate.
  - rewrite (Bleb_correct 24 128 x y Fx Fy) in L. split; [split; assumption|]. unfold f2r. apply Rle_bool_true in L || idtac.
    destruct (Rle_bool_spec (B2R x) (B2R y)); [assumption|discriminate].
Qed.
Lemma dist_mono x y d : nn x -> nn y -> Bleb x y = true -> dist y = Some d -> exists d', dist x = Some d' /\ f2r d <= f2r d' /\ nonneg32 d'.
Proof.
  intros Hx Hy L E. destruct (dist_cases y Hy) as [(d1 & E1 & Ny & N1 & R1 & _ & L1)|(E1 & _)]; rewrite E in E1; [injection E1 as <-|discriminate].
  destruct (le_reals x y Hx Ny L) as [Nx Lx].
  assert (M : reach x <= reach y).
  { unfold reach. apply Rle_max_compat_r.
    destruct (sqrt_nn x Hx) as [[X _]|(_ & _ & X)]; [subst; destruct Nx; discriminate|].
    destruct (sqrt_nn y Hy) as [[Y _]|(_ & _ & Y)]; [subst; destruct Ny; discriminate|].
    rewrite X, Y. apply rnd_mono. apply sqrt_le_1_alt. exact Lx. }
  destruct (dist_cases x Hx) as [(d2 & E2 & _ & N2 & R2 & _ & _)|(E2 & C)].
  - exists d2. split; [exact E2|]. split; [|exact N2]. rewrite R1, R2. apply rnd_mono. lra.
  - exfalso. destruct C as [->|[_ C]]; [destruct Nx; discriminate|]. lra.
Qed.
Lemma fold_mono : forall fa fb (sa sb : f32) na nb k, Forall2 at_least_as_close fa fb -> Forall a_distance fa -> Forall a_distance fb ->
  nonneg32 sa -> nonneg32 sb -> f2r sb <= f2r sa -> (nb <= na)%nat -> (0 <= k)%Z -> (k + Z.of_nat (length fa) <= 16777216)%Z ->
  f2r sa <= IZR k * bpow radix2 e ->
  let ra := fold fa sa na in let rb := fold fb sb nb in
  f2r (fst rb) <= f2r (fst ra) /\ (snd rb <= snd ra)%nat.
Proof.
  intros fa fb sa sb na nb k HF. revert sa sb na nb k. induction HF as [|a b fa fb Hab HF IH]; intros sa sb na nb k Ha Hb Na Nb Ls Ln Hk Hn Lk.
  - cbn [like_fold]. cbv zeta. cbn [fst snd]. auto.
  - inversion Ha as [|? ? A1 A2]; inversion Hb as [|? ? B1 B2]; subst. cbn [length] in Hn.
    (* what b adds, a adds at least as much *)
    assert (Step : forall d y, b = Some y -> dist y = Some d -> exists x d', a = Some x /\ nn x /\ dist x = Some d' /\ f2r (fmult32 d weight) <= f2r (fmult32 d' weight)).
    { intros d y -> E. cbn [at_least_as_close] in Hab. destruct Hab as (x & -> & L). cbn [a_distance] in A1, B1.
      destruct (dist_mono x y d A1 B1 L E) as (d' & E' & M & N'). exists x, d'. repeat split; auto.
      destruct (term_ok y d B1 E) as (_ & -> & _). destruct (term_ok x d' A1 E') as (_ & -> & _). apply rnd_mono.
      apply Rmult_le_compat_r; [apply Hs|exact M]. }
    assert (Skip : forall x d', a = Some x -> dist x = Some d' ->
      f2r (fst (fold fb sb nb)) <= f2r (fst (fold fa (fplus32 sa (fmult32 d' weight)) (na + 1))) /\ (snd (fold fb sb nb) <= snd (fold fa (fplus32 sa (fmult32 d' weight)) (na + 1)))%nat).
    { intros x d' -> E. cbn [a_distance] in A1. destruct (add_ok x d' sa k A1 E Na ltac:(lia) Lk) as (P1 & _ & P3 & P4).
      apply (IH _ _ _ _ (k + 1)%Z); auto; try lia; lra. }
    assert (Both : f2r (fst (fold fb sb nb)) <= f2r (fst (fold fa sa na)) /\ (snd (fold fb sb nb) <= snd (fold fa sa na))%nat).
    { apply (IH _ _ _ _ k); auto; lia. }
    cbn [like_fold]. destruct b as [y|]; [destruct (dist y) as [d|] eqn:Ey|].
    + destruct (Step d y eq_refl Ey) as (x & d' & -> & Nx & Ex & M). rewrite Ex. cbn [fadd fmul B32] in *. cbn [F B32] in *.
      destruct (add_ok x d' sa k Nx Ex Na ltac:(lia) Lk) as (P1 & P2 & P3 & _).
      cbn [a_distance] in B1.
      destruct (add_ok y d sb k B1 Ey Nb ltac:(lia) ltac:(lra)) as (Q1 & Q2 & _ & _).
      apply (IH _ _ _ _ (k + 1)%Z); auto; try lia. rewrite P2, Q2. apply rnd_mono. lra.
    + destruct a as [x|]; [destruct (dist x) as [d'|] eqn:Ex; [exact (Skip x d' eq_refl Ex)|exact Both]|exact Both].
    + destruct a as [x|]; [destruct (dist x) as [d'|] eqn:Ex; [exact (Skip x d' eq_refl Ex)|exact Both]|exact Both].
Qed.
End Score.

(** ** the match ratio *)
Lemma of_nat_ok n : (Z.of_nat n <= 2 ^ 64)%Z -> nonneg32 (f32_of_Z (Z.of_nat n)) /\ f2r (f32_of_Z (Z.of_nat n)) = rnd (INR n).
Proof.
  intros Hn. rewrite INR_IZR_INZ. pose proof (binary_normalize_correct 24 128 _ _ mode_NE (Z.of_nat n) 0 false) as H. cbv zeta in H.
  assert (E : F2R (Float radix2 (Z.of_nat n) 0) = IZR (Z.of_nat n)) by (unfold F2R; cbn; lra). rewrite E in H.
  assert (G0 : 0 <= rnd (IZR (Z.of_nat n))) by (apply rnd_ge; [apply fmt_0|apply IZR_le; lia]).
  rewrite Rlt_bool_true in H.
  - destruct H as (H1 & H2 & _). split; [split; [exact H2|]|exact H1]. unfold f2r, f32_of_Z. rewrite H1. exact G0.
  - rewrite Rabs_pos_eq by exact G0. apply Rle_lt_trans with (bpow radix2 64); [|apply bpow_lt; lia].
    apply rnd_le; [apply fmt_bpow; lia|]. change (bpow radix2 64) with (IZR (2 ^ 64)). apply IZR_le. exact Hn.
Qed.
Lemma of_nat_pos n : (0 < n)%nat -> (Z.of_nat n <= 2 ^ 64)%Z -> 1 <= f2r (f32_of_Z (Z.of_nat n)) <= bpow radix2 64.
Proof.
  intros P Hn. rewrite (proj2 (of_nat_ok n Hn)). split.
  - apply rnd_ge; [apply (fmt_bpow 0); lia|]. change 1 with (INR 1). apply le_INR. lia.
  - apply rnd_le; [apply fmt_bpow; lia|]. rewrite INR_IZR_INZ. change (bpow radix2 64) with (IZR (2 ^ 64)). apply IZR_le. exact Hn.
Qed.
Lemma of_nat_exact n : (Z.of_nat n <= 16777216)%Z -> f2r (f32_of_Z (Z.of_nat n)) = INR n.
Proof.
  intros Hn. rewrite (proj2 (of_nat_ok n ltac:(lia))). apply rnd_id. rewrite INR_IZR_INZ, <- (Rmult_1_r (IZR _)).
  apply (fmt_int_bpow _ 0); lia.
Qed.
Lemma ratio_ok log num n : (num <= n)%nat -> (0 < n)%nat -> (Z.of_nat n <= 2 ^ 64)%Z ->
  let r : f32 := like_ratio (A := B32 log) num n in
  is_finite r = true /\ 0 <= f2r r <= 1 /\ f2r r = rnd (f2r (f32_of_Z (Z.of_nat num)) / f2r (f32_of_Z (Z.of_nat n))).
Proof.
  intros L P Hn. unfold like_ratio. cbn [fdiv fofnat B32]. cbv zeta.
  destruct (of_nat_ok num ltac:(lia)) as [N1 E1]. destruct (of_nat_ok n Hn) as [N2 E2]. pose proof (of_nat_pos n P Hn) as [P2 _].
  assert (M : f2r (f32_of_Z (Z.of_nat num)) <= f2r (f32_of_Z (Z.of_nat n))) by (rewrite E1, E2; apply rnd_mono, le_INR; exact L).
  destruct (div_unit _ _ N1 N2 ltac:(lra) M) as [D1 D2]. split; [exact D1|]. split; [exact D2|].
  assert (H := Bdiv_correct 24 128 _ _ mode_NE (f32_of_Z (Z.of_nat num)) (f32_of_Z (Z.of_nat n))).
  fold (f2r (f32_of_Z (Z.of_nat num))) (f2r (f32_of_Z (Z.of_nat n))) in H. specialize (H ltac:(lra)).
  destruct (Rlt_bool _ _); [apply H|]. fold (fdiv32 (f32_of_Z (Z.of_nat num)) (f32_of_Z (Z.of_nat n))) in H.
  rewrite <- is_finite_SF_B2SF in D1. rewrite H in D1. unfold binary_overflow in D1. cbn in D1. discriminate.
Qed.
