(** How far the binary32 score is from the documented sum. *)
From Coq Require Import Reals ZArith List Bool Lra Lia Psatz.
From Flocq Require Import Core.Core IEEE754.BinarySingleNaN.
Require Import Flocq.Prop.Relative.
From Verif Require Import Arith Ieee LikeFloatModel LikeFloatSpec LikeFloatProofs.
Import ListNotations.
Local Open Scope R_scope.
Notation u := (bpow radix2 (-24)).
Notation eta := (bpow radix2 (-150)).

Lemma rnd_err x : Rabs (rnd x - x) <= u * Rabs x + eta.
Proof.
  destruct (relative_error_N_FLT'_ex radix2 (-149) 24 ltac:(lia) (fun z => negb (Z.even z)) x) as (ep & h & E1 & E2 & _ & E3).
  change (round radix2 (FLT.FLT_exp (-149) 24) (Znearest (fun z => negb (Z.even z))) x) with (rnd x) in E3.
  rewrite E3. replace (x * (1 + ep) + h - x) with (x * ep + h) by ring.
  eapply Rle_trans; [apply Rabs_triang|]. apply Rplus_le_compat.
  - rewrite Rabs_mult, Rmult_comm. apply Rmult_le_compat_r; [apply Rabs_pos|].
    eapply Rle_trans; [exact E1|]. pose proof (u_rod1pu_ro_le_u_ro radix2 24) as Q. eapply Rle_trans; [exact Q|]. unfold u_ro.
    replace (/ 2) with (bpow radix2 (-1)) by (cbn; lra). rewrite <- bpow_plus. apply bpow_le. lia.
  - eapply Rle_trans; [exact E2|]. replace (/ 2) with (bpow radix2 (-1)) by (cbn; lra). rewrite <- bpow_plus. apply bpow_le. lia.
Qed.

Lemma u_val : u = / 16777216. Proof. reflexivity. Qed.
Lemma pos_part a b : Rabs (Rmax 0 a - Rmax 0 b) <= Rabs (a - b).
Proof. unfold Rmax. repeat destruct (Rle_dec _ _); unfold Rabs; repeat destruct (Rcase_abs _); lra. Qed.
Lemma max_lip a b c : Rabs (Rmax a c - Rmax b c) <= Rabs (a - b).
Proof. unfold Rmax. repeat destruct (Rle_dec _ _); unfold Rabs; repeat destruct (Rcase_abs _); lra. Qed.

Lemma tri3 res S1 ts sc t dd : Rabs (res - (sc + (dd + ts))) <= Rabs (res - (S1 + ts)) + (Rabs (S1 - (sc + t)) + Rabs (t - dd)).
Proof.
  replace (res - (sc + (dd + ts))) with ((res - (S1 + ts)) + ((S1 - (sc + t)) + (t - dd))) by ring.
  eapply Rle_trans; [apply Rabs_triang|]. apply Rplus_le_compat_l. apply Rabs_triang.
Qed.
Lemma tri2 res ts sc dd : Rabs (res - (sc + (dd + ts))) <= Rabs (res - (sc + ts)) + Rabs (0 - dd).
Proof. replace (res - (sc + (dd + ts))) with ((res - (sc + ts)) + (0 - dd)) by ring. apply Rabs_triang. Qed.

Section Err.
Variable log : f32 -> f32.
Notation B := (B32 log).
Variables dmin flat weight : f32.
Hypothesis Hs : sane dmin flat weight.
Variable e : Z.
Hypothesis He : (-100 <= e <= 100)%Z.
Hypothesis Hw : f2r dmin * f2r weight <= bpow radix2 e.
Hypothesis Hd : bpow radix2 (-100) <= f2r dmin.
Notation dist := (like_dist (A := B) (Bsqrt mode_NE) dmin flat).
Notation fold := (like_fold (A := B) (Bsqrt mode_NE) dmin flat weight).

Lemma eta_small : eta <= / 1000 * (u * f2r dmin).
Proof.
  apply Rle_trans with (/ 1000 * (u * bpow radix2 (-100))).
  - rewrite <- bpow_plus. replace eta with (bpow radix2 (-26) * bpow radix2 (-24 + -100)) by (rewrite <- bpow_plus; reflexivity).
    apply Rmult_le_compat_r; [apply bpow_ge_0|]. cbn. lra.
  - apply Rmult_le_compat_l; [lra|]. apply Rmult_le_compat_l; [apply bpow_ge_0|exact Hd].
Qed.
Lemma eta_small2 : eta <= / 1000 * (u * bpow radix2 e).
Proof.
  apply Rle_trans with (/ 1000 * (u * bpow radix2 (-100))).
  - rewrite <- bpow_plus. replace eta with (bpow radix2 (-26) * bpow radix2 (-24 + -100)) by (rewrite <- bpow_plus; reflexivity).
    apply Rmult_le_compat_r; [apply bpow_ge_0|]. cbn. lra.
  - apply Rmult_le_compat_l; [lra|]. apply Rmult_le_compat_l; [apply bpow_ge_0|apply bpow_le; lia].
Qed.

(** one distance *)
Definition pos_dist (sq : f32) : R := Rmax 0 (f2r dmin - Rmax (sqrt (f2r sq)) (f2r flat)).
Lemma dist_err sq : nonneg32 sq -> Rabs ((match dist sq with Some d => f2r d | None => 0 end) - pos_dist sq) <= 4 * u * f2r dmin.
Proof.
  intros Nq. pose proof (nonneg_nn _ Nq) as Hn. pose proof eta_small as Et. pose proof u_val as Eu. destruct Hs as ([Fd Pd] & [Ff Pf] & _).
  assert (Nr : nonneg32 (Bsqrt mode_NE sq) /\ f2r (Bsqrt mode_NE sq) = rnd (sqrt (f2r sq))).
  { destruct (sqrt_nn sq Hn) as [[X _]|(_ & X)]; [subst; destruct Nq; discriminate|exact X]. }
  destruct Nr as [[_ Pr] Er]. pose proof (rnd_err (sqrt (f2r sq))) as Rr. rewrite <- Er in Rr.
  pose proof (sqrt_pos (f2r sq)) as Ps. rewrite (Rabs_pos_eq (sqrt _)) in Rr by exact Ps.
  set (r := f2r (Bsqrt mode_NE sq)) in *. set (q := sqrt (f2r sq)) in *. set (D := f2r dmin) in *. set (g := f2r flat) in *.
  assert (HD : 0 < D) by (eapply Rlt_le_trans; [apply (bpow_gt_0 radix2 (-100))|exact Hd]).
  rewrite Eu in *.
  destruct (dist_cases log dmin flat weight Hs sq Hn) as [(d & -> & _ & Nd & Ed & Ld & Lr)|(-> & C)].
  - fold r g D in Ed, Lr. fold D in Ld.
    (* the true root is not much more than dmin *)
    assert (Lq : q <= 2 * D).
    { assert (r <= D) by (eapply Rle_trans; [apply Rmax_l|exact Lr]). apply Rabs_def2b in Rr || idtac.
      assert (q - r <= / 16777216 * q + eta) by (unfold Rabs in Rr; destruct (Rcase_abs _); lra). lra. }
    pose proof (rnd_err (D - Rmax r g)) as R1. rewrite <- Ed in R1. rewrite u_val in R1.
    assert (P1 : 0 <= D - Rmax r g) by lra.
    assert (P2 : D - Rmax r g <= D) by (pose proof (Rmax_l r g); lra).
    rewrite (Rabs_pos_eq (D - Rmax r g)) in R1 by exact P1.
    assert (E0 : D - Rmax r g = Rmax 0 (D - Rmax r g)) by (symmetry; apply Rmax_right; lra).
    pose proof (pos_part (D - Rmax r g) (D - Rmax q g)) as L1. rewrite <- E0 in L1. fold (pos_dist sq) in L1.
    replace (D - Rmax r g - (D - Rmax q g)) with (- (Rmax r g - Rmax q g)) in L1 by ring. rewrite Rabs_Ropp in L1.
    pose proof (max_lip r q g) as L2.
    change (Rmax 0 (D - Rmax q g)) with (pos_dist sq) in L1.
    apply Rle_trans with (Rabs (f2r d - (D - Rmax r g)) + Rabs (D - Rmax r g - pos_dist sq)).
    { replace (f2r d - pos_dist sq) with ((f2r d - (D - Rmax r g)) + (D - Rmax r g - pos_dist sq)) by ring. apply Rabs_triang. }
    lra.
  - destruct C as [->|[_ C]]; [destruct Nq; discriminate|]. fold r g D in C.
    rewrite Rminus_0_l, Rabs_Ropp. unfold pos_dist. fold q D g. rewrite Rabs_pos_eq by apply Rmax_l.
    destruct (Rle_dec D (Rmax q g)) as [K|K]; [rewrite Rmax_left by lra; lra|].
    rewrite Rmax_right by lra.
    assert (g < D /\ q < D) as [Kg Kq].
    { pose proof (Rmax_l q g). pose proof (Rmax_r q g). lra. }
    assert (D < r).
    { destruct (Rle_dec r g); [rewrite Rmax_right in C by assumption; lra|rewrite Rmax_left in C by lra; exact C]. }
    assert (r - q <= / 16777216 * q + eta) by (unfold Rabs in Rr; destruct (Rcase_abs _); lra).
    pose proof (Rmax_l q g). lra.
Qed.
Lemma term_err sq : nonneg32 sq ->
  Rabs ((match dist sq with Some d => f2r (fmult32 d weight) | None => 0 end) - documented dmin flat weight (Some sq)) <= 6 * u * bpow radix2 e.
Proof.
  intros Nq. pose proof (dist_err sq Nq) as De. pose proof (nonneg_nn _ Nq) as Hn. pose proof eta_small2 as Et.
  destruct Hs as (Hd' & _ & [Fw Pw]). cbn [documented]. fold (pos_dist sq).
  assert (W4 : Rabs (match dist sq with Some d => f2r d | None => 0 end - pos_dist sq) * f2r weight <= 4 * u * bpow radix2 e).
  { apply Rle_trans with (4 * u * f2r dmin * f2r weight); [apply Rmult_le_compat_r; assumption|].
    rewrite Rmult_assoc. apply Rmult_le_compat_l; [|exact Hw]. pose proof (bpow_ge_0 radix2 (-24)). lra. }
  assert (Pu : 0 <= u * bpow radix2 e) by (apply Rmult_le_pos; apply bpow_ge_0).
  destruct (dist sq) as [d|] eqn:E.
  - destruct (dist_cases log dmin flat weight Hs sq Hn) as [(d' & E' & _ & Nd & _ & Ld & _)|(E' & _)]; rewrite E in E'; [injection E' as <-|discriminate].
    destruct (term_ok log dmin flat weight Hs e ltac:(lia) Hw sq d Hn E) as (_ & Et2 & _). rewrite Et2.
    pose proof (rnd_err (f2r d * f2r weight)) as R1.
    assert (P0 : 0 <= f2r d * f2r weight) by (apply Rmult_le_pos; [apply Nd|exact Pw]).
    assert (P1 : f2r d * f2r weight <= bpow radix2 e) by (eapply Rle_trans; [|exact Hw]; apply Rmult_le_compat_r; assumption).
    rewrite (Rabs_pos_eq (f2r d * f2r weight)) in R1 by exact P0.
    assert (P2 : u * (f2r d * f2r weight) <= u * bpow radix2 e) by (apply Rmult_le_compat_l; [apply bpow_ge_0|exact P1]).
    apply Rle_trans with (Rabs (rnd (f2r d * f2r weight) - f2r d * f2r weight) + Rabs ((f2r d - pos_dist sq) * f2r weight)).
    { replace (rnd (f2r d * f2r weight) - f2r weight * pos_dist sq) with ((rnd (f2r d * f2r weight) - f2r d * f2r weight) + (f2r d - pos_dist sq) * f2r weight) by ring. apply Rabs_triang. }
    rewrite Rabs_mult, (Rabs_pos_eq (f2r weight)) by exact Pw. lra.
  - replace (0 - f2r weight * pos_dist sq) with ((0 - pos_dist sq) * f2r weight) by ring.
    rewrite Rabs_mult, (Rabs_pos_eq (f2r weight)) by exact Pw. lra.
Qed.
Definition true_sum (found : list (option f32)) : R := fold_right Rplus 0 (map (documented dmin flat weight) found).
Lemma fold_err : forall found (score : f32) num k N, Forall a_finite_distance found -> nonneg32 score -> (0 <= k)%Z ->
  (k + Z.of_nat (length found) <= N)%Z -> (N <= 16777216)%Z -> f2r score <= IZR k * bpow radix2 e ->
  Rabs (f2r (fst (fold found score num)) - (f2r score + true_sum found)) <= INR (length found) * (IZR N + 7) * u * bpow radix2 e.
Proof.
  induction found as [|[sq|] found IH]; intros score num k N HF Ns Hk Hn HN L; cbn [like_fold length].
  - cbn [fst length]. unfold true_sum. cbn. rewrite Rplus_0_r, Rminus_diag_eq, Rabs_R0 by reflexivity. lra.
  - inversion HF as [|? ? H1 H2]; subst. cbn [a_finite_distance] in H1. pose proof (nonneg_nn _ H1) as Hnn.
    pose proof (term_err sq H1) as Te. unfold true_sum. cbn [map fold_right]. fold (true_sum found).
    pose proof eta_small2 as Et.
    assert (Pu : 0 <= u * bpow radix2 e) by (apply Rmult_le_pos; apply bpow_ge_0).
    assert (HN0 : 0 <= IZR N) by (apply IZR_le; cbn [length] in Hn; lia).
    rewrite S_INR. pose proof (pos_INR (length found)) as Pl. cbn [length] in Hn.
    destruct (dist sq) as [d|] eqn:E.
    + cbn [fadd fmul B32].
      destruct (add_ok log dmin flat weight Hs e ltac:(lia) Hw sq d score k Hnn E Ns ltac:(lia) L) as (P1 & P2 & P3 & _).
      specialize (IH (fplus32 score (fmult32 d weight)) (num + 1)%nat (k + 1)%Z N H2 P1 ltac:(lia) ltac:(lia) HN P3).
      destruct (term_ok log dmin flat weight Hs e ltac:(lia) Hw sq d Hnn E) as ([_ T1] & _ & T3).
      pose proof (rnd_err (f2r score + f2r (fmult32 d weight))) as R1. rewrite <- P2 in R1. destruct Ns as [_ Ps].
      rewrite (Rabs_pos_eq (f2r score + _)) in R1 by lra.
      assert (Sb : f2r score + f2r (fmult32 d weight) <= IZR N * bpow radix2 e).
      { apply Rle_trans with (IZR (k + 1) * bpow radix2 e); [rewrite plus_IZR; lra|]. apply Rmult_le_compat_r; [apply bpow_ge_0|apply IZR_le; lia]. }
      assert (Sb2 : u * (f2r score + f2r (fmult32 d weight)) <= IZR N * (u * bpow radix2 e)).
      { replace (IZR N * (u * bpow radix2 e)) with (u * (IZR N * bpow radix2 e)) by ring. apply Rmult_le_compat_l; [apply bpow_ge_0|exact Sb]. }
      eapply Rle_trans; [apply (tri3 _ (f2r (fplus32 score (fmult32 d weight))) _ _ (f2r (fmult32 d weight)))|].
      set (Q := INR (length found) * (IZR N + 7) * u * bpow radix2 e) in *.
      apply Rle_trans with (Q + (u * (f2r score + f2r (fmult32 d weight)) + eta + 6 * u * bpow radix2 e)).
      { apply Rplus_le_compat; [exact IH|]. apply Rplus_le_compat; [exact R1|exact Te]. }
      unfold Q. lra.
    + specialize (IH score num k N H2 Ns Hk ltac:(lia) HN L).
      eapply Rle_trans; [apply tri2|]. set (Q := INR (length found) * (IZR N + 7) * u * bpow radix2 e) in *.
      apply Rle_trans with (Q + 6 * u * bpow radix2 e); [apply Rplus_le_compat; [exact IH|exact Te]|].
      assert (0 <= IZR N * (u * bpow radix2 e)) by (apply Rmult_le_pos; assumption). unfold Q. lra.
  - inversion HF as [|? ? H1 H2]; subst. cbn [length] in Hn. specialize (IH score num k N H2 Ns Hk ltac:(lia) HN L).
    unfold true_sum. cbn [map fold_right documented]. fold (true_sum found). rewrite Rplus_0_l. eapply Rle_trans; [exact IH|].
    apply Rmult_le_compat_r; [apply bpow_ge_0|]. apply Rmult_le_compat_r; [apply bpow_ge_0|]. apply Rmult_le_compat_r.
    + assert (0 <= IZR N) by (apply IZR_le; lia). lra.
    + apply le_INR. lia.
Qed.
End Err.
