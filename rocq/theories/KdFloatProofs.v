(** One axis of the chunking in binary32: the errors of the computed chunk number and of the
    position inside the chunk. *)
From Coq Require Import Reals ZArith List Bool Lra Lia Psatz.
From Flocq Require Import Core.Core IEEE754.BinarySingleNaN.
From Verif Require Import Arith Ieee NdModel IeeeErr KdModel KdProofs KdFloatModel LikeFloatProofs LikeFloatErr.
Import ListNotations.
Local Open Scope R_scope.
Notation rnd := (round radix2 (SpecFloat.fexp 24 128) (round_mode mode_NE)).
Notation eta := (bpow radix2 (-150)).

Lemma floor32_ok (x : f32) : is_finite x = true -> IZR (floor32 x) <= f2r x < IZR (floor32 x) + 1.
Proof.
  intros Fx. destruct x as [s|s| |s m e Hb]; try discriminate; [cbn; lra|]. unfold floor32, f2r. cbn [B2R].
  set (z := cond_Zopp s (Z.pos m)). unfold F2R. cbn [Fnum Fexp]. destruct (Z.leb_spec 0 e) as [He|He].
  - rewrite mult_IZR, (IZR_Zpower radix2) by exact He. lra.
  - replace (bpow radix2 e) with (/ IZR (2 ^ (- e))).
    2:{ rewrite (IZR_Zpower radix2) by lia. rewrite <- bpow_opp. f_equal. lia. }
    assert (P : (0 < 2 ^ (- e))%Z) by (apply Z.pow_pos_nonneg; lia).
    set (d := (2 ^ (- e))%Z) in *. pose proof (Z.div_mod z d ltac:(lia)) as E. pose proof (Z.mod_pos_bound z d P) as B.
    set (k := (z / d)%Z) in *. assert (Pd : 0 < IZR d) by (apply IZR_lt; exact P).
    assert (E2 : IZR z = IZR d * IZR k + IZR (z mod d)) by (rewrite <- mult_IZR, <- plus_IZR; f_equal; exact E).
    assert (B1 : 0 <= IZR (z mod d)) by (apply IZR_le; lia). assert (B2 : IZR (z mod d) < IZR d) by (apply IZR_lt; lia).
    split; apply Rmult_le_reg_r with (IZR d) || apply Rmult_lt_reg_r with (IZR d); try exact Pd; rewrite Rmult_assoc, Rinv_l by lra; lra.
Qed.
Lemma of_Z_exact z : (Z.abs z <= 16777216)%Z -> is_finite (f32_of_Z z) = true /\ f2r (f32_of_Z z) = IZR z.
Proof.
  intros Hz. pose proof (binary_normalize_correct 24 128 _ _ mode_NE z 0 false) as H. cbv zeta in H.
  assert (E : F2R (Float radix2 z 0) = IZR z) by (unfold F2R; cbn; lra). rewrite E in H.
  assert (Fm : fmt (IZR z)).
  { destruct (Z_le_gt_dec 0 z).
    - rewrite <- (Rmult_1_r (IZR z)). apply (fmt_int_bpow z 0); lia.
    - replace (IZR z) with (- (IZR (- z) * bpow radix2 0)) by (rewrite opp_IZR; cbn; lra). apply generic_format_opp, (fmt_int_bpow (- z) 0); lia. }
  rewrite (rnd_id _ Fm) in H. rewrite Rlt_bool_true in H.
  - destruct H as (H1 & H2 & _). split; [exact H2|exact H1].
  - rewrite <- abs_IZR. apply Rle_lt_trans with (IZR 16777216); [apply IZR_le; exact Hz|]. change (IZR 16777216) with (bpow radix2 24). apply bpow_lt. lia.
Qed.
(** an operation whose exact result is below 2^100 in size does not overflow *)
Lemma fits x : Rabs x <= bpow radix2 100 -> Rlt_bool (Rabs (rnd x)) (bpow radix2 128) = true.
Proof.
  intros H. apply Rlt_bool_true. apply Rle_lt_trans with (bpow radix2 100); [|apply bpow_lt; lia].
  apply Rabs_le. apply Rabs_le_inv in H. split; [apply rnd_ge; [apply generic_format_opp, fmt_bpow; lia|apply H]|apply rnd_le; [apply fmt_bpow; lia|apply H]].
Qed.
Lemma mul_fin a b : is_finite a = true -> is_finite b = true -> Rabs (f2r a * f2r b) <= bpow radix2 100 ->
  is_finite (fmult32 a b) = true /\ f2r (fmult32 a b) = rnd (f2r a * f2r b).
Proof.
  intros Fa Fb H. pose proof (Bmult_correct 24 128 _ _ mode_NE a b) as E. fold (f2r a) (f2r b) in E. rewrite (fits _ H) in E.
  destruct E as (E1 & E2 & _). rewrite Fa, Fb in E2. split; [exact E2|exact E1].
Qed.
Lemma sub_fin a b : is_finite a = true -> is_finite b = true -> Rabs (f2r a - f2r b) <= bpow radix2 100 ->
  is_finite (fminus32 a b) = true /\ f2r (fminus32 a b) = rnd (f2r a - f2r b).
Proof.
  intros Fa Fb H. pose proof (Bminus_correct 24 128 _ _ mode_NE a b Fa Fb) as E. fold (f2r a) (f2r b) in E. rewrite (fits _ H) in E.
  destruct E as (E1 & E2 & _). split; [exact E2|exact E1].
Qed.
Lemma ltb_fin (a b : f32) : is_finite a = true -> is_finite b = true -> Bltb a b = true <-> f2r a < f2r b.
Proof. intros Fa Fb. rewrite (Bltb_correct 24 128 a b Fa Fb). unfold f2r. destruct (Rlt_bool_spec (B2R a) (B2R b)); split; intros; try lra; try reflexivity; discriminate. Qed.
Lemma abs2 x y : Rabs x <= y <-> - y <= x <= y.
Proof. split; [apply Rabs_le_inv|apply Rabs_le]. Qed.

Section Axis.
Variables L rmax : f32.
Hypothesis FL : is_finite L = true. Hypothesis Fr : is_finite rmax = true.
Hypothesis BL : bpow radix2 (-60) <= f2r L <= bpow radix2 60.
Hypothesis Br : 0 <= f2r rmax <= f2r L / 2.
Variable M : R.
Hypothesis HM : 0 <= M <= 4194304 * f2r L.
Notation u := (/ 16777216).

Lemma L_pos : 0 < f2r L. Proof. pose proof (bpow_gt_0 radix2 (-60)). lra. Qed.
Lemma eta_L : eta <= / 1000 * u * f2r L.
Proof.
  eapply Rle_trans; [|apply Rmult_le_compat_l; [|apply BL]]; [|lra].
  replace eta with (bpow radix2 (-90) * bpow radix2 (-60)) by (rewrite <- bpow_plus; reflexivity). apply Rmult_le_compat_r; [apply bpow_ge_0|].
  apply Rle_trans with (bpow radix2 (-40)); [apply bpow_le; lia|]. cbn. lra.
Qed.
(** the stored factor *)
Lemma inv_ok : is_finite (pos_to_chunk L) = true /\ Rabs (f2r (pos_to_chunk L) - 1 / f2r L) <= (101 / 100) * u * (1 / f2r L).
Proof.
  pose proof L_pos as PL. unfold pos_to_chunk. destruct (widen_exact L FL) as [Fw Ew]. fold (f2r L) in Ew.
  assert (O : is_finite (f64_of_Z 1) = true /\ B2R (f64_of_Z 1) = 1).
  { split; [reflexivity|]. rewrite <- SF2R_B2SF. lazy -[SF2R IZR Rmult Rinv Rdiv]. unfold SF2R, F2R. cbn. lra. }
  destruct O as [O1 O2].
  assert (I1 : bpow radix2 (-60) <= 1 / f2r L <= bpow radix2 60).
  { unfold Rdiv. rewrite Rmult_1_l. split.
    - replace (bpow radix2 (-60)) with (/ bpow radix2 60) by (rewrite <- bpow_opp; reflexivity). apply Rinv_le; [exact PL|apply BL].
    - replace (bpow radix2 60) with (/ bpow radix2 (-60)) by (rewrite <- bpow_opp; reflexivity). apply Rinv_le; [apply bpow_gt_0|apply BL]. }
  assert (B60 : bpow radix2 60 = 1152921504606846976) by (cbn; lra).
  assert (B60' : bpow radix2 (-60) = / 1152921504606846976) by (cbn; lra).
  destruct (div64_close (f64_of_Z 1) (f64_of_f32 L) O1) as [F1 C1]; [rewrite Ew; lra|rewrite O2, Ew; apply mid_pos; lra|].
  rewrite O2, Ew in C1. change (div64 (f64_of_Z 1) (f64_of_f32 L)) with (Bdiv mode_NE (f64_of_Z 1) (f64_of_f32 L)) in *.
  set (w := Bdiv mode_NE (f64_of_Z 1) (f64_of_f32 L)) in *.
  assert (Uw : / 2 * (1 / f2r L) <= B2R w <= 2 * (1 / f2r L)).
  { destruct C1 as (e & E1 & ->). apply abs2 in E1. unfold ulp64 in E1. split; nra. }
  destruct (narrow_close w) as [F2 C2]; [apply mid_pos; lra|].
  split; [exact F2|]. assert (C : close (101 / 100 * u) (f2r (f32_of_f64 w)) (1 / f2r L)).
  { eapply close_trans; [exact C2|exact C1|]. unfold ulp32, ulp64. lra. }
  apply close_iff in C; [|lra]. rewrite (Rabs_pos_eq (1 / f2r L)) in C by lra. exact C.
Qed.

(** the computed chunk number times the chunk length brackets the coordinate up to D *)
Notation D := (203 / 100 * u * M + / 500 * u * f2r L).
Lemma chunk_ok x : is_finite x = true -> Rabs (f2r x) <= M ->
  let c := chunk1_32 L x in
  IZR c * f2r L - D <= f2r x <= IZR c * f2r L + f2r L + D /\ (Z.abs c <= 8388608)%Z.
Proof.
  intros Fx Bx. pose proof L_pos as PL. pose proof eta_L as Et. destruct inv_ok as [Fi Ei]. cbn zeta. unfold chunk1_32.
  set (v := f2r (pos_to_chunk L)) in *. set (X := f2r x) in *. set (l := f2r L) in *. set (w := 1 / l) in *.
  assert (Wl : w * l = 1) by (unfold w; field; lra). assert (Pw : 0 < w) by (unfold w; apply Rmult_lt_0_compat; [lra|apply Rinv_0_lt_compat; exact PL]).
  (* X * v against X * w *)
  assert (E1 : Rabs (X * v - X * w) <= 101 / 100 * u * M * w).
  { replace (X * v - X * w) with (X * (v - w)) by ring. rewrite Rabs_mult. apply Rle_trans with (M * (101 / 100 * u * w)); [|right; ring].
    apply Rmult_le_compat; try apply Rabs_pos; assumption. }
  assert (Mw : M * w <= 4194304).
  { apply Rle_trans with (4194304 * l * w); [apply Rmult_le_compat_r; lra|]. rewrite Rmult_assoc, (Rmult_comm l), Wl. lra. }
  assert (Mw0 : 0 <= M * w) by (apply Rmult_le_pos; lra).
  assert (E2 : Rabs (X * w) <= M * w) by (rewrite Rabs_mult, (Rabs_pos_eq w) by lra; apply Rmult_le_compat_r; lra).
  apply abs2 in E1. apply abs2 in E2.
  assert (E3 : Rabs (X * v) <= (1 + 101 / 100 * u) * (M * w)) by (apply abs2; lra).
  destruct (mul_fin x (pos_to_chunk L) Fx Fi) as [Fq Eq].
  { fold X v. eapply Rle_trans; [exact E3|]. apply Rle_trans with (bpow radix2 30); [|apply bpow_le; lia]. cbn. lra. }
  fold X v in Eq. pose proof (rnd_err (X * v)) as R1. rewrite <- Eq in R1. change (bpow radix2 (-24)) with u in R1.
  pose proof (floor32_ok _ Fq) as Fl. set (q := f2r (fmult32 x (pos_to_chunk L))) in *. set (c := floor32 (fmult32 x (pos_to_chunk L))) in *.
  assert (Smalleta : eta * l <= / 1000 * u * l).
  { apply Rmult_le_compat_r; [lra|]. apply Rle_trans with (bpow radix2 (-40)); [apply bpow_le; lia|]. cbn. lra. }
  assert (R2 : Rabs (q - X * w) <= 2021 / 1000 * u * (M * w) + eta).
  { apply abs2. apply abs2 in R1. assert (u * Rabs (X * v) <= u * ((1 + 101 / 100 * u) * (M * w))) by (apply Rmult_le_compat_l; lra). lra. }
  assert (Xl : X * w * l = X) by (rewrite Rmult_assoc, Wl; ring).
  assert (Ml : M * w * l = M) by (rewrite Rmult_assoc, Wl; ring).
  assert (R3 : - D <= q * l - X <= D).
  { fold l. apply abs2 in R2. destruct R2 as [R2a R2b].
    apply (Rmult_le_compat_r l) in R2a; [|lra]. apply (Rmult_le_compat_r l) in R2b; [|lra].
    replace ((2021 / 1000 * u * (M * w) + eta) * l) with (2021 / 1000 * u * (M * w * l) + eta * l) in R2b by ring.
    replace (- (2021 / 1000 * u * (M * w) + eta) * l) with (- (2021 / 1000 * u * (M * w * l) + eta * l)) in R2a by ring.
    replace ((q - X * w) * l) with (q * l - X * w * l) in R2a, R2b by ring. rewrite Xl, Ml in R2a, R2b. lra. }
  assert (C1 : IZR c * l <= q * l) by (apply Rmult_le_compat_r; lra).
  assert (C2 : q * l <= (IZR c + 1) * l) by (apply Rmult_le_compat_r; lra).
  split; [fold l in R3 |- *; lra|].
  apply abs2 in R2. assert (eta <= 1) by (apply (bpow_le radix2 (-150) 0); lia).
  apply le_IZR. rewrite abs_IZR. apply abs2. lra.
Qed.

(** the position inside the chunk *)
Lemma in_chunk_ok x : is_finite x = true -> Rabs (f2r x) <= M ->
  let c := chunk1_32 L x in let v := fminus32 x (fmult32 (f32_of_Z c) L) in
  is_finite v = true /\ Rabs (f2r v - (f2r x - IZR c * f2r L)) <= 102 / 100 * u * M + 205 / 100 * u * f2r L.
Proof.
  intros Fx Bx. pose proof L_pos as PL. pose proof eta_L as Et. destruct (chunk_ok x Fx Bx) as [C1 C2]. cbn zeta.
  set (c := chunk1_32 L x) in *. destruct (of_Z_exact c ltac:(lia)) as [Fc Ec].
  assert (B60 : bpow radix2 60 = 1152921504606846976) by (cbn; lra).
  assert (B100 : bpow radix2 100 = 1267650600228229401496703205376) by (cbn; lra).
  set (l := f2r L) in *. set (X := f2r x) in *.
  assert (Cl : Rabs (IZR c * l) <= M + l + D).
  { fold l. apply abs2. apply abs2 in Bx. lra. }
  fold l in Cl. destruct (mul_fin (f32_of_Z c) L Fc FL) as [Fd Ed].
  { rewrite Ec. fold l. eapply Rle_trans; [exact Cl|]. rewrite B100. rewrite B60 in BL. lra. }
  rewrite Ec in Ed. fold l in Ed. set (d := fmult32 (f32_of_Z c) L) in *.
  pose proof (rnd_err (IZR c * l)) as R1. rewrite <- Ed in R1. change (bpow radix2 (-24)) with u in R1.
  assert (R1' : Rabs (f2r d - IZR c * l) <= 101 / 100 * u * M + 102 / 100 * u * l).
  { eapply Rle_trans; [exact R1|]. assert (u * Rabs (IZR c * l) <= u * (M + l + (203 / 100 * u * M + / 500 * u * l))) by (apply Rmult_le_compat_l; lra). lra. }
  apply abs2 in R1'.
  assert (Xd : Rabs (X - f2r d) <= 101 / 100 * l + 5 * u * M).
  { apply abs2. lra. }
  destruct (sub_fin x d Fx Fd) as [Fv Ev].
  { fold X. eapply Rle_trans; [exact Xd|]. rewrite B100. rewrite B60 in BL. lra. }
  split; [exact Fv|]. rewrite Ev. fold X. pose proof (rnd_err (X - f2r d)) as R2. change (bpow radix2 (-24)) with u in R2.
  assert (R2' : Rabs (rnd (X - f2r d) - (X - f2r d)) <= 102 / 100 * u * l + 6 * u * u * M).
  { eapply Rle_trans; [exact R2|]. assert (u * Rabs (X - f2r d) <= u * (101 / 100 * l + 5 * u * M)) by (apply Rmult_le_compat_l; lra). lra. }
  apply abs2 in R2'. apply abs2. lra.
Qed.

(** neighbours up to the tolerance end up in each other's chunks *)
Lemma axis32 x y : is_finite x = true -> is_finite y = true -> Rabs (f2r x) <= M -> Rabs (f2r y) <= M ->
  Rabs (f2r x - f2r y) + 8 * u * (M + f2r L) <= f2r rmax ->
  let cx := chunk1_32 L x in let cy := chunk1_32 L y in
  (cy - cx = 0 \/ cy - cx = bound1_32 L rmax x cx)%Z.
Proof.
  intros Fx Fy Bx By Bd. pose proof L_pos as PL. pose proof eta_L as Et.
  destruct (chunk_ok x Fx Bx) as [X1 _]. destruct (chunk_ok y Fy By) as [Y1 _]. destruct (in_chunk_ok x Fx Bx) as [Fv Ev]. cbn zeta in *.
  set (cx := chunk1_32 L x) in *. set (cy := chunk1_32 L y) in *. set (v := fminus32 x (fmult32 (f32_of_Z cx) L)) in *.
  set (l := f2r L) in *. set (X := f2r x) in *. set (Y := f2r y) in *. set (rm := f2r rmax) in *.
  assert (Bd' : - (rm - 8 * u * (M + l)) <= X - Y <= rm - 8 * u * (M + l)) by (apply abs2; lra).
  apply abs2 in Ev.
  assert (B60 : bpow radix2 60 = 1152921504606846976) by (cbn; lra).
  assert (B100 : bpow radix2 100 = 1267650600228229401496703205376) by (cbn; lra).
  destruct (sub_fin L rmax FL Fr) as [Fh Eh]. { fold l rm. rewrite B100. apply abs2. rewrite B60 in BL. lra. }
  fold l rm in Eh. pose proof (rnd_err (l - rm)) as R1. rewrite <- Eh in R1. change (bpow radix2 (-24)) with u in R1.
  rewrite (Rabs_pos_eq (l - rm)) in R1 by lra. apply abs2 in R1.
  assert (Hr : rm <= f2r (fminus32 L rmax)) by (rewrite Eh; apply rnd_ge; [apply fmt_f|lra]).
  unfold bound1_32. cbv zeta. fold v.
  (* cy is at most one away from cx *)
  assert (K1 : (cy <= cx + 1)%Z).
  { apply Z.nlt_ge. intros K. assert (K' : IZR (cx + 2) <= IZR cy) by (apply IZR_le; lia). rewrite plus_IZR in K'.
    apply (Rmult_le_compat_r l) in K'; [|lra]. lra. }
  assert (K2 : (cx - 1 <= cy)%Z).
  { apply Z.nlt_ge. intros K. assert (K' : IZR cy <= IZR (cx - 2)) by (apply IZR_le; lia). rewrite minus_IZR in K'.
    apply (Rmult_le_compat_r l) in K'; [|lra]. lra. }
  destruct (Z.eq_dec cy cx) as [->|Ne]; [left; lia|right].
  destruct (Z.eq_dec cy (cx - 1)) as [E|Ne2].
  - replace (Bltb v rmax) with true; [lia|]. symmetry. apply ltb_fin; auto. fold rm.
    rewrite E, minus_IZR in Y1. lra.
  - assert (E : cy = (cx + 1)%Z) by lia. rewrite E, plus_IZR in Y1.
    assert (Hv : f2r (fminus32 L rmax) < f2r v) by lra.
    destruct (Bltb v rmax) eqn:T1; [apply ltb_fin in T1; auto; fold rm in T1; lra|].
    replace (Bltb (fminus32 L rmax) v) with true; [lia|]. symmetry. apply ltb_fin; auto.
Qed.
End Axis.
