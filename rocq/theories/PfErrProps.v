(** Rounding errors of the measurement update in binary32: C01 and C03 in float arithmetic. *)
From Coq Require Import Reals ZArith List Bool Lra Lia Psatz.
From Flocq Require Import Core.Core IEEE754.BinarySingleNaN.
From Verif Require Import Arith PfModel PfSpec PfProofs Ieee PfIeee IeeeErr.
Import ListNotations.
Open Scope R_scope.

Lemma add32_close a b : is_finite a = true -> is_finite b = true -> is_finite (fplus32 a b) = true ->
  close ulp32 (B2R (fplus32 a b)) (B2R a + B2R b).
Proof.
  intros Fa Fb Fs. pose proof (Bplus_correct 24 128 _ _ mode_NE a b Fa Fb) as H.
  destruct (Rlt_bool _ _).
  - destruct H as (H1 & _). change (Bplus mode_NE a b) with (fplus32 a b) in H1. rewrite H1.
    destruct (Plus_error.FLT_plus_error_N_ex radix2 (3 - 128 - 24) 24 (fun z => negb (Z.even z)) (B2R a) (B2R b) (generic_format_B2R 24 128 a) (generic_format_B2R 24 128 b)) as (e & E1 & E2).
    exists e. split; [|exact E2]. eapply Rle_trans; [exact E1|]. rewrite <- half_ulp32. apply (Relative.u_rod1pu_ro_le_u_ro radix2 24).
  - exfalso. destruct H as (H & _). change (Bplus mode_NE a b) with (fplus32 a b) in H. destruct (fplus32 a b) as [s|s| |s m e K]; try discriminate; cbn in H; unfold binary_overflow in H; destruct (overflow_to_inf _ _); discriminate.
Qed.
Definition rsum32 (l : list f32) : R := Rsum (map f2r l).
(** the float sum of finite numbers without sign, left to right *)
Lemma fold_close (l : list f32) : forall a, nonneg32 a -> Forall nn l -> is_finite (fold_left fplus32 l a) = true ->
  let n := length l in
  (f2r a + rsum32 l) * (1 - ulp32) ^ n <= f2r (fold_left fplus32 l a) <= (f2r a + rsum32 l) * (1 + ulp32) ^ n /\ 0 <= rsum32 l.
Proof.
  induction l as [|x l IH]; intros a Ha Hl Hf; cbn zeta.
  - cbn [fold_left length pow rsum32]. unfold rsum32. cbn [map Rsum fold_right]. destruct Ha as [_ Ha]. split; [split; right; ring|lra].
  - inversion Hl as [|? ? Hx Hl']; subst. cbn [fold_left] in *.
    destruct (plus_nn a x (nonneg_nn _ Ha) Hx) as [P1 P2]. destruct (fold_plus_nn l (fplus32 a x) P1 Hl') as [_ Q2]. destruct (Q2 Hf) as (R1 & _ & _).
    destruct (P2 R1) as (S1 & S2 & _). assert (Nx : nonneg32 x) by (apply nn_finite; assumption). assert (Ns : nonneg32 (fplus32 a x)) by (apply nn_finite; assumption).
    destruct (IH (fplus32 a x) Ns Hl' Hf) as [[L U] B]. destruct (add32_close a x (proj1 Ha) (proj1 Nx) R1) as (e & E1 & E2).
    fold (f2r a) (f2r x) (f2r (fplus32 a x)) in E2. apply Rabs_le_inv in E1. unfold rsum32. cbn [map Rsum fold_right length pow]. fold (rsum32 l).
    change (fold_right Rplus 0 (map f2r l)) with (rsum32 l).
    destruct Ha as [_ Ha], Nx as [_ Nx]. assert (Hu : 0 < ulp32 < 1) by (unfold ulp32; lra).
    pose proof (pow_le (1 - ulp32) (length l) ltac:(lra)) as W1. pose proof (pow_le (1 + ulp32) (length l) ltac:(lra)) as W2.
    split; [|lra]. split.
    + eapply Rle_trans; [|exact L]. rewrite <- Rmult_assoc. apply Rmult_le_compat_r; [exact W1|]. rewrite E2. nra.
    + eapply Rle_trans; [exact U|]. rewrite <- Rmult_assoc. apply Rmult_le_compat_r; [exact W2|]. rewrite E2. nra.
Qed.
Lemma bernoulli u n : 0 <= u <= 1 -> 1 - INR n * u <= (1 - u) ^ n.
Proof.
  intro U. induction n as [|n IH]; [cbn; lra|]. rewrite S_INR. cbn [pow]. pose proof (pos_INR n).
  apply Rle_trans with ((1 - u) * (1 - INR n * u)); [nra|]. apply Rmult_le_compat_l; [lra|exact IH].
Qed.
Lemma pow_upper u n : 0 <= u -> INR n * u <= / 16 -> (1 + u) ^ n <= 1 + INR n * u * (16 / 15).
Proof.
  intros U H. assert (U1 : n = 0%nat \/ u <= 1). { destruct n; [left; reflexivity|right]. rewrite S_INR in H. pose proof (pos_INR n). nra. }
  destruct U1 as [->|U1]; [cbn; lra|]. pose proof (bernoulli u n ltac:(lra)) as B. set (m := INR n * u) in *.
  assert (M : 0 <= m) by (apply Rmult_le_pos; [apply pos_INR|exact U]).
  assert (P : (1 + u) ^ n * (1 - u) ^ n <= 1). { rewrite <- Rpow_mult_distr. apply Rle_trans with (1 ^ n); [|rewrite pow1; lra]. apply pow_incr. split; nra. }
  pose proof (pow_le (1 + u) n ltac:(lra)) as Q. nra.
Qed.
(** relative error of the sum *)
Lemma sum_close (l : list f32) : Forall nn l -> is_finite (fold_left fplus32 l (B754_zero false)) = true -> INR (length l) <= 1048576 ->
  close (INR (length l) * ulp32 * (16 / 15)) (f2r (fold_left fplus32 l (B754_zero false))) (rsum32 l) /\ 0 <= rsum32 l /\ INR (length l) * ulp32 <= / 16.
Proof.
  intros Hl Hf Hn. destruct (fold_close l (B754_zero false) (conj eq_refl (Rle_refl 0)) Hl Hf) as [[L U] B].
  change (f2r (B754_zero false)) with 0 in L, U. rewrite Rplus_0_l in L, U.
  assert (Hu : 0 < ulp32 < 1) by (unfold ulp32; lra). pose proof (pos_INR (length l)) as N0.
  assert (Hm : INR (length l) * ulp32 <= / 16).
  { unfold ulp32. lra. }
  pose proof (bernoulli ulp32 (length l) ltac:(lra)) as B1. pose proof (pow_upper ulp32 (length l) ltac:(lra) Hm) as B2.
  set (m := INR (length l) * ulp32) in *. assert (M : 0 <= m) by (apply Rmult_le_pos; lra). split; [|split; assumption].
  apply close_iff; [lra|]. rewrite (Rabs_pos_eq (rsum32 l)) by exact B. apply Rabs_le. split; nra.
Qed.

Lemma nth_error_ext2 {B} (l l' : list B) : (forall i, nth_error l i = nth_error l' i) -> l = l'.
Proof.
  revert l'. induction l as [|x l IH]; intros [|y l'] H; [reflexivity|discriminate (H 0%nat)|discriminate (H 0%nat)|].
  pose proof (H 0%nat) as E. injection E as ->. f_equal. apply IH. intro i. exact (H (S i)).
Qed.
Section W.
Context (log : f32 -> f32) {T : Type}.
Notation A := (B32 log).
Variables (L : nat -> T -> f32) (f : filter A T).
Hypothesis (Hw : forall p, In p (parts A f) -> nonneg32 (w A p))
           (HL : forall i p, nth_error (parts A f) i = Some p -> nonneg32 (L i (st A p)))
           (Hn : INR (length (parts A f)) <= 1048576).
Notation sc := (scores A L f : list f32).
Notation S := (total32 log L f).
Lemma scores_length : length sc = length (parts A f).
Proof. unfold scores. rewrite map_length, combine_length, seq_length, Nat.min_id. reflexivity. Qed.
Lemma measured_weights : Bltb (B754_zero false) S = true -> weights A (measure A L f) = map (fun x : f32 => fdiv32 x S : A) sc.
Proof.
  intro Ht. apply nth_error_ext2. intro i. destruct (nth_error (parts A f) i) as [p|] eqn:Hp.
  - refine (eq_trans (measure_weight32 log L f i p Hp Ht) (eq_sym (eq_trans (nth_error_map _ _ _) _))).
    refine (eq_trans (f_equal (option_map _) (nth_scores32 log L f i p Hp)) _). reflexivity.
  - pose proof (proj1 (nth_error_None _ _) Hp) as Hi. transitivity (@None A); [|symmetry]; apply nth_error_None.
    + unfold weights. rewrite map_length. destruct (measure_shape A L f) as (E & _). rewrite E. exact Hi.
    + rewrite map_length. pose proof scores_length as E. cbn in E |- *. rewrite E. exact Hi.
Qed.
Lemma div32_abs (x s : f32) : nonneg32 x -> nonneg32 s -> 0 < f2r s -> f2r x <= f2r s ->
  Rabs (f2r (fdiv32 x s) - f2r x / f2r s) <= ulp32 * (f2r x / f2r s) + / 1000000000000000000000000000000.
Proof.
  intros [Fx Px] [Fs Ps] Hs Hle. assert (Q : 0 <= f2r x / f2r s <= 1).
  { split; [apply Rmult_le_pos; [lra|left; apply Rinv_0_lt_compat; lra]|]. apply Rmult_le_reg_r with (f2r s); [lra|]. unfold Rdiv. rewrite Rmult_assoc, Rinv_l by lra. lra. }
  assert (Bb : 1 <= bpow radix2 (128 - 1)) by (change 1 with (bpow radix2 0); apply bpow_le; lia).
  assert (Bm : / 2 * bpow radix2 (3 - 128 - 24) <= / 1000000000000000000000000000000) by (cbn; lra).
  destruct (div_close_abs 24 128 x s Fx) as [_ (e & h & E1 & E2 & E3)]; [unfold f2r in *; lra|fold (f2r x) (f2r s); rewrite Rabs_pos_eq; lra|].
  rewrite half_ulp32 in E1. change (Bdiv mode_NE x s) with (fdiv32 x s) in E3. fold (f2r (fdiv32 x s)) (f2r x) (f2r s) in E3. rewrite E3.
  replace (f2r x / f2r s * (1 + e) + h - f2r x / f2r s) with (f2r x / f2r s * e + h) by ring.
  eapply Rle_trans; [apply Rabs_triang|]. rewrite Rabs_mult, (Rabs_pos_eq (f2r x / f2r s)) by lra. apply Rplus_le_compat; [|lra]. rewrite Rmult_comm. apply Rmult_le_compat_r; lra.
Qed.
Lemma quotients_sum (s : f32) (l : list f32) : nonneg32 s -> 0 < f2r s -> Forall (fun x => nonneg32 x /\ f2r x <= f2r s) l ->
  Rabs (rsum32 (map (fun x => fdiv32 x s) l) - rsum32 l / f2r s) <= ulp32 * (rsum32 l / f2r s) + INR (length l) * / 1000000000000000000000000000000.
Proof.
  intros Ns Hs H. induction H as [|x l [Hx1 Hx2] _ IH].
  - unfold rsum32. cbn [map Rsum fold_right length INR]. unfold Rdiv. rewrite Rmult_0_l, Rminus_0_r, Rabs_R0. lra.
  - cbn [map length]. rewrite S_INR. unfold rsum32 in *. cbn [map Rsum fold_right]. change (fold_right Rplus 0) with Rsum.
    pose proof (div32_abs x s Hx1 Ns Hs Hx2) as D. set (r := Rsum (map f2r l)) in *. set (q := Rsum (map f2r (map (fun x => fdiv32 x s) l))) in *.
    replace ((f2r x + r) / f2r s) with (f2r x / f2r s + r / f2r s) by (field; lra).
    replace (f2r (fdiv32 x s) + q - (f2r x / f2r s + r / f2r s)) with ((f2r (fdiv32 x s) - f2r x / f2r s) + (q - r / f2r s)) by ring.
    eapply Rle_trans; [apply Rabs_triang|]. lra.
Qed.
Lemma scores_ok : is_finite S = true -> Forall nn sc /\ Forall (fun x => nonneg32 x /\ f2r x <= f2r S) sc.
Proof.
  intro Hf. pose proof (scores_nn log L f Hw HL) as N. split; [exact N|].
  destruct (fold_plus_nn sc (B754_zero false) ltac:(cbn; apply Rle_refl) N) as [_ H2]. destruct (H2 Hf) as (_ & _ & H3).
  rewrite Forall_forall in *. intros x Hx. destruct (H3 x Hx) as [F1 F2]. split; [|exact F2]. apply nn_finite; [apply N; exact Hx|exact F1].
Qed.
Lemma total_facts : is_finite S = true -> 0 < f2r S ->
  Bltb (B754_zero false) S = true /\ nonneg32 S /\ 0 < rsum32 sc /\
  let m := INR (length (parts A f)) * ulp32 in close (m * (16 / 15)) (f2r S) (rsum32 sc) /\ 0 <= m <= / 16.
Proof.
  intros Hf Hp. destruct (scores_ok Hf) as [N _]. destruct (sum_close sc N Hf) as (C & P & M). { rewrite scores_length. exact Hn. }
  rewrite scores_length in C, M. fold S in C.
  assert (M0 : 0 <= INR (length (parts A f)) * ulp32) by (apply Rmult_le_pos; [apply pos_INR|unfold ulp32; lra]).
  split. { rewrite Bltb_correct by (reflexivity || exact Hf). apply Rlt_bool_true. exact Hp. }
  split; [split; [exact Hf|lra]|]. split; [|split; [exact C|split; assumption]].
  destruct (Rle_lt_or_eq_dec _ _ P) as [|E]; [assumption|]. exfalso. destruct C as (e & _ & E2). rewrite <- E in E2. lra.
Qed.
(** the weights computed by a measurement add up to one within (n + 1) / 8388608 *)
Theorem C03_weights_add_up_to_one : is_finite S = true -> 0 < f2r S ->
  Rabs (rsum32 (weights A (measure A L f)) - 1) <= (INR (length (parts A f)) + 1) * / 8388608.
Proof.
  intros Hf Hp. destruct (total_facts Hf Hp) as (Ht & Ns & Hps & C & M). destruct (scores_ok Hf) as [_ O].
  pose proof (quotients_sum S sc Ns Hp O) as Q. rewrite (measured_weights Ht). rewrite scores_length in Q.
  set (n := INR (length (parts A f))) in *. set (q := rsum32 (map (fun x : f32 => fdiv32 x S) sc)) in *. change (Rabs (q - 1) <= (n + 1) * / 8388608).
  set (P := rsum32 sc) in *. set (s := f2r S) in *. clearbody q P s. set (k := n * ulp32 * (16 / 15)) in *.
  assert (Hk : 0 <= k <= / 15) by (unfold k; lra).
  assert (D : close (n * ulp32 * (16 / 15) * (15 / 14)) (P / s) 1).
  { apply close_inv with (m := k * (15 / 14)) in C; [|lra|lra|nra]. destruct C as (e & E1 & E2). exists e. split; [exact E1|]. unfold Rdiv. rewrite E2. field. lra. }
  destruct D as (e & E1 & E2). rewrite E2 in Q. apply Rabs_le_inv in E1. apply Rabs_le_inv in Q. unfold ulp32 in *. apply Rabs_le. split; lra.
Qed.
(** the exact products of weight and likelihood *)
Definition exact_scores : list R := map (fun ip => f2r (w A (snd ip)) * f2r (L (fst ip) (st A (snd ip)))) (combine (seq 0 (length (parts A f))) (parts A f)).
Lemma mul32_fin (a b : f32) : nonneg32 a -> nonneg32 b -> is_finite (fmult32 a b) = true ->
  Rabs (f2r (fmult32 a b) - f2r a * f2r b) <= ulp32 * (f2r a * f2r b) + / 1000000000000000000000000000000000000000000000.
Proof.
  intros [Fa Pa] [Fb Pb] Hf. pose proof (Bmult_correct 24 128 _ _ mode_NE a b) as H. fold (f2r a) (f2r b) in H.
  assert (Bm : / 2 * bpow radix2 (3 - 128 - 24) <= / 1000000000000000000000000000000000000000000000) by (cbn; lra).
  assert (X : 0 <= f2r a * f2r b) by (apply Rmult_le_pos; assumption).
  destruct (Rlt_bool _ _).
  - destruct H as (H1 & _). change (Bmult mode_NE a b) with (fmult32 a b) in H1. fold (f2r (fmult32 a b)) in H1. rewrite H1.
    destruct (Relative.relative_error_N_FLT'_ex radix2 (3 - 128 - 24) 24 eq_refl (fun z => negb (Z.even z)) (f2r a * f2r b)) as (e & h & E1 & E2 & _ & E3).
    pose proof (Rle_trans _ _ _ E1 (Relative.u_rod1pu_ro_le_u_ro radix2 24)) as E1'. change (Relative.u_ro radix2 24) with (/ 2 * bpow radix2 (- (24) + 1)) in E1'. rewrite half_ulp32 in E1'.
    assert (E3' : rnd (f2r a * f2r b) = f2r a * f2r b * (1 + e) + h) by exact E3. rewrite E3'.
    replace (f2r a * f2r b * (1 + e) + h - f2r a * f2r b) with (f2r a * f2r b * e + h) by ring.
    eapply Rle_trans; [apply Rabs_triang|]. rewrite Rabs_mult, (Rabs_pos_eq _ X). apply Rplus_le_compat; [|lra]. rewrite Rmult_comm. apply Rmult_le_compat_r; lra.
  - exfalso. change (Bmult mode_NE a b) with (fmult32 a b) in H. destruct (fmult32 a b) as [s|s| |s m e K]; try discriminate; cbn in H; unfold binary_overflow in H; destruct (overflow_to_inf _ _); discriminate.
Qed.
Lemma products_sum (l : list f32) (xs : list R) : Forall2 (fun p x => 0 <= x /\ Rabs (f2r p - x) <= ulp32 * x + / 1000000000000000000000000000000000000000000000) l xs ->
  0 <= Rsum xs /\ Rabs (rsum32 l - Rsum xs) <= ulp32 * Rsum xs + INR (length l) * / 1000000000000000000000000000000000000000000000.
Proof.
  intro H. induction H as [|p x l xs [H1 H2] _ [I0 I1]].
  - unfold rsum32. cbn [map Rsum fold_right length INR]. rewrite Rminus_0_r, Rabs_R0. lra.
  - cbn [length]. rewrite S_INR. unfold rsum32 in *. cbn [map Rsum fold_right]. change (fold_right Rplus 0) with Rsum. split; [lra|].
    replace (f2r p + Rsum (map f2r l) - (x + Rsum xs)) with ((f2r p - x) + (Rsum (map f2r l) - Rsum xs)) by ring. eapply Rle_trans; [apply Rabs_triang|]. lra.
Qed.
Lemma combine_seq_in (l : list (particle A T)) : forall a i p, nth_error l i = Some p -> In ((a + i)%nat, p) (combine (seq a (length l)) l).
Proof.
  induction l as [|x l IH]; intros a [|i] p H; cbn in H; try discriminate.
  - injection H as ->. left. rewrite Nat.add_0_r. reflexivity.
  - right. rewrite Nat.add_succ_r. apply (IH (Datatypes.S a) i p H).
Qed.
Lemma scores_exact : is_finite S = true -> Forall2 (fun p x => 0 <= x /\ Rabs (f2r p - x) <= ulp32 * x + / 1000000000000000000000000000000000000000000000) sc exact_scores.
Proof.
  intro Hf. destruct (scores_ok Hf) as [_ O]. rewrite Forall_forall in O.
  assert (In2 : forall ip, In ip (combine (seq 0 (length (parts A f))) (parts A f)) -> nth_error (parts A f) (fst ip) = Some (snd ip)).
  { intros ip H. apply In_nth_error in H. destruct H as [k Hk]. revert Hk. rewrite <- (seq_length (length (parts A f)) 0) at 1. intro Hk.
    assert (G : forall (l : list (particle A T)) a k ip, nth_error (combine (seq a (length l)) l) k = Some ip -> fst ip = (a + k)%nat /\ nth_error l k = Some (snd ip)).
    { clear. induction l as [|x l IH]; intros a [|k] ip H; cbn in H; try discriminate.
      - injection H as <-. cbn. split; [lia|reflexivity].
      - destruct (IH (Datatypes.S a) k ip H) as [E1 E2]. split; [lia|exact E2]. }
    rewrite seq_length in Hk. destruct (G _ _ _ _ Hk) as [E1 E2]. rewrite E1. exact E2. }
  unfold exact_scores, scores in *. revert In2 O. generalize (combine (seq 0 (length (parts A f))) (parts A f)). induction l as [|ip l IH]; intros In2 O; [constructor|].
  cbn [map]. constructor; [|apply IH; intros; [apply In2; right; assumption|apply O; right; assumption]].
  pose proof (In2 ip (or_introl eq_refl)) as Hp. pose proof (Hw _ (nth_error_In _ _ Hp)) as N1. pose proof (HL _ _ Hp) as N2.
  split; [apply Rmult_le_pos; [apply N1|apply N2]|]. apply mul32_fin; [exact N1|exact N2|]. apply (O (fmult32 (w A (snd ip)) (L (fst ip) (st A (snd ip))))). left. reflexivity.
Qed.
(** the weight computed for a particle is the exact posterior probability (weight times
    likelihood, divided by the sum of these products) within (n + 4) / 4194304 *)
Theorem C01_float_bayes : is_finite S = true -> / 1267650600228229401496703205376 <= f2r S ->
  forall i p, nth_error (parts A f) i = Some p -> exists w', nth_error (weights A (measure A L f)) i = Some w' /\
    Rabs (f2r w' - f2r (w A p) * f2r (L i (st A p)) / Rsum exact_scores) <= (INR (length (parts A f)) + 4) * / 4194304.
Proof.
  intros Hf Hbig i p Hp. assert (Hpos : 0 < f2r S) by lra. destruct (total_facts Hf Hpos) as (Ht & Ns & Hps & C & M). destruct (scores_ok Hf) as [_ O].
  exists (fdiv32 (fmult32 (w A p) (L i (st A p))) S). split; [exact (measure_weight32 log L f i p Hp Ht)|].
  pose proof (nth_scores32 log L f i p Hp) as Hs. rewrite Forall_forall in O. destruct (O _ (nth_error_In _ _ Hs)) as [Nx Lx].
  pose proof (Hw _ (nth_error_In _ _ Hp)) as N1. pose proof (HL _ _ Hp) as N2.
  pose proof (div32_abs _ S Nx Ns Hpos Lx) as D. pose proof (mul32_fin _ _ N1 N2 (proj1 Nx)) as E.
  destruct (products_sum sc exact_scores (scores_exact Hf)) as [X0 X1]. rewrite scores_length in X1.
  assert (Hx : f2r (w A p) * f2r (L i (st A p)) <= Rsum exact_scores).
  { assert (G : forall l x, In x l -> Forall (fun y => 0 <= y) l -> x <= Rsum l).
    { clear. induction l as [|y l IH]; intros x H F; [destruct H|]. inversion F as [|? ? F1 F2]; subst. cbn [Rsum fold_right]. change (fold_right Rplus 0 l) with (Rsum l).
      assert (0 <= Rsum l) by (clear -F2; induction F2; cbn [Rsum fold_right]; [lra|]; change (fold_right Rplus 0 l) with (Rsum l); lra). destruct H as [->|H]; [lra|]. specialize (IH x H F2). lra. }
    apply G.
    - unfold exact_scores. apply in_map_iff. exists (i, p). split; [reflexivity|]. apply (combine_seq_in (parts A f) 0 i p Hp).
    - pose proof (scores_exact Hf) as F. clear -F. induction F as [|a b l l' [H _] _ IH]; constructor; assumption. }
  assert (Hx0 : 0 <= f2r (w A p) * f2r (L i (st A p))) by (apply Rmult_le_pos; [apply N1|apply N2]).
  set (x := f2r (w A p) * f2r (L i (st A p))) in *. set (y := f2r (fmult32 (w A p) (L i (st A p)))) in *. set (q := f2r (fdiv32 _ S)) in *.
  set (n := INR (length (parts A f))) in *. set (P := rsum32 sc) in *. set (X := Rsum exact_scores) in *. set (s := f2r S) in *.
  assert (Hn' : 0 <= n <= 1048576) by (split; [apply pos_INR|exact Hn]). destruct Nx as [_ Y0]. change (0 <= y) in Y0. change (y <= s) in Lx.
  clearbody x y q P X s n. clear - D E X0 X1 Hx Hx0 C M Hps Hpos Hbig Hn' Y0 Lx. set (m := n * ulp32) in *.
  assert (Um : m = n * / 16777216) by reflexivity. unfold ulp32 in D, E, X1. clearbody m.
  assert (P1 : 14 / 15 * s <= P). { destruct C as (e & E1 & E2). apply Rabs_le_inv in E1. assert (e <= / 15) by lra. assert (P * e <= P * / 15) by (apply Rmult_le_compat_l; lra). lra. }
  assert (X2 : / 2 * s <= X). { apply Rabs_le_inv in X1. lra. }
  assert (C2 : close (/ 8000000) P X). { apply close_iff; [lra|]. rewrite (Rabs_pos_eq X) by lra. eapply Rle_trans; [exact X1|]. lra. }
  set (k := m * (11 / 10) + / 5000000). assert (Hk : 0 <= k <= 7 / 100) by (unfold k; lra).
  assert (C3 : close k s X). { refine (close_trans _ _ _ _ _ _ C C2 _). unfold k. lra. }
  assert (C4 : close (k * (11 / 10)) (/ s) (/ X)) by (apply (close_inv _ _ _ _ C3); [lra|lra|nra]).
  destruct C4 as (e & E1 & E2). set (r := x / X). assert (Hr : 0 <= r <= 1).
  { unfold r. split; [apply Rmult_le_pos; [lra|left; apply Rinv_0_lt_compat; lra]|]. apply Rmult_le_reg_r with X; [lra|]. unfold Rdiv. rewrite Rmult_assoc, Rinv_l by lra. lra. }
  assert (Es : x / s = r * (1 + e)) by (unfold Rdiv, r; rewrite E2; unfold Rdiv; ring).
  apply Rabs_le_inv in E1. assert (Re : Rabs (r * e) <= k * (11 / 10)). { rewrite Rabs_mult, (Rabs_pos_eq r) by lra. rewrite <- (Rmult_1_l (k * (11 / 10))). apply Rmult_le_compat; try lra; [apply Rabs_pos|apply Rabs_le; lra]. }
  apply Rabs_le_inv in Re. assert (Xs : x / s <= 11 / 10) by (rewrite Es; lra).
  assert (Is : 0 < / s <= 2000000000000000000000000000000). { split; [apply Rinv_0_lt_compat; lra|]. replace 2000000000000000000000000000000 with (/ / 2000000000000000000000000000000) by field. apply Rinv_le; lra. }
  assert (Yd : Rabs (y / s - x / s) <= / 16777216 * (11 / 10) + / 100000000000000).
  { replace (y / s - x / s) with ((y - x) * / s) by (unfold Rdiv; ring). rewrite Rabs_mult, (Rabs_pos_eq (/ s)) by lra.
    eapply Rle_trans; [apply Rmult_le_compat_r; [lra|exact E]|]. rewrite Rmult_plus_distr_r, Rmult_assoc. change (x * / s) with (x / s). apply Rplus_le_compat; lra. }
  apply Rabs_le_inv in Yd. assert (Ys : y / s <= 1). { apply Rmult_le_reg_r with s; [lra|]. unfold Rdiv. rewrite Rmult_assoc, Rinv_l by lra. lra. }
  apply Rabs_le_inv in D. rewrite Es in Yd. apply Rabs_le. unfold k in *. split; lra.
Qed.
End W.
Example C01_float_nonvacuous (log : f32 -> f32) :
  let p x := {| st := true; w := f32_of_Z x : B32 log; bias := f0; acc := None |} in
  let f := {| parts := [p 1%Z; p 2%Z; p 0%Z]; entropy := None |} in
  (forall q, In q (parts (B32 log) f) -> nonneg32 (w _ q)) /\ nonneg32 (f32_of_Z 7) /\
  INR (length (parts (B32 log) f)) <= 1048576 /\
  is_finite (total32 log (fun _ _ => f32_of_Z 7) f) = true /\
  / 1267650600228229401496703205376 <= f2r (total32 log (fun _ _ => f32_of_Z 7) f).
Proof.
  cbn zeta. split; [|split; [|split; [|split; [reflexivity|]]]].
  - intros q [<-|[<-|[<-|[]]]]; split; try reflexivity; unfold f2r; vm_compute; try lra.
  - split; [reflexivity|]. unfold f2r. vm_compute. lra.
  - cbn. lra.
  - assert (E : f2r (total32 log (fun (_ : nat) (_ : bool) => f32_of_Z 7) {| parts := [{| st := true; w := f32_of_Z 1 : B32 log; bias := f0; acc := None |}; {| st := true; w := f32_of_Z 2 : B32 log; bias := f0; acc := None |}; {| st := true; w := f32_of_Z 0 : B32 log; bias := f0; acc := None |}]; entropy := None |}) = 21).
    { unfold f2r. rewrite <- SF2R_B2SF. lazy -[SF2R IZR Rmult Rinv Rdiv]. unfold SF2R, F2R. cbn. lra. }
    rewrite E. lra.
Qed.
