(** C15 in binary32: whatever is done to the filter, its weights stay a probability distribution
    up to rounding. *)
From Coq Require Import Reals ZArith List Bool Lra Lia Psatz Permutation.
From Flocq Require Import Core.Core IEEE754.BinarySingleNaN.
From Verif Require Import Arith NdModel PfModel PfSpec PfProofs PfReal PfHist Ieee PfIeee IeeeErr PfErrProps.
Import ListNotations.
Open Scope R_scope.

Section D.
Context (log : f32 -> f32) {T : Type}.
Notation A := (B32 log).
Implicit Type (f : filter A T).
(** a number between 0 and 1 *)
Definition prob32 (x : f32) : Prop := is_finite x = true /\ 0 <= f2r x <= 1.
Definition distribution32 f : Prop :=
  parts A f <> [] /\ Forall prob32 (weights A f) /\ Rabs (rsum32 (weights A f) - 1) <= (INR (length (parts A f)) + 1) * / 8388608.
(** what the caller must respect: finite likelihoods between 0 and 2^100 *)
Definition well_called32 (o : op A T) : Prop :=
  match o with
  | OMeasure _ L => forall i s, nonneg32 (L i s) /\ f2r (L i s) <= 1267650600228229401496703205376
  | OResize _ _ n _ => (0 < n)%nat
  | _ => True
  end.
(** an upper bound for the number of particles *)
Definition size_after (n : nat) (o : op A T) : nat :=
  match o with OResize _ _ k _ => k | OAppend _ _ k => (n + k)%nat | _ => n end.
Fixpoint sizes_ok (n : nat) (ops : list (op A T)) : Prop :=
  match ops with [] => True | o :: ops' => INR (size_after n o) <= 1048576 /\ sizes_ok (size_after n o) ops' end.

Lemma f64_of_Z_exact n : (0 <= n < 2 ^ 53)%Z -> B2R (f64_of_Z n) = IZR n /\ is_finite (f64_of_Z n) = true.
Proof.
  intro H. unfold f64_of_Z. pose proof (binary_normalize_correct 53 1024 _ _ mode_NE n 0 false) as K. cbv zeta in K.
  assert (E : F2R (Float radix2 n 0) = IZR n) by (unfold F2R; cbn; ring).
  assert (G : generic_format radix2 (SpecFloat.fexp 53 1024) (IZR n)).
  { apply (generic_format_FLT radix2 (3 - 1024 - 53) 53). exists (Float radix2 n 0); [symmetry; exact E|cbn; lia|cbn; lia]. }
  rewrite E, round_generic in K by (try typeclasses eauto; exact G).
  assert (B : Rlt_bool (Rabs (IZR n)) (bpow radix2 1024) = true).
  { apply Rlt_bool_true. rewrite Rabs_pos_eq by (apply IZR_le; lia). apply Rlt_trans with (bpow radix2 53); [|apply bpow_lt; lia]. change (bpow radix2 53) with (IZR (2 ^ 53)). apply IZR_lt. lia. }
  rewrite B in K. destruct K as (K1 & K2 & _). split; assumption.
Qed.
Lemma frecip_close n : (0 < n)%nat -> INR n <= 1048576 -> prob32 (frecip (a := A) n) /\ close (/ 16000000) (f2r (frecip (a := A) n)) (/ INR n).
Proof.
  intros Hn Hb. assert (H1 : 1 <= INR n) by (apply (le_INR 1); lia). rewrite INR_IZR_INZ in Hb. apply le_IZR in Hb.
  destruct (f64_of_Z_exact (Z.of_nat n)) as [E F]; [lia|]. rewrite <- INR_IZR_INZ in E. apply IZR_le in Hb. rewrite <- INR_IZR_INZ in Hb.
  destruct (f64_of_Z_exact 1) as [E1 F1]; [lia|]. assert (Hi : / 1048576 <= / INR n <= 1). { split; [apply Rinv_le; lra|]. rewrite <- Rinv_1. apply Rinv_le; lra. }
  destruct (div64_close (f64_of_Z 1) (f64_of_Z (Z.of_nat n)) F1) as [Fd Cd]; [rewrite E; lra|rewrite E, E1; unfold Rdiv; rewrite Rmult_1_l; apply mid_pos; split; lra|].
  rewrite E, E1 in Cd. unfold Rdiv in Cd. rewrite Rmult_1_l in Cd. set (d := div64 (f64_of_Z 1) (f64_of_Z (Z.of_nat n))) in *.
  destruct (close_pos _ _ _ Cd) as [Q _]; [unfold ulp64; lra|lra|]. unfold ulp64 in Q.
  destruct (narrow_close d) as [Fn Cn]. { apply mid_pos. clear -Q Hi. split; lra. }
  change (frecip (a := A) n) with (f32_of_f64 d).
  assert (C : close (/ 16000000) (f2r (f32_of_f64 d)) (/ INR n)). { refine (close_trans _ _ _ _ _ _ Cn Cd _). unfold ulp32, ulp64. lra. }
  split; [|exact C]. split; [exact Fn|]. destruct (close_pos _ _ _ C) as [Q2 P2]; [lra|lra|]. split; [lra|].
  destruct (Nat.eq_dec n 1) as [->|Hn1].
  - change d with (div64 (f64_of_Z 1) (f64_of_Z 1)). unfold f2r. rewrite <- SF2R_B2SF. lazy -[SF2R IZR Rmult Rinv Rdiv Rle]. unfold SF2R, F2R. cbn. lra.
  - assert (H2 : 2 <= INR n) by (apply (le_INR 2); lia). assert (/ INR n <= / 2) by (apply Rinv_le; lra). lra.
Qed.
Lemma rsum32_repeat x n : rsum32 (repeat x n) = INR n * f2r x.
Proof. unfold rsum32. induction n as [|n IH]; [cbn; ring|]. cbn [repeat map Rsum fold_right]. change (fold_right Rplus 0) with Rsum. rewrite IH, S_INR. ring. Qed.
Lemma uniform32 f n : (0 < n)%nat -> INR n <= 1048576 -> length (parts A f) = n -> weights A f = repeat (frecip n) n -> distribution32 f.
Proof.
  intros Hn Hb Hl Hw. destruct (frecip_close n Hn Hb) as [P C]. split; [|split].
  - intro E. rewrite E in Hl. cbn in Hl. lia.
  - rewrite Hw. apply Forall_forall. intros x Hx. apply repeat_spec in Hx. subst. exact P.
  - rewrite Hw, Hl, rsum32_repeat. destruct C as (e & E1 & E2). rewrite E2. assert (1 <= INR n) by (apply (le_INR 1); lia).
    replace (INR n * (/ INR n * (1 + e)) - 1) with e by (field; lra). eapply Rle_trans; [exact E1|]. lra.
Qed.
(** the float sum of bounded numbers is finite *)
Lemma fold_finite (l : list f32) : forall a k, nonneg32 a -> Forall (fun x => nonneg32 x /\ f2r x <= 2535301200456458802993406410752) l ->
  f2r a <= 2 * INR k * 2535301200456458802993406410752 -> INR (k + length l) <= 1048576 -> is_finite (fold_left fplus32 l a) = true.
Proof.
  induction l as [|x l IH]; intros a k Ha Hl Hk Hn; [apply Ha|]. inversion Hl as [|? ? [Hx1 Hx2] Hl']; subst. cbn [fold_left length] in *.
  set (c := 2535301200456458802993406410752) in *. pose proof (pos_INR k) as K0. rewrite plus_INR, S_INR in Hn. pose proof (pos_INR (length l)) as L0.
  assert (Bb : bpow radix2 (128 - 1) = 170141183460469231731687303715884105728) by (cbn; lra). destruct Ha as [Fa Pa], Hx1 as [Fx Px].
  destruct (add_close 24 128 a x Fa Fx) as [Fs Cs]. { rewrite Bb. fold (f2r a) (f2r x). rewrite Rabs_pos_eq by lra. unfold c in *. nra. }
  change (Bplus mode_NE a x) with (fplus32 a x) in *. destruct Cs as (e & E1 & E2). rewrite half_ulp32 in E1. unfold ulp32 in E1. apply Rabs_le_inv in E1. fold (f2r a) (f2r x) (f2r (fplus32 a x)) in E2.
  apply (IH _ (S k)); [| exact Hl'| |].
  - split; [exact Fs|]. rewrite E2. nra.
  - rewrite E2, S_INR. assert (Hs : (f2r a + f2r x) * (1 + e) <= (2 * INR k * c + c) * (1 + / 16777216)) by (apply Rmult_le_compat; lra).
    eapply Rle_trans; [exact Hs|]. unfold c. nra.
  - rewrite plus_INR, S_INR. lra.
Qed.
Lemma weights_nonneg f : Forall prob32 (weights A f) -> forall p, In p (parts A f) -> nonneg32 (w A p) /\ f2r (w A p) <= 1.
Proof. intros H p Hp. rewrite Forall_forall in H. destruct (H (w A p) (in_map _ _ _ Hp)) as [F B]. split; [split; [exact F|]|]; apply B. Qed.
Lemma total_finite (L : nat -> T -> f32) f : Forall prob32 (weights A f) -> INR (length (parts A f)) <= 1048576 ->
  (forall i s, nonneg32 (L i s) /\ f2r (L i s) <= 1267650600228229401496703205376) -> is_finite (total32 log L f) = true.
Proof.
  intros Hw Hn HL. unfold total32. apply (fold_finite _ _ 0).
  - split; [reflexivity|]. cbn. lra.
  - apply Forall_forall. intros x Hx. destruct (scores_in log L f x Hx) as (i & p & Hp & ->). destruct (weights_nonneg f Hw p (nth_error_In _ _ Hp)) as [[F1 P1] B1].
    destruct (HL i (st A p)) as [[F2 P2] B2]. set (a := w A p : f32) in *. set (b := L i (st A p)) in *.
    assert (Bb : bpow radix2 (128 - 1) = 170141183460469231731687303715884105728) by (cbn; lra). assert (X : 0 <= f2r a * f2r b <= 1267650600228229401496703205376) by (split; nra).
    assert (Bm : / 2 * bpow radix2 (3 - 128 - 24) <= 1) by (cbn; lra).
    destruct (mul_close_abs 24 128 a b F1 F2) as [Fm (e & h & E1 & E2 & E3)]. { rewrite Bb. fold (f2r a) (f2r b). rewrite Rabs_pos_eq; lra. }
    change (Bmult mode_NE a b) with (fmult32 a b) in *. rewrite half_ulp32 in E1. unfold ulp32 in E1. apply Rabs_le_inv in E1. pose proof (Rle_trans _ _ _ E2 Bm) as E2'. apply Rabs_le_inv in E2'.
    fold (f2r a) (f2r b) (f2r (fmult32 a b)) in E3. split.
    + apply nn_finite; [apply mult_nn; split; assumption|exact Fm].
    + rewrite E3. nra.
  - cbn. lra.
  - pose proof (scores_length log L f) as E. cbn [Nat.add]. rewrite E. exact Hn.
Qed.
Lemma same32 f (g : filter A T) : weights A g = weights A f -> distribution32 f -> distribution32 g.
Proof.
  intros E (H1 & H2 & H3). assert (El : length (parts A g) = length (parts A f)). { pose proof (f_equal (@length _) E) as K. unfold weights in K. rewrite !map_length in K. exact K. }
  split; [|rewrite E, El; auto]. intros Hg. apply H1. rewrite Hg in El. destruct (parts A f); [reflexivity|discriminate].
Qed.
Lemma rsum32_perm (l l' : list f32) : Permutation l l' -> rsum32 l = rsum32 l'.
Proof. intro P. unfold rsum32. induction P; cbn [map Rsum fold_right] in *; change (fold_right Rplus 0) with Rsum in *; lra. Qed.
Lemma run_dist32 o f : well_called32 o -> possible A o f -> INR (size_after (length (parts A f)) o) <= 1048576 -> INR (length (parts A f)) <= 1048576 -> distribution32 f ->
  exists f', run A o f = Some f' /\ distribution32 f' /\ length (parts A f') = size_after (length (parts A f)) o.
Proof.
  intros Hw Hp Hs Hn Hd. assert (Hd' := Hd). destruct Hd' as (Hne & Hpr & Hsum). assert (Hl0 : (0 < length (parts A f))%nat) by (destruct (parts A f); [congruence|cbn; lia]).
  destruct o as [g|L|plus nm off nz d|dflt n d|plus nz|m|b|dflt n|qs]; cbn [run size_after well_called32 possible] in *.
  - eexists. split; [reflexivity|]. destruct (init_frame A g f) as (_ & H & _). assert (El : length (parts A (init A g f)) = length (parts A f)) by (unfold init; cbn; apply mapi_length).
    split; [|exact El]. apply uniform32 with (n := length (parts A f)); assumption.
  - eexists. split; [reflexivity|]. destruct (measure_shape A L f) as (El & _). split; [|exact El].
    pose proof (total_finite L f Hpr Hn Hw) as Ft. pose proof (weights_nonneg f Hpr) as Wn.
    destruct (Bltb (B754_zero false) (total32 log L f)) eqn:Et.
    + assert (Pt : 0 < f2r (total32 log L f)). { rewrite Bltb_correct in Et by (reflexivity || exact Ft). destruct (Rlt_bool_spec (B2R (B754_zero false : f32)) (B2R (total32 log L f))); [assumption|discriminate]. }
      split; [intro E; rewrite E in El; cbn in El; lia|]. split.
      * apply Forall_forall. intros x Hx. exact (measure_weights_unit log L f (fun p H => proj1 (Wn p H)) (fun i p _ => proj1 (Hw i (st A p))) Ft Pt x Hx).
      * rewrite El. exact (C03_weights_add_up_to_one log L f (fun p H => proj1 (Wn p H)) (fun i p _ => proj1 (Hw i (st A p))) Hn Ft Pt).
    + rewrite (measure_noop A L f); [exact Hd|exact Et].
  - destruct (resample_shape A plus nm off nz d f Hne Hp) as (f' & sel & H1 & H2 & H3 & _). exists f'. split; [exact H1|]. split; [|exact H2].
    apply uniform32 with (n := length (parts A f)); assumption.
  - destruct (resize_shape A dflt d n f Hne Hp) as (f' & sel & H1 & H2 & H3 & _). exists f'. split; [exact H1|]. split; [|exact H2]. apply uniform32 with (n := n); assumption.
  - eexists. split; [reflexivity|]. split; [apply same32 with (f := f); [apply noise_frame|assumption]|unfold add_noise; cbn; apply mapi_length].
  - eexists. split; [reflexivity|]. split; [apply same32 with (f := f); [apply predict_frame|assumption]|unfold predict; cbn; apply mapi_length].
  - eexists. split; [reflexivity|]. split; [apply same32 with (f := f); [apply bias_frame|assumption]|unfold do_bias; cbn; apply mapi_length].
  - eexists. split; [reflexivity|]. destruct (append_spec A dflt n f) as [H _].
    assert (Ew : weights A (append A dflt n f) = weights A f ++ repeat (B754_zero false : A) n).
    { unfold weights. rewrite H, map_app. f_equal. clear. induction n as [|n IH]; cbn; [reflexivity|]. f_equal; exact IH. }
    assert (El : length (parts A (append A dflt n f)) = (length (parts A f) + n)%nat) by (rewrite H, app_length, repeat_length; reflexivity).
    split; [|exact El]. unfold distribution32. rewrite El, Ew. split; [|split].
    + rewrite H. intro E. apply app_eq_nil in E. tauto.
    + apply Forall_app. split; [exact Hpr|]. apply Forall_forall. intros x Hx. apply repeat_spec in Hx. subst. split; [reflexivity|]. cbn. lra.
    + assert (Er : rsum32 (weights A f ++ repeat (B754_zero false : A) n) = rsum32 (weights A f)).
      { unfold rsum32. rewrite map_app. assert (G : forall l k, Rsum (l ++ map f2r (repeat (B754_zero false : f32) k)) = Rsum l).
        { induction l as [|x l IH]; intro k; cbn [app Rsum fold_right].
          - induction k as [|k IHk]; [reflexivity|]. cbn [repeat map Rsum fold_right]. change (fold_right Rplus 0) with Rsum in *. rewrite IHk. change (f2r (B754_zero false)) with 0. ring.
          - change (fold_right Rplus 0) with Rsum. rewrite IH. reflexivity. }
        apply G. }
      rewrite Er, plus_INR. pose proof (pos_INR n). lra.
  - eexists. split; [reflexivity|]. destruct Hp as (HP & _). assert (HP' := Permutation_map (w A) HP). unfold distribution32, weights. cbn [parts].
    assert (El : length qs = length (parts A f)) by (symmetry; apply Permutation_length; exact HP). split; [|exact El]. split; [|split].
    + intros E. subst qs. cbn in El. lia.
    + eapply Permutation_Forall; [exact HP'|exact Hpr].
    + rewrite El. rewrite <- (rsum32_perm _ _ HP'). exact Hsum.
Qed.
(** whatever is done to the filter (measurements with likelihoods up to 2^100, at most 2^20
    particles), nothing is undefined, every weight stays a number between 0 and 1, and the weights
    add up to 1 within (n + 1) / 8388608 *)
Theorem C15_float_distribution (dflt : T) n gen ops r :
  (0 < n)%nat -> INR n <= 1048576 -> Forall well_called32 ops -> sizes_ok n ops ->
  history A (OInit A gen :: ops) (new_filter A dflt n) r ->
  exists f, r = Some f /\ distribution32 f.
Proof.
  intros Hn Hb Hw Hz H. inversion H as [|? ? ? ? Hu|? ? ? f1 ? Hp Hr Hh]; subst; [discriminate|].
  cbn in Hr. injection Hr as <-.
  assert (D : distribution32 (init A gen (new_filter A dflt n)) /\ length (parts A (init A gen (new_filter A dflt n))) = n).
  { destruct (init_frame A gen (new_filter A dflt n)) as (_ & E & _). cbn [new_filter parts] in E. rewrite repeat_length in E.
    assert (El : length (parts A (init A gen (new_filter A dflt n))) = n) by (unfold init; cbn [parts]; rewrite mapi_length; apply repeat_length).
    split; [|exact El]. apply uniform32 with (n := n); assumption. }
  clear H Hp. revert Hh D. generalize (init A gen (new_filter A dflt n)). intros f0 Hh [D El]. revert n El Hn Hb Hz D Hw.
  induction Hh as [f|o ops f Hp' Hr|o ops f f1 r Hp' Hr H IH]; intros n El Hn Hb Hz D Hw.
  - exists f. auto.
  - inversion Hw as [|? ? W1 W2]; subst. destruct Hz as [Z1 Z2]. destruct (run_dist32 o f W1 Hp' Z1 Hb D) as (f' & E & _). congruence.
  - inversion Hw as [|? ? W1 W2]; subst. destruct Hz as [Z1 Z2]. destruct (run_dist32 o f W1 Hp' Z1 Hb D) as (f' & E & D' & L').
    assert (f' = f1) by congruence. subst f'. apply (IH _ L'); try assumption.
    destruct D' as (Hne & _). rewrite <- L'. destruct (parts A f1); [congruence|cbn; lia].
Qed.
End D.
Example C15_float_nonvacuous (log : f32 -> f32) :
  let ops := [OMeasure (B32 log) (fun i (s : nat) => f32_of_Z (Z.of_nat (Nat.min s 3))); OPredict (B32 log) (fun i s => S s); OAppend (B32 log) 7%nat 2; OMeasure (B32 log) (fun _ _ => f32_of_Z 5)] in
  INR 3 <= 1048576 /\ Forall (well_called32 log) ops /\ sizes_ok log 3 ops /\
  exists r, history (B32 log) (OInit _ (fun i => i) :: ops) (new_filter (B32 log) 0%nat 3) r.
Proof.
  assert (N : forall k, (k <= 5)%nat -> nonneg32 (f32_of_Z (Z.of_nat k)) /\ f2r (f32_of_Z (Z.of_nat k)) <= 1267650600228229401496703205376).
  { intros k Hk. do 6 (destruct k as [|k]; [split; [split; [reflexivity|]|]; unfold f2r; rewrite <- SF2R_B2SF; lazy -[SF2R IZR Rmult Rinv Rdiv Rle]; unfold SF2R, F2R; cbn; lra|]). lia. }
  cbv zeta. split; [cbn; lra|]. split; [|split].
  - constructor; [intros i s; apply N; lia|]. constructor; [exact I|]. constructor; [exact I|]. constructor; [intros i s; exact (N 5%nat ltac:(lia))|constructor].
  - cbn [sizes_ok size_after]. replace (INR 3) with 3 by (rewrite INR_IZR_INZ; reflexivity). replace (INR (3 + 2)) with 5 by (rewrite INR_IZR_INZ; reflexivity). repeat split; lra.
  - eexists. do 5 (eapply h_step; [exact I|reflexivity|]). apply h_nil.
Qed.
