(** Properties C01-C15 and C87 of the particle filter (vocabulary: PfSpec.v, PfHist.v). *)
From Coq Require Import Reals ZArith List Arith Bool Permutation Lra Lia.
From Flocq Require Import IEEE754.BinarySingleNaN.
From Verif Require Import Arith PfModel PfSpec PfProofs RsumLemmas PfReal PfReal2 PfCov PfHist PfMore Ieee PfIeee.
Import ListNotations.
Local Open Scope R_scope.

(** C01. Bayes update. *)
Theorem C01_bayes {T} (L : nat -> T -> R) (f : filter RA T) :
  0 < Rsum (scores RA L f) ->
  (forall i p, nth_error (parts RA f) i = Some p ->
     nth_error (weights RA (measure RA L f)) i
     = Some (w RA p * L i (st RA p) / Rsum (scores RA L f)))
  /\ Rsum (weights RA (measure RA L f)) = 1
  /\ length (parts RA (measure RA L f)) = length (parts RA f)
  /\ poses RA (measure RA L f) = poses RA f
  /\ biases RA (measure RA L f) = biases RA f.
Proof. exact (measure_bayes L f). Qed.

(** A two particle filter with weights a and b. *)
Definition two {T} (s1 s2 : T) (a b : R) : filter RA T :=
  {| parts := [ {| st := s1; w := a : RA; bias := 0 : RA; acc := None |};
                {| st := s2; w := b : RA; bias := 0 : RA; acc := None |} ]; entropy := None |}.
Example C01_nonvacuous :
  let f := two true false (1/4) (3/4) in
  let L := fun (_ : nat) (s : bool) => if s then 3 else 0 in
  0 < Rsum (scores RA L f) /\ weights RA (measure RA L f) = [1; 0].
Proof.
  cbn zeta. assert (H : 0 < Rsum (scores RA (fun (_ : nat) (s : bool) => if s then 3 else 0) (two true false (1/4) (3/4)))) by (cbn; lra).
  split; [exact H|]. destruct (measure_real _ _ H) as (E & _). etransitivity; [exact E|]. cbn.
  f_equal; [field|f_equal; field].
Qed.

(** C02. No-op measurement, in any arithmetic; and NaN in binary32. *)
Theorem C02_noop (A : arith) {T} (L : nat -> T -> A) (f : filter A T) :
  flt f0 (fold_left fadd (scores A L f) f0) = false -> measure A L f = f.
Proof. exact (measure_noop A L f). Qed.
Theorem C02_nan_likelihood (log : f32 -> f32) {T} (L : nat -> T -> f32) (f : filter (B32 log) T) i p :
  nth_error (parts (B32 log) f) i = Some p -> is_nan (L i (st _ p)) = true ->
  measure (B32 log) L f = f.
Proof. intros H1 H2. apply (measure_nan log L f i p H1). left. exact H2. Qed.
Example C02_nonvacuous (log : f32 -> f32) :
  let f := {| parts := [ {| st := true; w := f32_of_Z 1 : B32 log; bias := f0; acc := None |} ]; entropy := None |} in
  measure (B32 log) (fun _ _ => nan32) f = f
  /\ flt f0 (fold_left fadd (scores (B32 log) (fun (_ : nat) (s : bool) => f32_of_Z 0) f) f0) = false
  /\ measure (B32 log) (fun _ _ => f32_of_Z 2) f <> f.
Proof. cbn zeta. split; [reflexivity|]. split; [reflexivity|]. intros H.
  match type of H with ?m = _ => assert (E : exists e, entropy _ m = Some e) by (eexists; reflexivity) end.
  destruct E as [e E]. rewrite H in E. discriminate E. Qed.

(** C03. binary32: the new weights are finite and in [0,1], rounding included. *)
Theorem C03_weights_in_unit_interval (log : f32 -> f32) {T} (L : nat -> T -> f32) (f : filter (B32 log) T) :
  (forall p, In p (parts (B32 log) f) -> nonneg32 (w _ p)) ->
  (forall i p, nth_error (parts (B32 log) f) i = Some p -> nonneg32 (L i (st _ p))) ->
  is_finite (total32 log L f) = true -> 0 < f2r (total32 log L f) ->
  forall x : f32, In x (weights (B32 log) (measure (B32 log) L f)) -> is_finite x = true /\ 0 <= f2r x <= 1.
Proof. exact (measure_weights_unit log L f). Qed.
Example C03_nonvacuous (log : f32 -> f32) :
  let p x := {| st := true; w := f32_of_Z x : B32 log; bias := f0; acc := None |} in
  let f := {| parts := [p 1%Z; p 2%Z; p 0%Z]; entropy := None |} in
  (forall q, In q (parts (B32 log) f) -> nonneg32 (w _ q)) /\
  is_finite (total32 log (fun _ _ => f32_of_Z 7) f) = true /\
  0 < f2r (total32 log (fun _ _ => f32_of_Z 7) f).
Proof.
  cbn zeta. split; [|split; [reflexivity|]].
  - intros q [<-|[<-|[<-|[]]]]; split; try reflexivity; unfold f2r; vm_compute; try lra.
  - unfold f2r. vm_compute. lra.
Qed.

(** C87. binary32: a weighted likelihood total that overflows (or one infinite
    likelihood) makes every weight either NaN or zero: the update "succeeds" and the
    weights do not sum to one. *)
Theorem C87_overflow_destroys_weights (log : f32 -> f32) {T} (L : nat -> T -> f32) (f : filter (B32 log) T) :
  total32 log L f = inf32 ->
  (forall i p, nth_error (parts (B32 log) f) i = Some p -> nn (fmult32 (w _ p) (L i (st _ p)))) ->
  forall i (x : f32), nth_error (weights (B32 log) (measure (B32 log) L f)) i = Some x ->
    is_nan x = true \/ (is_finite x = true /\ f2r x = 0).
Proof.
  intros Ht Hs i x Hx.
  assert (Hi : (i < length (parts (B32 log) f))%nat).
  { destruct (measure_shape (B32 log) L f) as (E & _). rewrite <- E.
    assert (H : @nth_error f32 (weights (B32 log) (measure (B32 log) L f)) i <> None) by (intros HH; pose proof (eq_trans (eq_sym HH) Hx) as K; discriminate K).
    apply nth_error_Some in H. unfold weights in H. rewrite map_length in H. exact H. }
  destruct (nth_error (parts (B32 log) f) i) as [p|] eqn:Hp; [|apply nth_error_None in Hp; lia].
  destruct (measure_overflow log L f i p Ht Hp (Hs i p Hp)) as (y & H1 & H2 & H3).
  assert (E : y = x) by (cbn in H1, Hx; congruence). subst y.
  destruct (nn_cases _ (Hs i p Hp)) as [E|[E _]]; [left; auto|right; tauto].
Qed.
Example C87_nonvacuous (log : f32 -> f32) :
  let p x := {| st := x; w := f32_of_Z 1 : B32 log; bias := f0; acc := None |} in
  let f := {| parts := [p true; p false]; entropy := None |} in
  let L := fun (_ : nat) (s : bool) => if s then inf32 else f32_of_Z 1 in
  total32 log L f = inf32 /\ weights (B32 log) (measure (B32 log) L f) = [nan32; B754_zero false].
Proof. split; reflexivity. Qed.

(** C04. Entropy. *)
Theorem C04_entropy {T} (L : nat -> T -> R) (f : filter RA T) :
  Forall (fun x => 0 <= x) (weights RA f) -> (forall i s, 0 <= L i s) ->
  0 < Rsum (scores RA L f) ->
  exists h, entropy RA (measure RA L f) = Some h
    /\ h = shannon (weights RA (measure RA L f))
    /\ 0 <= h <= ln (INR (length (parts RA f))).
Proof. exact (measure_entropy L f). Qed.
Theorem C04_extremes :
  (forall n, (0 < n)%nat -> shannon (repeat (/ INR n) n) = ln (INR n))
  /\ (forall l1 l2, Forall (fun x => x = 0) l1 -> Forall (fun x => x = 0) l2 -> shannon (l1 ++ 1 :: l2) = 0).
Proof. split; [exact shannon_uniform|exact shannon_single]. Qed.
Example C04_nonvacuous :
  entropy RA (measure RA (fun (_ : nat) (s : bool) => if s then 3 else 0) (two true false (1/4) (3/4))) = Some 0.
Proof.
  assert (H : 0 < Rsum (scores RA (fun (_ : nat) (s : bool) => if s then 3 else 0) (two true false (1/4) (3/4)))) by (cbn; lra).
  destruct (measure_real _ _ H) as (_ & _ & E). etransitivity; [exact E|]. f_equal.
  etransitivity; [apply f_equal; exact (proj2 C01_nonvacuous)|].
  apply (shannon_single [] [0]); repeat constructor.
Qed.

(** C05. Shape of resample, in any arithmetic. *)
Theorem C05_resample_shape (A : arith) {T} plus normalize offset noise d (f : filter A T) :
  parts A f <> [] -> sorted_copy A (dup_of A f0 (parts A f)) d ->
  exists f', resample A plus normalize offset noise d f = Some f'
    /\ length (parts A f') = length (parts A f)
    /\ weights A f' = repeat (frecip (length (parts A f))) (length (parts A f))
    /\ biases A f' = biases A f /\ entropy A f' = entropy A f
    /\ forall s, In s (poses A f') ->
         In s (poses A f) \/ exists x m, In x (poses A f) /\ s = normalize (plus x (noise m)).
Proof.
  intros H1 H2. destruct (resample_shape A plus normalize offset noise d f H1 H2) as (f' & sel & E1 & E2 & E3 & E4 & E5 & _).
  exists f'. repeat (split; [assumption|]).
  intros s Hs. eapply resample_poses; eassumption.
Qed.

(** C06. Low variance. *)
Theorem C06_low_variance {T} plus normalize offset noise d (f : filter RA T) :
  parts RA f <> [] -> Forall (fun x => 0 < x) (weights RA f) ->
  sorted_copy RA (dup_of RA f0 (parts RA f)) d ->
  0 < offset < Rsum (weights RA f) / INR (length (parts RA f)) ->
  exists f' sel,
    resample RA plus normalize offset noise d f = Some f'
    /\ from_pool_strict plus normalize noise (poses RA f) 0 0 (poses RA f') sel
    /\ length sel = length (parts RA f)
    /\ (forall j p, nth_error (parts RA f) j = Some p ->
          floor_or_ceil (INR (length (parts RA f)) * w RA p / Rsum (weights RA f)) (occurrences j sel)).
Proof.
  intros H1 H2 H3 H4. rewrite <- step_real in H4.
  destruct (resample_low_variance plus normalize offset noise d f H1 H2 H3 H4) as (f' & sel & E1 & E2 & E3 & E4).
  exists f', sel. auto.
Qed.
Lemma in_order_is_sorted {T} (f : filter RA T) :
  Forall (fun x => 0 <= x) (weights RA f) -> sorted_copy RA (dup_of RA f0 (parts RA f)) (dup_of RA 0 (parts RA f)).
Proof.
  intros H. split; [apply Permutation_refl|]. intros i j x y Hij Hx Hy.
  apply Rltb_false. exact (dup_sorted (parts RA f) H i j x y Hij Hx Hy).
Qed.
Example C06_nonvacuous :
  let f := two true false (1/4) (3/4) in
  parts RA f <> [] /\ Forall (fun x => 0 < x) (weights RA f)
  /\ sorted_copy RA (dup_of RA f0 (parts RA f)) (dup_of RA 0 (parts RA f))
  /\ 0 < 1/8 < Rsum (weights RA f) / INR (length (parts RA f)).
Proof.
  cbn zeta. split; [cbn; congruence|]. split; [|split].
  - unfold two, weights; cbn; repeat constructor; lra.
  - apply in_order_is_sorted. unfold two, weights; cbn; repeat constructor; lra.
  - unfold two, weights; cbn. lra.
Qed.

(** C07. A zero weight particle is not selected if ties stay in order and the
    offset is positive ... *)
Theorem C07_dead_not_selected {T} plus normalize offset noise (f : filter RA T) :
  Forall (fun x => 0 <= x) (weights RA f) -> 0 < Rsum (weights RA f) ->
  0 < offset < Rsum (weights RA f) / INR (length (parts RA f)) ->
  exists f' sel,
    resample RA plus normalize offset noise (dup_of RA 0 (parts RA f)) f = Some f'
    /\ from_pool_strict plus normalize noise (poses RA f) 0 0 (poses RA f') sel
    /\ length sel = length (parts RA f)
    /\ (forall j, In j sel -> exists p, nth_error (parts RA f) j = Some p /\ 0 < w RA p).
Proof.
  intros H1 H2 H3. rewrite <- step_real in H3.
  destruct (resample_in_order plus normalize offset noise f H1 H2 H3) as (f' & sel & E1 & E2 & E3 & E4 & E5 & E6).
  exists f', sel. auto.
Qed.

Ltac rb := repeat match goal with
 | |- context [Rltb ?a ?b] =>
     first [ replace (Rltb a b) with true by (symmetry; apply Rltb_true; lra)
           | replace (Rltb a b) with false by (symmetry; apply Rltb_false; lra) ]; cbn end.

(** ... but the sort is unstable: with weights 1 and 0 every copy may be the dead one, *)
Theorem C07_unstable_sort_selects_dead_refuted :
  exists (f : filter RA bool) d f',
    weights RA f = [1; 0] /\ poses RA f = [true; false]
    /\ sorted_copy RA (dup_of RA f0 (parts RA f)) d
    /\ 0 < 1/4 < Rsum (weights RA f) / INR (length (parts RA f))
    /\ resample RA (fun s _ => s) (fun s => s) (1/4 : RA) (fun _ => true) d f = Some f'
    /\ poses RA f' = [false; false].
Proof.
  exists (two true false 1 0), [((0+1)+0, false); (0+1, true)].
  eexists. split; [reflexivity|]. split; [reflexivity|]. split; [|split; [|split]].
  - split; [apply perm_swap|]. intros [|[|i]] [|[|j]] x y Hij Hx Hy; cbn in *; try lia; try discriminate.
    + injection Hx as <-. injection Hy as <-. apply Rltb_false. cbn. lra.
    + destruct j; discriminate.
    + destruct j; discriminate.
    + destruct i; discriminate.
  - unfold two, weights; cbn. lra.
  - unfold resample, two. cbn. unfold lower_bound_from. cbn. rb. reflexivity.
  - reflexivity.
Qed.
(** and with offset exactly 0 a dead first particle is selected even in order. *)
Theorem C07_zero_offset_selects_dead_refuted :
  exists (f : filter RA bool) f',
    weights RA f = [0; 1] /\ poses RA f = [false; true]
    /\ resample RA (fun s _ => s) (fun s => s) (0 : RA) (fun _ => true) (dup_of RA 0 (parts RA f)) f = Some f'
    /\ In false (poses RA f').
Proof.
  exists (two false true 0 1). eexists. split; [reflexivity|]. split; [reflexivity|]. split.
  - unfold resample, two. cbn. unfold lower_bound_from. cbn. rb. reflexivity.
  - left. reflexivity.
Qed.

(** C08. Which copies are perturbed, for every legal sort outcome. *)
Theorem C08_only_repeats_perturbed {T} plus normalize offset noise d (f : filter RA T) f' :
  parts RA f <> [] -> Forall (fun x => 0 <= x) (weights RA f) ->
  sorted_copy RA (dup_of RA f0 (parts RA f)) d ->
  0 <= offset <= Rsum (weights RA f) / INR (length (parts RA f)) ->
  resample RA plus normalize offset noise d f = Some f' ->
  exists sel, Permutation (poses RA f) (map snd d) /\ length sel = length (parts RA f)
    /\ from_pool_strict plus normalize noise (map snd d) 0 0 (poses RA f') sel.
Proof. intros H1 H2 H3 H4. rewrite <- step_real in H4. apply resample_strict; assumption. Qed.
(** The exception is real: the first sorted particle's first copy gets noise. *)
Theorem C08_first_copy_is_perturbed :
  exists (f : filter RA bool) f',
    weights RA f = [1/2; 1/2]
    /\ resample RA (fun s n => xorb s n) (fun s => s) (1/4 : RA) (fun _ => true) (dup_of RA 0 (parts RA f)) f = Some f'
    /\ poses RA f = [false; false] /\ poses RA f' = [true; false].
Proof.
  exists (two false false (1/2) (1/2)). eexists. split; [reflexivity|]. split.
  - unfold resample, two. cbn. unfold lower_bound_from. cbn. rb. reflexivity.
  - split; reflexivity.
Qed.

(** C09. resizeParticle. *)
Theorem C09_resize_shape (A : arith) {T} dflt d num (f : filter A T) :
  parts A f <> [] -> sorted_copy A (dup_of A f0 (parts A f)) d ->
  exists f', resize A dflt d num f = Some f'
    /\ length (parts A f') = num
    /\ weights A f' = repeat (frecip num) num
    /\ entropy A f' = entropy A f
    /\ forall s, In s (poses A f') -> In s (poses A f).
Proof.
  intros H1 H2. destruct (resize_shape A dflt d num f H1 H2) as (f' & sel & E1 & E2 & E3 & E4 & _).
  exists f'. repeat (split; [assumption|]). intros s Hs. eapply resize_poses_old; eassumption.
Qed.
Theorem C09_resize_low_variance {T} dflt d num (f : filter RA T) :
  parts RA f <> [] -> Forall (fun x => 0 < x) (weights RA f) -> (0 < num)%nat ->
  sorted_copy RA (dup_of RA f0 (parts RA f)) d ->
  exists f' sel,
    resize RA dflt d num f = Some f'
    /\ picks (poses RA f) (poses RA f') sel /\ length sel = num
    /\ (forall j p, nth_error (parts RA f) j = Some p ->
          floor_or_ceil (INR num * w RA p / Rsum (weights RA f)) (occurrences j sel)).
Proof. exact (resize_low_variance dflt d num f). Qed.
Theorem C09_resize_empty_is_undefined (A : arith) {T} dflt d num (f : filter A T) :
  parts A f = [] -> (0 < num)%nat -> sorted_copy A (dup_of A f0 (parts A f)) d ->
  resize A dflt d num f = None.
Proof. exact (resize_empty A dflt d num f). Qed.
Theorem C09_resize_to_zero_empties (A : arith) {T} dflt d (f : filter A T) :
  exists f', resize A dflt d 0 f = Some f' /\ parts A f' = [].
Proof. unfold resize. destruct (accumulate A f0 (parts A f)) as [ps t]. eexists. split; reflexivity. Qed.

(** C10. Expectation over vector states of dimension d. *)
Theorem C10_expectation {d : nat} (f : filter RA (list R)) :
  Forall (fun p => length (st RA p) = d) (parts RA f) ->
  Forall (fun x => 0 <= x) (weights RA f) -> 0 < Rsum (weights RA f) <= 1 ->
  exists e, expectation RA (weighted_mean RA d) 1 f = Some e /\ length e = d
    /\ forall c, comp c e = wmean c (parts RA f).
Proof. exact (expectation_mean d f). Qed.
Theorem C10_convex (ps : list (particle RA (list R))) c lo hi :
  Forall (fun x => 0 <= x) (map (w RA) ps) -> 0 < Rsum (map (w RA) ps) ->
  (forall p, In p ps -> lo <= comp c (st RA p) <= hi) ->
  lo <= wmean c ps <= hi.
Proof. exact (wmean_bounds ps c lo hi). Qed.
Theorem C10_order_independent (ps qs : list (particle RA (list R))) c :
  Permutation ps qs -> wmean c ps = wmean c qs.
Proof. exact (wmean_perm ps qs c). Qed.
Theorem C10_biased {d : nat} (f : filter RA (list R)) :
  Forall (fun p => length (st RA p) = d) (parts RA f) ->
  0 < Rsum (map (fun p => w RA p * bias RA p) (parts RA f)) ->
  exists e, expectation_biased RA (weighted_mean RA d) f = Some e
    /\ length e = d /\ forall c,
       comp c e = Rsum (map (fun p => w RA p * bias RA p * comp c (st RA p)) (parts RA f))
                  / Rsum (map (fun p => w RA p * bias RA p) (parts RA f)).
Proof. exact (expectation_biased_mean d f). Qed.
Example C10_nonvacuous :
  let f := two [0] [4] (1/4) (3/4) in
  Forall (fun p => length (st RA p) = 1%nat) (parts RA f)
  /\ Forall (fun x => 0 <= x) (weights RA f) /\ 0 < Rsum (weights RA f) <= 1
  /\ wmean 0 (parts RA f) = 3.
Proof.
  cbn zeta. split; [repeat constructor|]. split; [|split].
  - unfold two, weights; cbn; repeat constructor; lra.
  - unfold two, weights; cbn. lra.
  - unfold wmean, comp, two. cbn. field.
Qed.

(** C11. expectation(ratio): undefined before the first resample, *)
Theorem C11_undefined_before_resample (A : arith) {T} (gen : nat -> T) (dflt : T) n qs :
  (0 < n)%nat -> ~ sorted_desc A (parts A (init A gen (new_filter A dflt n))) qs.
Proof.
  intros Hn. destruct n as [|n]; [lia|].
  eapply sorted_desc_uninit; [left; reflexivity|reflexivity].
Qed.
(** and after init, resample, measure it returns the pose of the least probable one. *)
Theorem C11_most_probable_refuted :
  exists (ops : list (op RA (list R))) (f : filter RA (list R)) qs,
    history RA ops (new_filter RA [0] 2) (Some f)
    /\ weights RA f = [9/10; 1/10] /\ poses RA f = [[0]; [1]]
    /\ sorted_desc RA (parts RA f) qs
    /\ fst (expectation_pass RA (weighted_mean RA 1) (1/20 : RA) qs f) = Some [1].
Proof.
  set (L := fun (i : nat) (_ : list R) => match i with O => 9 | _ => 1 end).
  exists [OInit RA (fun i => [INR i]);
          OResample RA (fun s _ => s) (fun s => s) (1/4 : RA) (fun _ => []) [(0 + 1/(1+1), [0]); (0 + 1/(1+1) + 1/(1+1), [1])];
          OMeasure RA L].
  set (P1 := {| st := [0] : list RA; w := 1/(1+1) : RA; bias := 0 : RA; acc := Some (0 + 1/(1+1)) |} : particle RA (list R)).
  set (P2 := {| st := [1] : list RA; w := 1/(1+1) : RA; bias := 0 : RA; acc := Some (0 + 1/(1+1) + 1/(1+1)) |} : particle RA (list R)).
  set (F1 := {| parts := [P1; P2]; entropy := None |} : filter RA (list R)).
  assert (HL : 0 < Rsum (scores RA L F1)) by (unfold F1, P1, P2, L; cbn; lra).
  set (Q1 := set_w RA P1 (9/10 : RA)). set (Q2 := set_w RA P2 (1/10 : RA)).
  exists (measure RA L F1), [Q2; Q1].
  assert (Hm : parts RA (measure RA L F1) = [Q1; Q2]).
  { unfold measure. rewrite measure_sum. cbn [flt f0 RA fadd].
    change (fold_left Rplus (scores RA L F1) 0) with (0 + 1/(1+1)*9 + 1/(1+1)*1).
    replace (Rltb 0 _) with true by (symmetry; apply Rltb_true; lra). cbn.
    unfold Q1, Q2, set_w, P1, P2. cbn. f_equal; [f_equal; field|f_equal; f_equal; field]. }
  split; [|split; [|split; [|split]]].
  - eapply h_step with (f1 := {| parts := [ {| st := [0] : list RA; w := 1/(1+1) : RA; bias := 0 : RA; acc := None |};
                                            {| st := [1] : list RA; w := 1/(1+1) : RA; bias := 0 : RA; acc := None |}]; entropy := None |}).
    + exact I.
    + reflexivity.
    + eapply h_step with (f1 := F1).
      * cbn. split; [apply Permutation_refl|]. intros [|[|i]] [|[|j]] x y Hij Hx Hy; cbn in *; try lia; try discriminate.
        -- injection Hx as <-. injection Hy as <-. apply Rltb_false. cbn. lra.
        -- destruct j; discriminate.
        -- destruct j; discriminate.
        -- destruct i; discriminate.
      * unfold run, resample. cbn. unfold lower_bound_from. cbn. rb. reflexivity.
      * eapply h_step; [exact I|reflexivity|]. apply h_nil.
  - unfold weights. rewrite Hm. reflexivity.
  - unfold poses. rewrite Hm. reflexivity.
  - rewrite Hm. split; [apply perm_swap|]. split.
    + intros p [<-|[<-|[]]]; cbn; discriminate.
    + intros [|[|i]] [|[|j]] p q a b Hij Hp Hq Ha Hb; cbn in *; try lia; try discriminate.
      * injection Hp as <-. injection Hq as <-. cbn in *. injection Ha as <-. injection Hb as <-.
        apply Rltb_false. cbn. lra.
      * destruct j; discriminate.
      * destruct j; discriminate.
      * destruct i; discriminate.
  - unfold expectation_pass, expectation. cbn. rb. unfold wm_get. cbn. f_equal. f_equal. field.
Qed.

(** expectation(ratio) averages the shortest prefix of the reordered particles whose total
    weight exceeds the ratio, or all of them. *)
Theorem C11_prefix {d : nat} pass (f : filter RA (list R)) qs :
  sorted_desc RA (parts RA f) qs ->
  Forall (fun p => length (st RA p) = d) (parts RA f) ->
  (forall k, passed pass (map (w RA) qs) k -> 0 < Rsum (firstn k (map (w RA) qs))) ->
  exists e k, fst (expectation_pass RA (weighted_mean RA d) pass qs f) = Some e
    /\ passed pass (map (w RA) qs) k
    /\ length e = d /\ forall c, comp c e = wmean c (firstn k qs).
Proof.
  intros (Hp & _ & _) Hd Hpos. unfold expectation_pass. cbn [fst].
  set (f' := {| parts := qs; entropy := entropy RA f |} : filter RA (list R)).
  destruct (expectation_prefix d pass f') as (e & H1 & H2 & H3).
  - cbn [parts f']. rewrite Forall_forall in *. intros x Hx. apply Hd. apply (Permutation_in _ (Permutation_sym Hp)). exact Hx.
  - cbn [parts f']. rewrite <- firstn_map. apply Hpos. apply pass_count_passed.
  - exists e, (pass_count RA pass 0 qs). split; [exact H1|]. split; [apply pass_count_passed|]. split; [exact H2|exact H3].
Qed.
Example C11_prefix_nonvacuous :
  passed (1/2) [1/4; 1/2; 1/4] 2 /\ passed 1 [1/4; 1/2; 1/4] 3.
Proof.
  split; (split; [cbn; lia|]; split).
  - intros j Hj. destruct j as [|[|j]]; try lia. cbn. lra.
  - right. split; [lia|]. cbn. lra.
  - intros j Hj. destruct j as [|[|[|j]]]; try lia; cbn; lra.
  - left. reflexivity.
Qed.

(** C12. Covariance: symmetric in any arithmetic; its entries; no negative variance. *)
Theorem C12_symmetric (A : arith) {T} M ce dim pass ratio shuffle (f : filter A T) m :
  covariance A M ce dim pass ratio shuffle f = Some m -> forall i j, m i j = m j i.
Proof. exact (covariance_symm A M ce dim pass ratio shuffle f m). Qed.
(** whatever the ratios and the shuffle, no particle outside the list is read *)
Theorem C12_defined (A : arith) {T} M ce dim pass ratio shuffle (f : filter A T) e :
  (forall l, Permutation l (shuffle l)) -> expectation A M pass f = Some e ->
  exists c, covariance A M ce dim pass ratio shuffle f = Some c.
Proof. exact (covariance_total A M ce dim pass ratio shuffle f e). Qed.
(** the entries are the weighted products of deviations from the expectation, over a sample of
    the particles the pass ratio uses *)
Theorem C12_entries M dim pass ratio shuffle (f : filter RA (list R)) c :
  0 <= ratio -> (forall l, Permutation l (shuffle l)) ->
  covariance RA M (cov_element RA) dim pass ratio shuffle f = Some c ->
  exists e k qs, expectation RA M pass f = Some e
    /\ passed pass (weights RA f) k /\ sample_of ratio (firstn k (parts RA f)) qs
    /\ forall a b, (a < dim)%nat -> (b < dim)%nat ->
       c a b = Rsum (map (fun q => w RA q * (comp a (st RA q) - comp a e) * (comp b (st RA q) - comp b e)) qs)
               / Rsum (map (w RA) qs).
Proof.
  apply (covariance_value (cov_element RA) (fun s e i => comp i s - comp i e)).
  intros. unfold cov_element, comp. cbn. lra.
Qed.
Theorem C12_positive_semidefinite M dim pass ratio shuffle (f : filter RA (list R)) c :
  0 <= ratio -> (forall l, Permutation l (shuffle l)) ->
  covariance RA M (cov_element RA) dim pass ratio shuffle f = Some c ->
  Forall (fun x => 0 <= x) (weights RA f) ->
  exists k qs, passed pass (weights RA f) k /\ sample_of ratio (firstn k (parts RA f)) qs
    /\ (0 < Rsum (map (w RA) qs) -> forall v, 0 <= quad dim c v).
Proof.
  apply (covariance_psd (cov_element RA) (fun s e i => comp i s - comp i e)).
  intros. unfold cov_element, comp. cbn. lra.
Qed.
(** the default call: all particles, if the weights are a probability distribution *)
Theorem C12_all_particles {d : nat} dim shuffle (f : filter RA (list R)) :
  Forall (fun p => length (st RA p) = d) (parts RA f) ->
  Forall (fun x => 0 <= x) (weights RA f) -> 0 < Rsum (weights RA f) <= 1 ->
  exists c, covariance RA (weighted_mean RA d) (cov_element RA) dim (1 : RA) (1 : RA) shuffle f = Some c
    /\ (forall a b, (a < dim)%nat -> (b < dim)%nat ->
        c a b = Rsum (map (fun q => w RA q * (comp a (st RA q) - wmean a (parts RA f)) * (comp b (st RA q) - wmean b (parts RA f))) (parts RA f))
                / Rsum (weights RA f))
    /\ forall v, 0 <= quad dim c v.
Proof.
  intros Hd Hw Hs. destruct (expectation_mean d f Hd Hw Hs) as (e & He & _ & Hm).
  set (sh := fun l : list nat => l). assert (Hsh : forall l, Permutation l (sh l)) by reflexivity.
  assert (Esh : covariance RA (weighted_mean RA d) (cov_element RA) dim (1 : RA) (1 : RA) shuffle f
              = covariance RA (weighted_mean RA d) (cov_element RA) dim (1 : RA) (1 : RA) sh f).
  { unfold covariance, sample_indices. change (@flt RA 1 f1) with (Rltb 1 1). rewrite (proj2 (Rltb_false 1 1)) by lra. reflexivity. }
  rewrite Esh. destruct (C12_defined RA (weighted_mean RA d) (cov_element RA) dim (1 : RA) (1 : RA) sh f e Hsh He) as (c & Hc).
  exists c. split; [exact Hc|].
  assert (Hall : forall k qs, passed 1 (weights RA f) k -> sample_of 1 (firstn k (parts RA f)) qs -> Permutation (parts RA f) qs).
  { intros k qs (K1 & _ & K2) (rest & Hp & Hr). destruct (Rlt_dec 1 1); [lra|]. subst rest. rewrite app_nil_r in Hp.
    assert (K : k = length (weights RA f)).
    { destruct K2 as [K2|[_ K2]]; [exact K2|]. exfalso.
      assert (Rsum (firstn k (weights RA f)) <= Rsum (weights RA f)); [|lra].
      rewrite <- (firstn_skipn k (weights RA f)) at 2. rewrite Rsum_app.
      assert (0 <= Rsum (skipn k (weights RA f))); [|lra]. apply Rsum_nonneg. apply Forall_forall. intros x Hx.
      rewrite Forall_forall in Hw. apply Hw. rewrite <- (firstn_skipn k (weights RA f)). apply in_or_app. right. exact Hx. }
    rewrite K in Hp. unfold weights in Hp. rewrite map_length, firstn_all in Hp. exact Hp. }
  split.
  - intros a b Ha Hb. destruct (C12_entries _ _ _ _ _ _ _ (Rle_0_1) Hsh Hc) as (e' & k & qs & He' & Hk & Hq & HE).
    rewrite He in He'. injection He' as <-. rewrite HE by assumption. specialize (Hall k qs Hk Hq). f_equal.
    + rewrite <- !Hm. apply Rsum_perm. apply Permutation_map, Permutation_sym, Hall.
    + apply Rsum_perm. unfold weights. apply Permutation_map, Permutation_sym, Hall.
  - destruct (C12_positive_semidefinite _ _ _ _ _ _ _ Rle_0_1 Hsh Hc Hw) as (k & qs & Hk & Hq & HP). apply HP.
    rewrite <- (Rsum_perm _ _ (Permutation_map (w RA) (Hall k qs Hk Hq))). apply Hs.
Qed.
(** a ratio that asks for less than one particle divides zero by zero: every entry is NaN *)
Theorem C12_empty_sample_is_nan (log : f32 -> f32) {T} M ce dim pass ratio shuffle (f : filter (B32 log) T) c :
  flt ratio (f1 : B32 log) = true ->
  (ftrunc (fmul (fofnat (pass_count (B32 log) pass (f0 : B32 log) (parts (B32 log) f))) ratio) = 0)%nat ->
  covariance (B32 log) M ce dim pass ratio shuffle f = Some c ->
  forall a b, (a < dim)%nat -> (b < dim)%nat -> is_nan (c a b) = true.
Proof.
  intros Hr Hz. unfold covariance. destruct (expectation _ _ _ _); [|discriminate]. cbv zeta. unfold sample_indices. rewrite Hr, Hz.
  rewrite Nat.max_0_r, Nat.min_0_r. cbn [firstn cov_loop]. intros E. injection E as <-. intros a b Ha Hb.
  unfold cov_div. apply Nat.ltb_lt in Ha, Hb. rewrite Ha, Hb. reflexivity.
Qed.
Example C12_nonvacuous :
  exists c, covariance RA (weighted_mean RA 1) (cov_element RA) 1 (1 : RA) (1 : RA) (fun l => l) (two [0] [4] (1/2) (1/2)) = Some c
    /\ c 0%nat 0%nat = 4.
Proof.
  unfold covariance, sample_indices, expectation, two. cbn. rb. cbn. rb. cbn. eexists. split; [reflexivity|].
  unfold cov_div, cov_element, wm_get, mat_set. cbn. field.
Qed.
Example C12_sample_nonvacuous : sample_of (1/2) [10; 20; 30] [30] /\ (forall l : list nat, Permutation l (rev l)).
Proof.
  split; [|apply Permutation_rev]. exists [10; 20]. split.
  - change ([30] ++ [10; 20]) with (30 :: [10; 20]). apply Permutation_sym. apply (Permutation_cons_append [10; 20] 30).
  - destruct (Rlt_dec (1/2) 1); [|lra]. cbn. lra.
Qed.
Example C12_empty_sample_nonvacuous (log : f32 -> f32) :
  let q := fdiv32 (f32_of_Z 1) (f32_of_Z 4) in let h := fdiv32 (f32_of_Z 1) (f32_of_Z 2) in
  let p := {| st := tt; w := h : B32 log; bias := h : B32 log; acc := None |} : particle (B32 log) unit in
  flt (q : B32 log) f1 = true
  /\ (ftrunc (fmul (fofnat (pass_count (B32 log) (f1 : B32 log) (f0 : B32 log) [p; p])) (q : B32 log)) = 0)%nat.
Proof. cbv zeta. split; vm_compute; reflexivity. Qed.

(** C13. max and maxBiased. *)
Theorem C13_max {T} (f : filter RA T) :
  parts RA f <> [] ->
  exists i p, nth_error (parts RA f) i = Some p /\ max RA f = Some (st RA p)
    /\ (forall q, In q (parts RA f) -> w RA q <= w RA p)
    /\ (forall j q, (j < i)%nat -> nth_error (parts RA f) j = Some q -> w RA q < w RA p).
Proof. exact (max_spec f). Qed.
Theorem C13_max_biased {T} (f : filter RA T) :
  parts RA f <> [] ->
  exists i p, nth_error (parts RA f) i = Some p /\ max_biased RA f = Some (st RA p)
    /\ (forall q, In q (parts RA f) -> w RA q * bias RA q <= w RA p * bias RA p)
    /\ (forall j q, (j < i)%nat -> nth_error (parts RA f) j = Some q ->
          w RA q * bias RA q < w RA p * bias RA p).
Proof. exact (max_biased_spec f). Qed.
Theorem C13_empty_is_undefined (A : arith) {T} (f : filter A T) :
  parts A f = [] -> max A f = None /\ max_biased A f = None.
Proof. exact (max_empty A f). Qed.

(** C14. Frames. *)
Theorem C14_predict (A : arith) {T} m (f : filter A T) :
  weights A (predict A m f) = weights A f /\ biases A (predict A m f) = biases A f
  /\ entropy A (predict A m f) = entropy A f
  /\ (forall i s, nth_error (poses A f) i = Some s -> nth_error (poses A (predict A m f)) i = Some (m i s))
  /\ length (parts A (predict A m f)) = length (parts A f).
Proof.
  destruct (predict_frame A m f) as (H1 & H2 & _ & H4 & H5). repeat (split; [assumption|]). split.
  - intros i s Hs. rewrite H5, mapi_nth, Hs. reflexivity.
  - unfold predict. cbn. apply mapi_length.
Qed.
Theorem C14_bias (A : arith) {T} b (f : filter A T) :
  weights A (do_bias A b f) = weights A f /\ poses A (do_bias A b f) = poses A f
  /\ entropy A (do_bias A b f) = entropy A f
  /\ forall i p, nth_error (parts A f) i = Some p ->
       nth_error (biases A (do_bias A b f)) i = Some (b i (st A p) (bias A p)).
Proof. destruct (bias_frame A b f) as (H1 & H2 & _ & H4 & H5). auto. Qed.
Theorem C14_noise (A : arith) {T} plus nz (f : filter A T) :
  weights A (add_noise A plus nz f) = weights A f /\ biases A (add_noise A plus nz f) = biases A f
  /\ entropy A (add_noise A plus nz f) = entropy A f
  /\ (forall i s, nth_error (poses A f) i = Some s ->
        nth_error (poses A (add_noise A plus nz f)) i = Some (plus s (nz i)))
  /\ length (parts A (add_noise A plus nz f)) = length (parts A f).
Proof.
  destruct (noise_frame A plus nz f) as (H1 & H2 & _ & H4 & H5). repeat (split; [assumption|]). split.
  - intros i s Hs. rewrite H5, mapi_nth, Hs. reflexivity.
  - unfold add_noise. cbn. apply mapi_length.
Qed.
Theorem C14_append (A : arith) {T} dflt n (f : filter A T) :
  parts A (append A dflt n f) = parts A f ++ repeat {| st := dflt; w := f0; bias := f0; acc := None |} n
  /\ entropy A (append A dflt n f) = entropy A f.
Proof. exact (append_spec A dflt n f). Qed.

(** C15. A probability distribution for ever, and no undefined behaviour. *)
Theorem C15_stays_distribution {T} (dflt : T) n gen ops r :
  (0 < n)%nat -> Forall well_called ops ->
  history RA (OInit RA gen :: ops) (new_filter RA dflt n) r ->
  exists f, r = Some f /\ distribution f.
Proof.
  intros Hn Hw H. inversion H as [|? ? ? ? Hu|? ? ? f1 ? Hp Hr Hh]; subst; [discriminate|].
  cbn in Hr. injection Hr as <-. eapply history_dist; [exact Hw| |exact Hh].
  destruct (init_frame RA gen (new_filter RA dflt n)) as (_ & E & _).
  cbn [new_filter parts] in E. rewrite repeat_length in E.
  apply uniform_dist with (n := n); [exact Hn| |exact E].
  unfold init. cbn [parts]. rewrite mapi_length. apply repeat_length.
Qed.
