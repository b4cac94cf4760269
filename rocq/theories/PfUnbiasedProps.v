(** C121: resampling is unbiased. *)
From Coq Require Import Reals ZArith List Arith Bool Permutation Lra Lia.
From Coquelicot Require Import Rcomplements Rbar Hierarchy RInt.
From Verif Require Import Arith PfModel PfSpec PfProofs RsumLemmas PfReal PfReal2 PfProps.
Import ListNotations.
Local Open Scope R_scope.

(** the area under a staircase over one period *)
Lemma floor_area c s : 0 < s -> is_RInt (fun u => IZR (Rfloor ((c - u) / s))) 0 s (c - s).
Proof.
  intro Hs. set (F := Rfloor (c / s)). set (r := c - IZR F * s).
  assert (Hr : 0 <= r < s).
  { pose proof (Rfloor_spec (c / s)) as [A B]. fold F in A, B. unfold r.
    assert (E : c = c / s * s) by (field; lra). split; nra. }
  assert (I1 : is_RInt (fun u => IZR (Rfloor ((c - u) / s))) 0 r (scal (r - 0) (IZR F))).
  { apply is_RInt_ext with (f := fun _ => IZR F); [|apply (is_RInt_const 0 r (IZR F))].
    intros x Hx. rewrite Rmin_left, Rmax_right in Hx by lra. f_equal. symmetry. apply Rfloor_unique.
    assert (E : (c - x) / s = IZR F + (r - x) / s) by (unfold r; field; lra). rewrite E.
    assert (D : 0 <= (r - x) / s < 1).
    { split; [apply Rmult_le_pos; [lra|left; apply Rinv_0_lt_compat; lra]|]. apply Rmult_lt_reg_r with s; [lra|]. unfold Rdiv. rewrite Rmult_assoc, Rinv_l by lra. lra. }
    lra. }
  assert (I2 : is_RInt (fun u => IZR (Rfloor ((c - u) / s))) r s (scal (s - r) (IZR (F - 1)))).
  { apply is_RInt_ext with (f := fun _ => IZR (F - 1)); [|apply (is_RInt_const r s (IZR (F - 1)))].
    intros x Hx. rewrite Rmin_left, Rmax_right in Hx by lra. f_equal. symmetry. apply Rfloor_unique. rewrite minus_IZR.
    assert (E : (c - x) / s = IZR F + (r - x) / s) by (unfold r; field; lra). rewrite E.
    assert (D : -1 <= (r - x) / s < 0).
    { split; [apply Rmult_le_reg_r with s; [lra|]|apply Rmult_lt_reg_r with s; [lra|]]; unfold Rdiv; rewrite Rmult_assoc, Rinv_l by lra; lra. }
    lra. }
  replace (c - s) with ((r - 0) * IZR F + (s - r) * IZR (F - 1)) by (rewrite minus_IZR; unfold r; ring).
  exact (is_RInt_Chasles _ _ _ _ _ _ I1 I2).
Qed.

(** The exact number of copies for the random number [u]. *)
Lemma scan_count_exact (ws : list R) n s u sel :
  Forall (fun x => 0 <= x) ws -> 0 < s -> Rsum ws = INR n * s -> 0 < u <= s ->
  Forall2 (fun m j => in_slot ws (s * INR m + u) j) (seq 0 n) sel ->
  forall j, occurrences j sel = (Rfloor ((prefix ws (S j) - u) / s) - Rfloor ((prefix ws j - u) / s))%Z.
Proof.
  intros Hw Hs Hsum Hu H j. unfold occurrences.
  rewrite (count_slots ws (fun m => s * INR m + u) (seq 0 n) sel H Hw j).
  assert (R1 := prefix_range ws j Hw). assert (R2 := prefix_range ws (S j) Hw).
  rewrite !count_positions; try lra. lia.
Qed.

Section Unbiased.
Context {T : Type}.
Implicit Types (f : filter RA T).
Lemma resample_exact plus normalize offset noise f :
  Forall (fun x => 0 <= x) (weights RA f) -> 0 < Rsum (weights RA f) ->
  0 < offset < resample_step RA f ->
  exists f' sel,
    resample RA plus normalize offset noise (dup_of RA 0 (parts RA f)) f = Some f'
    /\ from_pool_strict plus normalize noise (poses RA f) 0 0 (poses RA f') sel
    /\ length sel = length (parts RA f)
    /\ (forall j, occurrences j sel = (Rfloor ((prefix (weights RA f) (S j) - offset) / resample_step RA f) - Rfloor ((prefix (weights RA f) j - offset) / resample_step RA f))%Z).
Proof.
  intros Hw Hsum Hoff. rewrite step_real in *.
  set (n := length (parts RA f)) in *.
  assert (Hn : 0 < INR n).
  { apply lt_0_INR. unfold n. destruct (parts RA f) eqn:E; [|cbn; lia].
    exfalso. unfold weights in Hsum. rewrite E in Hsum. cbn in Hsum. lra. }
  set (s := Rsum (weights RA f) / INR n) in *.
  assert (Hs : 0 < s) by (apply Rdiv_lt_0_compat; assumption).
  assert (Hns : Rsum (weights RA f) = INR n * s) by (unfold s; field; lra).
  assert (Hnn : (0 < n)%nat) by (apply INR_lt; cbn; lra).
  unfold resample.
  destruct (accumulate_spec RA (parts RA f) f0) as (H1 & H2 & H3 & H4 & H5 & _).
  destruct (accumulate RA f0 (parts RA f)) as [ps t]. cbn in H1, H2, H3, H4, H5.
  rewrite fold_left_Rplus, Rplus_0_l in H5.
  replace (fdiv t (fofnat (length ps))) with s by (unfold s; cbn; rewrite H1, H5; reflexivity).
  destruct (resample_loop_real plus normalize s offset noise (parts RA f) (length ps)) with (i := 0%nat) (it := 0%nat) (k := 0%nat)
    as (ss & sel & E1 & E2 & E3); try assumption; try lra.
  { intros m Hm. lia. }
  { intros _. cbn. lra. }
  { intros _. rewrite H1. fold n. change (Rsum (map (w RA) (parts RA f))) with (Rsum (weights RA f)).
    rewrite Hns. replace (0 + n - 1)%nat with (n - 1)%nat by lia. rewrite minus_INR by lia. cbn. lra. }
  rewrite E1. eexists _, sel. split; [reflexivity|].
  assert (Hlen : length ss = length ps).
  { clear -E2 E3. apply Forall2_length in E3. rewrite seq_length in E3. rewrite E3. clear E3. induction E2; cbn; congruence. }
  destruct (assign_spec RA (frecip (length ps)) ps ss Hlen) as (G1 & G2 & G3 & G4).
  unfold poses. cbn [parts]. rewrite G1. split; [exact E2|]. split.
  - apply Forall2_length in E3. rewrite seq_length in E3. rewrite <- E3. exact H1.
  - intros j. rewrite H1 in E3. fold n in E3.
    apply (scan_count_exact (map (w RA) (parts RA f)) n s offset sel); try assumption; lra.
Qed.
End Unbiased.

(** The mean of [g u] when [u] is uniformly distributed on (0, b) is [m]. *)
Definition mean_uniform (b : R) (g : R -> R) (m : R) : Prop := is_RInt (fun u => g u / b) 0 b m.
(** The values of [phi] at the selected particles, added up. *)
Definition total_of {T} (phi : T -> R) (pool : list T) (sel : list nat) : R :=
  Rsum (map (fun j => match nth_error pool j with Some s => phi s | None => 0 end) sel).

(** In the mean over the random number, a particle is selected as often as its share of the
    total weight says: N * w / W times. *)
Theorem C121_unbiased : forall T plus normalize noise d (f : filter RA T),
  parts RA f <> [] -> Forall (fun x => 0 < x) (weights RA f) -> sorted_copy RA (dup_of RA f0 (parts RA f)) d ->
  let W := Rsum (weights RA f) in let N := INR (length (parts RA f)) in
  exists copies : nat -> R -> Z,
    (forall u, 0 < u < W / N -> exists f' sel,
       resample RA plus normalize u noise d f = Some f'
       /\ from_pool_strict plus normalize noise (poses RA f) 0 0 (poses RA f') sel
       /\ length sel = length (parts RA f) /\ (forall j, occurrences j sel = copies j u))
    /\ forall j p, nth_error (parts RA f) j = Some p -> mean_uniform (W / N) (fun u => IZR (copies j u)) (N * w RA p / W).
Proof.
  intros T plus normalize noise d f Hne Hw Hd W N. rewrite (positive_sort_unique _ _ Hw Hd).
  assert (Hw0 : Forall (fun x => 0 <= x) (weights RA f)) by (eapply Forall_impl; [|exact Hw]; cbn; intros; lra).
  assert (HN : 0 < N) by (apply lt_0_INR; destruct (parts RA f); [congruence|cbn; lia]).
  assert (HW : 0 < W).
  { unfold W, weights in *. destruct (parts RA f) as [|p ps]; [congruence|]. cbn in *. inversion Hw; subst. inversion Hw0; subst.
    assert (0 <= Rsum (map (PfModel.w RA) ps)) by (apply Rsum_nonneg; assumption). unfold Rsum in *. lra. }
  assert (Hs : 0 < W / N) by (apply Rdiv_lt_0_compat; assumption).
  assert (Es : resample_step RA f = W / N) by (rewrite step_real; reflexivity).
  exists (fun j u => (Rfloor ((prefix (weights RA f) (S j) - u) / (W / N)) - Rfloor ((prefix (weights RA f) j - u) / (W / N)))%Z).
  split.
  - intros u Hu. destruct (resample_exact plus normalize u noise f Hw0 HW) as (f' & sel & A1 & A2 & A3 & A4); [rewrite Es; exact Hu|].
    exists f', sel. split; [exact A1|]. split; [exact A2|]. split; [exact A3|]. intro j. rewrite A4, Es. reflexivity.
  - intros j p Hp. unfold mean_uniform.
    pose proof (is_RInt_minus _ _ _ _ _ _ (floor_area (prefix (weights RA f) (S j)) _ Hs) (floor_area (prefix (weights RA f) j) _ Hs)) as I.
    apply (is_RInt_scal _ _ _ (/ (W / N))) in I.
    assert (Ej : prefix (weights RA f) (S j) = prefix (weights RA f) j + PfModel.w RA p) by (apply prefix_S; unfold weights; rewrite nth_error_map, Hp; reflexivity).
    replace (N * PfModel.w RA p / W) with (/ (W / N) * ((prefix (weights RA f) (S j) - W / N) - (prefix (weights RA f) j - W / N))).
    2:{ rewrite Ej. field. split; lra. }
    eapply is_RInt_ext; [|exact I]. intros x _. rewrite minus_IZR.
    change (/ (W / N) * (IZR (Rfloor ((prefix (weights RA f) (S j) - x) / (W / N))) - IZR (Rfloor ((prefix (weights RA f) j - x) / (W / N))))
            = (IZR (Rfloor ((prefix (weights RA f) (S j) - x) / (W / N))) - IZR (Rfloor ((prefix (weights RA f) j - x) / (W / N)))) / (W / N)).
    unfold Rdiv at 3. apply Rmult_comm.
Qed.
Lemma Rsum_cons x l : Rsum (x :: l) = x + Rsum l. Proof. reflexivity. Qed.
Lemma total_count {T} (phi : T -> R) (pool : list T) : forall sel, (forall j, In j sel -> (j < length pool)%nat) ->
  total_of phi pool sel = Rsum (map (fun j => IZR (occurrences j sel) * match nth_error pool j with Some s => phi s | None => 0 end) (seq 0 (length pool))).
Proof.
  set (v := fun j => match nth_error pool j with Some s => phi s | None => 0 end).
  assert (Q : forall sel n, (forall j, In j sel -> (j < n)%nat) -> Rsum (map v sel) = Rsum (map (fun j => IZR (occurrences j sel) * v j) (seq 0 n))).
  { induction sel as [|a sel IH]; intros n Hn.
    - cbn. symmetry. induction (seq 0 n) as [|x l IHl]; [reflexivity|]. cbn. unfold Rsum in *. cbn. rewrite IHl. unfold occurrences. cbn. lra.
    - cbn [map]. rewrite Rsum_cons, (IH n) by (intros; apply Hn; right; assumption).
      assert (Ha : In a (seq 0 n)) by (apply in_seq; specialize (Hn a (or_introl eq_refl)); lia). pose proof (seq_NoDup n 0) as Hd.
      revert Ha Hd. generalize (seq 0 n) as l. induction l as [|x l IHl]; intros Ha Hd; [destruct Ha|]. cbn [map]. rewrite !Rsum_cons.
      inversion Hd as [|? ? H1 H2]; subst. destruct Ha as [->|Ha].
      + assert (E : map (fun j => IZR (occurrences j (a :: sel)) * v j) l = map (fun j => IZR (occurrences j sel) * v j) l).
        { apply map_ext_in. intros j Hj. unfold occurrences. cbn [count_occ]. destruct (Nat.eq_dec a j) as [->|]; [contradiction|reflexivity]. }
        rewrite E. unfold occurrences at 3. cbn [count_occ]. destruct (Nat.eq_dec a a) as [_|]; [|congruence]. rewrite Nat2Z.inj_succ, succ_IZR. unfold occurrences. lra.
      + specialize (IHl Ha H2). assert (Nx : a <> x) by (intros ->; contradiction). unfold occurrences at 3. cbn [count_occ]. destruct (Nat.eq_dec a x); [congruence|].
        unfold occurrences at 1. lra. }
  intros sel Hs. exact (Q sel (length pool) Hs).
Qed.
Lemma mean_sum b (gs : list (R -> R)) ms : Forall2 (mean_uniform b) gs ms -> mean_uniform b (fun u => Rsum (map (fun g => g u) gs)) (Rsum ms).
Proof.
  induction 1 as [|g m gs ms H1 H2 IH].
  - unfold mean_uniform. cbn [map]. change (Rsum []) with 0. assert (E : 0 = (b - 0) * 0) by ring. pose proof (is_RInt_const (V := R_NormedModule) 0 b 0 : is_RInt (fun _ => 0) 0 b ((b - 0) * 0)) as I. rewrite <- E in I.
    eapply is_RInt_ext; [|exact I]. intros x _. unfold Rdiv. symmetry. apply Rmult_0_l.
  - unfold mean_uniform in *. rewrite Rsum_cons. eapply is_RInt_ext; [|exact (is_RInt_plus _ _ _ _ _ _ H1 IH)].
    intros x _. cbn [map]. rewrite Rsum_cons. change (g x / b + Rsum (map (fun h => h x) gs) / b = (g x + Rsum (map (fun h => h x) gs)) / b). unfold Rdiv. ring.
Qed.
Lemma mean_scale b g m (k : R) : mean_uniform b g m -> mean_uniform b (fun u => g u * k) (m * k).
Proof.
  unfold mean_uniform. intro H. apply (is_RInt_scal _ _ _ k) in H. replace (m * k) with (k * m) by ring. eapply is_RInt_ext; [|exact H].
  intros x _. change (k * (g x / b) = g x * k / b). unfold Rdiv. ring.
Qed.
(** So for every quantity [phi] of a particle, its mean over the resampled set (before the noise
    is added to the repeated ones) is, in the mean over the random number, its weighted mean. *)
Theorem C121_mean_preserved : forall T plus normalize noise d (f : filter RA T) (phi : T -> R),
  parts RA f <> [] -> Forall (fun x => 0 < x) (weights RA f) -> sorted_copy RA (dup_of RA f0 (parts RA f)) d ->
  let W := Rsum (weights RA f) in let N := INR (length (parts RA f)) in
  exists selected : R -> R,
    (forall u, 0 < u < W / N -> exists f' sel,
       resample RA plus normalize u noise d f = Some f'
       /\ from_pool_strict plus normalize noise (poses RA f) 0 0 (poses RA f') sel
       /\ length sel = length (parts RA f) /\ selected u = total_of phi (poses RA f) sel / N)
    /\ mean_uniform (W / N) selected (Rsum (map (fun p => w RA p * phi (st RA p)) (parts RA f)) / W).
Proof.
  intros T plus normalize noise d f phi Hne Hw Hd W N.
  destruct (C121_unbiased T plus normalize noise d f Hne Hw Hd) as (copies & H1 & H2). fold W in H1, H2. fold N in H1, H2.
  assert (HN : 0 < N) by (apply lt_0_INR; destruct (parts RA f); [congruence|cbn; lia]).
  set (v := fun j => match nth_error (poses RA f) j with Some s => phi s | None => 0 end).
  exists (fun u => Rsum (map (fun g => g u) (map (fun j u => IZR (copies j u) * (v j / N)) (seq 0 (length (parts RA f)))))).
  split.
  - intros u Hu. destruct (H1 u Hu) as (f' & sel & A1 & A2 & A3 & A4). exists f', sel. split; [exact A1|]. split; [exact A2|]. split; [exact A3|].
    assert (Hin : forall j, In j sel -> (j < length (poses RA f))%nat).
    { clear -A2. induction A2; intros i Hi; [destruct Hi| |]; (destruct Hi as [<-|Hi]; [apply nth_error_Some; congruence|auto]). }
    rewrite (total_count phi (poses RA f) sel Hin), map_map. unfold poses at 2. rewrite map_length, <- Rsum_map_div. f_equal. apply map_ext. intro j.
    rewrite A4. fold (v j). unfold Rdiv. ring.
  - replace (Rsum (map (fun p => PfModel.w RA p * phi (st RA p)) (parts RA f)) / W)
      with (Rsum (map (fun j => N * match nth_error (parts RA f) j with Some p => PfModel.w RA p | None => 0 end / W * (v j / N)) (seq 0 (length (parts RA f))))).
    + apply mean_sum. assert (G : forall l, (forall j, In j l -> (j < length (parts RA f))%nat) ->
        Forall2 (mean_uniform (W / N)) (map (fun j u => IZR (copies j u) * (v j / N)) l)
                (map (fun j => N * match nth_error (parts RA f) j with Some p => PfModel.w RA p | None => 0 end / W * (v j / N)) l)).
      { induction l as [|j l IH]; intro Hl; [constructor|]. cbn [map]. constructor; [|apply IH; intros; apply Hl; right; assumption].
        destruct (nth_error (parts RA f) j) as [p|] eqn:Ep; [|apply nth_error_None in Ep; specialize (Hl j (or_introl eq_refl)); lia].
        exact (mean_scale _ _ _ (v j / N) (H2 j p Ep)). }
      apply G. intros j Hj. apply in_seq in Hj. lia.
    + unfold Rdiv at 3. rewrite Rmult_comm, <- Rsum_map_scale.
      assert (G : forall l k, (forall i p, nth_error l i = Some p -> nth_error (parts RA f) (k + i) = Some p) ->
        map (fun j => N * match nth_error (parts RA f) j with Some p => PfModel.w RA p | None => 0 end / W * (v j / N)) (seq k (length l))
        = map (fun p => / W * (PfModel.w RA p * phi (st RA p))) l).
      { induction l as [|p l IH]; intros k Hk; [reflexivity|]. cbn [length seq map]. f_equal.
        - specialize (Hk 0%nat p eq_refl). rewrite Nat.add_0_r in Hk. rewrite Hk. unfold v, poses. rewrite nth_error_map, Hk. cbn [option_map]. clear -HN. generalize (PfModel.w RA p : R) as a. generalize (phi (st RA p)) as c. intros c a. unfold Rdiv. replace (N * a * / W * (c * / N)) with (N * / N * (a * / W * c)) by ring. rewrite Rinv_r by lra. ring.
        - apply IH. intros i q Hq. specialize (Hk (S i) q Hq). replace (S k + i)%nat with (k + S i)%nat by lia. exact Hk. }
      f_equal. apply (G (parts RA f) 0%nat). auto.
Qed.
Example C121_nonvacuous : let f := two true false (1/4) (3/4) in
  parts RA f <> [] /\ Forall (fun x => 0 < x) (weights RA f) /\ sorted_copy RA (dup_of RA f0 (parts RA f)) (dup_of RA 0 (parts RA f))
  /\ Rsum (map (fun p => w RA p * (if st RA p : bool then 1 else 0)) (parts RA f)) / Rsum (weights RA f) = 1 / 4.
Proof.
  destruct C06_nonvacuous as (H1 & H2 & H3 & _). split; [exact H1|]. split; [exact H2|]. split; [exact H3|]. unfold two, weights; cbn. field.
Qed.
