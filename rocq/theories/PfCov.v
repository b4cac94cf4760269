(** Covariance matrix of the particle filter: value and positive semi-definiteness. *)
From Coq Require Import Reals ZArith List Arith Bool Permutation Lra Lia.
From Verif Require Import Arith PfModel PfSpec PfProofs RsumLemmas PfReal PfReal2.
Import ListNotations.

Section Gen.
Context (A : arith).
Lemma cov_upd_val elem j k (m : mat A) a b :
  j <= k -> a <= b ->
  cov_upd A elem j k m a b = if (a =? j) && (b =? k) then fadd (m a b) (elem a b) else m a b.
Proof.
  intros Hjk Hab. unfold cov_upd, mat_set.
  destruct (Nat.eqb_spec a k), (Nat.eqb_spec b j), (Nat.eqb_spec a j), (Nat.eqb_spec b k);
    cbn [andb]; subst; try reflexivity; try lia.
Qed.
Lemma cov_row_val elem j ks (m : mat A) a b :
  NoDup ks -> (forall k, In k ks -> j <= k) -> a <= b ->
  cov_row A elem j ks m a b
  = if (a =? j) && (if in_dec Nat.eq_dec b ks then true else false) then fadd (m a b) (elem a b) else m a b.
Proof.
  intros Hnd. revert m. induction Hnd as [|k ks Hk Hnd IH]; intros m Hle Hab; cbn [cov_row].
  - cbn. rewrite andb_false_r. reflexivity.
  - rewrite IH by (auto; intros; apply Hle; right; assumption).
    rewrite cov_upd_val by (auto; apply Hle; left; reflexivity).
    destruct (Nat.eqb_spec a j); cbn [andb]; [|reflexivity].
    destruct (in_dec Nat.eq_dec b ks) as [Hi|Hi], (in_dec Nat.eq_dec b (k :: ks)) as [Hi'|Hi'],
      (Nat.eqb_spec b k); subst; try reflexivity; try contradiction.
    + exfalso. apply Hi'. right. assumption.
    + destruct Hi' as [->|?]; contradiction.
    + exfalso. apply Hi'. left. reflexivity.
Qed.
Lemma cov_rows_val elem dim js (m : mat A) a b :
  NoDup js -> a <= b < dim ->
  cov_rows A elem dim js m a b
  = if in_dec Nat.eq_dec a js then fadd (m a b) (elem a b) else m a b.
Proof.
  intros Hnd Hab. revert m. induction Hnd as [|j js Hj Hnd IH]; intros m; cbn [cov_rows]; [reflexivity|].
  rewrite IH. rewrite cov_row_val; [| apply seq_NoDup | intros k Hk; apply in_seq in Hk; lia | lia].
  destruct (in_dec Nat.eq_dec b (seq j (dim - j))) as [Hb|Hb].
  - rewrite andb_true_r.
    destruct (in_dec Nat.eq_dec a js), (in_dec Nat.eq_dec a (j :: js)) as [Hi|Hi], (Nat.eqb_spec a j);
      subst; try reflexivity; try contradiction.
    + exfalso. apply Hi. right. assumption.
    + destruct Hi as [->|?]; contradiction.
    + exfalso. apply Hi. left. reflexivity.
  - rewrite in_seq in Hb. rewrite andb_false_r.
    destruct (in_dec Nat.eq_dec a js), (in_dec Nat.eq_dec a (j :: js)) as [Hi|Hi];
      try reflexivity; try contradiction.
    + exfalso. apply Hi. right. assumption.
    + destruct Hi as [->|?]; [lia|contradiction].
Qed.
End Gen.

Local Open Scope R_scope.
Section Real.
Context {T : Type} (ce : T -> T -> nat -> nat -> R) (g : T -> T -> nat -> R).
Hypothesis Hce : forall s e j k, ce s e j k = g s e j * g s e k.
Notation P := (particle RA T).
Local Notation cee := (ce : T -> T -> nat -> nat -> F RA).

(** The sampled particles. *)
Lemma cov_loop_value (e : T) dim (ps : list P) idx (m : nat -> nat -> R) p_sum m' s' :
  cov_loop RA cee e dim ps idx m p_sum = Some (m', s') ->
  exists qs, Forall2 (fun i q => nth_error ps i = Some q) idx qs
    /\ s' = p_sum + Rsum (map (w RA) qs)
    /\ forall a b, (a <= b < dim)%nat ->
       m' a b = m a b + Rsum (map (fun q => w RA q * g (st RA q) e a * g (st RA q) e b) qs).
Proof.
  revert m p_sum. induction idx as [|i idx IH]; intros m p_sum H; cbn [cov_loop] in H.
  - injection H as <- <-. exists []. split; [constructor|]. split; [change (p_sum = p_sum + 0); lra|]. intros a b _. change (m a b = m a b + 0); lra.
  - destruct (nth_error ps i) as [p|] eqn:Hp; [|discriminate].
    destruct (IH _ _ H) as (qs & H1 & H2 & H3).
    exists (p :: qs). split; [|split].
    + constructor; assumption.
    + rewrite H2. cbn. unfold Rsum. lra.
    + intros a b Hab. rewrite H3 by assumption.
      rewrite (cov_rows_val RA) by (try apply seq_NoDup; assumption).
      destruct (in_dec Nat.eq_dec a (seq 0 dim)) as [_|n]; [|rewrite in_seq in n; lia].
      cbn. rewrite Hce. unfold Rsum. lra.
Qed.

Lemma cov_loop_symm (e : T) dim (ps : list P) idx m p_sum m' s' :
  symm RA m -> cov_loop RA cee e dim ps idx m p_sum = Some (m', s') -> symm RA m'.
Proof.
  intros Hm H. 
  revert m p_sum Hm H. induction idx as [|i idx IH]; intros m p_sum Hm H; cbn [cov_loop] in H.
  - injection H as <- <-. assumption.
  - destruct (nth_error ps i) as [p|]; [|discriminate].
    eapply IH; [|exact H]. apply cov_rows_symm. assumption.
Qed.

Lemma covariance_value0 M dim pass ratio shuffle (f : filter RA T) c :
  covariance RA M cee dim pass ratio shuffle f = Some c ->
  exists e qs, expectation RA M pass f = Some e
    /\ Forall2 (fun i q => nth_error (parts RA f) i = Some q) (sample_indices RA (pass_count RA pass 0 (parts RA f)) ratio shuffle) qs
    /\ forall a b, (a < dim)%nat -> (b < dim)%nat ->
       c a b = Rsum (map (fun q => w RA q * g (st RA q) e a * g (st RA q) e b) qs)
               / Rsum (map (w RA) qs).
Proof.
  unfold covariance. destruct (expectation RA M pass f) as [e|]; [|discriminate].
  destruct (cov_loop RA cee e dim (parts RA f) _ (fun _ _ => f0) f0)
    as [[m s]|] eqn:HL; [|discriminate].
  intros E. injection E as <-.
  assert (Hsy : symm RA m).
  { eapply cov_loop_symm; [|exact HL]. intros a b. reflexivity. }
  destruct (cov_loop_value _ _ _ _ _ _ _ _ HL) as (qs & H1 & H2 & H3).
  exists e, qs. split; [reflexivity|]. split; [exact H1|].
  intros a b Ha Hb. unfold cov_div.
  apply Nat.ltb_lt in Ha, Hb. rewrite Ha, Hb. cbn [andb]. apply Nat.ltb_lt in Ha, Hb.
  cbn in H2. rewrite Rplus_0_l in H2. rewrite H2. change (@fdiv RA) with Rdiv. f_equal.
  destruct (Nat.le_ge_cases a b) as [Hab|Hab].
  - rewrite H3 by lia. cbn. lra.
  - rewrite Hsy, H3 by lia. cbn. rewrite Rplus_0_l. apply Rsum_ext. intros q _. lra.
Qed.

Lemma quad_rank_one (S : R) (ps : list P) (u : P -> nat -> R) (v : nat -> R) dim (c : nat -> nat -> R) :
  (forall a b, (a < dim)%nat -> (b < dim)%nat ->
     c a b = Rsum (map (fun q => w RA q * u q a * u q b) ps) / S) ->
  quad dim c v
  = Rsum (map (fun q => w RA q * (Rsum (map (fun a => v a * u q a) (seq 0 dim)) * Rsum (map (fun a => v a * u q a) (seq 0 dim)))) ps) / S.
Proof.
  intros Hc. unfold quad.
  transitivity (Rsum (map (fun j => Rsum (map (fun k => Rsum (map (fun q => / S * (w RA q * ((v j * u q j) * (v k * u q k)))) ps)) (seq 0 dim))) (seq 0 dim))).
  { apply Rsum_ext. intros a Ha. apply Rsum_ext. intros b Hb. apply in_seq in Ha, Hb.
    rewrite Hc by lia. rewrite Rsum_map_scale. unfold Rdiv.
    transitivity (/ S * (v a * v b * Rsum (map (fun q => w RA q * u q a * u q b) ps))); [lra|].
    f_equal. rewrite <- Rsum_map_scale. apply Rsum_ext. intros q _. lra. }
  transitivity (Rsum (map (fun j => Rsum (map (fun q => Rsum (map (fun k => / S * (w RA q * ((v j * u q j) * (v k * u q k)))) (seq 0 dim))) ps)) (seq 0 dim))).
  { apply Rsum_ext. intros a _. apply (Rsum_swap (fun k q => / S * (w RA q * ((v a * u q a) * (v k * u q k))))). }
  rewrite (Rsum_swap (fun j q => Rsum (map (fun k => / S * (w RA q * ((v j * u q j) * (v k * u q k)))) (seq 0 dim)))).
  rewrite <- Rsum_map_div. apply Rsum_ext. intros q _.
  set (X := Rsum (map (fun a => v a * u q a) (seq 0 dim))).
  transitivity (Rsum (map (fun j => / S * w RA q * X * (v j * u q j)) (seq 0 dim))).
  { apply Rsum_ext. intros a _.
    transitivity (Rsum (map (fun k => (/ S * w RA q * (v a * u q a)) * (v k * u q k)) (seq 0 dim))).
    { apply Rsum_ext. intros; lra. }
    rewrite Rsum_map_scale. fold X. lra. }
  rewrite Rsum_map_scale. fold X. unfold Rdiv. lra.
Qed.

Lemma Forall2_nth_in_order (ps : list P) idx qs :
  Forall2 (fun i q => nth_error ps i = Some q) idx qs -> map (nth_error ps) idx = map Some qs.
Proof. induction 1 as [|i q idx qs Hi H IH]; cbn [map]; [reflexivity|]. rewrite Hi, IH. reflexivity. Qed.
Lemma map_nth_seq (ps : list P) k : (k <= length ps)%nat -> map (nth_error ps) (seq 0 k) = map Some (firstn k ps).
Proof.
  revert k. induction ps as [|p ps IH]; intros [|k] Hk; cbn [length] in Hk; try reflexivity; [lia|].
  cbn [seq map firstn]. f_equal. rewrite <- seq_shift, map_map. cbn [nth_error]. apply IH. lia.
Qed.
Lemma map_Some_inj (a b : list P) : map Some a = map Some b -> a = b.
Proof. revert b. induction a as [|x a IH]; intros [|y b] H; cbn in H; try discriminate; [reflexivity|]. injection H as -> H. f_equal. apply IH, H. Qed.

(** the pass ratio uses the shortest prefix whose total exceeds it *)
Lemma pass_count_passed pass (ps : list P) : passed pass (map (w RA) ps) (pass_count RA pass 0 ps).
Proof.
  assert (G : forall (ps : list P) a, let k := pass_count RA pass a ps in
    (k <= length ps)%nat /\ (forall j, (0 < j < k)%nat -> a + Rsum (firstn j (map (w RA) ps)) <= pass)
    /\ (k = length ps \/ ((0 < k)%nat /\ pass < a + Rsum (firstn k (map (w RA) ps))))).
  { clear ps. induction ps as [|p ps IH]; intros a; cbn zeta; cbn [pass_count length map].
    - split; [lia|]. split; [intros; lia|left; reflexivity].
    - change (@flt RA pass (@fadd RA a (w RA p))) with (Rltb pass (a + w RA p)).
      destruct (Rltb pass (a + w RA p)) eqn:E.
      + apply Rltb_true in E. split; [lia|]. split; [intros; lia|]. right. split; [lia|]. cbn [firstn]. unfold Rsum. cbn [fold_right]. lra.
      + apply Rltb_false in E. destruct (IH (a + w RA p)) as (H1 & H2 & H3). set (k := pass_count RA pass (a + w RA p) ps) in *.
        change (pass_count RA pass (@fadd RA a (w RA p)) ps) with k.
        split; [lia|]. split.
        * intros [|j] Hj; [lia|]. cbn [firstn]. unfold Rsum. cbn [fold_right]. fold (Rsum (firstn j (map (w RA) ps))).
          destruct j as [|j]; [cbn; lra|]. specialize (H2 (S j) ltac:(lia)). lra.
        * destruct H3 as [H3|[H3 H4]]; [left; lia|]. right. split; [lia|]. cbn [firstn]. unfold Rsum. cbn [fold_right]. fold (Rsum (firstn k (map (w RA) ps))). lra. }
  destruct (G ps 0) as (H1 & H2 & H3). unfold passed. rewrite map_length. split; [exact H1|]. split.
  - intros j Hj. specialize (H2 j Hj). lra.
  - destruct H3 as [H3|[H3 H4]]; [left; exact H3|right; split; [exact H3|lra]].
Qed.

Lemma sample_spec ratio shuffle (ps : list P) k qs : 0 <= ratio -> (forall l, Permutation l (shuffle l)) -> (k <= length ps)%nat ->
  Forall2 (fun i q => nth_error ps i = Some q) (sample_indices RA k ratio shuffle) qs ->
  sample_of ratio (firstn k ps) qs.
Proof.
  intros Hr Hs Hk H. destruct (sample_split RA k ratio shuffle Hs) as (rest & Hp & Hf & Ht).
  assert (Hq : map (nth_error ps) (sample_indices RA k ratio shuffle) = map Some qs) by (apply Forall2_nth_in_order, H).
  assert (Hlen : length qs = length (sample_indices RA k ratio shuffle)).
  { rewrite <- (map_length Some qs), <- Hq, map_length. reflexivity. }
  assert (Hrest : exists rs, map (nth_error ps) rest = map Some rs).
  { assert (Hin : forall i, In i rest -> (i < length ps)%nat).
    { intros i Hi. assert (Hx : In i (seq 0 k)) by (apply (Permutation_in _ (Permutation_sym Hp)); apply in_or_app; right; exact Hi). apply in_seq in Hx. lia. }
    clear - Hin. induction rest as [|i rest IH]; [exists []; reflexivity|].
    destruct IH as (rs & E); [intros j Hj; apply Hin; right; exact Hj|].
    destruct (nth_error ps i) as [x|] eqn:Ei; [exists (x :: rs); cbn [map]; rewrite Ei, E; reflexivity|].
    apply nth_error_None in Ei. specialize (Hin i (or_introl eq_refl)). lia. }
  destruct Hrest as (rs & Ers).
  exists rs. split; [|].
  - pose proof (Permutation_map (nth_error ps) Hp) as Hm. rewrite map_app, Hq, Ers, <- map_app, (map_nth_seq ps k Hk) in Hm.
    apply Permutation_map_inv in Hm. destruct Hm as (l & E & Hl). apply map_Some_inj in E. subst l. apply Permutation_sym, Hl.
  - change (@flt RA ratio f1) with (Rltb ratio 1) in Hf, Ht.
    destruct (Rlt_dec ratio 1) as [Hlt|Hge].
    + assert (E : Rltb ratio 1 = true) by (apply Rltb_true; exact Hlt). specialize (Ht E).
      rewrite firstn_length_le by exact Hk. rewrite Hlen, Ht.
      change (@ftrunc RA (@fmul RA (@fofnat RA k) ratio)) with (Z.to_nat (Rfloor (INR k * ratio))).
      destruct (Rfloor_spec (INR k * ratio)) as [F1 F2].
      assert (Hz : (0 <= Rfloor (INR k * ratio))%Z).
      { apply le_IZR. pose proof (pos_INR k). assert (0 <= INR k * ratio) by (apply Rmult_le_pos; assumption).
        destruct (Z_lt_le_dec (Rfloor (INR k * ratio)) 0) as [C|C]; [|apply IZR_le; exact C].
        assert (IZR (Rfloor (INR k * ratio)) + 1 <= 0) by (rewrite <- plus_IZR; apply IZR_le; lia). lra. }
      assert (Hmin : Nat.min k (Z.to_nat (Rfloor (INR k * ratio))) = Z.to_nat (Rfloor (INR k * ratio))).
      { apply Nat.min_r. apply INR_le. rewrite INR_IZR_INZ, Z2Nat.id by exact Hz.
        pose proof (pos_INR k). assert (INR k * ratio <= INR k * 1) by (apply Rmult_le_compat_l; lra). lra. }
      rewrite Hmin, INR_IZR_INZ, Z2Nat.id by exact Hz. lra.
    + assert (E : Rltb ratio 1 = false) by (apply Rltb_false; lra). rewrite (Hf E) in Ers. destruct rs; [reflexivity|discriminate].
Qed.

Lemma covariance_value M dim pass ratio shuffle (f : filter RA T) c :
  0 <= ratio -> (forall l, Permutation l (shuffle l)) ->
  covariance RA M cee dim pass ratio shuffle f = Some c ->
  exists e k qs, expectation RA M pass f = Some e
    /\ passed pass (weights RA f) k /\ sample_of ratio (firstn k (parts RA f)) qs
    /\ forall a b, (a < dim)%nat -> (b < dim)%nat ->
       c a b = Rsum (map (fun q => w RA q * g (st RA q) e a * g (st RA q) e b) qs)
               / Rsum (map (w RA) qs).
Proof.
  intros Hr Hs Hc. destruct (covariance_value0 _ _ _ _ _ _ _ Hc) as (e & qs & H1 & H2 & H3).
  exists e, (pass_count RA pass 0 (parts RA f)), qs. split; [exact H1|]. split; [apply pass_count_passed|]. split; [|exact H3].
  eapply sample_spec; [exact Hr|exact Hs|apply (pass_count_le RA)|exact H2].
Qed.

Lemma sample_in {X} ratio (ps qs : list X) x : sample_of ratio ps qs -> In x qs -> In x ps.
Proof. intros (rest & Hp & _) Hx. apply (Permutation_in _ (Permutation_sym Hp)). apply in_or_app. left. exact Hx. Qed.
(** no direction has a negative variance *)
Lemma covariance_psd M dim pass ratio shuffle (f : filter RA T) c :
  0 <= ratio -> (forall l, Permutation l (shuffle l)) ->
  covariance RA M cee dim pass ratio shuffle f = Some c ->
  Forall (fun x => 0 <= x) (weights RA f) ->
  exists k qs, passed pass (weights RA f) k /\ sample_of ratio (firstn k (parts RA f)) qs
    /\ (0 < Rsum (map (w RA) qs) -> forall v, 0 <= quad dim c v).
Proof.
  intros Hr Hs Hc Hw. destruct (covariance_value _ _ _ _ _ _ _ Hr Hs Hc) as (e & k & qs & _ & H1 & H2 & H3).
  exists k, qs. split; [exact H1|]. split; [exact H2|]. intros Hpos v.
  assert (Hq : forall q, In q qs -> 0 <= w RA q).
  { intros q Hq. rewrite Forall_forall in Hw. apply Hw. unfold weights. apply in_map.
    rewrite <- (firstn_skipn k (parts RA f)). apply in_or_app. left. eapply sample_in; eassumption. }
  rewrite (quad_rank_one (Rsum (map (w RA) qs)) qs (fun q a => g (st RA q) e a) v dim c H3).
  apply Rmult_le_pos; [|left; apply Rinv_0_lt_compat; exact Hpos].
  apply Rsum_nonneg. rewrite Forall_map. apply Forall_forall. intros q Hin.
  apply Rmult_le_pos; [apply Hq; assumption|]. apply Rle_0_sqr.
Qed.
End Real.
