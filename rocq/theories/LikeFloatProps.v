(** Property C123: the likelihood model's score and match ratio as the C++ floats compute
    them (vocabulary: LikeFloatSpec.v). *)
From Coq Require Import Reals ZArith List Bool Lra Lia Psatz.
From Flocq Require Import Core.Core IEEE754.BinarySingleNaN.
From Verif Require Import Arith Ieee PfModel PfSpec PfProofs PfHist PfErr2Props QuatModel StateModel KdModel RayModel LidarModel
  LikeFloatModel LikeFloatSpec LikeFloatProofs LikeFloatErr.
Import ListNotations.
Local Open Scope R_scope.

(** ** the definition read over floats below is, read over the reals, the model of LidarModel *)
Definition first_sq (x : search) : option (option R) :=
  match x with Throws => None | NoChunk | Found [] => Some None | Found ((_, sq) :: _) => Some (Some sq) end.
Lemma cxx_max_R (a b : R) : cxx_max (A := RA) a b = Rmax a b.
Proof. unfold cxx_max. cbn [Arith.flt RA]. unfold Rltb, Rmax. destruct (Rlt_dec a b), (Rle_dec a b); try reflexivity; lra. Qed.
Lemma like_points_fold lp f : forall pts found (score : R) num,
  Forall2 (fun p d => first_sq (f (to_pt (p3 p)) (lp_dist_min lp)) = Some d) pts found ->
  like_points lp f pts score num = Some (like_fold (A := RA) sqrt (lp_dist_min lp) (lp_dist_flat lp) (lp_weight lp) found score num).
Proof.
  intros pts found score num H. revert score num. induction H as [|p d pts found E H IH]; intros score num; [reflexivity|].
  cbn [like_points like_fold]. unfold first_sq in E.
  destruct (f (to_pt (p3 p)) (lp_dist_min lp)) as [| |[|[i sq] rest]]; try discriminate; injection E as <-; try apply IH.
  unfold like_dist. rewrite cxx_max_R. cbv zeta. cbn [Arith.flt fsub f0 RA]. destruct (Rltb _ 0); apply IH.
Qed.
Theorem C123_same_code : forall l f pts st found,
  Forall2 (fun p d => first_sq (f (to_pt (p3 p)) (lp_dist_min (l_par l))) = Some d) (transform st pts) found ->
  like_measure l f (Some pts) st
  = Some (like_result (A := RA) sqrt (lp_dist_min (l_par l)) (lp_dist_flat (l_par l)) (lp_weight (l_par l)) found).
Proof.
  intros l f pts st found H. destruct pts as [|p pts].
  - inversion H; subst. reflexivity.
  - unfold like_measure. rewrite (like_points_fold _ f _ _ 0 0 H).
    assert (L : length (transform st (p :: pts)) = length found) by (clear -H; induction H; cbn; auto).
    inversion H as [|? d ? found' ? ? E]; subst. unfold like_result. fold (transform st pts).
    rewrite L. cbn [f0 RA]. destruct (like_fold _ _ _ _ _ _ _). reflexivity.
Qed.

Section C123.
Variable log : f32 -> f32.
Notation result32 := (like_result (A := B32 log) (Bsqrt mode_NE)).
Notation fold32 := (like_fold (A := B32 log) (Bsqrt mode_NE)).

Lemma result_cons dmin flat weight d found : result32 dmin flat weight (d :: found) =
  (fst (fold32 dmin flat weight (d :: found) f0 0), like_ratio (snd (fold32 dmin flat weight (d :: found) f0 0)) (length (d :: found))).
Proof. unfold like_result. destruct (fold32 dmin flat weight (d :: found) f0 0). reflexivity. Qed.
Lemma result_ne dmin flat weight found : found <> [] -> result32 dmin flat weight found =
  (fst (fold32 dmin flat weight found f0 0), like_ratio (snd (fold32 dmin flat weight found f0 0)) (length found)).
Proof. destruct found; [congruence|]. intros _. apply result_cons. Qed.
Lemma zero_ok e : nonneg32 (B754_zero false) /\ f2r (B754_zero false) <= IZR 0 * bpow radix2 e.
Proof. split; [split; [reflexivity|cbn; lra]|cbn; lra]. Qed.

(** With finite, non-negative settings and at least one point (at most 2^24), whatever
    distances the search reports: the score is a finite float, not negative, at most 2^e per
    matched point; [hits] says which points are within reach, and the ratio is the float
    quotient of their number, finite and in [0, 1]; it is 1 exactly when every point matches
    and 0 exactly when none does. *)
Theorem C123_score_and_ratio : forall dmin flat weight e found,
  sane dmin flat weight -> (-149 <= e <= 100)%Z -> f2r dmin * f2r weight <= bpow radix2 e ->
  found <> [] -> (Z.of_nat (length found) <= 16777216)%Z -> Forall a_distance found ->
  exists hits, Forall2 (fun d (h : bool) => h = true <-> within dmin flat d) found hits /\
  let k := count_occ Bool.bool_dec hits true in
  let score : f32 := fst (result32 dmin flat weight found) in
  let ratio : f32 := snd (result32 dmin flat weight found) in
  is_finite score = true /\ 0 <= f2r score <= INR k * bpow radix2 e /\
  is_finite ratio = true /\ 0 <= f2r ratio <= 1 /\
  f2r ratio = rnd (INR k / INR (length found)) /\
  (f2r ratio = 1 <-> k = length found) /\ (f2r ratio = 0 <-> k = 0%nat).
Proof.
  intros dmin flat weight e found Hs He Hw Hne Hn HF. rewrite (result_ne _ _ _ _ Hne). cbn [fst snd].
  destruct (zero_ok e) as [Z1 Z2].
  destruct (fold_ok log dmin flat weight Hs e He Hw found (B754_zero false) 0 0%Z HF Z1 ltac:(lia) ltac:(lia) Z2) as (A1 & A2 & A3).
  destruct (fold_count log dmin flat weight Hs found (B754_zero false) 0 HF) as (hits & B1 & B2). exists hits. split; [exact B1|].
  cbn zeta. cbn [f0 B32]. revert A1 A2 A3 B2. cbv zeta. cbn [Nat.add]. cbn [F B32]. generalize (fold32 dmin flat weight found (B754_zero false) 0). intros [score num]. cbn [fst snd].
  intros A1 A2 A3 ->. set (k := count_occ Bool.bool_dec hits true) in *.
  assert (P : (0 < length found)%nat) by (destruct found; [congruence|cbn; lia]).
  split; [apply A1|]. split; [split; [apply A1|]|].
  { replace (IZR (0 + Z.of_nat (k - 0))) with (INR k) in A2 by (rewrite INR_IZR_INZ; f_equal; lia). cbn [F B32] in *. lra. }
  destruct (ratio_ok log k (length found) ltac:(lia) P ltac:(lia)) as (R1 & R2 & R3).
  rewrite (of_nat_exact k) in R3 by lia. rewrite (of_nat_exact (length found)) in R3 by lia.
  split; [exact R1|]. split; [exact R2|]. split; [exact R3|]. cbn zeta in R2, R3. rewrite R3.
  assert (PL : 1 <= INR (length found) <= 16777216).
  { split; [change 1 with (INR 1); apply le_INR; lia|]. rewrite INR_IZR_INZ. apply IZR_le. lia. }
  split; split; intros H.
  - destruct (Nat.eq_dec k (length found)) as [E|N]; [exact E|exfalso].
    assert (Q : INR k / INR (length found) <= IZR 16777215 * bpow radix2 (-24)).
    { apply Rmult_le_reg_r with (INR (length found)); [lra|]. unfold Rdiv. rewrite Rmult_assoc, Rinv_l by lra.
      assert (INR k + 1 <= INR (length found)) by (rewrite <- S_INR; apply le_INR; lia).
      change (bpow radix2 (-24)) with (/ 16777216). lra. }
    pose proof (rnd_le _ _ (fmt_int_bpow 16777215 (-24) ltac:(lia) ltac:(lia)) Q) as X. rewrite H in X.
    change (bpow radix2 (-24)) with (/ 16777216) in X. lra.
  - rewrite H. unfold Rdiv. rewrite Rinv_r by lra. apply rnd_id. apply (fmt_bpow 0). lia.
  - destruct (Nat.eq_dec k 0) as [E|N]; [exact E|exfalso].
    assert (Q : bpow radix2 (-24) <= INR k / INR (length found)).
    { apply Rmult_le_reg_r with (INR (length found)); [lra|]. unfold Rdiv. rewrite Rmult_assoc, Rinv_l by lra.
      assert (1 <= INR k) by (change 1 with (INR 1); apply le_INR; lia). change (bpow radix2 (-24)) with (/ 16777216). lra. }
    pose proof (rnd_ge _ _ (fmt_bpow (-24) ltac:(lia)) Q) as X. rewrite H in X. pose proof (bpow_gt_0 radix2 (-24)). lra.
  - rewrite H. cbn [INR]. unfold Rdiv. rewrite Rmult_0_l. apply rnd_id, fmt_0.
Qed.

(** Rounding does not break the order: if every point of one cloud is at least as close to the
    map as the corresponding point of another, neither its score nor its ratio is lower. *)
Theorem C123_closer_is_better : forall dmin flat weight e near far,
  sane dmin flat weight -> (-149 <= e <= 100)%Z -> f2r dmin * f2r weight <= bpow radix2 e ->
  (Z.of_nat (length near) <= 16777216)%Z -> Forall a_distance near -> Forall a_distance far ->
  Forall2 at_least_as_close near far ->
  f2r (fst (result32 dmin flat weight far)) <= f2r (fst (result32 dmin flat weight near)) /\
  f2r (snd (result32 dmin flat weight far)) <= f2r (snd (result32 dmin flat weight near)).
Proof.
  intros dmin flat weight e near far Hs He Hw Hn Ha Hb H. destruct (zero_ok e) as [Z1 Z2].
  assert (L : length near = length far) by (clear -H; induction H; cbn; auto).
  assert (C : near = [] \/ near <> []) by (destruct near; [left; reflexivity|right; discriminate]).
  destruct C as [->|Ne]; [destruct far; [split; apply Rle_refl|discriminate]|].
  assert (Nf : far <> []) by (intros ->; destruct near; [congruence|discriminate]).
  assert (P : (0 < length near)%nat) by (destruct near; [congruence|cbn; lia]).
  rewrite (result_ne dmin flat weight near Ne), (result_ne dmin flat weight far Nf). cbn [fst snd].
  revert P L H Ha Hb Hn. clear Ne Nf. revert near far. intros fa fb P L H Ha Hb Hn.
  destruct (fold_mono log dmin flat weight Hs e He Hw fa fb (B754_zero false) (B754_zero false) 0 0 0%Z H Ha Hb Z1 Z1 (Rle_refl _) ltac:(lia) ltac:(lia) ltac:(lia) Z2) as [M1 M2].
  destruct (fold_ok log dmin flat weight Hs e He Hw fa (B754_zero false) 0 0%Z Ha Z1 ltac:(lia) ltac:(lia) Z2) as (_ & _ & A3).
  split; [exact M1|].
  change (f2r (like_ratio (A := B32 log) (snd (fold32 dmin flat weight fb (B754_zero false) 0)) (length fb))
       <= f2r (like_ratio (A := B32 log) (snd (fold32 dmin flat weight fa (B754_zero false) 0)) (length fa))). rewrite <- L.
  destruct (ratio_ok log _ (length fa) (proj2 A3) P ltac:(lia)) as (_ & _ & ->).
  destruct (ratio_ok log _ (length fa) (Nat.le_trans _ _ _ M2 (proj2 A3)) P ltac:(lia)) as (_ & _ & ->).
  apply rnd_mono. rewrite !of_nat_exact by lia. apply Rmult_le_compat_r; [|apply le_INR; exact M2].
  left. apply Rinv_0_lt_compat. apply lt_0_INR. exact P.
Qed.

(** The float score is the documented sum up to a relative error of about n^2 / 2^24 of 2^e. *)
Theorem C123_close_to_documented : forall dmin flat weight e found,
  sane dmin flat weight -> (-100 <= e <= 100)%Z -> f2r dmin * f2r weight <= bpow radix2 e -> bpow radix2 (-100) <= f2r dmin ->
  found <> [] -> (Z.of_nat (length found) <= 16777216)%Z -> Forall a_finite_distance found ->
  let n := INR (length found) in
  Rabs (f2r (fst (result32 dmin flat weight found)) - fold_right Rplus 0 (map (documented dmin flat weight) found))
  <= n * (n + 7) / 16777216 * bpow radix2 e.
Proof.
  intros dmin flat weight e found Hs He Hw Hd Hne Hn HF. cbn zeta. rewrite (result_ne _ _ _ _ Hne). cbn [fst snd].
  destruct (zero_ok e) as [Z1 Z2].
  pose proof (fold_err log dmin flat weight Hs e He Hw Hd found (B754_zero false) 0 0%Z (Z.of_nat (length found)) HF Z1 ltac:(lia) ltac:(lia) Hn Z2) as H.
  cbn [f0 B32]. rewrite <- INR_IZR_INZ in H. change (f2r (B754_zero false)) with 0 in H. rewrite Rplus_0_l in H.
  eapply Rle_trans; [exact H|]. right. change (bpow radix2 (-24)) with (/ 16777216). unfold Rdiv. ring.
Qed.

(** One NaN distance makes the whole score NaN (and a NaN likelihood disables the measurement
    of every particle: C02_nan_likelihood). *)
Theorem C123_nan_distance : forall dmin flat weight found,
  In (Some nan32) found -> fst (result32 dmin flat weight found) = nan32.
Proof.
  intros dmin flat weight found H. assert (Hne : found <> []) by (intros ->; contradiction). rewrite (result_ne _ _ _ _ Hne). cbn [fst].
  assert (Keep : forall l num, fst (fold32 dmin flat weight l (nan32 : B32 log) num) = nan32).
  { clear. induction l as [|[sq|] l IH]; intros num; cbn [like_fold]; [reflexivity| |apply IH].
    destruct (like_dist _ _ _ _); [|apply IH]. exact (IH (num + 1)%nat). }
  generalize (@f0 (B32 log)) as s. generalize 0%nat as num. clear Hne. induction found as [|d found IH]; intros num s; [contradiction|].
  destruct H as [->|H]; [|specialize (IH H)].
  - cbn [like_fold].
    assert (E : like_dist (A := B32 log) (Bsqrt mode_NE) dmin flat nan32 = Some (nan32 : B32 log)).
    { unfold like_dist, cxx_max. cbn [Bsqrt nan32]. destruct dmin, flat; reflexivity. }
    rewrite E. replace (@fadd (B32 log) s (@fmul (B32 log) (nan32 : B32 log) weight)) with (nan32 : B32 log); [apply Keep|].
    cbn [fadd fmul B32]. destruct s, weight; reflexivity.
  - cbn [like_fold]. destruct d as [sq|]; [destruct (like_dist _ _ _ _)|]; apply IH.
Qed.

(** What a particle's likelihood is multiplied up to stays in the range for which the filter
    keeps a distribution (C15_float_distribution): with the beam likelihood in [0, 1], a score
    as above and an odometry factor of at most 2^g. *)
Theorem C123_particle_likelihood : forall (beam like odom : f32) e g,
  nonneg32 beam -> f2r beam <= 1 -> nonneg32 like -> f2r like <= bpow radix2 e -> nonneg32 odom -> f2r odom <= bpow radix2 g ->
  (-149 <= e)%Z -> (-149 <= e + g <= 100)%Z -> (e <= 127)%Z ->
  let v : f32 := particle_likelihood (A := B32 log) beam like odom in
  nonneg32 v /\ f2r v <= bpow radix2 (e + g) /\ f2r v <= 1267650600228229401496703205376 /\
  f2r v = rnd (rnd (f2r beam * f2r like) * f2r odom).
Proof.
  intros beam like odom e g Nb Lb Nl Ll No Lo He Heg He2. unfold particle_likelihood. cbn [fmul f1 B32]. cbn zeta.
  assert (O : nonneg32 (f32_of_Z 1) /\ f2r (f32_of_Z 1) = 1).
  { destruct (of_nat_ok 1 ltac:(lia)) as [N E]. split; [exact N|]. change (Z.of_nat 1) with 1%Z in E. rewrite E. apply rnd_id, (fmt_bpow 0). lia. }
  destruct O as [O1 O2].
  destruct (mult_ok (f32_of_Z 1) beam 0 O1 Nb ltac:(rewrite O2; change (bpow radix2 0) with 1; lra) ltac:(lia)) as (M1 & M3 & M2). change (bpow radix2 0) with 1 in M2.
  rewrite O2, Rmult_1_l, (rnd_id (f2r beam)) in M3 by apply fmt_f.
  destruct (mult_ok _ like e M1 Nl) as (P1 & P3 & P2); [|lia|].
  { rewrite <- (Rmult_1_l (bpow radix2 e)). apply Rmult_le_compat; [apply M1|apply Nl|exact M2|exact Ll]. }
  destruct (mult_ok _ odom (e + g) P1 No) as (Q1 & Q3 & Q2); [|lia|].
  { rewrite bpow_plus. apply Rmult_le_compat; [apply P1|apply No|exact P2|exact Lo]. }
  split; [exact Q1|]. split; [exact Q2|]. rewrite P3, M3 in Q3. split; [|exact Q3]. eapply Rle_trans; [exact Q2|].
  apply Rle_trans with (bpow radix2 100); [apply bpow_le; lia|]. right. reflexivity.
Qed.

(** So one measurement update of the node cannot turn a weight into NaN, an infinity or
    something outside [0, 1]: the filter after it is again a distribution up to rounding. *)
Theorem C123_weights_stay_usable : forall T (f : PfModel.filter (B32 log) T) dmin flat weight e g (found : nat -> T -> list (option f32)) (beam odom : nat -> T -> f32),
  sane dmin flat weight -> (-125 <= e <= 76)%Z -> (-149 <= e + 24 + g <= 100)%Z -> f2r dmin * f2r weight <= bpow radix2 e ->
  (forall i s, found i s <> [] /\ (Z.of_nat (length (found i s)) <= 16777216)%Z /\ Forall a_distance (found i s)) ->
  (forall i s, nonneg32 (beam i s) /\ f2r (beam i s) <= 1) -> (forall i s, nonneg32 (odom i s) /\ f2r (odom i s) <= bpow radix2 g) ->
  parts (B32 log) f <> [] -> INR (length (parts (B32 log) f)) <= 1048576 -> distribution32 log f ->
  distribution32 log (measure (B32 log) (fun i s => particle_likelihood (A := B32 log) (beam i s) (fst (result32 dmin flat weight (found i s))) (odom i s)) f).
Proof.
  intros T f dmin flat weight e g found beam odom Hs He Heg Hw Hf Hb Ho Hne Hn Hd.
  set (L := fun i s => particle_likelihood (A := B32 log) (beam i s) (fst (result32 dmin flat weight (found i s))) (odom i s)).
  assert (W : well_called32 log (OMeasure (B32 log) L)).
  { intros i s. destruct (Hf i s) as (F1 & F2 & F3). destruct (Hb i s) as [B1 B2]. destruct (Ho i s) as [O1 O2].
    destruct (C123_score_and_ratio dmin flat weight e (found i s) Hs ltac:(lia) Hw F1 F2 F3) as (hits & H1 & S1 & S2 & _).
    assert (K : (count_occ Bool.bool_dec hits true <= length (found i s))%nat).
    { assert (length hits = length (found i s)) as <- by (clear -H1; induction H1; cbn; auto). clear. induction hits as [|[] hits IH]; cbn; lia. }
    assert (Ls : f2r (fst (result32 dmin flat weight (found i s))) <= bpow radix2 (e + 24)).
    { eapply Rle_trans; [apply S2|]. rewrite Z.add_comm, bpow_plus. apply Rmult_le_compat_r; [apply bpow_ge_0|].
      rewrite INR_IZR_INZ. change (bpow radix2 24) with (IZR 16777216). apply IZR_le. lia. }
    destruct (C123_particle_likelihood (beam i s) (fst (result32 dmin flat weight (found i s))) (odom i s) (e + 24) g B1 B2 (Logic.conj S1 (proj1 S2)) Ls O1 O2 ltac:(lia) ltac:(lia) ltac:(lia)) as (V1 & _ & V3 & _).
    split; [exact V1|exact V3]. }
  destruct (run_dist32 log (OMeasure (B32 log) L) f W I Hn Hn Hd) as (f' & E & D & _). cbn in E. injection E as <-. exact D.
Qed.
End C123.

(** ** a concrete case: match_dist_min 1/2, match_dist_flat 1/8, match_weight 2 and four points, at
    squared distances 1/16 and 0, at none, and at 4 *)
Definition f32_frac (n d : Z) : f32 := fdiv32 (f32_of_Z n) (f32_of_Z d).
Definition c123_found : list (option f32) := [Some (f32_frac 1 16); Some (f32_of_Z 0); None; Some (f32_of_Z 4)].
Example C123_nonvacuous (log : f32 -> f32) :
  let dmin := f32_frac 1 2 in let flat := f32_frac 1 8 in let weight := f32_of_Z 2 in
  sane dmin flat weight /\ f2r dmin * f2r weight <= bpow radix2 0 /\ bpow radix2 (-100) <= f2r dmin /\
  Forall a_distance c123_found /\ Forall a_finite_distance c123_found /\
  Forall2 at_least_as_close c123_found [Some (f32_of_Z 1); Some (f32_frac 1 16); None; None] /\
  like_result (A := B32 log) (Bsqrt mode_NE) dmin flat weight c123_found = (f32_frac 5 4 : B32 log, f32_frac 1 2 : B32 log).
Proof.
  assert (V : forall x : f32, is_finite x = true -> Bsign x = false -> nonneg32 x).
  { intros x Fx Sx. split; [exact Fx|]. unfold f2r. destruct x as [s|s| |s m e Hb]; cbn in *; try discriminate; try lra. subst.
    apply F2R_ge_0. cbn. lia. }
  assert (N : forall x : f32, is_finite x = true -> Bsign x = false -> nn x) by (intros; apply nonneg_nn, V; assumption).
  cbn zeta. split; [|split; [|split; [|split; [|split; [|split]]]]].
  - split; [|split]; apply V; reflexivity.
  - unfold f2r. rewrite <- !SF2R_B2SF. lazy -[SF2R IZR Rmult Rinv Rdiv Rle bpow]. unfold SF2R, F2R. cbn. lra.
  - apply Rle_trans with (bpow radix2 (-1)); [apply bpow_le; lia|]. unfold f2r. rewrite <- !SF2R_B2SF. lazy -[SF2R IZR Rmult Rinv Rdiv Rle bpow]. unfold SF2R, F2R. cbn. lra.
  - unfold c123_found. repeat (apply Forall_cons; [cbn [a_distance]; first [exact I|apply N; reflexivity]|]). apply Forall_nil.
  - unfold c123_found. repeat (apply Forall_cons; [cbn [a_finite_distance]; first [exact I|apply V; reflexivity]|]). apply Forall_nil.
  - unfold c123_found. repeat (apply Forall2_cons; [cbn [at_least_as_close]; first [exact I|eexists; split; reflexivity]|]). apply Forall2_nil.
  - rewrite result_ne by discriminate. apply pair_equal_spec. split; apply (B2SF_inj 24 128); vm_compute; reflexivity.
Qed.
