(** C128: the order of particles, of observed points and of map points does not matter (exact arithmetic). *)
From Coq Require Import Reals ZArith NArith List Bool Arith Lra Lia Permutation.
From Verif Require Import Arith QuatModel QuatSpec PfModel PfSpec RsumLemmas PfProofs PfReal PfReal2 PfCov PfProps StateModel StateSpec StateProofs StateProps
  KdModel KdSpec KdProofs KdProps RayModel LidarModel LidarSpec LidarProps.
Import ListNotations.
Open Scope R_scope.

(** ** Generic facts *)
Lemma fold_perm {X Y} (step : Y -> X -> Y) : (forall a x y, step (step a x) y = step (step a y) x) ->
  forall l l', Permutation l l' -> forall a, fold_left step l a = fold_left step l' a.
Proof.
  intros C l l' H. induction H as [|x l l' _ IH|x y l|l l' l'' _ IH1 _ IH2]; intros a; cbn; [reflexivity|apply IH|rewrite C; reflexivity|].
  rewrite IH1. apply IH2.
Qed.
Lemma Radd_swap (a b c : RA) : fadd (fadd a b) c = fadd (fadd a c) b.
Proof. change ((a : R) + b + c = a + c + b). ring. Qed.
Lemma mapi_const {X Y} (g : X -> Y) l : forall i, mapi_from i (fun _ => g) l = map g l.
Proof. induction l as [|x l IH]; intro i; cbn; [reflexivity|]. rewrite IH. reflexivity. Qed.

(** ** Particles *)
(** Two particle sets with the same particles, in any order (and the same reported entropy). *)
Definition same_particles {T} (f g : filter RA T) : Prop := Permutation (parts RA f) (parts RA g) /\ entropy RA f = entropy RA g.

(** A measurement whose score depends on the pose alone. *)
Theorem C128_measure : forall {T} (L : T -> R) (f g : filter RA T), same_particles f g ->
  same_particles (measure RA (fun _ => L) f) (measure RA (fun _ => L) g).
Proof.
  intros T L f g (P & E). unfold measure, mapi. rewrite !mapi_const.
  set (h := fun p => set_w RA p (fmul (w RA p) (L (st RA p)))).
  assert (P1 : Permutation (map h (parts RA f)) (map h (parts RA g))) by (apply Permutation_map, P).
  assert (Es : sum_w RA (map h (parts RA f)) = sum_w RA (map h (parts RA g))).
  { unfold sum_w. apply fold_perm; [|exact P1]. intros a x y. apply Radd_swap. }
  cbv zeta. rewrite Es. destruct (flt f0 (sum_w RA (map h (parts RA g)))); [|split; assumption].
  set (k := fun p => set_w RA p (fdiv (w RA p) (sum_w RA (map h (parts RA g))))).
  assert (P2 : Permutation (map k (map h (parts RA f))) (map k (map h (parts RA g)))) by (apply Permutation_map, P1).
  split; [exact P2|]. cbn [entropy]. do 2 f_equal. unfold entropy_sum. apply fold_perm; [|exact P2].
  intros a x y. destruct (flt f0 (w RA x)), (flt f0 (w RA y)); try reflexivity. apply Radd_swap.
Qed.
(** Prediction, biasing. *)
Theorem C128_predict_bias : forall {T} (m : T -> T) (b : T -> R -> R) (f g : filter RA T), same_particles f g ->
  same_particles (predict RA (fun _ => m) f) (predict RA (fun _ => m) g) /\
  same_particles (do_bias RA (fun _ => b) f) (do_bias RA (fun _ => b) g).
Proof.
  intros T m b f g (P & E). unfold predict, do_bias, mapi. rewrite !mapi_const. split; (split; [apply Permutation_map, P|exact E]).
Qed.
Lemma vadd_comm3 a b c : QuatModel.vadd (QuatModel.vadd a b) c = QuatModel.vadd (QuatModel.vadd a c) b.
Proof. unfold QuatModel.vadd. cbn. f_equal; ring. Qed.
Lemma qmean_comm m s x t y : qmean_add (qmean_add m s x) t y = qmean_add (qmean_add m t y) s x.
Proof. unfold qmean_add. cbn. f_equal; try apply vadd_comm3. ring. Qed.
Lemma weights_perm {T} (f g : filter RA T) : Permutation (parts RA f) (parts RA g) -> Permutation (weights RA f) (weights RA g).
Proof. apply Permutation_map. Qed.
Lemma Forall_perm {X} (Q : X -> Prop) l l' : Permutation l l' -> Forall Q l -> Forall Q l'.
Proof. intros H. apply Permutation_Forall, H. Qed.
Lemma expectation_all (f : filter RA state) : Forall (fun x => 0 <= x) (weights RA f) -> Rsum (weights RA f) <= 1 ->
  expect_loop RA pose_mean (1 : RA) (mean_new RA pose_mean) (parts RA f) =
    fold_left (fun m p => mean_add RA pose_mean m (st RA p) (w RA p)) (parts RA f) (mean_new RA pose_mean).
Proof.
  intros Hw Hs. apply (expect_all pose_mean (m_sum : mean_st RA pose_mean -> R)); [reflexivity|reflexivity|exact Hw|].
  change (m_sum (mean_new RA pose_mean)) with 0. unfold weights in Hs. lra.
Qed.
(** Both estimates. *)
Theorem C128_estimates : forall (f g : filter RA state), same_particles f g ->
  expectation_biased RA pose_mean f = expectation_biased RA pose_mean g /\
  (Forall (fun x => 0 <= x) (weights RA f) -> Rsum (weights RA f) <= 1 ->
   expectation RA pose_mean (1 : RA) f = expectation RA pose_mean (1 : RA) g).
Proof.
  intros f g (P & _). split.
  - unfold expectation_biased. cbv zeta.
    rewrite (fold_perm (fun m p => mean_add RA pose_mean m (st RA p) (biased_weight RA p)) ltac:(intros; apply qmean_comm) _ _ P). reflexivity.
  - intros Hw Hs. pose proof (weights_perm _ _ P) as Pw. unfold expectation. cbv zeta. rewrite (expectation_all f Hw Hs).
    rewrite (expectation_all g (Forall_perm _ _ _ Pw Hw) ltac:(rewrite <- (Rsum_perm _ _ Pw); exact Hs)).
    rewrite (fold_perm (fun m p => mean_add RA pose_mean m (st RA p) (w RA p)) ltac:(intros; apply qmean_comm) _ _ P). reflexivity.
Qed.
(** The covariance over all particles (no random subsample). *)
Theorem C128_covariance : forall sh sh' (f g : filter RA state) c c', same_particles f g ->
  Forall (fun x => 0 <= x) (weights RA f) -> Rsum (weights RA f) <= 1 ->
  covariance RA pose_mean (cov6 : state -> state -> nat -> nat -> RA) 6 (1 : RA) (1 : RA) sh f = Some c ->
  covariance RA pose_mean (cov6 : state -> state -> nat -> nat -> RA) 6 (1 : RA) (1 : RA) sh' g = Some c' ->
  forall i j, (i < 6)%nat -> (j < 6)%nat -> c i j = c' i j.
Proof.
  intros sh sh' f g c c' S Hw Hs Hc Hc' i j Hi Hj. pose proof S as (P & _). destruct (C128_estimates f g S) as (_ & Ee). specialize (Ee Hw Hs).
  pose proof (weights_perm _ _ P) as Pw. pose proof (Forall_perm _ _ _ Pw Hw) as Hw'. assert (Hs' : Rsum (weights RA g) <= 1) by (rewrite <- (Rsum_perm _ _ Pw); exact Hs).
  set (dd := fun s e i => match cov_diff 1 s e i with Some x => x | None => 0 end).
  assert (Hg : forall s e j k, cov6 s e j k = dd s e j * dd s e k).
  { intros. unfold cov6, covElement, dd. destruct (cov_diff 1 s e j0), (cov_diff 1 s e k); lra. }
  assert (V : forall sh (f : filter RA state) c, Forall (fun x => 0 <= x) (weights RA f) -> Rsum (weights RA f) <= 1 ->
     covariance RA pose_mean (cov6 : state -> state -> nat -> nat -> RA) 6 (1 : RA) (1 : RA) sh f = Some c ->
     exists e, expectation RA pose_mean (1 : RA) f = Some e /\ c i j = Rsum (map (fun q => w RA q * dd (st RA q) e i * dd (st RA q) e j) (parts RA f)) / Rsum (weights RA f)).
  { clear - Hg Hi Hj. intros sh f c Hw Hs Hc.
    assert (Esh : covariance RA pose_mean (cov6 : state -> state -> nat -> nat -> RA) 6 (1 : RA) (1 : RA) (fun l => l) f = Some c).
    { rewrite <- Hc. unfold covariance. destruct (expectation RA pose_mean 1 f); [|reflexivity]. cbv zeta. unfold sample_indices.
      replace (@flt RA 1 f1) with false; [reflexivity|]. symmetry. apply Rltb_false. cbn. lra. }
    destruct (covariance_value cov6 dd Hg pose_mean 6 1 1 (fun l => l) f c Rle_0_1 (fun l => Permutation_refl l) Esh) as (e & k & qs & H1 & H2 & (rest & Hp & Hr) & H3).
    exists e. split; [exact H1|]. destruct (Rlt_dec 1 1); [lra|]. subst rest. rewrite app_nil_r in Hp.
    assert (Ek : firstn k (parts RA f) = parts RA f).
    { destruct H2 as (H2 & _ & H4). assert (Ek : k = length (parts RA f)); [|subst k; apply firstn_all].
      destruct H4 as [H4|[H4 H5]]; [unfold weights in H4; rewrite map_length in H4; exact H4|]. exfalso.
      assert (Rsum (firstn k (weights RA f)) <= Rsum (weights RA f)); [|lra].
      rewrite <- (firstn_skipn k (weights RA f)) at 2. rewrite Rsum_app.
      assert (0 <= Rsum (skipn k (weights RA f))); [|lra]. apply Rsum_nonneg.
      apply Forall_forall. intros x Hx. rewrite Forall_forall in Hw. apply Hw. rewrite <- (firstn_skipn k (weights RA f)). apply in_or_app. right. exact Hx. }
    rewrite Ek in Hp. rewrite (H3 i j Hi Hj). unfold weights. f_equal; apply Rsum_perm, Permutation_map; symmetry; exact Hp. }
  destruct (V sh f c Hw Hs Hc) as (e & E1 & V1). destruct (V sh' g c' Hw' Hs' Hc') as (e' & E1' & V1'). rewrite Ee, E1' in E1. injection E1 as <-.
  rewrite V1, V1'. f_equal; apply Rsum_perm; [apply Permutation_map, P|exact Pw].
Qed.
(** Resampling is the exception: it walks through the particles in their order, so another order gives
    another set of survivors, even with the same first offset. *)
Definition three (a b c : nat * R) : filter RA nat :=
  let q x := {| st := fst x; w := snd x : RA; bias := 0 : RA; acc := None |} in {| parts := [q a; q b; q c]; entropy := None |}.
Theorem C128_resample_depends_on_the_order :
  exists (f g f' g' : filter RA nat), same_particles f g /\
    resample RA (fun s _ => s) (fun s => s) (1/20 : RA) (fun _ => 0%nat) (dup_of RA 0 (parts RA f)) f = Some f' /\
    resample RA (fun s _ => s) (fun s => s) (1/20 : RA) (fun _ => 0%nat) (dup_of RA 0 (parts RA g)) g = Some g' /\
    ~ Permutation (poses RA f') (poses RA g').
Proof.
  exists (three (1%nat, 1/2) (2%nat, 1/4) (3%nat, 1/4)), (three (2%nat, 1/4) (3%nat, 1/4) (1%nat, 1/2)). eexists. eexists. split; [|split; [|split]].
  - split; [|reflexivity]. cbn. apply (Permutation_middle [_; _] []).
  - unfold resample, three. cbn. unfold lower_bound_from. cbn. rb. reflexivity.
  - unfold resample, three. cbn. unfold lower_bound_from. cbn. rb. reflexivity.
  - cbn. intro P. assert (H : In 3%nat [1; 1; 2]%nat); [|cbn in H; lia]. apply (Permutation_in _ (Permutation_sym P)). cbn. auto.
Qed.

(** ** Observed points *)
Lemma like_swap lp f x y l score num : like_points lp f (x :: y :: l) score num = like_points lp f (y :: x :: l) score num.
Proof.
  cbn [like_points].
  destruct (f (to_pt (p3 x)) (lp_dist_min lp)) as [| |[|[i1 a] r1]], (f (to_pt (p3 y)) (lp_dist_min lp)) as [| |[|[i2 b] r2]]; try reflexivity; cbv zeta;
    repeat match goal with |- context [Rltb ?u 0] => destruct (Rltb u 0) end; try reflexivity.
  f_equal. ring.
Qed.
Lemma like_perm lp f l l' : Permutation l l' -> forall score num, like_points lp f l score num = like_points lp f l' score num.
Proof.
  induction 1 as [|x l l' _ IH|x y l|l l' l'' _ IH1 _ IH2]; intros score num; [reflexivity| |apply like_swap|rewrite IH1; apply IH2].
  cbn [like_points]. destruct (f (to_pt (p3 x)) (lp_dist_min lp)) as [| |[|[i a] r]]; try apply IH; [reflexivity|]. cbv zeta. destruct (Rltb _ 0); apply IH.
Qed.
Lemma transform_perm st l l' : Permutation l l' -> Permutation (transform st l) (transform st l').
Proof. apply Permutation_map. Qed.
(** Likelihood field: any settings, any answers of the search. *)
Theorem C128_likelihood_points : forall l f pts pts' st, Permutation pts pts' -> like_measure l f (Some pts) st = like_measure l f (Some pts') st.
Proof.
  intros l f pts pts' st P. unfold like_measure.
  assert (L : length (transform st pts) = length (transform st pts')) by (apply Permutation_length, transform_perm, P).
  destruct pts as [|x r], pts' as [|x' r']; [reflexivity|apply Permutation_nil in P; discriminate|symmetry in P; apply Permutation_nil in P; discriminate|].
  rewrite (like_perm _ _ _ _ (transform_perm st _ _ P)), L. reflexivity.
Qed.
Lemma Forall2_fun {X Y} (Q : X -> Y -> Prop) : (forall x y z, Q x y -> Q x z -> y = z) -> forall l k k', Forall2 Q l k -> Forall2 Q l k' -> k = k'.
Proof. intros F l k k' H. revert k'. induction H as [|x y l k Hx _ IH]; intros k' H'; inversion H' as [|? y' ? r Hx' Hr]; subst; [reflexivity|]. f_equal; [eapply F; eassumption|apply IH, Hr]. Qed.
Lemma Forall2_weaken {X Y} (Q Q' : X -> Y -> Prop) : (forall x y, Q x y -> Q' x y) -> forall l k, Forall2 Q l k -> Forall2 Q' l k.
Proof. intros H l k F. induction F; constructor; auto. Qed.
Lemma count_perm {X} (h : X -> bool) l l' : Permutation l l' -> count_if h l = count_if h l'.
Proof. unfold count_if. induction 1 as [|x l l' _ IH|x y l|l l' l'' _ IH1 _ IH2]; cbn; [reflexivity|destruct (h x); cbn; congruence|destruct (h x), (h y); reflexivity|congruence]. Qed.
(** Beam model: any ray caster that answers each ray from the map alone. *)
Theorem C128_beam_points : forall S (Inv : S -> Prop) rc L p b np cur s pts pts' origins st,
  caster_ok Inv rc L -> Inv s -> 0 <= bp_hit_range p -> 0 <= bp_alpha p -> (0 < bp_default p)%N ->
  b = beam_refresh p \/ b = beam_set_global (beam_refresh p) np cur ->
  Forall (fun q => (lab q < length origins)%nat) pts -> Permutation pts pts' ->
  exists res s1 s2 n0, forall n, (n0 <= n)%nat ->
    beam_measure b rc n s (Some pts) origins st = Done (s1, res) /\ beam_measure b rc n s (Some pts') origins st = Done (s2, res).
Proof.
  intros S Inv rc L p b np cur s pts pts' origins st Hok Hs Hh Ha HN Hb Hl P.
  destruct pts as [|x r]; [apply Permutation_nil in P; subst pts'; exists (1, 0), s, s, 0%nat; intros; split; reflexivity|].
  destruct pts' as [|x' r']; [symmetry in P; apply Permutation_nil in P; discriminate|].
  pose proof (Forall_perm _ _ _ P Hl) as Hl'.
  destruct (C60_beam_likelihood S Inv rc L p b np cur s (x :: r) origins st Hok Hs Hh Ha HN Hb ltac:(discriminate) Hl) as (sts & s1 & n1 & _ & F & E).
  destruct (C60_beam_likelihood S Inv rc L p b np cur s (x' :: r') origins st Hok Hs Hh Ha HN Hb ltac:(discriminate) Hl') as (sts' & s2 & n2 & _ & F' & E').
  cbn zeta in E, E'. destruct (Permutation_Forall2 (transform_perm st _ _ P) F) as (m & Pm & Fm).
  assert (Em : m = sts').
  { eapply Forall2_fun; [|exact Fm|exact F']. cbn beta. intros q y z (o & O & B) (o' & O' & B'). rewrite O in O'. injection O' as <-. eapply C59_status_unambiguous; eassumption. }
  subst m. rewrite (count_perm _ _ _ Pm) in E. eexists. exists s1, s2, (Nat.max n1 n2). intros n Hn. split; [apply E|apply E']; lia.
Qed.
(** ** Map points *)
(** The likelihood field does not depend on the order of the map points, nor on how often a point occurs
    (exact search; any two histories of map loads and settings that end with these maps). *)
Theorem C128_map_points : forall lp cs cs' Lc Lc' rmax rmax' keep keep' m m' f f' pts st,
  let s := scale_of (last_rep cs None) in
  0 < Lc -> rmax <= Lc / 2 -> 0 < Lc' -> rmax' <= Lc' / 2 -> at_least_one s -> scale_of (last_rep cs' None) = s ->
  eps_of (last_eps cs None) = 0 -> eps_of (last_eps cs' None) = 0 ->
  (forall x, In x m <-> In x m') -> last_load cs None = Some m -> last_load cs' None = Some m' ->
  (forall q r, radiusSearch (kd_after cs Lc rmax keep) q r 1 (f q r)) -> (forall q r, radiusSearch (kd_after cs' Lc' rmax' keep') q r 1 (f' q r)) ->
  0 <= lp_weight lp -> 0 <= lp_dist_min lp <= rmax -> lp_dist_min lp <= rmax' -> lp_dist_flat lp <= lp_dist_min lp ->
  exists res, like_measure (like_refresh lp) f (Some pts) st = Some res /\ like_measure (like_refresh lp) f' (Some pts) st = Some res.
Proof.
  intros lp cs cs' Lc Lc' rmax rmax' keep keep' m m' f f' pts st s HL Hr HL' Hr' Hw Hs' He He' Hm Hl Hl' Hf Hf' Hwt Hd Hd' Hfl.
  destruct pts as [|p0 pts0]; [exists (1, 0); split; reflexivity|]. set (pts := p0 :: pts0). assert (Hne : pts <> []) by discriminate. clearbody pts.
  assert (Hw' : at_least_one (scale_of (last_rep cs' None))) by (rewrite Hs'; exact Hw). assert (Hd2 : 0 <= lp_dist_min lp <= rmax') by lra.
  destruct m as [|x0 m0].
  { assert (m' = []) by (destruct m' as [|y k]; [reflexivity|destruct (proj2 (Hm y) (or_introl eq_refl))]). subst m'. exists (0, 0). split.
    - apply (C62_empty_map lp cs Lc rmax keep f pts st HL Hr Hw ltac:(lra) Hl Hf Hd Hne).
    - apply (C62_empty_map lp cs' Lc' rmax' keep' f' pts st HL' Hr' Hw' ltac:(lra) Hl' Hf' Hd2 Hne). }
  destruct (nearest_list s (x0 :: m0) (transform st pts) ltac:(discriminate)) as (ds & F).
  assert (F' : Forall2 (fun p d => nearest_dist (scale_of (last_rep cs' None)) m' (to_pt (p3 p)) d) (transform st pts) ds).
  { rewrite Hs'. apply (Forall2_weaken (fun p d => nearest_dist s (x0 :: m0) (to_pt (p3 p)) d)); [|exact F]. intros p d (D0 & (q & Hq & Eq) & Da). split; [exact D0|]. split.
    - exists q. split; [apply Hm, Hq|exact Eq].
    - intros q' Hq'. apply Da, Hm, Hq'. }
  destruct (C62_exact_score lp cs Lc rmax keep _ f pts st ds HL Hr Hw He Hl Hf Hwt Hd Hne F) as (r1 & E1).
  destruct (C63_exact_ratio lp cs Lc rmax keep _ f pts st ds HL Hr Hw He Hl Hf Hwt Hd Hfl Hne F) as (s1 & E2).
  destruct (C62_exact_score lp cs' Lc' rmax' keep' _ f' pts st ds HL' Hr' Hw' He' Hl' Hf' Hwt Hd2 Hne F') as (r3 & E3).
  destruct (C63_exact_ratio lp cs' Lc' rmax' keep' _ f' pts st ds HL' Hr' Hw' He' Hl' Hf' Hwt Hd2 Hfl Hne F') as (s4 & E4).
  rewrite E1 in E2. injection E2 as <- ->. rewrite E3 in E4. injection E4 as <- ->. eexists. split; [exact E1|exact E3].
Qed.

(** two particles with different poses and weights, in both orders: same estimate, and it exists *)
Example C128_nonvacuous :
  let a := state_pr (V3 1 0 0) q1 in let b := state_pr (V3 2 3 4) q1 in
  let f := two a b (3/4) (1/4) in let g := two b a (1/4) (3/4) in
  same_particles f g /\ parts RA f <> parts RA g /\ Forall (fun x => 0 <= x) (weights RA f) /\ Rsum (weights RA f) <= 1 /\
  exists e, expectation RA pose_mean (1 : RA) f = Some e /\ expectation RA pose_mean (1 : RA) g = Some e /\ pos e = V3 (5/4) (3/4) 1.
Proof.
  cbv zeta. set (a := state_pr (V3 1 0 0) q1). set (b := state_pr (V3 2 3 4) q1).
  assert (S : same_particles (two a b (3/4) (1/4)) (two b a (1/4) (3/4))) by (split; [apply perm_swap|reflexivity]).
  assert (W : Forall (fun x => 0 <= x) (weights RA (two a b (3/4) (1/4)))) by (cbn; repeat constructor; lra).
  assert (U : Rsum (weights RA (two a b (3/4) (1/4))) <= 1) by (cbn; lra).
  split; [exact S|]. split; [|split; [exact W|split; [exact U|]]].
  - intro E. apply (f_equal (map (w RA))) in E. cbn in E. injection E as E _. lra.
  - destruct (C128_estimates _ _ S) as (_ & Ee). specialize (Ee W U). rewrite <- Ee.
    unfold expectation. cbv zeta. rewrite expectation_all by assumption. cbn [two parts fold_left].
    set (m := mean_add RA pose_mean _ _ _). assert (T : mean_total RA pose_mean m = 1) by (unfold m; cbn; lra). rewrite T.
    replace (@flt RA f0 1) with true by (symmetry; apply Rltb_true; cbn; lra).
    eexists. split; [reflexivity|]. split; [reflexivity|]. unfold m, a, b. cbn. unfold vdiv, QuatModel.vadd, vscale. cbn. f_equal; field.
Qed.
