(** C59-C65: the lidar measurement models. *)
From Coq Require Import Reals ZArith NArith List Bool Arith Lra Lia.
From Flocq Require Import Core.Core IEEE754.BinarySingleNaN.
From Verif Require Import Arith Ieee QuatModel StateModel KdModel KdSpec KdProofs KdProps QuatSpec QuatProofs RayModel RaySpec RayProofs KRayProofs NnSpec NnProofs
  LidarModel LidarSpec LidarProofs LidarProofs2.
Import ListNotations.
Open Scope R_scope.

(** ** C59: the beam status is decided by the first collision with an unfiltered label *)
Theorem C59_beam_status : forall S (Inv : S -> Prop) rc L p b np cur s lidar scan,
  caster_ok Inv rc L -> Inv s -> 0 <= bp_hit_range p ->
  b = beam_refresh p \/ b = beam_set_global (beam_refresh p) np cur ->
  exists st s' n0, Inv s' /\ (forall n, (n0 <= n)%nat -> getBeamStatus b rc n s lidar scan = Done (s', st)) /\
    beam_is (bp_label_max p) (sin (bp_ang_total_ref p)) (bp_hit_range p) scan (L lidar scan) st.
Proof.
  intros S Inv rc L p b np cur s lidar scan (Hset & Hnext & Hpt) Hs Hh Hb.
  destruct (Hset s lidar scan Hs) as (s1 & E1 & I1 & (n1 & ans & Ec & Hn & Hr)).
  assert (Hpar : b_par b = p /\ b_sin_ref b = sin (bp_ang_total_ref p) /\ b_hit_sq b = bp_hit_range p ^ 2)
    by (destruct Hb as [->| ->]; cbn; auto). destruct Hpar as (P1 & P2 & P3).
  destruct (beam_loop_spec b rc scan ltac:(rewrite P1; exact Hh) ltac:(rewrite P1; exact P3) n1 s1 ans Ec Hn) with (m := n1)
    as (s2 & x & E2 & I2 & B2); [|lia|].
  { rewrite Hr. intros y. apply Hpt. }
  exists x, s2, n1. split; [apply I2; auto|]. split.
  - intros n Hle. unfold getBeamStatus. rewrite E1. apply (beam_loop_mono b rc scan _ n1 s1 E2 n Hle).
  - rewrite Hr, P1, P2 in B2. exact B2.
Qed.
(** the four cases exclude each other *)
Theorem C59_status_unambiguous : forall lm sr hr scan l a b,
  beam_is lm sr hr scan l a -> beam_is lm sr hr scan l b -> a = b.
Proof. exact beam_is_unique. Qed.
(** The DDA ray caster on any map with a representable grid, after any earlier rays
    ([s]: nothing remembered, or the grid of this map, or of a map with another stamp). *)
Theorem C59_dda_beam : forall gx gy gz G angle tol cl g p s lidar scan,
  let c := new_dda gx gy gz G angle tol in
  0 < G -> 0 <= bp_hit_range p -> build_grid exact exact c cl = Some g ->
  match fst s with None => True | Some (z, g') => z = cl_stamp cl -> g' = g end ->
  exists st s' n0, (forall n, (n0 <= n)%nat -> getBeamStatus (beam_refresh p) (dda_caster c cl) n s lidar scan = Done (s', st)) /\
    match fst s' with None => True | Some (z, g') => z = cl_stamp cl -> g' = g end /\
    exists n ans, calls (dda_next c g) n (setRay exact exact c g (snd s) lidar scan) = Some ans /\ In None ans /\
      beam_is (bp_label_max p) (sin (bp_ang_total_ref p)) (bp_hit_range p) scan (reported ans) st.
Proof.
  intros gx gy gz G angle tol cl g p s lidar scan c HG Hh Hg Hs.
  destruct (C59_beam_status _ _ _ _ p (beam_refresh p) 0%N 0%N s lidar scan (dda_caster_ok c cl g HG Hg) Hs Hh (or_introl eq_refl))
    as (st & s' & n0 & I' & E & B).
  exists st, s', n0. split; [exact E|]. split; [exact I'|].
  destruct (dda_reported c g cl (snd s) lidar scan HG Hg) as (n & ans & E1 & E2 & E3). exists n, ans. rewrite E3. auto.
Qed.
(** The k-d tree ray caster on the chunked search structure after any history of
    configuration and loading calls. *)
Theorem C59_kdtree_beam : forall gx gy gz tol cs Lc rmax keep pts f p s lidar scan,
  let c := new_kray gx gy gz tol in
  0 < gx -> 0 < gy -> 0 < gz -> 4 * Rmax gx (Rmax gy gz) <= rmax -> rmax <= Lc / 2 ->
  at_least_one (scale_of (last_rep cs None)) -> 0 <= eps_of (last_eps cs None) -> 0 <= bp_hit_range p ->
  last_load cs None = Some (map (fun p => to_pt (p3 p)) pts) ->
  (forall q r, radiusSearch (kd_after cs Lc rmax keep) q r 1 (f q r)) ->
  exists st s' n0, (forall n, (n0 <= n)%nat -> getBeamStatus (beam_refresh p) (kd_caster c f pts) n s lidar scan = Done (s', st)) /\
    exists n ans, calls (k_next c f pts) n (k_setRay c lidar scan) = Some ans /\ In None ans /\
      beam_is (bp_label_max p) (sin (bp_ang_total_ref p)) (bp_hit_range p) scan (reported ans) st.
Proof.
  intros gx gy gz tol cs Lc rmax keep pts f p s lidar scan c Hx Hy Hz Hr HL Hw He Hh Hl Hf.
  assert (Hm : 0 < Rmax gx (Rmax gy gz)) by (apply Rlt_le_trans with gx; [exact Hx|apply Rmax_l]).
  pose proof (kd_nn cs Lc rmax keep _ f ltac:(lra) HL Hw He Hl Hf) as Hnn.
  pose proof (kd_caster_ok gx gy gz tol f pts _ _ rmax Hx Hy Hz Hr Hnn) as Hok. cbn zeta in Hok. fold c in Hok.
  destruct (C59_beam_status _ _ _ _ p (beam_refresh p) 0%N 0%N s lidar scan Hok I Hh (or_introl eq_refl))
    as (st & s' & n0 & _ & E & B).
  exists st, s', n0. split; [exact E|].
  destruct Hok as (Hset & _). destruct (Hset s lidar scan I) as (s1 & E1 & _ & (n & ans & A1 & A2 & A3)).
  cbn [kd_caster rc_set] in E1. injection E1 as <-. exists n, ans. rewrite A3. auto.
Qed.
(** each status occurs *)
Example C59_nonvacuous :
  let p := {| p3 := V3 1 0 0; lab := 3 |} in
  let y := {| c_pos := V3 1 0 0; c_coll := true; c_sin := 1; c_point := Some p |} in
  let z := {| c_pos := V3 1 0 0; c_coll := true; c_sin := 1/4; c_point := Some p |} in
  beam_is 3 (1/2) 2 (V3 2 0 0) [y] HIT /\ beam_is 3 (1/2) 1 (V3 3 0 0) [y; z] SHORT /\
  beam_is 3 (1/2) 1 (V3 3 0 0) [z; y] TOTAL_REFLECTION /\ beam_is 2 (1/2) 1 (V3 3 0 0) [z; y] LONG.
Proof.
  cbn zeta. assert (N : forall lm, never_stops lm []) by (intros lm ? ? []).
  assert (E1 : vnorm (vsub (V3 2 0 0) (V3 1 0 0)) = 1).
  { unfold vnorm, vdot, vsub. cbn. replace (_ + _) with (1 * 1) by ring. apply sqrt_square. lra. }
  assert (E2 : vnorm (vsub (V3 3 0 0) (V3 1 0 0)) = 2).
  { unfold vnorm, vdot, vsub. cbn. replace (_ + _) with (2 * 2) by ring. apply sqrt_square. lra. }
  repeat split.
  - exists [], {| c_pos := V3 1 0 0; c_coll := true; c_sin := 1; c_point := Some {| p3 := V3 1 0 0; lab := 3 |} |}, [], {| p3 := V3 1 0 0; lab := 3 |}.
    split; [reflexivity|]. split; [apply N|]. split; [repeat split; cbn; lia|]. cbn [c_sin p3]. rewrite E1. lra.
  - eexists [], _, _, {| p3 := V3 1 0 0; lab := 3 |}. split; [reflexivity|]. split; [apply N|]. split; [repeat split; cbn; lia|].
    cbn [c_sin p3]. rewrite E2. lra.
  - eexists [], _, _, {| p3 := V3 1 0 0; lab := 3 |}. split; [reflexivity|]. split; [apply N|]. split; [repeat split; cbn; lia|].
    cbn [c_sin]. lra.
  - intros y q [<-|[<-|[]]] (_ & E & H); cbn in E; injection E as <-; cbn in H; lia.
Qed.

(** ** C60: the beam likelihood is max(alpha, alpha^(k/N)) with k the number of penalised
    beams and N the configured number of beams; quality 1.  [L] are the cast results. *)
Theorem C60_beam_likelihood : forall S (Inv : S -> Prop) rc L p b np cur s pts origins st,
  caster_ok Inv rc L -> Inv s -> 0 <= bp_hit_range p -> 0 <= bp_alpha p -> (0 < bp_default p)%N ->
  b = beam_refresh p \/ b = beam_set_global (beam_refresh p) np cur ->
  pts <> [] -> Forall (fun q => (lab q < length origins)%nat) pts ->
  exists sts s' n0, Inv s' /\
    Forall2 (fun q x => exists o, nth_error origins (lab q) = Some o /\
      beam_is (bp_label_max p) (sin (bp_ang_total_ref p)) (bp_hit_range p) (p3 q)
        (L (vadd (pos st) (qrot (rot st) o)) (p3 q)) x) (transform st pts) sts /\
    let k := count_if (counts (bp_short_only p)) sts in
    forall n, (n0 <= n)%nat ->
      beam_measure b rc n s (Some pts) origins st =
        Done (s', (Rmax (bp_alpha p) (power (bp_alpha p) (INR k / INR (N.to_nat (bp_default p)))), 1)).
Proof.
  intros S Inv rc L p b np cur s pts origins st Hok Hs Hh Ha HN Hb Hne Hl.
  assert (Hpar : b_par b = p /\ b_sin_ref b = sin (bp_ang_total_ref p) /\ b_hit_sq b = bp_hit_range p ^ 2 /\
     b_beta b = rpow (bp_alpha p) (1 / IZR (Z.of_N (bp_default p))))
    by (destruct Hb as [->| ->]; cbn; auto). destruct Hpar as (P1 & P2 & P3 & P4).
  assert (Hl' : Forall (fun q => (lab q < length origins)%nat) (transform st pts)).
  { unfold transform. apply Forall_forall. intros q Hq. apply in_map_iff in Hq. destruct Hq as (q' & <- & Hq'). cbn.
    rewrite Forall_forall in Hl. apply Hl, Hq'. }
  destruct (beam_points_spec b rc Inv L origins st ltac:(rewrite P1; exact Hh) ltac:(rewrite P1; exact P3) Hok (transform st pts) s Hl' Hs)
    as (sts & n0 & s' & I' & F & Hrun).
  exists sts, s', n0. split; [exact I'|]. split; [rewrite P1, P2 in F; exact F|]. intros k n Hn.
  unfold beam_measure. destruct pts as [|q pts]; [congruence|]. rewrite Hrun by exact Hn. rewrite P1, P4, IZR_of_N, Rmult_1_l.
  rewrite rpow_pow, rpow_power by (auto; lia). fold k. f_equal. f_equal. f_equal.
  unfold beam_clamp. cbn [flt RA]. unfold Rmax. set (w := power _ _).
  destruct (Rltb w (bp_alpha p)) eqn:E.
  - apply Rltb_true in E. destruct (Rle_dec (bp_alpha p) w); [lra|reflexivity].
  - apply Rltb_false in E. destruct (Rle_dec (bp_alpha p) w); [reflexivity|lra].
Qed.
(** the law: for alpha in (0,1] and at most N penalised beams the clamp does nothing, the
    value is in [alpha,1], and one more penalised beam never increases it *)
Theorem C60_law : forall alpha N k, 0 < alpha <= 1 -> (0 < N)%nat ->
  let v k := Rmax alpha (power alpha (INR k / INR N)) in
  alpha <= v k <= 1 /\ v (S k) <= v k /\ v O = 1 /\ ((k <= N)%nat -> v k = power alpha (INR k / INR N)) /\ v N = alpha.
Proof.
  intros alpha N k Ha HN. change power with rpow. intro v. assert (HN' : 0 < INR N) by (apply lt_0_INR; lia).
  assert (Hle1 : forall j, rpow alpha (INR j / INR N) <= 1).
  { intros j. rewrite <- (rpow_0 alpha) by lra. apply rpow_mono; [exact Ha|].
    apply Rmult_le_pos; [apply pos_INR|left; apply Rinv_0_lt_compat; exact HN']. }
  assert (Hge : forall j, (j <= N)%nat -> alpha <= rpow alpha (INR j / INR N)).
  { intros j Hj. rewrite <- (rpow_1 alpha) at 1 by lra. apply rpow_mono; [exact Ha|].
    apply le_INR in Hj. apply Rmult_le_reg_r with (INR N); [exact HN'|]. unfold Rdiv. rewrite Rmult_assoc, Rinv_l by lra. lra. }
  split; [split; [apply Rmax_l|apply Rmax_lub; [lra|apply Hle1]]|].
  split; [apply Rle_max_compat_l, rpow_mono; [exact Ha|]; unfold Rdiv; apply Rmult_le_compat_r;
    [left; apply Rinv_0_lt_compat; exact HN'|apply le_INR; lia]|].
  split; [unfold v; cbn [INR]; unfold Rdiv; rewrite Rmult_0_l, rpow_0 by lra; apply Rmax_right; lra|].
  split; [intros Hk; apply Rmax_right, Hge, Hk|].
  unfold v. unfold Rdiv. rewrite Rinv_r by lra. rewrite rpow_1 by lra. apply Rmax_left. lra.
Qed.
(** with alpha = 0 a single penalised beam makes the likelihood zero *)
Theorem C60_zero_alpha : forall N k, (0 < N)%nat -> Rmax 0 (power 0 (INR k / INR N)) = if Nat.eqb k 0 then 1 else 0.
Proof.
  intros N k HN. assert (HN' : 0 < INR N) by (apply lt_0_INR; lia). unfold power. destruct (Req_EM_T 0 0); [|lra]. destruct k as [|k].
  - cbn [INR Nat.eqb]. unfold Rdiv. rewrite Rmult_0_l. destruct (Req_EM_T 0 0); [|lra]. apply Rmax_right. lra.
  - assert (Hq : 0 < INR (S k) / INR N) by (apply Rdiv_lt_0_compat; [apply lt_0_INR; lia|lra]). set (q := INR (S k) / INR N) in *. clearbody q. destruct (Req_EM_T q 0); [lra|]. cbn [Nat.eqb]. apply Rmax_left. apply Rle_refl.
Qed.
(** Binary32: whatever k, the computed score is finite and in [alpha,1], and one more
    penalised beam never increases it. *)
Fixpoint score32 log (beta : f32) (k : nat) : B32 log :=
  match k with O => f1 | S k' => beam_mul (A := B32 log) (score32 log beta k') beta end.
Lemma one32 : is_finite (f32_of_Z 1) = true /\ f2r (f32_of_Z 1) = 1.
Proof. split; [reflexivity|]. unfold f2r. cbn. unfold Defs.F2R. cbn. lra. Qed.
Lemma mult_unit a b : nonneg32 a -> f2r a <= 1 -> nonneg32 b -> f2r b <= 1 ->
  nonneg32 (fmult32 a b) /\ f2r (fmult32 a b) <= f2r a.
Proof.
  intros [Fa Pa] La [Fb Pb] Lb.
  assert (H := Bmult_correct 24 128 _ _ mode_NE a b). fold (f2r a) (f2r b) in H.
  assert (G0 : 0 <= rnd (f2r a * f2r b)).
  { apply round_ge_generic; [exact fexp_ok|apply valid_rnd_N|apply generic_format_0|apply Rmult_le_pos; assumption]. }
  assert (G1 : rnd (f2r a * f2r b) <= f2r a).
  { apply round_le_generic; [exact fexp_ok|apply valid_rnd_N|apply generic_format_B2R|nra]. }
  rewrite Rlt_bool_true in H.
  - destruct H as (H1 & H2 & _). fold (fmult32 a b) in H1, H2. fold (f2r (fmult32 a b)) in H1. rewrite Fa, Fb in H2.
    split; [split; [exact H2|]|]; rewrite H1; lra.
  - rewrite Rabs_pos_eq by assumption. apply Rle_lt_trans with 1; [lra|].
    change 1 with (bpow radix2 0). apply bpow_lt. lia.
Qed.
Theorem C60_binary32_range : forall log (alpha beta : f32) k,
  nonneg32 alpha -> f2r alpha <= 1 -> nonneg32 beta -> f2r beta <= 1 ->
  let v k : f32 := beam_clamp (A := B32 log) alpha (score32 log beta k) in
  is_finite (v k) = true /\ f2r alpha <= f2r (v k) <= 1 /\ f2r (v (S k)) <= f2r (v k).
Proof.
  intros log alpha beta k Ha La Hb Lb v.
  assert (Hs : forall k, nonneg32 (score32 log beta k) /\ f2r (score32 log beta k) <= 1 /\ f2r (score32 log beta (S k)) <= f2r (score32 log beta k)).
  { assert (Q : forall k, nonneg32 (score32 log beta k) /\ f2r (score32 log beta k) <= 1).
    { induction k0 as [|j [IH1 IH2]].
      - cbn [score32]. destruct one32 as [O1 O2]. cbn [f1 B32]. split; [split; [exact O1|rewrite O2; lra]|rewrite O2; lra].
      - cbn [score32]. unfold beam_mul. cbn [fmul B32]. destruct (mult_unit _ beta IH1 IH2 Hb Lb) as [M1 M2]. split; [exact M1|lra]. }
    intros j. destruct (Q j) as [Q1 Q2]. split; [exact Q1|]. split; [exact Q2|].
    cbn [score32]. unfold beam_mul. cbn [fmul B32]. apply (mult_unit _ beta Q1 Q2 Hb Lb). }
  assert (Hc : forall x, nonneg32 x -> let w := beam_clamp (A := B32 log) alpha x in
     (f2r x < f2r alpha /\ w = alpha) \/ (f2r alpha <= f2r x /\ w = x)).
  { intros x [Fx Px]. cbn zeta. unfold beam_clamp. cbn [flt B32]. destruct Ha as [Fa Pa].
    pose proof (Bltb_correct 24 128 x alpha Fx Fa) as E. fold (f2r x) (f2r alpha) in E. rewrite E.
    destruct (Rlt_bool_spec (f2r x) (f2r alpha)); [left|right]; auto. }
  destruct (Hs k) as (A1 & A2 & A3). destruct (Hs (S k)) as (B1 & B2 & _).
  destruct (Hc _ A1) as [[C1 C2]|[C1 C2]], (Hc _ B1) as [[D1 D2]|[D1 D2]]; cbn zeta in C2, D2; unfold v; rewrite C2, D2;
    destruct Ha as [Fa Pa]; destruct A1 as [Fk Pk]; (split; [assumption|]); split; try split; try assumption; try lra.
Qed.
(** missing and empty clouds *)
Theorem C60_no_points : forall S b (rc : raycaster S) n s origins st pc, pc = None \/ pc = Some [] ->
  beam_measure b rc n s pc origins st = Done (s, (1, 0)).
Proof. intros S b rc n s origins st pc [->| ->]; reflexivity. Qed.
(** a caster that satisfies the hypotheses *)
Definition toy_caster : raycaster bool :=
  {| rc_set := fun _ _ _ => Some true; rc_next := fun s =>
     Some (false, if s then Some {| c_pos := V3 1 0 0; c_coll := true; c_sin := 1; c_point := Some {| p3 := V3 1 0 0; lab := 0 |} |} else None) |}.
Lemma toy_ok : caster_ok (fun _ => True) toy_caster (fun _ _ => [{| c_pos := V3 1 0 0; c_coll := true; c_sin := 1; c_point := Some {| p3 := V3 1 0 0; lab := 0 |} |}]).
Proof.
  split; [|split]; auto.
  - intros s b e _. exists true. split; [reflexivity|]. split; [exact I|]. exists 2%nat. eexists. split; [reflexivity|]. cbn. auto.
  - intros b e y [<-|[]] _. discriminate.
Qed.
Definition toy_params (n : N) : beam_params :=
  {| bp_gx := 1; bp_gy := 1; bp_gz := 1; bp_default := n; bp_global := 0; bp_far := 10; bp_near := 1; bp_zmin := -1; bp_zmax := 1;
     bp_alpha := 1/4; bp_ang_total_ref := 0; bp_label_max := 5; bp_hit_range := 1; bp_short_only := true |}.
Example C60_nonvacuous : caster_ok (fun _ => True) toy_caster (fun _ _ => [{| c_pos := V3 1 0 0; c_coll := true; c_sin := 1; c_point := Some {| p3 := V3 1 0 0; lab := 0 |} |}]) /\
  0 <= bp_hit_range (toy_params 2) /\ 0 < bp_alpha (toy_params 2) <= 1 /\ (0 < bp_default (toy_params 2))%N.
Proof. split; [apply toy_ok|]. cbn. repeat split; try lra. Qed.

(** ** C61: the documented value alpha^(k/M) for M cast beams holds when M is the default
    number; when global localization reduces the number of beams the exponent still uses
    the default number. *)
Theorem C61_law_with_default_beams : forall S (Inv : S -> Prop) rc L p np cur s pts origins st,
  caster_ok Inv rc L -> Inv s -> 0 <= bp_hit_range p -> 0 < bp_alpha p <= 1 ->
  pts <> [] -> N.of_nat (length pts) = bp_default p -> Forall (fun q => (lab q < length origins)%nat) pts ->
  exists sts s' n0,
    Forall2 (fun q x => exists o, nth_error origins (lab q) = Some o /\
      beam_is (bp_label_max p) (sin (bp_ang_total_ref p)) (bp_hit_range p) (p3 q)
        (L (vadd (pos st) (qrot (rot st) o)) (p3 q)) x) (transform st pts) sts /\
    forall n, (n0 <= n)%nat ->
      beam_measure (beam_set_global (beam_refresh p) np cur) rc n s (Some pts) origins st =
        Done (s', (power (bp_alpha p) (INR (count_if (counts (bp_short_only p)) sts) / INR (length pts)), 1)).
Proof.
  intros S Inv rc L p np cur s pts origins st Hok Hs Hh Ha Hne HN Hl.
  assert (Hd : N.to_nat (bp_default p) = length pts) by lia.
  assert (Hlen : (0 < length pts)%nat) by (destruct pts; [congruence|cbn; lia]).
  destruct (C60_beam_likelihood S Inv rc L p _ np cur s pts origins st Hok Hs Hh (Rlt_le _ _ (proj1 Ha)) ltac:(lia) (or_intror eq_refl) Hne Hl)
    as (sts & s' & n0 & _ & F & H). exists sts, s', n0. split; [exact F|]. intros n Hn. rewrite (H n Hn). cbn zeta. rewrite Hd.
  assert (Hk : (count_if (counts (bp_short_only p)) sts <= length pts)%nat).
  { assert (length (transform st pts) = length sts) by (clear -F; induction F; cbn; auto).
    unfold transform in H0. rewrite map_length in H0. unfold count_if. rewrite H0.
    clear. induction sts as [|x l IH]; cbn; [lia|]. destruct (counts _ x); cbn; lia. }
  destruct (C60_law (bp_alpha p) (length pts) (count_if (counts (bp_short_only p)) sts) Ha Hlen) as (_ & _ & _ & Q & _).
  cbn zeta in Q. rewrite Q by exact Hk. reflexivity.
Qed.
(** All beams penalised, half the default number of beams: sqrt(alpha) instead of alpha. *)
Theorem C61_reduced_beams_refuted :
  exists p np cur pts origins st, (0 < bp_default p)%N /\
    let b := beam_set_global (beam_refresh p) np cur in
    b_num b = N.of_nat (length pts) /\
    exists n s', beam_measure b toy_caster n false (Some pts) origins st = Done (s', (1/2, 1)) /\
      power (bp_alpha p) (INR (length pts) / INR (length pts)) = 1/4.
Proof.
  exists (toy_params 2), 10%N, 20%N, [{| p3 := V3 5 0 0; lab := 0 |}], [V3 0 0 0], state0.
  split; [cbn; lia|]. cbn zeta. split; [reflexivity|].
  assert (Hl : Forall (fun q => (lab q < length [V3 0 0 0])%nat) [{| p3 := V3 5 0 0; lab := 0 |}]) by (constructor; [cbn; lia|constructor]).
  destruct (C60_beam_likelihood bool (fun _ => True) toy_caster _ (toy_params 2) _ 10%N 20%N false [{| p3 := V3 5 0 0; lab := 0 |}] [V3 0 0 0] state0 toy_ok I
    ltac:(cbn; lra) ltac:(cbn; lra) ltac:(cbn; lia) (or_intror eq_refl) ltac:(discriminate) Hl) as (sts & s' & n0 & _ & F & H).
  exists n0, s'. rewrite (H n0 (le_n _)). cbn zeta.
  assert (Tr : transform state0 [{| p3 := V3 5 0 0; lab := 0 |}] = [{| p3 := V3 5 0 0; lab := 0 |}]).
  { unfold transform. cbn [map rot state0 pos p3 lab]. rewrite normalized_unit by (unfold unit_quat, qdot, q1; cbn; ring).
    rewrite qrot_1. unfold vadd, v0. cbn. repeat f_equal; ring. }
  rewrite Tr in F. inversion F as [|q x ? sts' Hx F']; subst. inversion F'; subst.
  destruct Hx as (o & Eo & Bx). cbn in Eo. injection Eo as <-.
  assert (x = SHORT).
  { eapply beam_is_unique; [exact Bx|]. cbn [beam_is].
    eexists [], _, [], _. split; [reflexivity|]. split; [intros ? ? []|]. split; [split; [reflexivity|split; [reflexivity|cbn; lia]]|].
    cbn [c_sin toy_params bp_ang_total_ref bp_hit_range p3]. rewrite sin_0. split; [lra|].
    unfold vnorm, vdot, vsub. cbn. replace (_ + _) with (4 * 4) by ring. rewrite sqrt_square by lra. lra. }
  subst x. cbn [count_if filter counts length toy_params bp_short_only bp_alpha bp_default].
  change (N.to_nat 2) with 2%nat.
  assert (E2 : power (1/4) (INR 1 / INR 2) = 1/2).
  { change power with rpow. unfold rpow. destruct (Req_EM_T (1/4) 0); [lra|]. cbn [INR]. replace (1 / (1 + 1)) with (/ 2) by field. rewrite Rpower_sqrt by lra.
    replace (1/4) with (1/2 * (1/2)) by field. apply sqrt_square. lra. }
  rewrite E2. rewrite Rmax_right by lra. split; [reflexivity|]. cbn [INR]. replace (1 / 1) with 1 by field. change power with rpow. apply rpow_1. lra.
Qed.

(** ** C62: the likelihood field score *)
Lemma nearest_list s m pts : m <> [] -> exists ds, Forall2 (fun p d => nearest_dist s m (to_pt (p3 p)) d) pts ds.
Proof.
  intros Hm. induction pts as [|p pts [ds IH]]; [exists []; constructor|].
  destruct (nearest_exists s m (to_pt (p3 p)) Hm) as (d & Hd). exists (d :: ds). constructor; assumption.
Qed.
Lemma sum_between lp eps : forall ds cs,
  Forall2 (fun d c => contribution lp (sqrt (1 + eps) * d) <= c <= contribution lp d) ds cs ->
  sumR (map (fun d => contribution lp (sqrt (1 + eps) * d)) ds) <= sumR cs <= sumR (map (contribution lp) ds).
Proof. intros ds cs F. induction F as [|d c ds cs H F IH]; cbn; [lra|]. unfold sumR in *. cbn in *. lra. Qed.
Lemma F2_len {X Y} (P : X -> Y -> Prop) u v : Forall2 P u v -> length u = length v.
Proof. intros F. induction F; cbn; auto. Qed.
(** With [ds] the distances of the transformed points from the map: every search succeeds,
    the score is the documented sum up to the search tolerance [eps] and the quality is the
    fraction of matched points (up to the tolerance). *)
Theorem C62_score : forall lp l np cur cs Lc rmax keep m f pts st ds,
  let s := scale_of (last_rep cs None) in let eps := eps_of (last_eps cs None) in
  0 < Lc -> rmax <= Lc / 2 -> at_least_one s -> 0 <= eps -> last_load cs None = Some m ->
  (forall q r, radiusSearch (kd_after cs Lc rmax keep) q r 1 (f q r)) ->
  0 <= lp_weight lp -> 0 <= lp_dist_min lp <= rmax ->
  l = like_refresh lp \/ l = like_set_global (like_refresh lp) np cur -> pts <> [] ->
  Forall2 (fun p d => nearest_dist s m (to_pt (p3 p)) d) (transform st pts) ds ->
  exists score k, like_measure l f (Some pts) st = Some (score, INR k / INR (length pts)) /\
    sumR (map (fun d => contribution lp (sqrt (1 + eps) * d)) ds) <= score <= sumR (map (contribution lp) ds) /\
    (count_if (fun d => Rltb (sqrt (1 + eps) * d) (lp_dist_min lp) && Rleb (lp_dist_flat lp) (lp_dist_min lp)) ds <= k)%nat /\
    (k <= count_if (fun d => Rltb d (lp_dist_min lp) && Rleb (lp_dist_flat lp) (lp_dist_min lp)) ds)%nat.
Proof.
  intros lp l np cur cs Lc rmax keep m f pts st ds s eps HL Hr Hw He Hl Hf Hwt Hd Hlike Hne F.
  pose proof (kd_nn cs Lc rmax keep m f HL Hr Hw He Hl Hf) as Hnn.
  destruct (like_points_spec lp s eps m f rmax He Hwt Hd Hnn (transform st pts) ds 0 0 F) as (cc & k & E & B & K1 & K2).
  exists (sumR cc), k. split.
  - assert (P : l_par l = lp) by (destruct Hlike as [->| ->]; reflexivity).
    unfold like_measure. destruct pts as [|p pts]; [congruence|]. rewrite P, E. rewrite Rplus_0_l. cbn [Nat.add].
    unfold transform. rewrite map_length. reflexivity.
  - split; [apply sum_between, B|auto].
Qed.
(** exact search: the score is the documented sum *)
Theorem C62_exact_score : forall lp cs Lc rmax keep m f pts st ds,
  let s := scale_of (last_rep cs None) in
  0 < Lc -> rmax <= Lc / 2 -> at_least_one s -> eps_of (last_eps cs None) = 0 -> last_load cs None = Some m ->
  (forall q r, radiusSearch (kd_after cs Lc rmax keep) q r 1 (f q r)) ->
  0 <= lp_weight lp -> 0 <= lp_dist_min lp <= rmax -> pts <> [] ->
  Forall2 (fun p d => nearest_dist s m (to_pt (p3 p)) d) (transform st pts) ds ->
  exists ratio, like_measure (like_refresh lp) f (Some pts) st = Some (sumR (map (contribution lp) ds), ratio).
Proof.
  intros lp cs Lc rmax keep m f pts st ds s HL Hr Hw He Hl Hf Hwt Hd Hne F.
  destruct (C62_score lp (like_refresh lp) 0%N 0%N cs Lc rmax keep m f pts st ds HL Hr Hw ltac:(rewrite He; lra) Hl Hf Hwt Hd (or_introl eq_refl) Hne F)
    as (score & k & E & B & _). exists (INR k / INR (length pts)). rewrite E. f_equal. f_equal.
  rewrite He in B.
  assert (Q : map (fun d => contribution lp (sqrt (1 + 0) * d)) ds = map (contribution lp) ds).
  { apply map_ext. intros d. rewrite Rplus_0_r, sqrt_1, Rmult_1_l. reflexivity. }
  rewrite Q in B. lra.
Qed.
(** what the documented sum guarantees: bounds, monotonicity, no contribution from afar *)
Theorem C62_sum_laws : forall lp ds, 0 <= lp_weight lp -> lp_dist_flat lp <= lp_dist_min lp ->
  0 <= sumR (map (contribution lp) ds) <= INR (length ds) * (lp_weight lp * (lp_dist_min lp - lp_dist_flat lp)) /\
  (forall ds', Forall2 Rle ds ds' -> sumR (map (contribution lp) ds') <= sumR (map (contribution lp) ds)) /\
  (forall d, lp_dist_min lp <= d -> contribution lp d = 0) /\
  (forall d, d <= lp_dist_flat lp -> contribution lp d = lp_weight lp * (lp_dist_min lp - lp_dist_flat lp)).
Proof.
  intros lp ds Hw Hf.
  assert (Hb : forall d, 0 <= contribution lp d <= lp_weight lp * (lp_dist_min lp - lp_dist_flat lp)).
  { intros d. split; [apply contribution_nonneg, Hw|]. unfold contribution. apply Rmult_le_compat_l; [exact Hw|].
    apply Rmax_lub; [lra|]. pose proof (Rmax_r d (lp_dist_flat lp)). lra. }
  split; [|split; [|split]].
  - induction ds as [|d ds IH]; [cbn; lra|]. unfold sumR in *. cbn [map fold_right length]. rewrite S_INR.
    pose proof (Hb d). lra.
  - intros ds' F. induction F as [|d d' ds ds' H F IH]; [cbn; lra|]. unfold sumR in *. cbn [map fold_right].
    pose proof (contribution_mono lp d d' Hw H). lra.
  - apply contribution_far.
  - intros d Hd. unfold contribution. rewrite (Rmax_right d) by lra. rewrite Rmax_right by lra. reflexivity.
Qed.
(** an empty map gives no score *)
Theorem C62_empty_map : forall lp cs Lc rmax keep f pts st,
  0 < Lc -> rmax <= Lc / 2 -> at_least_one (scale_of (last_rep cs None)) -> 0 <= eps_of (last_eps cs None) -> last_load cs None = Some [] ->
  (forall q r, radiusSearch (kd_after cs Lc rmax keep) q r 1 (f q r)) ->
  0 <= lp_dist_min lp <= rmax -> pts <> [] ->
  like_measure (like_refresh lp) f (Some pts) st = Some (0, 0).
Proof.
  intros lp cs Lc rmax keep f pts st HL Hr Hw He Hl Hf Hd Hne.
  pose proof (kd_nn cs Lc rmax keep [] f HL Hr Hw He Hl Hf) as Hnn.
  assert (G : forall ps, like_points lp f ps 0 0 = Some (0, 0%nat)).
  { induction ps as [|p ps IH]; [reflexivity|]. cbn [like_points]. pose proof (Hnn (to_pt (p3 p)) (lp_dist_min lp) Hd) as Hq.
    destruct (f (to_pt (p3 p)) (lp_dist_min lp)) as [| |[|[i d] o]]; [contradiction|exact IH|exact IH|].
    destruct Hq as (p' & E & _). destruct i; discriminate. }
  unfold like_measure. destruct pts as [|p pts]; [congruence|]. cbn [like_refresh l_par]. rewrite G. cbn [INR].
  unfold Rdiv. rewrite Rmult_0_l. reflexivity.
Qed.
Example C62_nonvacuous : exists cs m pts st ds,
  at_least_one (scale_of (last_rep cs None)) /\ eps_of (last_eps cs None) = 0 /\ last_load cs None = Some m /\ pts <> [] /\
  Forall2 (fun p d => nearest_dist (scale_of (last_rep cs None)) m (to_pt (p3 p)) d) (transform st pts) ds.
Proof.
  set (m := [to_pt (V3 1 2 3)]). set (pts := [{| p3 := V3 0 0 0; lab := 0 |}]).
  destruct (nearest_list (1, 1, 5) m (transform state0 pts) ltac:(discriminate)) as (ds & F).
  exists [CRep (1, 1, 5); CLoad m], m, pts, state0, ds. cbn [last_rep last_load last_eps scale_of eps_of at_least_one].
  repeat split; try lra; try reflexivity; [discriminate|exact F].
Qed.

(** ** C63: the quality is a fraction in [0,1]; exact search: the fraction of points closer
    than match_dist_min to the map *)
Theorem C63_ratio_in_range : forall l f pts st score ratio, pts <> [] ->
  like_measure l f (Some pts) st = Some (score, ratio) ->
  0 <= ratio <= 1 /\ exists k, (k <= length pts)%nat /\ ratio = INR k / INR (length pts).
Proof.
  intros l f pts st score ratio Hne H. unfold like_measure in H. destruct pts as [|p0 pts0]; [congruence|].
  set (pts := p0 :: pts0) in *.
  assert (G : forall ps sc n sc' k, like_points (l_par l) f ps sc n = Some (sc', k) -> (n <= k <= n + length ps)%nat).
  { induction ps as [|p ps IH]; intros sc n sc' k E; cbn [like_points] in E.
    - injection E as _ <-. cbn. lia.
    - cbn [length]. destruct (f _ _) as [| |[|[i d] o]]; [discriminate| | |].
      + apply IH in E. lia.
      + apply IH in E. lia.
      + destruct (Rltb _ 0); apply IH in E; lia. }
  destruct (like_points _ _ _ _ _) as [[sc k]|] eqn:E; [|discriminate]. apply G in E. injection H as <- <-.
  unfold transform in *. rewrite map_length in *. cbn [Nat.add] in E.
  assert (Hlen : 0 < INR (length pts)) by (apply lt_0_INR; cbn; lia).
  assert (Hk : INR k <= INR (length pts)) by (apply le_INR; lia).
  split; [|exists k; split; [lia|reflexivity]]. split.
  - apply Rmult_le_pos; [apply pos_INR|left; apply Rinv_0_lt_compat; exact Hlen].
  - apply Rmult_le_reg_r with (INR (length pts)); [exact Hlen|]. unfold Rdiv. rewrite Rmult_assoc, Rinv_l by lra. lra.
Qed.
Theorem C63_exact_ratio : forall lp cs Lc rmax keep m f pts st ds,
  let s := scale_of (last_rep cs None) in
  0 < Lc -> rmax <= Lc / 2 -> at_least_one s -> eps_of (last_eps cs None) = 0 -> last_load cs None = Some m ->
  (forall q r, radiusSearch (kd_after cs Lc rmax keep) q r 1 (f q r)) ->
  0 <= lp_weight lp -> 0 <= lp_dist_min lp <= rmax -> lp_dist_flat lp <= lp_dist_min lp -> pts <> [] ->
  Forall2 (fun p d => nearest_dist s m (to_pt (p3 p)) d) (transform st pts) ds ->
  exists score, like_measure (like_refresh lp) f (Some pts) st =
    Some (score, INR (count_if (fun d => Rltb d (lp_dist_min lp)) ds) / INR (length pts)).
Proof.
  intros lp cs Lc rmax keep m f pts st ds s HL Hr Hw He Hl Hf Hwt Hd Hfl Hne F.
  destruct (C62_score lp (like_refresh lp) 0%N 0%N cs Lc rmax keep m f pts st ds HL Hr Hw ltac:(rewrite He; lra) Hl Hf Hwt Hd (or_introl eq_refl) Hne F)
    as (score & k & E & _ & K1 & K2). exists score. rewrite E. f_equal. f_equal. f_equal. f_equal. rewrite He in K1.
  assert (Q : forall g, (forall d, g d = Rltb d (lp_dist_min lp)) -> count_if g ds = count_if (fun d => Rltb d (lp_dist_min lp)) ds).
  { intros g Hg. unfold count_if. f_equal. apply filter_ext. exact Hg. }
  apply Rleb_true in Hfl.
  rewrite (Q (fun d => Rltb d _ && _)) in K2 by (intros d; rewrite Hfl, andb_true_r; reflexivity).
  rewrite (Q (fun d => Rltb _ _ && _)) in K1 by (intros d; rewrite Hfl, andb_true_r, Rplus_0_r, sqrt_1, Rmult_1_l; reflexivity).
  lia.
Qed.
Theorem C63_no_points : forall l f st pc, pc = None \/ pc = Some [] -> like_measure l f pc st = Some (1, 0).
Proof. intros l f st pc [->| ->]; reflexivity. Qed.

(** ** C64: clipping *)
Lemma clip_keeps near far zmin zmax : forall pc, keeps (in_range near far zmin zmax) (clip (far * far) (near * near) zmin zmax pc) pc.
Proof.
  induction pc as [|p pc IH]; [constructor|]. unfold clip in *. cbn [filter].
  set (d2 := vx (p3 p) * vx (p3 p) + vy (p3 p) * vy (p3 p)).
  unfold clip_removes at 1. cbn [flt fadd fmul RA]. fold d2.
  destruct (Rltb (far * far) d2) eqn:E1; cbn [negb].
  { apply Rltb_true in E1. constructor; [|exact IH]. unfold in_range. fold d2. lra. }
  destruct (Rltb d2 (near * near)) eqn:E2; cbn [negb].
  { apply Rltb_true in E2. constructor; [|exact IH]. unfold in_range. fold d2. lra. }
  apply Rltb_false in E1, E2.
  destruct (Rltb (vz (p3 p)) zmin) eqn:E3; cbn [negb orb].
  { apply Rltb_true in E3. constructor; [|exact IH]. unfold in_range. lra. }
  destruct (Rltb zmax (vz (p3 p))) eqn:E4; cbn [negb].
  { apply Rltb_true in E4. constructor; [|exact IH]. unfold in_range. lra. }
  apply Rltb_false in E3, E4. constructor; [|exact IH]. unfold in_range. fold d2. lra.
Qed.
Theorem C64_clip : forall E (sample : list lpt -> N -> E -> list lpt * E) pb pl np cur b l pc e,
  b = beam_refresh pb \/ b = beam_set_global (beam_refresh pb) np cur ->
  l = like_refresh pl \/ l = like_set_global (like_refresh pl) np cur ->
  (exists pc', keeps (in_range (bp_near pb) (bp_far pb) (bp_zmin pb) (bp_zmax pb)) pc' pc /\ beam_filter b sample pc e = sample pc' (b_num b) e) /\
  (exists pc', keeps (in_range (lp_near pl) (lp_far pl) (lp_zmin pl) (lp_zmax pl)) pc' pc /\ like_filter l sample pc e = sample pc' (l_num l) e).
Proof.
  intros E sample pb pl np cur b l pc e Hb Hl. split.
  - eexists. split; [apply clip_keeps|]. destruct Hb as [->| ->]; reflexivity.
  - eexists. split; [apply clip_keeps|]. destruct Hl as [->| ->]; reflexivity.
Qed.
(** the relation determines the result *)
Theorem C64_unambiguous : forall X (P : X -> Prop) u u' v, keeps P u v -> keeps P u' v -> u = u'.
Proof.
  intros X P u u' v H. revert u'. induction H as [|x u v Hx H IH|x u v Hx H IH]; intros u' H'; inversion H'; subst; try contradiction.
  - reflexivity.
  - f_equal. auto.
  - auto.
Qed.
(** In binary32 a point with a NaN coordinate in the plane and an unordered or in-range
    height is never clipped. *)
Theorem C64_nan_is_kept : forall log (far near zmin zmax x y z : f32),
  x = nan32 \/ y = nan32 -> z = nan32 -> clip_removes (A := B32 log) far near zmin zmax x y z = false.
Proof.
  intros log far near zmin zmax x y z Hxy ->. unfold clip_removes. cbn [flt fadd fmul B32].
  assert (N1 : forall a, Bltb (nan32 : f32) a = false) by (intros [| | |]; reflexivity).
  assert (N2 : forall a, Bltb a (nan32 : f32) = false) by (intros [| | |]; reflexivity).
  assert (E : fplus32 (fmult32 x x) (fmult32 y y) = nan32).
  { destruct Hxy as [->| ->].
    - change (fmult32 nan32 nan32) with nan32. destruct (fmult32 y y); reflexivity.
    - change (fmult32 nan32 nan32) with nan32. destruct (fmult32 x x); reflexivity. }
  rewrite E, !N1, !N2. reflexivity.
Qed.
Example C64_nonvacuous : keeps (in_range 1 3 (-1) 1) [{| p3 := V3 2 0 0; lab := 0 |}] [{| p3 := V3 0 0 0; lab := 0 |}; {| p3 := V3 2 0 0; lab := 0 |}; {| p3 := V3 2 0 5; lab := 0 |}].
Proof.
  apply keeps_no; [unfold in_range; cbn; lra|]. apply keeps_yes; [unfold in_range; cbn; lra|].
  apply keeps_no; [unfold in_range; cbn; lra|constructor].
Qed.

(** ** C65: the sample budget *)
Theorem C65_budget : forall pb pl np cur,
  let b := b_num (beam_set_global (beam_refresh pb) np cur) in
  let l := l_num (like_set_global (like_refresh pl) np cur) in
  ((cur <= np)%N -> b = bp_default pb /\ l = lp_default pl) /\
  ((np < cur)%N -> (bp_default pb * np < 2 ^ 64)%N -> b = N.max (bp_global pb) (bp_default pb * np / cur)) /\
  ((np < cur)%N -> (lp_default pl * np < 2 ^ 64)%N -> l = N.max (lp_global pl) (lp_default pl * np / cur)).
Proof.
  intros pb pl np cur b l.
  assert (G : forall d g, (np < cur)%N -> (d * np < 2 ^ 64)%N -> budget d g np cur = N.max g (d * np / cur)).
  { intros d g H1 H2. unfold budget. replace (cur <=? np)%N with false by (symmetry; apply N.leb_gt; exact H1).
    change size_max with (2 ^ 64)%N. rewrite (N.mod_small _ _ H2).
    destruct (N.ltb_spec (d * np / cur) g); lia. }
  split; [|split]; [|apply G|apply G].
  intros H. unfold b, l. cbn. unfold budget. apply N.leb_le in H. rewrite H. auto.
Qed.
(** work bound: points times particles never exceeds the configured product unless the
    minimum applies, and the budget never exceeds the default unless the minimum does *)
Theorem C65_work_bound : forall d g np cur, (0 < cur)%N -> (d * np < 2 ^ 64)%N ->
  ((cur <= np)%N \/ (g <= d * np / cur)%N -> (budget d g np cur * cur <= d * N.max np cur /\ (np < cur -> budget d g np cur * cur <= d * np))%N) /\
  ((g <= d)%N -> (budget d g np cur <= d)%N).
Proof.
  intros d g np cur Hc Ho. unfold budget. change size_max with (2 ^ 64)%N. rewrite (N.mod_small _ _ Ho).
  pose proof (N.mul_div_le (d * np) cur ltac:(lia)) as M.
  split.
  - intros H. destruct (N.leb_spec cur np).
    + split; [nia|lia].
    + destruct (N.ltb_spec (d * np / cur) g); [destruct H; lia|]. split; nia.
  - intros H. destruct (N.leb_spec cur np); [lia|]. destruct (N.ltb_spec (d * np / cur) g); [lia|].
    apply N.div_le_upper_bound; [lia|]. nia.
Qed.
(** more particles never mean more points per particle beyond the configured number *)
Theorem C65_monotone : forall d g np cur cur', (np < cur)%N -> (cur <= cur')%N -> (d * np < 2 ^ 64)%N -> (budget d g np cur' <= budget d g np cur)%N.
Proof.
  intros d g np cur cur' H1 H2 Ho. unfold budget. change size_max with (2 ^ 64)%N. rewrite (N.mod_small _ _ Ho).
  destruct (N.leb_spec cur np); [lia|]. destruct (N.leb_spec cur' np); [lia|].
  assert (d * np / cur' <= d * np / cur)%N by (apply N.div_le_compat_l; lia).
  destruct (N.ltb_spec (d * np / cur') g), (N.ltb_spec (d * np / cur) g); lia.
Qed.
Example C65_nonvacuous : budget 96 8 64 1000 = 8%N /\ budget 96 8 64 100 = 61%N /\ budget 96 8 64 64 = 96%N.
Proof. repeat split. Qed.
(** Before any notification of the particle count, the sampler is asked for the default
    number of points. *)
Theorem C65_initial_budget : forall E pb pl (sample : list lpt -> N -> E -> list lpt * E) pc e,
  (exists pc', beam_filter (beam_refresh pb) sample pc e = sample pc' (bp_default pb) e) /\
  (exists pc', like_filter (like_refresh pl) sample pc e = sample pc' (lp_default pl) e).
Proof. intros. split; eexists; reflexivity. Qed.
