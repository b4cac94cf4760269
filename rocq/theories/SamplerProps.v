(** C66-C68: the point cloud samplers. *)
From Coq Require Import Reals List Bool Arith Cantor Lra Lia Permutation.
From Flocq Require Import IEEE754.BinarySingleNaN.
From Verif Require Import Arith Ieee QuatModel QuatSpec QuatProofs StateModel LidarModel SamplerModel SamplerSpec SamplerProofs.
Import ListNotations.
Open Scope nat_scope.

(** ** C66 *)
Theorem C66_uniform : forall X E (draw : nat -> E -> nat * E) (pc : list X) num e,
  (forall n e, fst (draw n e) <= n) -> pc <> [] ->
  exists out e', uniform_sample draw pc num e = Some (out, e') /\ length out = num /\
    (forall p, In p out -> In p pc) /\
    forall i, i < num -> nth_error out i = nth_error pc (fst (draw (length pc - 1) (draws draw (length pc - 1) i e))).
Proof.
  intros X E draw pc num e Hd Hne. destruct (uniform_loop_spec draw pc Hne Hd num e) as (out & e' & H1 & H2 & H3 & H4).
  exists out, e'. split; [destruct pc; [congruence|exact H1]|]. split; [exact H2|]. split; [|exact H4].
  rewrite Forall_forall in H3. exact H3.
Qed.
Theorem C66_empty : forall X E (draw : nat -> E -> nat * E) num e, uniform_sample draw ([] : list X) num e = Some ([], e).
Proof. reflexivity. Qed.
Example C66_nonvacuous : exists draw : nat -> nat -> nat * nat, (forall n e, fst (draw n e) <= n) /\
  uniform_sample draw [10; 20; 30] 5 0 = Some ([10; 20; 30; 10; 20], 5).
Proof.
  exists (fun n e => (e mod (n + 1), S e)). split; [|reflexivity].
  intros n e. cbn [fst]. pose proof (Nat.mod_upper_bound e (n + 1)). lia.
Qed.

(** ** C67 *)
(** Any arithmetic (rounding, NaN, infinities), any normals, eigenvalues and order of the
    selected set: as long as a draw is never above the end of its range, what the sampler
    returns are exactly [num] points at different places of the cloud, and it never reads
    outside it. *)
Theorem C67_distinct_points : forall (A : arith) fsqrt facos fabs half_pi (P : normal_params A) E (draw : A -> E -> A * E) X
    order e1 e2 d normals fuel (pc : list X) num e,
  (forall b e, flt b (fst (draw b e)) = false) -> (forall s, Permutation (order s) s) ->
  (forall l, length (normals l) = length l) ->
  match weighted_sample fsqrt facos fabs half_pi P draw order e1 e2 d normals fuel pc num e with
  | Done (out, _) => length out = Nat.min num (length pc) /\ distinct_places out pc
  | Undefined => False
  | Running => 0 < num < length pc
  end.
Proof.
  intros A fsqrt facos fabs half_pi P E draw X order e1 e2 d normals fuel pc num e Hd Ho Hn. unfold weighted_sample.
  destruct (Nat.eqb_spec (length pc) 0) as [E0|E0].
  { cbn [orb]. split; [cbn; lia|]. exists []. split; constructor. }
  destruct (Nat.eqb_spec num 0) as [E1|E1].
  { cbn [orb]. split; [cbn; lia|]. exists []. split; constructor. }
  cbn [orb]. destruct (Nat.leb_spec (length pc) num) as [Hle|Hlt].
  { split; [lia|]. exists (seq 0 (length pc)). split; [apply seq_NoDup|].
    clear. enough (G : forall pre, Forall2 (fun i x => nth_error (pre ++ pc) i = Some x) (seq (length pre) (length pc)) pc) by (apply (G [])).
    induction pc as [|x pc IH]; intros pre; cbn [seq length]; constructor.
    - rewrite nth_error_app2 by lia. rewrite Nat.sub_diag. reflexivity.
    - specialize (IH (pre ++ [x])). rewrite <- app_assoc in IH. rewrite app_length in IH. cbn [length] in IH.
      replace (length pre + 1) with (S (length pre)) in IH by lia. exact IH. }
  set (cum := cumulative _). assert (Hc : length cum = length pc) by (unfold cum, cumulative; rewrite cumulate_length, map_length; apply Hn).
  assert (Hne : cum <> []) by (intros Hz; rewrite Hz in Hc; cbn in Hc; lia).
  destruct (select_loop draw cum num fuel [] e) as [[sel e']| |] eqn:Es; [|exact (select_not_undefined draw _ _ _ _ _ Es)|lia].
  destruct (select_spec draw cum num Hne ltac:(lia) (fun e => Hd _ e) fuel [] e sel e' (NoDup_nil _) ltac:(intros i []) ltac:(cbn; lia) Es) as (S1 & S2 & S3).
  destruct (all_points_spec pc (order sel)) as (l & El & Fl).
  { intros i Hi. rewrite <- Hc. apply S2. eapply Permutation_in; [apply Ho|exact Hi]. }
  rewrite El. pose proof (Permutation_length (Ho sel)) as Hlen.
  assert (length l = length (order sel)) by (clear - Fl; induction Fl; cbn; congruence).
  split; [lia|]. exists (order sel). split; [|exact Fl]. eapply Permutation_NoDup; [symmetry; apply Ho|exact S1].
Qed.
(** A cloud no larger than [num] comes back unchanged. *)
Theorem C67_small_cloud : forall (A : arith) fsqrt facos fabs half_pi (P : normal_params A) E (draw : A -> E -> A * E) X
    order e1 e2 d normals fuel (pc : list X) num e, 0 < num -> length pc <= num ->
  weighted_sample fsqrt facos fabs half_pi P draw order e1 e2 d normals fuel pc num e = Done (pc, e).
Proof.
  intros. unfold weighted_sample. destruct (Nat.eqb_spec (length pc) 0) as [E0|E0].
  - destruct pc; [reflexivity|discriminate].
  - destruct (Nat.eqb_spec num 0); [lia|]. cbn [orb]. apply Nat.leb_le in H0. rewrite H0. reflexivity.
Qed.

Lemma sample_from_select {A : arith} fsqrt facos fabs half_pi (P : normal_params A) E (draw : A -> E -> A * E) X
    order e1 e2 d normals fuel (pc : list X) num e cum sel e' l : 0 < num < length pc ->
  cumulative (map (weight facos fabs half_pi (max_weight fsqrt P e1 e2) d) (normals pc)) = cum ->
  select_loop draw cum num fuel [] e = Done (sel, e') -> all_points pc (order sel) = Some l ->
  weighted_sample fsqrt facos fabs half_pi P draw order e1 e2 d normals fuel pc num e = Done (l, e').
Proof.
  intros H E1 E2 E3. unfold weighted_sample. destruct (Nat.eqb_spec (length pc) 0); [lia|]. destruct (Nat.eqb_spec num 0); [lia|]. cbn [orb].
  destruct (Nat.leb_spec (length pc) num); [lia|]. cbn zeta. rewrite E1, E2, E3. reflexivity.
Qed.
Section RealArith.
Open Scope R_scope.
Definition real_params (lo hi w : R) : normal_params RA := {| np_ratio := (lo : RA); np_max_ratio := (hi : RA); np_max_weight := (w : RA) |}.
Definition real_sample {E X} (lo hi w : R) (draw : R -> E -> R * E) order (e1 e2 : R) (d : R * R * R) (normals : list X -> list (option (R * R * R))) :=
  weighted_sample (A := RA) sqrt acos Rabs (PI / 2) (real_params lo hi w) draw order e1 e2 d normals.
Lemma weight_is mw d n : weight (A := RA) acos Rabs (PI / 2) mw d n = point_weight mw d n.
Proof.
  destruct n as [[[nx ny] nz]|]; [|reflexivity]. destruct d as [[dx dy] dz]. unfold weight, point_weight.
  cbn [fadd fsub fmul fdiv flt f1 RA]. set (a := Rabs _).
  assert (E : (if Rltb 1 a then 1 else a) = Rmin 1 a).
  { destruct (Rltb 1 a) eqn:E; [apply Rltb_true in E; rewrite Rmin_left by lra; reflexivity|apply Rltb_false in E; rewrite Rmin_right by lra; reflexivity]. }
  pose proof PI_RGT_0. change (1 + (mw - 1) * ((PI / 2 - acos (if Rltb 1 a then 1 else a)) / (PI / 2)) = 1 + (mw - 1) * (1 - acos (Rmin 1 a) / (PI / 2))).
  rewrite E. change (1 + (mw - 1) * ((PI / 2 - acos (Rmin 1 a)) / (PI / 2)) = 1 + (mw - 1) * (1 - acos (Rmin 1 a) / (PI / 2))).
  f_equal. f_equal. field. lra.
Qed.
Lemma max_weight_is lo hi w e1 e2 : max_weight (A := RA) sqrt (real_params lo hi w) e1 e2 = ratio_weight lo hi w (sqrt (e2 / e1)).
Proof.
  unfold max_weight, ratio_weight. cbn [fadd fsub fmul fdiv flt f1 RA real_params np_ratio np_max_ratio np_max_weight].
  unfold Rltb. destruct (Rlt_dec _ lo); [reflexivity|]. destruct (Rlt_dec hi _); reflexivity.
Qed.
Lemma point_weight_bounds mw d n : 1 <= mw -> 1 <= point_weight mw d n <= mw.
Proof. intros H. rewrite <- weight_is. apply weight_bounds; auto. Qed.
Lemma ratio_weight_bounds lo hi w r : lo < hi -> 1 <= w -> 1 <= ratio_weight lo hi w r <= w.
Proof.
  intros H1 H2. unfold ratio_weight. destruct (Rlt_dec r lo); [lra|]. destruct (Rlt_dec hi r); [lra|].
  assert (Ht : 0 <= (r - lo) / (hi - lo) <= 1).
  { split.
    - apply Rmult_le_pos; [lra|left; apply Rinv_0_lt_compat; lra].
    - apply Rmult_le_reg_r with (hi - lo); [lra|]. unfold Rdiv. rewrite Rmult_assoc, Rinv_l by lra. lra. }
  nra.
Qed.
Lemma cum_sum_first : forall (ws : list R) (p : R) i, (i < length ws)%nat -> nth i (cumulate (A := RA) p ws) 0 = p + sum_first (S i) ws.
Proof.
  induction ws as [|w ws IH]; intros p i Hi; [cbn in Hi; lia|]. cbn [cumulate]. cbn zeta. destruct i as [|i]; cbn [nth].
  - change (w + p = p + (w + sum_first 0 ws)). destruct ws; cbn; lra.
  - etransitivity; [apply (IH (w + p) i); cbn in Hi; lia|]. change (sum_first (S (S i)) (w :: ws)) with (w + sum_first (S i) ws). lra.
Qed.
(** The weights are in [1, max_weight]; a draw [v] selects the point whose interval of the
    running sums contains it, so the chance of a point is proportional to its weight. *)
Theorem C67_weights : forall E X lo hi w (draw : R -> E -> R * E) order e1 e2 d normals (pc : list X) e,
  lo < hi -> 1 <= w -> in_unit_range draw -> (forall s, Permutation (order s) s) ->
  length (normals pc) = length pc -> (1 < length pc)%nat ->
  let ws := map (point_weight (ratio_weight lo hi w (sqrt (e2 / e1))) d) (normals pc) in
  (forall x, In x ws -> 1 <= x <= w) /\
  let '(v, e') := draw (sum_first (length pc) ws) e in
  exists i x, real_sample lo hi w draw order e1 e2 d normals 1 pc 1 e = Done ([x], e') /\ nth_error pc i = Some x /\
    (sum_first i ws < v <= sum_first (S i) ws \/ (i = 0%nat /\ v = 0)).
Proof.
  intros E X lo hi w draw order e1 e2 d normals pc e H1 H2 Hd Ho Hn Hl ws.
  assert (Hw : forall x, In x ws -> 1 <= x <= w).
  { intros x Hx. unfold ws in Hx. apply in_map_iff in Hx. destruct Hx as (n & <- & _).
    pose proof (ratio_weight_bounds lo hi w (sqrt (e2 / e1)) H1 H2). set (m := ratio_weight _ _ _ _) in *.
    destruct (point_weight_bounds m d n ltac:(lra)). split; [assumption|]. eapply Rle_trans; [eassumption|apply H]. }
  split; [exact Hw|].
  assert (Lw : length ws = length pc) by (unfold ws; rewrite map_length; exact Hn).
  assert (Fw : Forall (fun x : R => 0 < x) (ws : list RA)) by (apply Forall_forall; intros x Hx; destruct (Hw x Hx); lra).
  assert (Hne : (ws : list RA) <> []) by (intros Hz; rewrite Hz in Lw; cbn in Lw; lia).
  destruct (back_pos ws Fw 0 (Nat.le_0_l _) Hne) as [B1 B2].
  assert (Eb : last (cumulative (A := RA) ws) 0 = sum_first (length pc) ws).
  { assert (Q0 : (length pc - 1 < length ws)%nat) by lia. pose proof (cum_sum_first ws 0 (length pc - 1) Q0) as Q. rewrite Rplus_0_l in Q.
    replace (S (length pc - 1)) with (length pc) in Q by lia. rewrite <- Q. etransitivity; [exact B2|].
    change (@length (F RA) ws) with (@length R ws). rewrite Lw. reflexivity. }
  assert (Ecum : cumulative (A := RA) (map (weight (A := RA) acos Rabs (PI / 2) (max_weight (A := RA) sqrt (real_params lo hi w) e1 e2) d) (normals pc)) = cumulative (A := RA) ws).
  { f_equal. unfold ws. apply map_ext. intros n. rewrite weight_is, max_weight_is. reflexivity. }
  destruct (draw (sum_first (length pc) ws) e) as [v e'] eqn:Ed.
  set (cum := cumulative (A := RA) ws) in *.
  assert (Hlc : length cum = length pc) by (unfold cum, cumulative; rewrite cumulate_length; exact Lw).
  assert (Hv : 0 <= v < sum_first (length pc) ws).
  { pose proof (Hd (sum_first (length pc) ws) e) as Q. rewrite Ed in Q. cbn [fst] in Q. apply Q. eapply Rlt_le_trans; [exact B1|right; exact Eb]. }
  assert (Hvf : flt (a := RA) (last cum f0) v = false) by (apply Rltb_false; change (v <= last cum 0); apply Rle_trans with (sum_first (length pc) ws); [lra|right; symmetry; exact Eb]).
  pose proof (lower_bound_inside (A := RA) cum v) as Hlb.
  assert (Hin : (lower_bound (A := RA) cum v < length cum)%nat).
  { apply Hlb; [|exact Hvf]. intros Hz. rewrite Hz in Hlc. cbn in Hlc. lia. }
  destruct (lower_bound_spec (A := RA) cum v) as (_ & L1 & L2). cbn zeta in *. set (r := lower_bound (A := RA) cum v) in *.
  destruct (nth_error pc r) as [x|] eqn:Ex; [|apply nth_error_None in Ex; lia].
  exists r, x. split.
  - assert (Eo : order [r] = [r]) by (apply Permutation_length_1_inv; symmetry; apply Ho).
    apply (sample_from_select (A := RA) _ _ _ _ _ E draw X order e1 e2 d normals 1 pc 1 e cum [r] e' [x]); [lia|exact Ecum| |].
    + cbn [select_loop]. change (last cum (@f0 RA)) with (last cum 0).
      assert (Ed' : draw (last cum 0) e = (v, e')) by (etransitivity; [|exact Ed]; f_equal; exact Eb).
      rewrite Ed'. fold r. reflexivity.
    + rewrite Eo. cbn [all_points]. rewrite Ex. reflexivity.
  - split; [exact Ex|]. change (@f0 RA) with 0 in L1, L2.
    assert (U : v <= sum_first (S r) ws).
    { destruct L2 as [L2|L2]; [lia|]. apply Rltb_false in L2. pose proof (cum_sum_first ws 0 r ltac:(lia)) as Q. rewrite Rplus_0_l in Q.
      rewrite <- Q. exact L2. }
    destruct L1 as [L1|L1].
    + rewrite L1. rewrite L1 in U. cbn [sum_first]. destruct (Req_dec v 0) as [Z|Z]; [right; auto|left; split; [lra|]]. exact U.
    + destruct (Nat.eq_dec r 0) as [Z|Z].
      { rewrite Z. rewrite Z in U. cbn [sum_first]. destruct (Req_dec v 0) as [Z'|Z']; [right; auto|left; split; [lra|exact U]]. }
      left. split; [|exact U]. apply Rltb_true in L1. pose proof (cum_sum_first ws 0 (r - 1) ltac:(lia)) as Q. rewrite Rplus_0_l in Q.
      replace (S (r - 1)) with r in Q by lia. rewrite <- Q. exact L1.
Qed.
(** With a generator that sooner or later hits every interval the sampler ends. *)
Theorem C67_terminates : forall E X lo hi w (draw : R -> E -> R * E) order e1 e2 d normals (pc : list X) num e,
  lo < hi -> 1 <= w -> fair draw -> in_unit_range draw -> (forall s, Permutation (order s) s) ->
  (forall l, length (normals l) = length l) ->
  exists fuel out e', real_sample lo hi w draw order e1 e2 d normals fuel pc num e = Done (out, e') /\
    length out = Nat.min num (length pc) /\ distinct_places out pc.
Proof.
  intros E X lo hi w draw order e1 e2 d normals pc num e H1 H2 Hf Hd Ho Hn.
  set (ws := map (weight (A := RA) acos Rabs (PI / 2) (max_weight (A := RA) sqrt (real_params lo hi w) e1 e2) d) (normals pc)).
  destruct (Nat.eq_dec (length pc) 0) as [E0|E0].
  { exists 0%nat, [], e. unfold real_sample, weighted_sample. rewrite E0. cbn. split; [reflexivity|]. split; [lia|]. exists []. split; constructor. }
  destruct (Nat.eq_dec num 0) as [E1|E1].
  { exists 0%nat, [], e. unfold real_sample, weighted_sample. rewrite E1. rewrite orb_true_r. split; [reflexivity|]. split; [reflexivity|]. exists []. split; constructor. }
  assert (Fw : Forall (fun x : R => 0 < x) (ws : list RA)).
  { apply Forall_forall. intros x Hx. unfold ws in Hx. apply in_map_iff in Hx. destruct Hx as (n & <- & _).
    rewrite max_weight_is, weight_is. pose proof (ratio_weight_bounds lo hi w (sqrt (e2 / e1)) H1 H2). set (m := ratio_weight _ _ _ _) in *.
    destruct (point_weight_bounds m d n ltac:(lra)). lra. }
  assert (Lw : length ws = length pc) by (unfold ws; rewrite map_length; apply Hn).
  destruct (Nat.le_gt_cases (length pc) num) as [Hle|Hlt].
  { exists 0%nat, pc, e. split; [apply (C67_small_cloud RA); lia|]. 
    pose proof (C67_distinct_points RA sqrt acos Rabs (PI/2) (real_params lo hi w) E (fun b e => (0 : RA, e)) X (fun s => s) e1 e2 d normals 0 pc num e) as _.
    split; [lia|]. exists (seq 0 (length pc)). split; [apply seq_NoDup|].
    clear. enough (G : forall pre, Forall2 (fun i x => nth_error (pre ++ pc) i = Some x) (seq (length pre) (length pc)) pc) by (apply (G [])).
    induction pc as [|x pc IH]; intros pre; cbn [seq length]; constructor.
    - rewrite nth_error_app2 by lia. rewrite Nat.sub_diag. reflexivity.
    - specialize (IH (pre ++ [x])). rewrite <- app_assoc in IH. rewrite app_length in IH. cbn [length] in IH.
      replace (length pre + 1)%nat with (S (length pre)) in IH by lia. exact IH. }
  destruct (select_terminates draw Hf ws Fw num ltac:(lia) ltac:(lia) num [] e (NoDup_nil _) ltac:(cbn; lia) ltac:(cbn; lia)) as (fuel & sel & e' & Es).
  set (cum := cumulative (A := RA) ws) in *.
  assert (Hne : (ws : list RA) <> []) by (intros Hz; rewrite Hz in Lw; cbn in Lw; lia).
  destruct (back_pos ws Fw 0 (Nat.le_0_l _) Hne) as [B1 _].
  assert (Hlc : length cum = length pc) by (unfold cum, cumulative; rewrite cumulate_length; exact Lw).
  destruct (select_spec (A := RA) draw cum num) with (fuel := fuel) (sel := @nil nat) (e := e) (out := sel) (e' := e') as (S1 & S2 & S3); auto.
  { intros Hz. rewrite Hz in Hlc. cbn in Hlc. lia. }
  { lia. }
  { intros e0. apply Rltb_false. destruct (Hd (last cum 0) e0 B1) as [_ Q]. apply Rlt_le. exact Q. }
  { constructor. }
  { intros i []. }
  { cbn. lia. }
  destruct (all_points_spec pc (order sel)) as (l & El & Fl).
  { intros i Hi. rewrite <- Hlc. apply S2. eapply Permutation_in; [apply Ho|exact Hi]. }
  pose proof (Permutation_length (Ho sel)) as Hlen.
  assert (Hll : length l = length (order sel)) by (clear - Fl; induction Fl; cbn; congruence).
  exists fuel, l, e'. split.
  - apply (sample_from_select (A := RA) _ _ _ _ _ E draw X order e1 e2 d normals fuel pc num e cum sel e' l); [lia|reflexivity|exact Es|exact El].
  - split; [lia|]. exists (order sel). split; [|exact Fl]. eapply Permutation_NoDup; [symmetry; apply Ho|exact S1].
Qed.
End RealArith.

(** ** C67: a particle set without spread makes the sampler loop for ever (doubles) *)
Section Diverge.
Variable log acos64 : f64 -> f64.
Lemma lt_nan_r (x : f64) : Bltb x nan64 = false. Proof. destruct x; reflexivity. Qed.
Lemma lt_nan_l (x : f64) : Bltb nan64 x = false. Proof. destruct x; reflexivity. Qed.
Lemma plus_nan_r (x : f64) : Bplus mode_NE x nan64 = nan64. Proof. destruct x; reflexivity. Qed.
Lemma plus_nan_l (x : f64) : Bplus mode_NE nan64 x = nan64. Proof. destruct x; reflexivity. Qed.
Lemma mult_nan_l (x : f64) : Bmult mode_NE nan64 x = nan64. Proof. destruct x; reflexivity. Qed.
Lemma mult_nan_r (x : f64) : Bmult mode_NE x nan64 = nan64. Proof. destruct x; reflexivity. Qed.
Lemma minus_nan_l (x : f64) : Bminus mode_NE nan64 x = nan64. Proof. destruct x; reflexivity. Qed.
Lemma div_nan_l (x : f64) : Bdiv mode_NE nan64 x = nan64. Proof. destruct x; reflexivity. Qed.
Lemma max_weight_nan P : max_weight (A := B64 log) sqrt64 P zero64 zero64 = nan64.
Proof.
  unfold max_weight. cbn [fadd fsub fmul fdiv flt f1 B64].
  change (sqrt64 (Bdiv mode_NE zero64 zero64)) with nan64. rewrite lt_nan_l, lt_nan_r. cbn zeta.
  rewrite minus_nan_l, div_nan_l, mult_nan_r, plus_nan_r. reflexivity.
Qed.
Lemma weight_nan hp d n : weight (A := B64 log) acos64 abs64 hp nan64 d (Some n) = nan64.
Proof.
  destruct n as [[nx ny] nz], d as [[dx dy] dz]. unfold weight. cbn [fadd fsub fmul fdiv flt f1 B64].
  rewrite minus_nan_l, mult_nan_l, plus_nan_r. reflexivity.
Qed.
Lemma cumulate_nan : forall ws, cumulate (A := B64 log) nan64 ws = map (fun _ => nan64) ws.
Proof. induction ws as [|w ws IH]; [reflexivity|]. cbn [cumulate map]. cbn [fadd B64]. rewrite plus_nan_r. cbn zeta. rewrite IH. reflexivity. Qed.
Lemma last_const {X Y} (l : list X) (c d : Y) : l <> [] -> last (map (fun _ => c) l) d = c.
Proof. induction l as [|x [|y l] IH]; [congruence|reflexivity|]. intros _. cbn [map last]. apply IH. discriminate. Qed.
Lemma last_cumulate_nan : forall (ws : list f64) p, In nan64 ws -> last (cumulate (A := B64 log) p ws) zero64 = nan64.
Proof.
  induction ws as [|w ws IH]; intros p H; [destruct H|]. cbn [cumulate]. cbn zeta. cbn [fadd B64]. destruct H as [->|H].
  - rewrite plus_nan_l, cumulate_nan. destruct ws; [reflexivity|]. cbn [map]. apply (last_const (f :: ws)). discriminate.
  - specialize (IH (Bplus mode_NE w p) H). destruct ws as [|x ws]; [destruct H|]. exact IH.
Qed.
Lemma lb_nan cum : forall fuel first len, lower_bound_loop (A := B64 log) cum nan64 fuel first len = first.
Proof.
  induction fuel as [|fuel IH]; intros first len; [reflexivity|]. cbn [lower_bound_loop]. destruct (len =? 0); [reflexivity|].
  cbn [flt B64]. rewrite lt_nan_r. apply IH.
Qed.
(** the only eigenvalue of a zero covariance is 0 *)
Theorem C67_zero_spread_eigenvalues : forall l u, eigen (abs_cov (fun _ _ => 0%R)) l u -> l = 0%R.
Proof.
  intros l u [H N]. unfold mulv, abs_cov, vscale in H. rewrite Rabs_R0 in H. injection H as H1 H2 H3.
  assert (Q : (vdot u u = 1)%R).
  { unfold vnorm in N. rewrite <- (sqrt_sqrt (vdot u u)); [rewrite N; lra|unfold vdot; nra]. }
  unfold vdot in Q. nra.
Qed.
Theorem C67_zero_spread_diverges_refuted : forall half_pi P E (draw : f64 -> E -> f64 * E) X order d normals (pc : list X) num e,
  (forall e, fst (draw nan64 e) = nan64) -> (exists n, In (Some n) (normals pc)) -> 2 <= num < length pc ->
  forall fuel, weighted_sample (A := B64 log) sqrt64 acos64 abs64 half_pi P draw order zero64 zero64 d normals fuel pc num e = Running.
Proof.
  intros half_pi P E draw X order d normals pc num e Hd (n & Hn) Hnum fuel. unfold weighted_sample.
  destruct (Nat.eqb_spec (length pc) 0); [lia|]. destruct (Nat.eqb_spec num 0); [lia|]. cbn [orb].
  destruct (Nat.leb_spec (length pc) num); [lia|]. cbn zeta. rewrite max_weight_nan.
  set (ws := map _ (normals pc)). assert (Hi : In nan64 ws).
  { unfold ws. apply in_map_iff. exists (Some n). split; [apply weight_nan|exact Hn]. }
  assert (El : last (cumulative (A := B64 log) ws) f0 = nan64) by (apply last_cumulate_nan; exact Hi).
  set (cum := cumulative (A := B64 log) ws) in *.
  enough (G : forall fuel sel e, sel = [] \/ sel = [0] -> select_loop (A := B64 log) draw cum num fuel sel e = Running).
  { rewrite G by auto. reflexivity. }
  clear e fuel. induction fuel as [|fuel IH]; intros sel e Hs; [reflexivity|]. cbn [select_loop]. rewrite El.
  pose proof (Hd e) as Q. destruct (draw nan64 e) as [v e1]. cbn [fst] in Q. subst v.
  unfold lower_bound. rewrite lb_nan.
  assert (Ei : insert_id 0 sel = [0]) by (destruct Hs as [->| ->]; reflexivity). rewrite Ei. cbn [length].
  destruct (Nat.leb_spec num 1); [lia|]. apply IH. auto.
Qed.
End Diverge.

(** A fair generator exists: it runs through all the fractions of the range again and again. *)
Section FairOne.
Open Scope R_scope.
Definition sweep (b : R) (e : nat) : R * nat :=
  let '(p, q) := Cantor.of_nat (fst (Cantor.of_nat e)) in (b * (INR p / INR (p + q + 1)), S e).
Lemma sweep_draws b : forall k e, draws sweep b k e = (k + e)%nat.
Proof.
  induction k as [|k IH]; intros e; [reflexivity|]. cbn [draws].
  assert (Es : snd (sweep b e) = S e) by (unfold sweep; destruct (Cantor.of_nat _); reflexivity). rewrite Es, IH. lia.
Qed.
Lemma sweep_fair : fair sweep.
Proof.
  intros b e lo hi [H1 H2] H3. assert (Hb : 0 < b) by lra.
  set (g := (hi - lo) / b). assert (Hg : 0 < g) by (apply Rdiv_lt_0_compat; lra).
  destruct (archimed_cor1 g Hg) as (N & HN & HN0).
  assert (HNR : 0 < INR N) by (apply lt_0_INR; exact HN0).
  set (x := lo / b * INR N). assert (Hx : 0 <= x) by (apply Rmult_le_pos; [apply Rmult_le_pos; [lra|left; apply Rinv_0_lt_compat; lra]|lra]).
  destruct (Rfloor_spec x) as [F1 F2].
  assert (Hz : (0 <= Rfloor x)%Z).
  { apply Z.lt_succ_r. apply lt_IZR. unfold Z.succ. rewrite plus_IZR. cbn. lra. }
  set (p := Z.to_nat (Rfloor x + 1)).
  assert (Ep : INR p = IZR (Rfloor x) + 1) by (unfold p; rewrite INR_IZR_INZ, Z2Nat.id by lia; rewrite plus_IZR; reflexivity).
  assert (Q1 : x < INR p <= x + 1) by (rewrite Ep; lra).
  assert (Q2 : lo < b * (INR p / INR N) < hi).
  { assert (Elo : lo = b * (x / INR N)) by (unfold x; field; lra).
    assert (Hhi : hi = b * (x / INR N) + b * g) by (unfold g, x; field; lra).
    assert (R1 : x / INR N < INR p / INR N) by (apply Rmult_lt_compat_r; [apply Rinv_0_lt_compat; lra|lra]).
    assert (R2 : INR p / INR N <= x / INR N + / INR N).
    { apply Rle_trans with ((x + 1) / INR N); [apply Rmult_le_compat_r; [left; apply Rinv_0_lt_compat; lra|lra]|]. right. field. lra. }
    split; [rewrite Elo at 1; apply Rmult_lt_compat_l; auto|]. rewrite Hhi. rewrite <- Rmult_plus_distr_l. apply Rmult_lt_compat_l; [auto|lra]. }
  assert (Hpn : (p < N)%nat).
  { apply INR_lt. destruct (Rlt_or_le (INR p) (INR N)) as [L|L]; [exact L|exfalso].
    assert (1 <= INR p / INR N). { apply Rmult_le_reg_r with (INR N); [lra|]. unfold Rdiv. rewrite Rmult_assoc, Rinv_l by lra. lra. }
    nra. }
  set (m := Cantor.to_nat (Cantor.to_nat (p, N - p - 1)%nat, e)).
  assert (Hm : (e <= m)%nat) by (unfold m; pose proof (Cantor.to_nat_non_decreasing (Cantor.to_nat (p, N - p - 1)%nat) e); lia).
  exists (m - e)%nat. rewrite sweep_draws. replace (m - e + e)%nat with m by lia. unfold sweep, m. rewrite Cantor.cancel_of_to. cbn [fst].
  rewrite Cantor.cancel_of_to. cbn [fst]. replace (p + (N - p - 1) + 1)%nat with N by lia. exact Q2.
Qed.
Lemma sweep_range : in_unit_range sweep.
Proof.
  intros b e Hb. unfold sweep. destruct (Cantor.of_nat _) as [p q]. cbn [fst].
  assert (H : INR p < INR (p + q + 1)) by (apply lt_INR; lia). pose proof (pos_INR p).
  assert (0 <= INR p / INR (p + q + 1) < 1).
  { split; [apply Rmult_le_pos; [lra|left; apply Rinv_0_lt_compat; lra]|].
    apply Rmult_lt_reg_r with (INR (p + q + 1)); [lra|]. unfold Rdiv. rewrite Rmult_assoc, Rinv_l by lra. lra. }
  nra.
Qed.
Example C67_nonvacuous : exists fuel out e',
  real_sample 2 5 5 sweep (fun s => s) 1 9 (1, 0, 0) (fun l => map (fun _ => Some (1, 0, 0)) l) fuel [10; 20; 30; 40]%nat 3 0%nat = Done (out, e') /\
  length out = 3%nat /\ distinct_places out [10; 20; 30; 40]%nat.
Proof.
  apply C67_terminates; [lra|lra|apply sweep_fair|apply sweep_range|reflexivity|intros l; apply map_length].
Qed.
End FairOne.

(** ** C68: the direction of the spread *)
Section Axis.
Open Scope R_scope.
Lemma sign_sq s i : is_sign s -> s i * s i = 1.
Proof. intros H. destruct (H i) as [->| ->]; lra. Qed.
Lemma flip_flip s u : is_sign s -> sign_flip s (sign_flip s u) = u.
Proof.
  intros H. destruct u as [x y z]. unfold sign_flip. cbn [vx vy vz]. pose proof (sign_sq s 0 H). pose proof (sign_sq s 1 H). pose proof (sign_sq s 2 H).
  f_equal; rewrite <- Rmult_assoc; [rewrite H0|rewrite H1|rewrite H2]; lra.
Qed.
Lemma flip_norm s u : is_sign s -> vnorm (sign_flip s u) = vnorm u.
Proof.
  intros H. unfold vnorm. f_equal. unfold vdot, sign_flip. cbn [vx vy vz].
  pose proof (sign_sq s 0 H). pose proof (sign_sq s 1 H). pose proof (sign_sq s 2 H).
  replace (s 0%nat * vx u * (s 0%nat * vx u)) with (s 0%nat * s 0%nat * (vx u * vx u)) by ring.
  replace (s 1%nat * vy u * (s 1%nat * vy u)) with (s 1%nat * s 1%nat * (vy u * vy u)) by ring.
  replace (s 2%nat * vz u * (s 2%nat * vz u)) with (s 2%nat * s 2%nat * (vz u * vz u)) by ring. rewrite H0, H1, H2. ring.
Qed.
Lemma flip_eigen m c s l u : is_sign s -> (forall i j, m i j = s i * s j * c i j) -> eigen m l u -> eigen c l (sign_flip s u).
Proof.
  intros Hs Hm [H1 H2]. split; [|rewrite flip_norm; auto]. unfold mulv, vscale in H1. injection H1 as A0 A1 A2.
  rewrite !Hm in A0, A1, A2. pose proof (sign_sq s 0 Hs) as Q0. pose proof (sign_sq s 1 Hs) as Q1. pose proof (sign_sq s 2 Hs) as Q2.
  unfold mulv, vscale, sign_flip. cbn [vx vy vz].
  set (x := vx u) in *. set (y := vy u) in *. set (z := vz u) in *. set (a := s 0%nat) in *. set (b := s 1%nat) in *. set (d := s 2%nat) in *.
  f_equal.
  - replace (a * x * l) with (a * (x * l)) by ring. rewrite <- A0. 
    replace (a * (a * a * c 0%nat 0%nat * x + a * b * c 0%nat 1%nat * y + a * d * c 0%nat 2%nat * z))
      with ((a * a) * (c 0%nat 0%nat * (a * x) + c 0%nat 1%nat * (b * y) + c 0%nat 2%nat * (d * z))) by ring. rewrite Q0. ring.
  - replace (b * y * l) with (b * (y * l)) by ring. rewrite <- A1.
    replace (b * (b * a * c 1%nat 0%nat * x + b * b * c 1%nat 1%nat * y + b * d * c 1%nat 2%nat * z))
      with ((b * b) * (c 1%nat 0%nat * (a * x) + c 1%nat 1%nat * (b * y) + c 1%nat 2%nat * (d * z))) by ring. rewrite Q1. ring.
  - replace (d * z * l) with (d * (z * l)) by ring. rewrite <- A2.
    replace (d * (d * a * c 2%nat 0%nat * x + d * b * c 2%nat 1%nat * y + d * d * c 2%nat 2%nat * z))
      with ((d * d) * (c 2%nat 0%nat * (a * x) + c 2%nat 1%nat * (b * y) + c 2%nat 2%nat * (d * z))) by ring. rewrite Q2. ring.
Qed.
(** If no two axes are negatively correlated the direction used is the principal axis. *)
Theorem C68_nonnegative_covariance : forall c u, (forall i j, 0 <= c i j) -> principal (abs_cov c) u -> principal c u.
Proof.
  intros c u H (l & [E1 E2] & M).
  assert (Q : forall i j, abs_cov c i j = c i j) by (intros; unfold abs_cov; apply Rabs_pos_eq, H).
  assert (Em : forall v, mulv (abs_cov c) v = mulv c v) by (intros v; unfold mulv; rewrite !Q; reflexivity).
  exists l. split; [split; [rewrite <- Em; exact E1|exact E2]|]. intros l' u' [F1 F2]. apply (M l' u'). split; [rewrite Em; exact F1|exact F2].
Qed.
(** If the signs of the covariances come from reflecting some axes, the direction used is
    the principal axis with those coordinates negated. *)
Theorem C68_mirrored : forall c s u, is_sign s -> (forall i j, Rabs (c i j) = s i * s j * c i j) ->
  principal (abs_cov c) u -> principal c (sign_flip s u).
Proof.
  intros c s u Hs H (l & Hl & M). exists l. split; [apply (flip_eigen (abs_cov c) c s l u Hs); [intros i j; apply H|exact Hl]|].
  intros l' u' Hu'. apply (M l' (sign_flip s u')). apply (flip_eigen c (abs_cov c) s l' u' Hs); [|exact Hu'].
  intros i j. unfold abs_cov. rewrite H. pose proof (sign_sq s i Hs). pose proof (sign_sq s j Hs).
  replace (s i * s j * (s i * s j * c i j)) with ((s i * s i) * (s j * s j) * c i j) by ring. rewrite H0, H1. ring.
Qed.
(** Two negatively correlated axes: the direction used is perpendicular to every principal
    axis, a direction in which the particles do not spread at all. *)
Definition anti (i j : nat) : R :=
  match i, j with 0%nat, 0%nat => 1 | 1%nat, 1%nat => 1 | 0%nat, 1%nat => -1 | 1%nat, 0%nat => -1 | _, _ => 0 end.
Lemma half_sqrt : sqrt (/ 2) * sqrt (/ 2) = / 2. Proof. apply sqrt_sqrt. lra. Qed.
Lemma unit_dot u : vnorm u = 1 -> vdot u u = 1.
Proof. unfold vnorm. intros N. rewrite <- (sqrt_sqrt (vdot u u)); [rewrite N; lra|]. unfold vdot. nra. Qed.
Theorem C68_wrong_direction_refuted :
  symmetric anti /\ (forall u, 0 <= vdot u (mulv anti u)) /\
  exists u, principal (abs_cov anti) u /\ mulv anti u = V3 0 0 0 /\ forall v, principal anti v -> vdot u v = 0.
Proof.
  assert (AA : forall v, mulv anti v = V3 (vx v - vy v) (vy v - vx v) 0) by (intros v; unfold mulv, anti; f_equal; lra).
  assert (AB : forall v, mulv (abs_cov anti) v = V3 (vx v + vy v) (vx v + vy v) 0).
  { intros v. unfold mulv, abs_cov, anti. replace (Rabs (-1)) with 1 by (rewrite Rabs_left; lra). rewrite Rabs_R1, Rabs_R0. f_equal; lra. }
  split; [intros [|[|i]] [|[|j]]; reflexivity|]. split.
  { intros u. rewrite AA. unfold vdot. cbn [vx vy vz]. replace (_ + _) with ((vx u - vy u) ^ 2) by ring. apply pow2_ge_0. }
  set (h := sqrt (/ 2)). pose proof half_sqrt as Hh. fold h in Hh.
  assert (N1 : vnorm (V3 h h 0) = 1) by (unfold vnorm, vdot; cbn [vx vy vz]; replace (h * h + h * h + 0 * 0) with 1 by lra; apply sqrt_1).
  assert (N2 : vnorm (V3 h (- h) 0) = 1) by (unfold vnorm, vdot; cbn [vx vy vz]; replace (h * h + - h * - h + 0 * 0) with 1 by lra; apply sqrt_1).
  exists (V3 h h 0). split; [|split].
  - exists 2. split; [split; [|exact N1]|].
    + rewrite AB. unfold vscale. cbn [vx vy vz]. f_equal; lra.
    + intros l' u' [E1 E2]. rewrite AB in E1. unfold vscale in E1. injection E1 as A0 A1 A2. apply unit_dot in E2. unfold vdot in E2.
      destruct (Rle_or_lt l' 2) as [L|L]; [exact L|exfalso].
      assert (vz u' = 0) by nra. assert (vx u' * l' = vy u' * l') by lra. assert (vx u' = vy u') by nra.
      rewrite H1 in A0. assert (vy u' * (l' - 2) = 0) by lra. assert (vy u' = 0) by nra. rewrite H, H1, H3 in E2. lra.
  - rewrite AA. cbn [vx vy vz]. f_equal; lra.
  - intros v (l & [E1 E2] & M).
    assert (Hl : 2 <= l).
    { apply (M 2 (V3 h (- h) 0)). split; [|exact N2]. rewrite AA. unfold vscale. cbn [vx vy vz]. f_equal; lra. }
    rewrite AA in E1. unfold vscale in E1. injection E1 as A0 A1 A2. unfold vdot. cbn [vx vy vz].
    assert (vx v * l + vy v * l = 0) by lra. assert (vx v + vy v = 0) by nra.
    replace (h * vx v + h * vy v + 0 * vz v) with (h * (vx v + vy v)) by ring. rewrite H0. ring.
Qed.
(** The direction is then turned into the robot's frame by the mean orientation. *)
Theorem C68_robot_frame : forall q u, unit_quat q -> qrot q (fpc_local q u) = u /\ vnorm (fpc_local q u) = vnorm u.
Proof.
  intros q u U. assert (E : qrot q (fpc_local q u) = u) by (apply qrot_inv_r; exact U). split; [exact E|].
  rewrite <- E at 2. unfold vnorm. f_equal. rewrite qrot_dot by exact U. reflexivity.
Qed.
Example C68_nonvacuous : exists s u, is_sign s /\ (forall i j, Rabs (anti i j) = s i * s j * anti i j) /\ principal (abs_cov anti) u.
Proof.
  destruct C68_wrong_direction_refuted as (_ & _ & u & P & _).
  exists (fun i => match i with 1%nat => -1 | _ => 1 end), u. split; [|split; [|exact P]].
  - intros [|[|i]]; auto.
  - intros [|[|[|i]]] [|[|[|j]]]; unfold anti; rewrite ?Rabs_R1, ?Rabs_R0; try lra; rewrite Rabs_left; lra.
Qed.
End Axis.
