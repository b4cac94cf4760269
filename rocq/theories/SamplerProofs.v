(** Proofs about the samplers. *)
From Coq Require Import Reals List Bool Arith Lra Lia Permutation.
From Flocq Require Import IEEE754.BinarySingleNaN.
From Verif Require Import Arith Ieee QuatModel StateModel LidarModel SamplerModel SamplerSpec.
Import ListNotations.
Open Scope nat_scope.

(** ** uniform *)
Lemma uniform_loop_spec {X E} (draw : nat -> E -> nat * E) (pc : list X) : pc <> [] ->
  (forall n e, fst (draw n e) <= n) -> forall num e,
  exists out e', uniform_loop draw pc num e = Some (out, e') /\ length out = num /\
    Forall (fun p => In p pc) out /\
    forall i, i < num -> nth_error out i = nth_error pc (fst (draw (length pc - 1) (draws (fun n e => draw n e) (length pc - 1) i e))).
Proof.
  intros Hne Hd. induction num as [|num IH]; intros e.
  - exists [], e. cbn. repeat split; auto. intros i Hi. lia.
  - cbn [uniform_loop]. destruct (draw (length pc - 1) e) as [i e1] eqn:Ed.
    pose proof (Hd (length pc - 1) e) as Hi. rewrite Ed in Hi. cbn [fst] in Hi.
    assert (Hl : 0 < length pc) by (destruct pc; [congruence|cbn; lia]).
    destruct (nth_error pc i) as [p|] eqn:Ep; [|apply nth_error_None in Ep; lia].
    destruct (IH e1) as (out & e' & E1 & E2 & E3 & E4). rewrite E1. exists (p :: out), e'.
    split; [reflexivity|]. split; [cbn; lia|]. split; [constructor; [eapply nth_error_In; eauto|exact E3]|].
    intros [|j] Hj; cbn [nth_error draws].
    + rewrite Ed. symmetry. exact Ep.
    + rewrite Ed. cbn [snd]. apply E4. lia.
Qed.

(** ** lower_bound, for any arithmetic *)
Section LB.
Context {A : arith}.
Lemma lb_loop (cum : list A) v : forall fuel first len, len <= fuel -> first + len <= length cum ->
  (first = 0 \/ flt (nth (first - 1) cum f0) v = true) ->
  (first + len = length cum \/ flt (nth (first + len) cum f0) v = false) ->
  let r := lower_bound_loop cum v fuel first len in
  r <= length cum /\ (r = 0 \/ flt (nth (r - 1) cum f0) v = true) /\ (r = length cum \/ flt (nth r cum f0) v = false).
Proof.
  induction fuel as [|fuel IH]; intros first len Hf Hl H1 H2; cbn zeta.
  - assert (len = 0) by lia. subst. cbn [lower_bound_loop]. rewrite Nat.add_0_r in *. auto.
  - cbn [lower_bound_loop]. destruct (Nat.eqb_spec len 0) as [->|Hn].
    + rewrite Nat.add_0_r in *. auto.
    + set (half := Nat.div2 len). assert (Hh : half < len) by (apply Nat.lt_div2; lia).
      destruct (flt (nth (first + half) cum f0) v) eqn:E.
      * apply IH; try lia.
        -- right. replace (first + half + 1 - 1) with (first + half) by lia. exact E.
        -- replace (first + half + 1 + (len - half - 1)) with (first + len) by lia. exact H2.
      * apply IH; try lia; auto.
Qed.
Lemma lower_bound_spec (cum : list A) v : let r := lower_bound cum v in
  r <= length cum /\ (r = 0 \/ flt (nth (r - 1) cum f0) v = true) /\ (r = length cum \/ flt (nth r cum f0) v = false).
Proof. unfold lower_bound. apply lb_loop; auto; lia. Qed.
Lemma last_nth (l : list A) d : last l d = nth (length l - 1) l d.
Proof.
  induction l as [|x l IH]; [reflexivity|]. cbn [last length]. destruct l as [|y l]; [reflexivity|].
  rewrite IH. cbn [length]. replace (S (S (length l)) - 1) with (S (S (length l) - 1)) by lia. reflexivity.
Qed.
Lemma lower_bound_inside (cum : list A) v : cum <> [] -> flt (last cum f0) v = false -> lower_bound cum v < length cum.
Proof.
  intros Hne Hv. destruct (lower_bound_spec cum v) as (H1 & H2 & _). cbn zeta in *.
  destruct (Nat.eq_dec (lower_bound cum v) (length cum)) as [E|E]; [|lia].
  assert (0 < length cum) by (destruct cum; [congruence|cbn; lia]).
  destruct H2 as [H2|H2]; [lia|]. rewrite E in H2. rewrite last_nth in Hv. congruence.
Qed.
(** selection *)
Context {E : Type} (draw : A -> E -> A * E).
Lemma insert_spec n sel : NoDup sel -> NoDup (insert_id n sel) /\ In n (insert_id n sel) /\
  (forall x, In x (insert_id n sel) <-> x = n \/ In x sel) /\
  (insert_id n sel = sel \/ (~ In n sel /\ insert_id n sel = n :: sel)).
Proof.
  intros H. unfold insert_id. destruct (existsb (Nat.eqb n) sel) eqn:Ee.
  - apply existsb_exists in Ee. destruct Ee as (x & Hx & Ex). apply Nat.eqb_eq in Ex. subst x.
    split; [exact H|]. split; [exact Hx|]. split; [|left; reflexivity]. intros x. split; [auto|intros [->|?]; auto].
  - assert (Hn : ~ In n sel).
    { intros Hi. assert (existsb (Nat.eqb n) sel = true) by (apply existsb_exists; exists n; split; [exact Hi|apply Nat.eqb_refl]). congruence. }
    split; [constructor; auto|]. split; [left; auto|]. split; [|right; auto]. intros x. cbn. split; intros [?|?]; auto.
Qed.
Lemma select_spec (cum : list A) num : cum <> [] -> 0 < num ->
  (forall e, flt (last cum f0) (fst (draw (last cum f0) e)) = false) ->
  forall fuel sel e out e', NoDup sel -> (forall i, In i sel -> i < length cum) -> length sel < num ->
  select_loop draw cum num fuel sel e = Done (out, e') ->
  NoDup out /\ (forall i, In i out -> i < length cum) /\ length out = num.
Proof.
  intros Hne Hnum Hd. induction fuel as [|fuel IH]; intros sel e out e' Hnd Hin Hlen H; [discriminate|]. cbn [select_loop] in H.
  pose proof (Hd e) as Hv. destruct (draw (last cum f0) e) as [v e1]. cbn [fst] in Hv.
  pose proof (lower_bound_inside cum v Hne Hv) as Hlb. destruct (insert_spec (lower_bound cum v) sel Hnd) as (I1 & I2 & I3 & I4).
  assert (Hin' : forall i, In i (insert_id (lower_bound cum v) sel) -> i < length cum).
  { intros i Hi. apply I3 in Hi. destruct Hi as [->|Hi]; auto. }
  assert (Hlen' : length (insert_id (lower_bound cum v) sel) <= S (length sel)) by (destruct I4 as [->|[_ ->]]; cbn; lia).
  destruct (Nat.leb_spec num (length (insert_id (lower_bound cum v) sel))).
  - injection H as <- <-. split; [exact I1|]. split; [exact Hin'|lia].
  - eapply IH; eauto.
Qed.
Lemma select_not_undefined (cum : list A) num : forall fuel sel e, select_loop draw cum num fuel sel e <> Undefined.
Proof.
  induction fuel as [|fuel IH]; intros sel e; [discriminate|]. cbn [select_loop]. destruct (draw _ e) as [v e1].
  destruct (num <=? _); [discriminate|apply IH].
Qed.
End LB.
Lemma all_points_spec {X} (pc : list X) : forall ids, (forall i, In i ids -> i < length pc) ->
  exists l, all_points pc ids = Some l /\ Forall2 (fun i x => nth_error pc i = Some x) ids l.
Proof.
  induction ids as [|i ids IH]; intros H; [exists []; split; [reflexivity|constructor]|].
  destruct IH as (l & E & F); [intros j Hj; apply H; right; exact Hj|]. cbn [all_points]. rewrite E.
  destruct (nth_error pc i) as [x|] eqn:Ex.
  - exists (x :: l). split; [reflexivity|constructor; assumption].
  - apply nth_error_None in Ex. specialize (H i (or_introl eq_refl)). lia.
Qed.
Lemma cumulate_length {A : arith} : forall (ws : list A) p, length (cumulate p ws) = length ws.
Proof. induction ws as [|w ws IH]; intros p; cbn; auto. Qed.

(** ** real numbers *)
Section Real.
Open Scope R_scope.
Lemma acos_unit a : 0 <= a <= 1 -> 0 <= acos a <= PI / 2.
Proof.
  intros H. split; [apply acos_bound|].
  destruct (Rle_or_lt (acos a) (PI / 2)) as [L|L]; [exact L|exfalso].
  assert (cos (acos a) = a) by (apply cos_acos; lra). pose proof (acos_bound a) as B. pose proof PI_RGT_0.
  assert (cos (acos a) < cos (PI / 2)) by (apply cos_decreasing_1; lra). rewrite cos_PI2 in *. lra.
Qed.
Lemma weight_bounds (mw : R) d n : 1 <= mw -> 1 <= weight (A := RA) acos Rabs (PI / 2) mw d n <= mw.
Proof.
  intros Hm. pose proof PI_RGT_0. destruct n as [[[nx ny] nz]|]; [|cbn; lra]. destruct d as [[dx dy] dz].
  unfold weight. cbn [fadd fsub fmul fdiv flt f1 RA].
  set (a0 := Rabs _). assert (H0 : 0 <= a0) by apply Rabs_pos.
  set (a := if Rltb 1 a0 then 1 else a0).
  assert (Ha : 0 <= a <= 1) by (unfold a; destruct (Rltb 1 a0) eqn:E; [lra|apply Rltb_false in E; lra]).
  pose proof (acos_unit a Ha) as Hc. set (t := (PI / 2 - acos a) / (PI / 2)).
  assert (Ht : 0 <= t <= 1).
  { unfold t. split.
    - apply Rmult_le_pos; [lra|left; apply Rinv_0_lt_compat; lra].
    - apply Rmult_le_reg_r with (PI / 2); [lra|]. unfold Rdiv at 1. rewrite Rmult_assoc, Rinv_l by lra. lra. }
  change (1 <= 1 + (mw - 1) * t <= mw). clearbody t. clear - Hm Ht. nra.
Qed.
Lemma max_weight_bounds (P : normal_params RA) e1 e2 : 1 <= np_max_weight P -> np_ratio P < np_max_ratio P ->
  1 <= max_weight (A := RA) sqrt P e1 e2 <= np_max_weight P.
Proof.
  intros H1 H2. unfold max_weight. cbn [fadd fsub fmul fdiv flt f1 RA]. set (r := sqrt (e2 / e1)).
  destruct (Rltb r (np_ratio P)) eqn:E1; [cbn in *; lra|]. destruct (Rltb (np_max_ratio P) r) eqn:E2; [cbn in *; lra|].
  apply Rltb_false in E1, E2. set (a := np_ratio P : R) in *. set (b := np_max_ratio P : R) in *. set (m := np_max_weight P : R) in *.
  assert (Ht : 0 <= (r - a) / (b - a) <= 1).
  { split.
    - apply Rmult_le_pos; [lra|left; apply Rinv_0_lt_compat; lra].
    - apply Rmult_le_reg_r with (b - a); [lra|]. unfold Rdiv. rewrite Rmult_assoc, Rinv_l by lra. lra. }
  change (1 <= 1 + (m - 1) * ((r - a) / (b - a)) <= m). nra.
Qed.
(** cumulative weights of positive weights increase strictly *)
Lemma cumulate_increasing : forall (ws : list RA) (p : RA), Forall (fun w : R => 0 < w) ws -> forall i j, (i < j < length ws)%nat ->
  (p : R) < nth i (cumulate p ws) 0 /\ nth i (cumulate p ws) 0 < nth j (cumulate p ws) 0.
Proof.
  induction ws as [|w ws IH]; intros p F i j Hij; [cbn in Hij; lia|]. apply Forall_cons_iff in F as [Hw F].
  cbn [cumulate]. cbn zeta. set (c := fadd w p). assert (Hc : (p : R) < c) by (unfold c; cbn [fadd RA]; lra).
  destruct j as [|j]; [lia|]. cbn [length] in Hij. destruct i as [|i]; cbn [nth].
  - split; [exact Hc|]. destruct j as [|j].
    + destruct ws as [|w' ws]; [cbn in Hij; lia|]. apply Forall_cons_iff in F as [Hw' _]. cbn [cumulate nth]. cbn [fadd RA]. lra.
    + destruct (IH c F 0%nat (S j) ltac:(lia)) as [Q1 Q2]. lra.
  - destruct (IH c F i j ltac:(lia)) as [Q1 Q2]. split; lra.
Qed.
Lemma cumulate_pos : forall (ws : list RA) (p : RA), Forall (fun w : R => 0 < w) ws -> forall i, (i < length ws)%nat ->
  (p : R) < nth i (cumulate p ws) 0.
Proof.
  induction ws as [|w ws IH]; intros p F i Hi; [cbn in Hi; lia|]. apply Forall_cons_iff in F as [Hw F].
  cbn [cumulate]. cbn zeta. assert (Hc : (p : R) < fadd w p) by (cbn [fadd RA]; lra).
  destruct i as [|i]; cbn [nth]; [exact Hc|]. specialize (IH (fadd w p) F i). cbn [length] in Hi. specialize (IH ltac:(lia)). lra.
Qed.
(** the interval of index [i] *)
Definition lo_of (cum : list R) (i : nat) : R := match i with O => 0 | S i' => nth i' cum 0 end.
Lemma lower_bound_hit (ws : list RA) v i : Forall (fun w : R => 0 < w) ws -> (i < length ws)%nat ->
  let cum := cumulative (A := RA) ws in lo_of cum i < v <= nth i cum 0 -> lower_bound (A := RA) cum v = i.
Proof.
  intros F Hi cum [H1 H2]. destruct (lower_bound_spec (A := RA) cum v) as (L0 & L1 & L2). cbn zeta in *.
  set (r := lower_bound cum v) in *. assert (Hlen : length cum = length ws) by apply cumulate_length.
  change (@f0 RA) with 0 in *. cbn [flt RA] in L1, L2.
  destruct (lt_eq_lt_dec r i) as [[Hlt|E]|Hgt]; [|exact E|].
  - exfalso. assert (Hrl : (r < length ws)%nat) by lia. destruct L2 as [L2|L2]; [change (r = length cum) in L2; rewrite Hlen in L2; lia|]. apply Rltb_false in L2.
    destruct i as [|i']; [lia|]. cbn [lo_of] in H1. clearbody r. destruct (Nat.eq_dec r i') as [->|Hne]; [exact (Rlt_irrefl _ (Rlt_le_trans _ _ _ H1 L2))|].
    destruct (cumulate_increasing ws f0 F r i' ltac:(lia)) as [_ Q]. change (cumulate f0 ws) with cum in Q.
    exact (Rlt_irrefl _ (Rlt_trans _ _ _ Q (Rlt_le_trans _ _ _ H1 L2))).
  - exfalso. destruct L1 as [L1|L1]; [lia|]. apply Rltb_true in L1.
    assert (Hrl : (r <= length ws)%nat) by (rewrite <- Hlen; exact L0).
    destruct (Nat.eq_dec (r - 1) i) as [E|Hne]; [rewrite E in L1; exact (Rlt_irrefl _ (Rlt_le_trans _ _ _ L1 H2))|].
    destruct (cumulate_increasing ws f0 F i (r - 1)%nat ltac:(lia)) as [_ Q]. change (cumulate f0 ws) with cum in Q.
    exact (Rlt_irrefl _ (Rlt_trans _ _ _ Q (Rlt_le_trans _ _ _ L1 H2))).
Qed.
(** a fair generator ends the selection *)
Section Term.
Context {E : Type} (draw : R -> E -> R * E) (Hfair : fair draw) (Hdom : in_unit_range draw).
Context (ws : list RA) (F : Forall (fun w : R => 0 < w) ws) (num : nat) (Hnum : (num <= length ws)%nat).
Let cum := cumulative (A := RA) ws.
Lemma missing_id (sel : list nat) : NoDup sel -> (length sel < length ws)%nat -> exists i, (i < length ws)%nat /\ ~ In i sel.
Proof.
  intros Hnd Hl. destruct (Forall_Exists_dec (fun i => In i sel) (fun i => in_dec Nat.eq_dec i sel) (seq 0 (length ws))) as [G|G].
  - exfalso. assert (incl (seq 0 (length ws)) sel) by (intros i Hi; rewrite Forall_forall in G; auto).
    apply NoDup_incl_length in H; [|apply seq_NoDup]. rewrite seq_length in H. lia.
  - apply Exists_exists in G. destruct G as (i & Hi & Hn). apply in_seq in Hi. exists i. split; [lia|exact Hn].
Qed.
Lemma back_pos : ws <> [] -> 0 < last cum 0 /\ last cum 0 = nth (length ws - 1) cum 0.
Proof.
  intros Hne. assert (E0 : last cum 0 = nth (length ws - 1) cum 0).
  { change (@last R) with (@last RA). rewrite (last_nth (A := RA)). unfold cum, cumulative. rewrite cumulate_length. reflexivity. }
  split; [|exact E0]. rewrite E0. apply (cumulate_pos ws f0 F). destruct ws; [congruence|cbn; lia].
Qed.
Lemma select_terminates : (0 < num)%nat -> forall m sel e, NoDup sel -> (length sel < num)%nat -> (num - length sel <= m)%nat ->
  exists fuel out e', select_loop (A := RA) draw cum num fuel sel e = Done (out, e').
Proof.
  intros H0. assert (Hne : ws <> []) by (intros ->; cbn in Hnum; lia).
  destruct (back_pos Hne) as [Hb0 Hb].
  induction m as [|m IHm]; intros sel e Hnd Hl Hm; [lia|].
  destruct (missing_id sel Hnd ltac:(lia)) as (i & Hi & Hni).
  assert (Hint : 0 <= lo_of cum i < nth i cum 0 /\ nth i cum 0 <= last cum 0).
  { rewrite Hb. split; [|].
    - destruct i as [|i']; cbn [lo_of]; [split; [lra|apply (cumulate_pos ws f0 F 0%nat Hi)]|].
      destruct (cumulate_increasing ws f0 F i' (S i') ltac:(lia)) as [_ Q]. change (cumulate f0 ws) with cum in Q. split; [|exact Q].
      left. apply (cumulate_pos ws f0 F i'). lia.
    - destruct (Nat.eq_dec i (length ws - 1)) as [->|Hn]; [lra|].
      destruct (cumulate_increasing ws f0 F i (length ws - 1)%nat ltac:(lia)) as [_ Q]. left. exact Q. }
  destruct (Hfair (last cum 0) e (lo_of cum i) (nth i cum 0) (proj1 Hint) (proj2 Hint)) as (k & Hk).
  (* walk to the k-th draw *)
  revert sel e Hnd Hl Hm Hni Hk. induction k as [|k IHk]; intros sel e Hnd Hl Hm Hni Hk.
  - cbn [draws] in Hk. destruct (draw (last cum 0) e) as [v e1] eqn:Ed. cbn [fst] in Hk.
    assert (Elb : lower_bound (A := RA) cum v = i) by (apply lower_bound_hit; auto; fold cum; lra).
    destruct (insert_spec i sel Hnd) as (I1 & I2 & _ & I4). destruct I4 as [I4|[_ I4]].
    { exfalso. apply Hni. rewrite I4 in I2. exact I2. }
    destruct (Nat.le_gt_cases num (length (i :: sel))) as [Hd|Hd].
    + exists 1%nat, (i :: sel), e1. cbn [select_loop]. change (last cum (@f0 RA)) with (last cum 0).  rewrite Ed. rewrite Elb, I4.
      apply Nat.leb_le in Hd. rewrite Hd. reflexivity.
    + rewrite I4 in I1. destruct (IHm (i :: sel) e1 I1 Hd ltac:(cbn [length]; lia)) as (fuel & out & e' & Er).
      exists (S fuel), out, e'. cbn [select_loop]. change (last cum (@f0 RA)) with (last cum 0). rewrite Ed, Elb, I4.
      apply Nat.leb_gt in Hd. rewrite Hd. exact Er.
  - cbn [draws] in Hk. destruct (draw (last cum 0) e) as [v e1] eqn:Ed. cbn [snd] in Hk.
    set (n := lower_bound (A := RA) cum v). destruct (insert_spec n sel Hnd) as (I1 & _ & I3 & I4).
    destruct (Nat.le_gt_cases num (length (insert_id n sel))) as [Hd|Hd].
    + exists 1%nat, (insert_id n sel), e1. cbn [select_loop]. change (last cum (@f0 RA)) with (last cum 0). rewrite Ed. fold n.
      apply Nat.leb_le in Hd. rewrite Hd. reflexivity.
    + assert (G : exists fuel out e', select_loop (A := RA) draw cum num fuel (insert_id n sel) e1 = Done (out, e')).
      { destruct I4 as [I4|[Hnn I4]].
        - rewrite I4. apply IHk; auto.
        - apply IHm; auto. rewrite I4. cbn [length]. lia. }
      destruct G as (fuel & out & e' & Er). exists (S fuel), out, e'. cbn [select_loop]. change (last cum (@f0 RA)) with (last cum 0).
      rewrite Ed. fold n. apply Nat.leb_gt in Hd. rewrite Hd. exact Er.
Qed.
End Term.
End Real.
