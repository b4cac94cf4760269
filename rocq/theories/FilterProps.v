(** C34-C38: the first order filters.  Vocabulary: FilterSpec.v. *)
From Coq Require Import Reals ZArith List Bool Lra Lia Psatz.
From Verif Require Import Arith FilterModel FilterSpec FilterProofs.
Import ListNotations.
Open Scope R_scope.

(** ** C34: a constant passes through unchanged, in plain and in angle mode, after
    construction and after set() on an object with any history. *)
Theorem C34_constant_passes : forall T c ang n, 0 <= T ->
  outputs (new_filt FILTER_LPF T c ang) (repeat c n) = repeat c n /\
  (forall f, lpf T ang f -> outputs (set f c) (repeat c n) = repeat c n).
Proof.
  intros T c ang n HT. split.
  - apply (lpf_const_n T); auto. apply coeffs_new. apply new_x; auto.
  - intros f (o & cs & ->).
    assert (coeffs T FILTER_LPF (fold_left fstep cs (new_filt FILTER_LPF T o ang))) by apply coeffs_run, coeffs_new.
    apply (lpf_const_n T); auto. apply (set_x T); auto.
Qed.
Example C34_used : lpf 1 false (input (new_filt FILTER_LPF 1 3 false) 7) /\
  out (input (new_filt FILTER_LPF 1 3 false) 7) = 55 / 9.
Proof. split; [exists 3, [In 7]; reflexivity|]. cbn. field. Qed.

(** The vector filter used for poses is three independent filters, whatever calls of in()
    and set() it receives. *)
Theorem C34_vec3_componentwise : forall t tc o ang (cs : list fcall3),
  let f := fold_left fstep3 cs (new_filt3 t tc o ang) in
  let comp (pr : R * R * R -> R) :=
    out (fold_left fstep (map (comp_call pr) cs) (new_filt t (pr tc) (pr o) ang)) in
  v_out f = (comp (fun v => fst (fst v)), comp (fun v => snd (fst v)), comp snd).
Proof.
  intros t tc o ang cs.
  assert (G : forall cs f, v_out f = (out (fx f), out (fy f), out (fz f)) ->
    v_out (fold_left fstep3 cs f) =
      (out (fold_left fstep (map (comp_call (fun v => fst (fst v))) cs) (fx f)),
       out (fold_left fstep (map (comp_call (fun v => snd (fst v))) cs) (fy f)),
       out (fold_left fstep (map (comp_call snd) cs) (fz f)))).
  { induction cs0 as [|[[[a b] c]|[[a b] c]] r IH]; intros f H; [exact H| |];
    cbn [fold_left map]; rewrite IH; reflexivity. }
  cbn zeta. destruct tc as [[t0 t1] t2], o as [[a b] c]. rewrite G; [reflexivity|].
  destruct t; reflexivity.
Qed.

(** ** C35: convergence.  After set(s) the error after n+1 inputs c is exactly
    2T/(1+2T) * g^(n+1) * (s-c) with g = (2T-1)/(2T+1), |g| < 1. *)
Theorem C35_geometric : forall T f s c n, 0 <= T -> lpf T false f ->
  out (feed (set f s) (repeat c (S n))) - c
    = 2 * T / (1 + 2 * T) * ((2 * T - 1) / (2 * T + 1)) ^ S n * (s - c).
Proof.
  intros T f s c n HT (o & cs & ->).
  assert (H : coeffs T FILTER_LPF (fold_left fstep cs (new_filt FILTER_LPF T o false))) by apply coeffs_run, coeffs_new.
  rewrite (lpf_conv T); auto.
  - rewrite (set_x T) by auto. unfold lp_gain. field. lra.
  - cbn [angle set]. rewrite angle_run. reflexivity.
Qed.
(** From any state reached by any use, not only after set(), the output tends to c. *)
Theorem C35_converges : forall T f c, 0 < T -> lpf T false f ->
  Un_cv (fun n => out (feed f (repeat c n))) c.
Proof.
  intros T f c HT (o & cs & Ef).
  assert (H : coeffs T FILTER_LPF f) by (subst f; apply coeffs_run, coeffs_new).
  assert (Ha : angle f = false) by (subst f; rewrite angle_run; reflexivity).
  apply (geo_limit (lp_gain T) (- / (1 + 2 * T) * (x_ f + 2 * T * c))).
  - apply lp_gain_lt1; auto.
  - intros n. rewrite (lpf_conv T) by (auto; lra). ring.
Qed.
(** For T >= 1/2 the error never increases from one input to the next. *)
Theorem C35_error_monotone : forall T f s c n, / 2 <= T -> lpf T false f ->
  Rabs (out (feed (set f s) (repeat c (S n))) - c) <= Rabs (out (feed (set f s) (repeat c n)) - c).
Proof.
  intros T f s c n HT Hf. destruct n as [|n].
  - rewrite (C35_geometric T) by (auto; lra). cbn [repeat feed fold_left out set].
    set (a := 2 * T / (1 + 2 * T)). set (g := (2 * T - 1) / (2 * T + 1)).
    assert (G : 0 <= a <= 1).
    { unfold a. split.
      - apply Rmult_le_pos; [lra|]. apply Rlt_le, Rinv_0_lt_compat; lra.
      - apply Rmult_le_reg_r with (1 + 2*T); [lra|]. unfold Rdiv. rewrite Rmult_assoc, Rinv_l; lra. }
    pose proof (lp_gain_lt1 T ltac:(lra)). unfold lp_gain in H. fold g in H.
    replace (a * g ^ 1 * (s - c)) with (g * (a * (s - c))) by (simpl; ring). rewrite !Rabs_mult.
    rewrite (Rabs_pos_eq a) by lra. pose proof (Rabs_pos (s - c)). pose proof (Rabs_pos g).
    assert (a * Rabs (s - c) <= Rabs (s - c)) by nra.
    assert (0 <= a * Rabs (s-c)) by nra. nra.
  - rewrite !(C35_geometric T) by (auto; lra).
    set (a := 2 * T / (1 + 2 * T)). set (g := (2 * T - 1) / (2 * T + 1)).
    pose proof (lp_gain_lt1 T ltac:(lra)). unfold lp_gain in H. fold g in H.
    replace (a * g ^ S (S n) * (s - c)) with (g * (a * g ^ S n * (s - c))) by (simpl; ring).
    rewrite (Rabs_mult g). pose proof (Rabs_pos (a * g ^ S n * (s - c))). nra.
Qed.
(** Angle mode, time constant >= 1/2: under a constant direction c the output tends to
    the representative of c nearest to the start value (if that is unique). *)
Theorem C35_angle_converges : forall T f s c, / 2 <= T -> lpf T true f -> ~ half_turn (c - s) ->
  exists k : Z, Rabs (c + IZR k * (2 * PI) - s) < PI /\
    Un_cv (fun n => out (feed (set f s) (repeat c n))) (c + IZR k * (2 * PI)).
Proof.
  intros T f s c HT (o & cs & Ef) Hn.
  assert (Hc : coeffs T FILTER_LPF f) by (subst f; apply coeffs_run, coeffs_new).
  assert (Ha : angle f = true) by (subst f; rewrite angle_run; reflexivity).
  destruct (rem_shift_ex (c - s)) as [k Hk]. exists k.
  assert (B : Rabs (remainder (c - s) (PI * 2)) < PI).
  { destruct (rem_bound (c - s)) as [L|L]; auto. exfalso. apply Hn.
    unfold Rabs in L. destruct (Rcase_abs _).
    - exists (- k - 1)%Z. rewrite plus_IZR, mult_IZR, minus_IZR, opp_IZR. lra.
    - exists (- k)%Z. rewrite plus_IZR, mult_IZR, opp_IZR. lra. }
  set (c' := c + IZR k * (2 * PI)).
  assert (Ec : c' - s = remainder (c - s) (PI * 2)) by (unfold c'; lra).
  split; [rewrite Ec; exact B|].
  (* the run coincides with the plain one on c' *)
  assert (Cs : coeffs T FILTER_LPF (set f s)) by exact Hc.
  assert (K : forall n g, coeffs T FILTER_LPF g -> angle g = true -> Rabs (out g - c') < PI ->
     (x_ g = - 2 * T * out g \/ out g - c' = - / (1 + 2 * T) * (x_ g + 2 * T * c')) ->
     plain (feed g (repeat c n)) = feed (plain g) (repeat c' n)).
  { induction n as [|n IH]; intros g Cg Ag Bg Sg; [reflexivity|].
    unfold feed. cbn [repeat fold_left].
    assert (E : plain (input g c) = input (plain g) c').
    { rewrite input_plain by auto. f_equal.
      replace (c - out g) with ((c' - out g) + IZR (- k) * (2 * PI)) by (rewrite opp_IZR; unfold c'; lra).
      assert (A : Rabs (c' - out g) < PI) by (rewrite Rabs_minus_sym; exact Bg).
      rewrite rem_periodic, rem_small; auto; [lra|].
      intros [m Em]. rewrite Em in A. rewrite Rabs_mult, (Rabs_pos_eq PI) in A by (pose proof PI_RGT_0; lra).
      assert (1 <= Rabs (IZR (2 * m + 1))).
      { rewrite <- abs_IZR. apply IZR_le. lia. }
      pose proof PI_RGT_0. nra. }
    rewrite <- E. apply IH; auto.
    - assert (Q : Rabs (out (input (plain g) c') - c') <= Rabs (out (plain g) - c')).
      { destruct Sg as [Sg|Sg].
        - apply (lpf_err_first T); auto.
        - apply (lpf_err_step T); auto. }
      rewrite <- E in Q. cbn [plain out] in Q. lra.
    - right. change (out (input g c)) with (out (plain (input g c))).
      change (x_ (input g c)) with (x_ (plain (input g c))). rewrite E.
      apply (lpf_step T (plain g) c' ltac:(lra) Cg eq_refl). }
  apply Un_cv_ext with (fun n => out (feed (plain (set f s)) (repeat c' n))).
  { intros n. rewrite <- K; auto.
    - cbn [out set]. rewrite Rabs_minus_sym, Ec. exact B.
    - left. cbn [out]. apply (set_x T); auto. lra. }
  apply (geo_limit (lp_gain T) (- / (1 + 2 * T) * (x_ (set f s) + 2 * T * c'))).
  - apply lp_gain_lt1; lra.
  - intros n. rewrite (lpf_conv T); auto; [|lra]. change (x_ (plain (set f s))) with (x_ (set f s)). ring.
Qed.
Example C35_hyp : lpf 1 true (new_filt FILTER_LPF 1 0 true) /\ ~ half_turn (1 - 0).
Proof.
  split; [exists 0, []; reflexivity|]. intros [m Hm].
  pose proof PI_ineq 1. pose proof PI2_3_2. pose proof PI_RGT_0. unfold PI2 in *. 
  assert (PI > 3) by (unfold PI in *; lra).
  assert (A : Rabs (1 - 0) = Rabs (IZR (2 * m + 1)) * PI) by (rewrite Hm, Rabs_mult, (Rabs_pos_eq PI) by lra; reflexivity).
  rewrite Rabs_pos_eq in A by lra.
  assert (1 <= Rabs (IZR (2 * m + 1))) by (rewrite <- abs_IZR; apply IZR_le; lia). nra.
Qed.

(** ** C36: no overshoot for T >= 1/2, any inputs ... *)
Theorem C36_no_overshoot : forall T f s lo hi ins, / 2 <= T -> lpf T false f ->
  lo <= s <= hi -> Forall (fun i => lo <= i <= hi) ins ->
  Forall (fun o => lo <= o <= hi) (outputs (set f s) ins) /\
  Forall (fun o => lo <= o <= hi) (outputs (new_filt FILTER_LPF T s false) ins).
Proof.
  intros T f s lo hi ins HT (o & cs & Ef) Hs Hi.
  assert (Hc : coeffs T FILTER_LPF f) by (subst f; apply coeffs_run, coeffs_new).
  assert (Ha : angle f = false) by (subst f; rewrite angle_run; reflexivity).
  split; apply (lpf_hull_n T); auto.
  - rewrite (set_x T) by (auto; lra). split; nra.
  - apply coeffs_new.
  - rewrite new_x by lra. split; nra.
Qed.
(** ... and the bound on the time constant is sharp: below 1/2 one step overshoots. *)
Theorem C36_short_time_constant_refuted : forall T, 0 < T < / 2 ->
  1 < out (input (new_filt FILTER_LPF T 0 false) 1).
Proof.
  intros T HT. destruct (lpf_step T (new_filt FILTER_LPF T 0 false) 1 ltac:(lra) (coeffs_new _ _ _ _) eq_refl) as [A B].
  rewrite new_x in A by lra.
  assert (E : out (input (new_filt FILTER_LPF T 0 false) 1) - 1 = - / (1 + 2 * T) * (lp_gain T * (-2 * T * 0 + 2 * T * 1))) by (rewrite B, A; ring).
  assert (P : 0 < - / (1 + 2 * T) * (lp_gain T * (-2 * T * 0 + 2 * T * 1))).
  { unfold lp_gain. replace (- / (1 + 2 * T) * ((2 * T - 1) / (2 * T + 1) * (-2 * T * 0 + 2 * T * 1)))
      with ((1 - 2 * T) * (2 * T) * (/ (1 + 2 * T) * / (1 + 2 * T))) by (field; lra).
    apply Rmult_lt_0_compat; [nra|]. assert (0 < / (1 + 2*T)) by (apply Rinv_0_lt_compat; lra). nra. }
  lra.
Qed.

(** ** C37: angle mode depends on directions only *)
Theorem C37_full_turns : forall t T out0 us vs, same_directions us vs ->
  no_half_turn (new_filt t T out0 true) us ->
  outputs (new_filt t T out0 true) us = outputs (new_filt t T out0 true) vs.
Proof. intros. apply feed_dir; auto. destruct t; reflexivity. Qed.
(** The value the filter works on is a representative of the input direction at most
    half a turn away from the last output: the angle filter is the plain filter fed
    with that value. *)
Theorem C37_nearest_representative : forall t T out0 cs i,
  let f := fold_left fstep cs (new_filt t T out0 true) in
  exists k : Z, Rabs (i + IZR k * (2 * PI) - out f) <= PI /\
    out (input f i) = k2 f * (i + IZR k * (2 * PI)) + k3 f * (k0 f * (i + IZR k * (2 * PI)) + k1 f * x_ f).
Proof.
  intros t T out0 cs i f. assert (Ha : angle f = true) by (unfold f; rewrite angle_run; destruct t; reflexivity).
  destruct (rem_shift_ex (i - out f)) as [k Hk]. exists k. split.
  - replace (i + IZR k * (2 * PI) - out f) with (remainder (i - out f) (PI * 2)) by lra. apply rem_bound.
  - unfold input. rewrite Ha. cbn [out x_]. rewrite Hk.
    replace (out f + (i - out f + IZR k * (2 * PI))) with (i + IZR k * (2 * PI)) by ring. reflexivity.
Qed.
(** At the half-turn tie a full turn does change the output. *)
Theorem C37_tie_refuted : 
  out (input (new_filt FILTER_LPF 1 0 true) PI) <> out (input (new_filt FILTER_LPF 1 0 true) (PI + IZR (-1) * (2 * PI))).
Proof.
  pose proof PI_RGT_0.
  assert (F : forall z, Rfloor (IZR z + / 2) = z) by (intros; apply Rfloor_unique; lra).
  assert (TIE : forall z, Rltb (IZR z + / 2 - IZR z) (/ 2) = false /\ Rltb (/ 2) (IZR z + / 2 - IZR z) = false).
  { intros z. split; apply Rltb_false; lra. }
  assert (R1 : remainder PI (PI * 2) = PI).
  { unfold remainder. replace (PI / (PI * 2)) with (IZR 0 + / 2) by (simpl; field; lra).
    unfold rne. rewrite F. destruct (TIE 0%Z) as [-> ->]. simpl. ring. }
  assert (R2 : remainder (- PI) (PI * 2) = - PI).
  { unfold remainder. replace (- PI / (PI * 2)) with (IZR (-1) + / 2) by (field; lra).
    unfold rne. rewrite F. destruct (TIE (-1)%Z) as [-> ->]. simpl. ring. }
  unfold input, new_filt. cbn [angle out x_ k0 k1 k2 k3].
  replace (PI - 0) with PI by ring. replace (PI + -1 * (2 * PI) - 0) with (- PI) by ring.
  rewrite R1, R2. intros E. assert (X : PI * (7 / 9) = 0); [|lra].
  match type of E with ?a = ?b => assert (Ha : a = PI * (7/9)) by field; assert (Hb : b = - (PI * (7/9))) by field end.
  rewrite Ha, Hb in E. lra.
Qed.
Example C37_hyp : same_directions [1; 2] [1 + 2 * PI; 2] /\ no_half_turn (new_filt FILTER_LPF 1 0 true) [0].
Proof.
  split.
  - constructor; [exists 1%Z; lra|constructor; [exists 0%Z; lra|constructor]].
  - split; [|exact I]. cbn. intros [m Hm]. pose proof PI_RGT_0.
    assert (A : IZR (2 * m + 1) * PI = 0) by lra. apply Rmult_integral in A. destruct A as [A|A]; [|lra].
    apply eq_IZR in A. lia.
Qed.

(** ** C38: the high pass filter rejects constants *)
Theorem C38_geometric : forall T out0 c n, 0 < T ->
  out (feed (new_filt FILTER_HPF T out0 false) (repeat c (S n)))
    = / (1 + 2 * T) * ((2 * T - 1) / (2 * T + 1)) ^ S n * (out0 + 2 * T * c).
Proof.
  intros T out0 c n HT. rewrite (hpf_conv T); auto.
  - unfold lp_gain. cbn [new_filt x_]. field. lra.
  - apply coeffs_new.
Qed.
Theorem C38_rejects_constants : forall T f c, 0 < T -> hpf T false f ->
  Un_cv (fun n => out (feed f (repeat c n))) 0.
Proof.
  intros T f c HT (o & cs & Ef).
  assert (H : coeffs T FILTER_HPF f) by (subst f; apply coeffs_run, coeffs_new).
  assert (Ha : angle f = false) by (subst f; rewrite angle_run; reflexivity).
  apply (geo_limit (lp_gain T) (- / (1 + 2 * T) * (x_ f - 2 * T * c))).
  - apply lp_gain_lt1; auto.
  - intros n. rewrite (hpf_conv T) by auto. ring.
Qed.
