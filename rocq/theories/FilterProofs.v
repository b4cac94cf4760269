From Coq Require Import Reals ZArith List Bool Lra Lia Psatz.
From Verif Require Import Arith FilterModel FilterSpec.
Import ListNotations.
Open Scope R_scope.

(** ** remainder *)
Lemma rne_near x : Rabs (x - IZR (rne x)) <= / 2.
Proof.
  unfold rne. destruct (Rfloor_spec x) as [H1 H2].
  destruct (Rltb _ _) eqn:E1; [apply Rltb_true in E1|apply Rltb_false in E1].
  - rewrite Rabs_pos_eq; lra.
  - destruct (Rltb (/2) _) eqn:E2; [apply Rltb_true in E2|apply Rltb_false in E2].
    + rewrite plus_IZR. rewrite Rabs_left1; lra.
    + destruct (Z.even _).
      * rewrite Rabs_pos_eq; lra.
      * rewrite plus_IZR. rewrite Rabs_left1; lra.
Qed.
Lemma near_unique x n m : Rabs (x - IZR n) < / 2 -> Rabs (x - IZR m) <= / 2 -> n = m.
Proof.
  intros H1 H2. unfold Rabs in *.
  assert (A : -1 < IZR n - IZR m < 1) by (destruct (Rcase_abs (x - IZR n)), (Rcase_abs (x - IZR m)); lra).
  rewrite <- minus_IZR in A. destruct A as [A B]. apply lt_IZR in A, B. lia.
Qed.
Lemma rne_unique x n : Rabs (x - IZR n) < / 2 -> rne x = n.
Proof. intros H. symmetry. apply (near_unique x); auto. apply rne_near. Qed.
Lemma rem_bound x : Rabs (remainder x (PI * 2)) <= PI.
Proof.
  unfold remainder. pose proof PI_RGT_0.
  replace (x - PI * 2 * IZR (rne (x / (PI * 2)))) with ((x / (PI*2) - IZR (rne (x / (PI * 2)))) * (PI * 2)) by (field; lra).
  rewrite Rabs_mult, (Rabs_pos_eq (PI*2)) by lra. pose proof (rne_near (x / (PI*2))). nra.
Qed.
Lemma rem_shift_ex x : exists k, remainder x (PI * 2) = x + IZR k * (2 * PI).
Proof. exists (- rne (x / (PI*2)))%Z. unfold remainder. rewrite opp_IZR. lra. Qed.
Lemma rem_small x : Rabs x < PI -> remainder x (PI * 2) = x.
Proof.
  intros H. unfold remainder. pose proof PI_RGT_0.
  rewrite (rne_unique _ 0); [lra|].
  rewrite Rminus_0_r. unfold Rdiv. rewrite Rabs_mult, (Rabs_pos_eq (/ _)); [|apply Rlt_le, Rinv_0_lt_compat; lra].
  apply Rmult_lt_reg_r with (PI * 2); [lra|]. rewrite Rmult_assoc, Rinv_l by lra. lra.
Qed.
Lemma rne_tie x : Rabs (x - IZR (rne x)) = / 2 -> exists m, x = IZR m + / 2.
Proof.
  intros H. unfold Rabs in H. destruct (Rcase_abs _).
  - exists (rne x - 1)%Z. rewrite minus_IZR. lra.
  - exists (rne x). lra.
Qed.
Lemma rem_periodic x k : ~ half_turn x -> remainder (x + IZR k * (2 * PI)) (PI * 2) = remainder x (PI * 2).
Proof.
  intros H. unfold remainder. pose proof PI_RGT_0.
  assert (E : (x + IZR k * (2 * PI)) / (PI * 2) = x / (PI * 2) + IZR k) by (field; lra).
  rewrite E.
  assert (A : Rabs (x / (PI*2) - IZR (rne (x / (PI*2)))) < / 2).
  { destruct (rne_near (x / (PI*2))) as [L|L]; auto.
    exfalso. apply rne_tie in L. destruct L as [m L]. apply H. exists m.
    apply Rmult_eq_reg_r with (/ (PI * 2)); [|apply Rinv_neq_0_compat; lra].
    unfold Rdiv in L. rewrite L. rewrite plus_IZR, mult_IZR. field; lra. }
  rewrite (rne_unique (x / (PI*2) + IZR k) (rne (x / (PI*2)) + k)).
  - rewrite plus_IZR. lra.
  - rewrite plus_IZR. match goal with |- Rabs ?a < _ => replace a with (x / (PI*2) - IZR (rne (x / (PI*2)))) by lra end. exact A.
Qed.

(** ** coefficients are never changed *)
Definition coeffs (T : R) (t : filter_type) (f : filt) : Prop :=
  let g := new_filt t T 0 false in k0 f = k0 g /\ k1 f = k1 g /\ k2 f = k2 g /\ k3 f = k3 g.
Lemma coeffs_input T t f i : coeffs T t f -> coeffs T t (input f i).
Proof. intros H; exact H. Qed.
Lemma coeffs_set T t f i : coeffs T t f -> coeffs T t (set f i).
Proof. intros H; exact H. Qed.
Lemma coeffs_new T t o a : coeffs T t (new_filt t T o a).
Proof. destruct t; repeat split. Qed.
Lemma coeffs_run T t cs : forall f, coeffs T t f -> coeffs T t (fold_left fstep cs f).
Proof. induction cs as [|c cs IH]; intros f H; simpl; auto. apply IH. destruct c; [apply coeffs_input|apply coeffs_set]; auto. Qed.
Lemma angle_run cs : forall f, angle (fold_left fstep cs f) = angle f.
Proof. induction cs as [|c cs IH]; intros f; simpl; auto. rewrite IH. destruct c; reflexivity. Qed.

(** The state that the recursion really has: y = -x/(2T) for the low pass filter
    is avoided so that T = 0 is covered; we use x + 2 T c. *)
Definition lp_gain (T : R) : R := (2 * T - 1) / (2 * T + 1).
Lemma lpf_step T f i : 0 <= T -> coeffs T FILTER_LPF f -> angle f = false ->
  x_ (input f i) + 2 * T * i = lp_gain T * (x_ f + 2 * T * i) /\
  out (input f i) - i = - / (1 + 2 * T) * (x_ (input f i) + 2 * T * i).
Proof.
  intros HT (H0 & H1 & H2 & H3) Ha. cbn in H0, H1, H2, H3. unfold input. rewrite Ha. cbn.
  rewrite H0, H1, H2, H3. unfold lp_gain. split; field; lra.
Qed.
Lemma set_x T f c : 0 <= T -> coeffs T FILTER_LPF f -> x_ (set f c) = - 2 * T * c.
Proof. intros HT (H0 & H1 & H2 & H3). cbn in *. rewrite H2, H3. field; lra. Qed.
Lemma new_x T c a : 0 <= T -> x_ (new_filt FILTER_LPF T c a) = - 2 * T * c.
Proof. intros HT. cbn. field; lra. Qed.

Lemma lpf_const T f c : 0 <= T -> coeffs T FILTER_LPF f -> out f = c -> x_ f = - 2 * T * c ->
  out (input f c) = c /\ x_ (input f c) = - 2 * T * c.
Proof.
  intros HT (H0 & H1 & H2 & H3) Ho Hx. cbn in H0, H1, H2, H3. unfold input. cbn.
  assert (E : (if angle f then out f + remainder (c - out f) (PI * 2) else c) = c).
  { destruct (angle f); auto. rewrite Ho, Rminus_diag_eq by auto. rewrite rem_small; [lra|]. rewrite Rabs_R0. apply PI_RGT_0. }
  rewrite E, H0, H1, H2, H3, Hx. split; field; lra.
Qed.
Lemma lpf_const_n T n : forall f c, 0 <= T -> coeffs T FILTER_LPF f -> out f = c -> x_ f = - 2 * T * c ->
  outputs f (repeat c n) = repeat c n.
Proof.
  induction n as [|n IH]; intros f c HT Hc Ho Hx; [reflexivity|]. cbn [outputs repeat].
  destruct (lpf_const T f c HT Hc Ho Hx) as [A B]. rewrite A. f_equal. apply IH; auto.
Qed.

Lemma lpf_conv T n : forall f c, 0 <= T -> coeffs T FILTER_LPF f -> angle f = false ->
  out (feed f (repeat c (S n))) - c = - / (1 + 2 * T) * lp_gain T ^ S n * (x_ f + 2 * T * c).
Proof.
  induction n as [|n IH]; intros f c HT Hc Ha.
  - cbn [repeat feed fold_left]. destruct (lpf_step T f c HT Hc Ha) as [A B]. rewrite B, A. simpl. ring.
  - change (repeat c (S (S n))) with (c :: repeat c (S n)). unfold feed in *. change (fold_left input (c :: repeat c (S n)) f) with (fold_left input (repeat c (S n)) (input f c)).
    destruct (lpf_step T f c HT Hc Ha) as [A B].
    rewrite (IH (input f c)); auto.
    rewrite A. cbn [pow]. ring.
Qed.
Lemma lp_gain_lt1 T : 0 < T -> Rabs (lp_gain T) < 1.
Proof.
  intros H. unfold lp_gain.
  assert (E : (2 * T - 1) / (2 * T + 1) = 1 - 2 / (2 * T + 1)) by (field; lra). rewrite E.
  assert (0 < 2 / (2*T+1) < 2).
  { assert (0 < / (2*T+1) < 1) by (split; [apply Rinv_0_lt_compat; lra|rewrite <- Rinv_1; apply Rinv_lt_contravar; lra]).
    unfold Rdiv. lra. }
  unfold Rabs; destruct (Rcase_abs _); lra.
Qed.

(** ** no overshoot: y = -x/(2T) and the output are convex combinations *)
Lemma lpf_hull T lo hi f i : / 2 <= T -> coeffs T FILTER_LPF f -> angle f = false ->
  2 * T * lo <= - x_ f <= 2 * T * hi -> lo <= i <= hi ->
  2 * T * lo <= - x_ (input f i) <= 2 * T * hi /\ lo <= out (input f i) <= hi.
Proof.
  intros HT Hc Ha Hx Hi. destruct (lpf_step T f i ltac:(lra) Hc Ha) as [A B].
  set (g := lp_gain T) in *.
  assert (G : 0 <= g < 1).
  { unfold g, lp_gain. split.
    - apply Rmult_le_pos; [lra|]. apply Rlt_le, Rinv_0_lt_compat; lra.
    - apply Rmult_lt_reg_r with (2*T+1); [lra|]. unfold Rdiv. rewrite Rmult_assoc, Rinv_l; lra. }
  set (y := x_ (input f i)) in *. set (x := x_ f) in *.
  assert (Y : - y = g * (- x) + (1 - g) * (2 * T * i)) by lra.
  assert (P1 : 2 * T * lo <= 2 * T * i <= 2 * T * hi) by (split; apply Rmult_le_compat_l; lra).
  assert (Q : 2 * T * lo <= - y <= 2 * T * hi).
  { rewrite Y. split; nra. }
  split; [exact Q|].
  set (a := / (1 + 2*T)) in *.
  assert (Ea : a * (1 + 2 * T) = 1) by (unfold a; rewrite Rinv_l; lra).
  assert (Pa : 0 < a) by (apply Rinv_0_lt_compat; lra).
  assert (O : out (input f i) = a * i + a * (- y)).
  { replace (out (input f i)) with (i + - a * (y + 2 * T * i)) by lra. 
    transitivity (i * (1 - a * (1 + 2 * T)) + a * i + a * - y); [ring|]. rewrite Ea. ring. }
  rewrite O. split.
  - replace lo with (a * lo + a * (2 * T * lo)); [nra|]. transitivity (lo * (a * (1 + 2*T))); [ring|rewrite Ea; ring].
  - replace hi with (a * hi + a * (2 * T * hi)); [nra|]. transitivity (hi * (a * (1 + 2*T))); [ring|rewrite Ea; ring].
Qed.
Lemma lpf_hull_n T lo hi ins : forall f, / 2 <= T -> coeffs T FILTER_LPF f -> angle f = false ->
  2 * T * lo <= - x_ f <= 2 * T * hi -> Forall (fun i => lo <= i <= hi) ins ->
  Forall (fun o => lo <= o <= hi) (outputs f ins).
Proof.
  induction ins as [|i ins IH]; intros f HT Hc Ha Hx Hi; cbn [outputs]; constructor.
  - inversion Hi; subst. apply (lpf_hull T lo hi f i); auto.
  - inversion Hi; subst. apply IH; auto. apply (lpf_hull T lo hi f i); auto.
Qed.

(** ** angle mode *)
Lemma input_dir f u k : angle f = true -> ~ half_turn (u - out f) ->
  input f (u + IZR k * (2 * PI)) = input f u.
Proof.
  intros Ha Hn. unfold input. rewrite Ha.
  replace (u + IZR k * (2 * PI) - out f) with ((u - out f) + IZR k * (2 * PI)) by lra.
  rewrite rem_periodic; auto.
Qed.
Lemma feed_dir us vs : same_directions us vs -> forall f, angle f = true -> no_half_turn f us ->
  outputs f us = outputs f vs.
Proof.
  intros H. induction H as [|u v us vs [k E] H IH]; intros f Ha Hn; [reflexivity|]. cbn [outputs].
  destruct Hn as [Hn Hr]. subst v. rewrite input_dir by auto. f_equal. apply IH; auto.
Qed.

(** In angle mode the filter behaves like the plain one on the nearest representative. *)
Definition plain (f : filt) : filt :=
  {| angle := false; x_ := x_ f; out := out f; k0 := k0 f; k1 := k1 f; k2 := k2 f; k3 := k3 f |}.
Lemma input_plain f i : angle f = true ->
  plain (input f i) = input (plain f) (out f + remainder (i - out f) (PI * 2)).
Proof. intros H. unfold input. rewrite H. reflexivity. Qed.

Lemma lpf_err_step T f c : / 2 <= T -> coeffs T FILTER_LPF f -> angle f = false ->
  out f - c = - / (1 + 2 * T) * (x_ f + 2 * T * c) ->
  Rabs (out (input f c) - c) <= Rabs (out f - c) /\
  out (input f c) - c = - / (1 + 2 * T) * (x_ (input f c) + 2 * T * c).
Proof.
  intros HT Hc Ha Ho. destruct (lpf_step T f c ltac:(lra) Hc Ha) as [A B]. split; [|exact B].
  rewrite B, A. replace (- / (1 + 2 * T) * (lp_gain T * (x_ f + 2 * T * c))) with (lp_gain T * (out f - c)) by (rewrite Ho; ring).
  rewrite Rabs_mult. pose proof (lp_gain_lt1 T ltac:(lra)). pose proof (Rabs_pos (out f - c)). nra.
Qed.
(** first step after set(): error shrinks too *)
Lemma lpf_err_first T f c : / 2 <= T -> coeffs T FILTER_LPF f -> angle f = false ->
  x_ f = - 2 * T * out f ->
  Rabs (out (input f c) - c) <= Rabs (out f - c).
Proof.
  intros HT Hc Ha Hx. destruct (lpf_step T f c ltac:(lra) Hc Ha) as [A B].
  rewrite B, A, Hx. 
  replace (- / (1 + 2 * T) * (lp_gain T * (-2 * T * out f + 2 * T * c))) with (lp_gain T * ((2 * T) / (1 + 2 * T)) * (out f - c)) by (field; lra).
  rewrite !Rabs_mult. pose proof (lp_gain_lt1 T ltac:(lra)). pose proof (Rabs_pos (out f - c)).
  assert (Rabs (2 * T / (1 + 2 * T)) <= 1).
  { rewrite Rabs_pos_eq; [|apply Rmult_le_pos; [lra|apply Rlt_le, Rinv_0_lt_compat; lra]].
    apply Rmult_le_reg_r with (1+2*T); [lra|]. unfold Rdiv. rewrite Rmult_assoc, Rinv_l; lra. }
  pose proof (Rabs_pos (lp_gain T)). pose proof (Rabs_pos (2 * T / (1 + 2 * T))).
  assert (Rabs (lp_gain T) * Rabs (2 * T / (1 + 2 * T)) <= 1) by nra. nra.
Qed.

(** ** high pass *)
Lemma hpf_step T f i : 0 < T -> coeffs T FILTER_HPF f -> angle f = false ->
  x_ (input f i) - 2 * T * i = lp_gain T * (x_ f - 2 * T * i) /\
  out (input f i) = - / (1 + 2 * T) * (x_ (input f i) - 2 * T * i).
Proof.
  intros HT (H0 & H1 & H2 & H3) Ha. cbn in H0, H1, H2, H3. unfold input. rewrite Ha. cbn.
  rewrite H0, H1, H2, H3. unfold lp_gain. split; field; lra.
Qed.
Lemma hpf_conv T n : forall f c, 0 < T -> coeffs T FILTER_HPF f -> angle f = false ->
  out (feed f (repeat c (S n))) = - / (1 + 2 * T) * lp_gain T ^ S n * (x_ f - 2 * T * c).
Proof.
  induction n as [|n IH]; intros f c HT Hc Ha.
  - cbn [repeat feed fold_left]. destruct (hpf_step T f c HT Hc Ha) as [A B]. rewrite B, A. simpl. ring.
  - change (repeat c (S (S n))) with (c :: repeat c (S n)). unfold feed in *. change (fold_left input (c :: repeat c (S n)) f) with (fold_left input (repeat c (S n)) (input f c)).
    destruct (hpf_step T f c HT Hc Ha) as [A B].
    rewrite (IH (input f c)); auto. rewrite A. cbn [pow]. ring.
Qed.

(** geometric sequences tend to 0 *)
Lemma geo_limit g b l u : Rabs g < 1 -> (forall n, u (S n) - l = b * g ^ S n) -> Un_cv u l.
Proof.
  intros Hg Hu eps He.
  destruct (pow_lt_1_zero g Hg (eps / (Rabs b + 1))) as [N HN].
  { apply Rdiv_lt_0_compat; auto. pose proof (Rabs_pos b). lra. }
  exists (S N). intros n Hn. destruct n as [|n]; [lia|]. unfold R_dist. rewrite Hu, Rabs_mult.
  specialize (HN (S n) ltac:(lia)). pose proof (Rabs_pos b). pose proof (Rabs_pos (g ^ S n)).
  apply Rle_lt_trans with ((Rabs b) * (eps / (Rabs b + 1))).
  - apply Rmult_le_compat_l; lra.
  - apply Rmult_lt_reg_r with (Rabs b + 1); [lra|]. unfold Rdiv.
    replace (Rabs b * (eps * / (Rabs b + 1)) * (Rabs b + 1)) with (Rabs b * eps) by (field; lra). nra.
Qed.
