(** C130: the smoothing filter in single precision.  Vocabulary: FiltFloatSpec.v. *)
From Coq Require Import Reals ZArith List Bool Lra Lia.
From Flocq Require Import Core.Core IEEE754.BinarySingleNaN.
From Verif Require Import Arith Ieee NdModel LikeFloatErr KdFloatProofs IeeeErr FilterModel FilterSpec FilterProofs FilterProps QuatFloatProofs FiltFloatModel FiltFloatSpec FiltFloatProofs.
Import ListNotations.
Local Open Scope R_scope.

Lemma new_coefs (tc : f32) o : 1 <= f2r tc <= 1024 -> real_coefs tc (new_filt FILTER_LPF (f2r tc) o false).
Proof. intros L. unfold real_coefs. cbn [new_filt k3 k2 k1 k0 angle]. repeat split; field; lra. Qed.
Lemma track_run tc M (L : covered tc M) cs : forall g f, track tc M g f -> Forall (fun c => sized M (arg c)) cs ->
  track tc M (fold_left fstep32 cs g) (fold_left fstep (map real_call cs) f).
Proof.
  destruct L as (Ft & Lt & LM). induction cs as [|c cs IH]; intros g f H F; [exact H|]. inversion F as [|? ? [F1 F2] F3]; subst. cbn [map fold_left]. apply IH; [|exact F3].
  destruct c as [v|v]; cbn [fstep32 fstep real_call arg] in *.
  - apply track_input; assumption.
  - destruct H as (RC & FC & _). apply track_set; assumption.
Qed.
(** After construction and any calls of in() and set(), however many and in any order, on values of
    magnitude at most M, nothing overflows and the output is within 12 * 2^-24 * time constant * M of
    the filter over the reals given the same calls: rounding never accumulates beyond that. *)
Theorem C130_tracks : forall tc out0 cs M, covered tc M -> sized M out0 -> Forall (fun c => sized M (arg c)) cs ->
  let g := fold_left fstep32 cs (new_lpf32 tc out0) in
  let f := fold_left fstep (map real_call cs) (new_filt FILTER_LPF (B2R tc) (B2R out0) false) in
  is_finite (out32 g) = true /\ Rabs (B2R (out32 g) - out f) <= slack tc * M.
Proof.
  intros tc o cs M L [Fo Bo] F. cbv zeta. pose proof L as (Ft & Lt & LM).
  pose proof (track_set tc Ft Lt M LM (new_lpf32 tc o) (new_filt FILTER_LPF (f2r tc) (f2r o) false) o Fo Bo (new_coefs tc (f2r o) Lt)) as H.
  assert (FC : float_coefs tc (new_lpf32 tc o)) by (repeat split). specialize (H FC).
  change (set32 (new_lpf32 tc o) o) with (new_lpf32 tc o) in H.
  change (set (new_filt FILTER_LPF (f2r tc) (f2r o) false) (f2r o)) with (new_filt FILTER_LPF (f2r tc) (f2r o) false) in H.
  destruct (track_run tc M L cs _ _ H F) as (_ & _ & _ & _ & _ & _ & F1 & E1). split; [exact F1|].
  eapply Rle_trans; [exact E1|]. unfold slack, ulp32. apply Req_le. unfold f2r. field.
Qed.
Lemma sized_between lo hi M v : is_finite v = true -> lo <= B2R v <= hi -> Rabs lo <= M -> Rabs hi <= M -> sized M v.
Proof. intros F H A B. split; [exact F|]. apply abs2. apply abs2 in A, B. lra. Qed.
Lemma map_feed l f : fold_left fstep (map real_call (map In32 l)) f = feed f (map (fun v : f32 => B2R v) l).
Proof. unfold feed. revert f. induction l as [|v l IH]; intro f; [reflexivity|]. cbn [map fold_left real_call fstep]. apply IH. Qed.
Lemma run_inputs l : forall g, fold_left fstep32 (map In32 l) g = fold_left input32 l g.
Proof. induction l as [|v l IH]; intro g; [reflexivity|]. cbn [map fold_left fstep32]. apply IH. Qed.
(** The output never leaves the range of the values it has been given by more than that bound. *)
Theorem C130_stays_in_range : forall tc out0 ins lo hi M, covered tc M -> Rabs lo <= M -> Rabs hi <= M ->
  Forall (fun v => is_finite v = true /\ lo <= B2R v <= hi) (out0 :: ins) ->
  let o := out32 (fold_left input32 ins (new_lpf32 tc out0)) in
  is_finite o = true /\ lo - slack tc * M <= B2R o <= hi + slack tc * M.
Proof.
  intros tc o ins lo hi M L HL HH F. cbv zeta. inversion F as [|? ? [Fo Bo] Fi]; subst. pose proof L as (Ft & Lt & LM).
  destruct (C130_tracks tc o (map In32 ins) M L) as [F1 E1].
  { eapply sized_between; eassumption. }
  { apply Forall_forall. intros c Hc. apply in_map_iff in Hc. destruct Hc as (v & <- & Hv). rewrite Forall_forall in Fi. destruct (Fi v Hv). eapply sized_between; eassumption. }
  rewrite map_feed in E1. rewrite run_inputs in F1, E1. split; [exact F1|].
  destruct ins as [|i r] eqn:EI; [cbn [fold_left new_lpf32 out32]; assert (0 <= slack tc * M); [unfold slack; apply Rmult_le_pos; lra|lra]|]. rewrite <- EI in *.
  assert (B : lo <= out (feed (new_filt FILTER_LPF (B2R tc) (B2R o) false) (map (fun v : f32 => B2R v) ins)) <= hi).
  { destruct (C36_no_overshoot (B2R tc) (new_filt FILTER_LPF (B2R tc) (B2R o) false) (B2R o) lo hi (map (fun v : f32 => B2R v) ins)) as [_ Q]; [lra| |exact Bo| |].
    - exists (B2R o), []. reflexivity.
    - apply Forall_forall. intros x Hx. apply in_map_iff in Hx. destruct Hx as (v & <- & Hv). rewrite Forall_forall in Fi. apply (Fi v Hv).
    - rewrite Forall_forall in Q. apply Q. assert (NE : map (fun v : f32 => B2R v) ins <> []) by (rewrite EI; discriminate).
      generalize NE. generalize (map (fun v : f32 => B2R v) ins) as l, (new_filt FILTER_LPF (B2R tc) (B2R o) false) as f. clear.
      intro l. induction l as [|x l IH]; intros f NE; [contradiction|]. unfold feed. cbn [fold_left outputs]. destruct l as [|y l]; [left; reflexivity|]. right. apply IH. discriminate. }
  apply abs2 in E1. lra.
Qed.
(** A constant input: however long it is repeated, the output stays within that bound of it. *)
Theorem C130_constant_never_drifts : forall tc v n, covered tc (Rabs (B2R v)) -> is_finite v = true ->
  let o := out32 (fold_left input32 (repeat v n) (new_lpf32 tc v)) in
  is_finite o = true /\ Rabs (B2R o - B2R v) <= slack tc * Rabs (B2R v).
Proof.
  intros tc v n L Fv. cbv zeta. destruct (C130_stays_in_range tc v (repeat v n) (B2R v) (B2R v) (Rabs (B2R v)) L) as [A B]; [lra|lra| |].
  - constructor; [split; [exact Fv|lra]|]. apply Forall_forall. intros x Hx. apply repeat_spec in Hx. subst. split; [exact Fv|lra].
  - split; [exact A|]. apply abs2. lra.
Qed.
(** The vector filter of the node (published position, measured acceleration): each component, whatever
    calls it receives. *)
Definition call1 (pr : f32 * f32 * f32 -> f32) (c : vcall32) : call32 := match c with VIn32 v => In32 (pr v) | VSet32 v => Set32 (pr v) end.
Lemma vec_componentwise cs : forall g, v32 g = (out32 (vfx g), out32 (vfy g), out32 (vfz g)) ->
  v32 (fold_left vstep32 cs g) =
  (out32 (fold_left fstep32 (map (call1 (fun v => fst (fst v))) cs) (vfx g)),
   out32 (fold_left fstep32 (map (call1 (fun v => snd (fst v))) cs) (vfy g)),
   out32 (fold_left fstep32 (map (call1 snd) cs) (vfz g))).
Proof.
  induction cs as [|[[[a b] c]|[[a b] c]] cs IH]; intros g H; [exact H| |]; cbn [fold_left map]; rewrite IH; reflexivity.
Qed.
Theorem C130_vector_tracks : forall tc out0 cs M, let '(t0, t1, t2) := tc in
  covered t0 M -> covered t1 M -> covered t2 M -> sized3 M out0 -> Forall (fun c => sized3 M (varg c)) cs ->
  let '(x, y, z) := v32 (fold_left vstep32 cs (new_vec32 tc out0)) in
  let '(rx, ry, rz) := v_out (fold_left fstep3 (map real_call3 cs) (new_filt3 FILTER_LPF (real3 tc) (real3 out0) false)) in
  (is_finite x = true /\ Rabs (B2R x - rx) <= slack t0 * M) /\
  (is_finite y = true /\ Rabs (B2R y - ry) <= slack t1 * M) /\
  (is_finite z = true /\ Rabs (B2R z - rz) <= slack t2 * M).
Proof.
  intros [[t0 t1] t2] [[a b] c] cs M L0 L1 L2 (Sa & Sb & Sc) F.
  rewrite (vec_componentwise cs (new_vec32 (t0, t1, t2) (a, b, c)) eq_refl).
  pose proof (C34_vec3_componentwise FILTER_LPF (real3 (t0, t1, t2)) (real3 (a, b, c)) false (map real_call3 cs)) as E. cbv zeta in E. rewrite E. clear E.
  cbn [new_vec32 vfx vfy vfz real3 fst snd].
  assert (G : forall (pr : f32 * f32 * f32 -> f32) (rp : R * R * R -> R), (forall v, rp (real3 v) = B2R (pr v)) ->
    map (comp_call rp) (map real_call3 cs) = map real_call (map (call1 pr) cs)).
  { intros pr rp H. rewrite !map_map. apply map_ext. intros [v|v]; cbn [real_call3 comp_call call1 real_call]; rewrite H; reflexivity. }
  rewrite (G (fun v => fst (fst v)) (fun v => fst (fst v))) by (intros [[? ?] ?]; reflexivity).
  rewrite (G (fun v => snd (fst v)) (fun v => snd (fst v))) by (intros [[? ?] ?]; reflexivity).
  rewrite (G snd snd) by (intros [[? ?] ?]; reflexivity).
  assert (Q : forall pr : f32 * f32 * f32 -> f32, (forall v, sized3 M v -> sized M (pr v)) -> Forall (fun c => sized M (arg c)) (map (call1 pr) cs)).
  { intros pr H. apply Forall_forall. intros x Hx. apply in_map_iff in Hx. destruct Hx as (w & <- & Hw). rewrite Forall_forall in F. specialize (F w Hw). destruct w; apply H; exact F. }
  split; [|split]; apply C130_tracks; try assumption; apply Q; intros [[? ?] ?] (? & ? & ?); assumption.
Qed.
(** Convergence: after a restart at s the distance to a constant input v decays geometrically down to
    that bound. *)
Theorem C130_settles : forall tc s v n M, covered tc M -> sized M s -> sized M v -> 
  let T := B2R tc in
  let o := out32 (fold_left input32 (repeat v (S n)) (new_lpf32 tc s)) in
  is_finite o = true /\ Rabs (B2R o - B2R v) <= 2 * T / (1 + 2 * T) * ((2 * T - 1) / (2 * T + 1)) ^ S n * Rabs (B2R s - B2R v) + slack tc * M.
Proof.
  intros tc s v n M L Ss Sv. cbv zeta. pose proof L as (Ft & Lt & LM).
  destruct (C130_tracks tc s (map In32 (repeat v (S n))) M L Ss) as [F1 E1].
  { apply Forall_forall. intros c Hc. apply in_map_iff in Hc. destruct Hc as (x & <- & Hx). apply repeat_spec in Hx. subst. exact Sv. }
  rewrite map_feed in E1. rewrite run_inputs in F1, E1. split; [exact F1|].
  assert (MR : map (fun v0 : f32 => B2R v0) (repeat v (S n)) = repeat (B2R v) (S n)) by (clear; induction (S n) as [|k IH]; [reflexivity|]; cbn [repeat map]; rewrite IH; reflexivity).
  rewrite MR in E1.
  pose proof (C35_geometric (B2R tc) (new_filt FILTER_LPF (B2R tc) (B2R s) false) (B2R s) (B2R v) n ltac:(lra)) as G. specialize (G ltac:(exists (B2R s), []; reflexivity)).
  change (set (new_filt FILTER_LPF (B2R tc) (B2R s) false) (B2R s)) with (new_filt FILTER_LPF (B2R tc) (B2R s) false) in G.
  set (r := out (feed (new_filt FILTER_LPF (B2R tc) (B2R s) false) (repeat (B2R v) (S n)))) in *.
  set (o := B2R (out32 (fold_left input32 (repeat v (S n)) (new_lpf32 tc s)))) in *.
  replace (o - B2R v) with ((o - r) + (r - B2R v)) by ring. eapply Rle_trans; [apply Rabs_triang|]. rewrite G, Rplus_comm. apply Rplus_le_compat; [|exact E1].
  rewrite Rabs_mult. apply Rmult_le_compat_r; [apply Rabs_pos|]. rewrite Rabs_pos_eq; [lra|]. apply Rmult_le_pos; [apply Rmult_le_pos; [lra|left; apply Rinv_0_lt_compat; lra]|].
  apply pow_le. apply Rmult_le_pos; [lra|left; apply Rinv_0_lt_compat; lra].
Qed.
Definition tc16 : f32 := f32_of_Z 16.
Definition v37 : f32 := fdiv32 (f32_of_Z 37) (f32_of_Z 10).
Definition at9 : filt32 := fold_left input32 (repeat v37 9) (new_lpf32 tc16 v37).
Lemma tc16_value : B2R tc16 = 16.
Proof. assert (E : f2r tc16 = SF2R radix2 (SpecFloat.S754_finite false 8388608 (-19))) by (apply val32f; vm_compute; reflexivity). change (f2r tc16 = 16). rewrite E. unfold SF2R, F2R. cbn. lra. Qed.
Lemma v37_value : B2R v37 = 15518925 / 4194304.
Proof. assert (E : f2r v37 = SF2R radix2 (SpecFloat.S754_finite false 15518925 (-22))) by (apply val32f; vm_compute; reflexivity). change (f2r v37 = 15518925 / 4194304). rewrite E. unfold SF2R, F2R. cbn. lra. Qed.
Lemma at9_out : B2R (out32 at9) = 15518934 / 4194304.
Proof. assert (E : f2r (out32 at9) = SF2R radix2 (SpecFloat.S754_finite false 15518934 (-22))) by (apply val32f; vm_compute; reflexivity). change (f2r (out32 at9) = 15518934 / 4194304). rewrite E. unfold SF2R, F2R. cbn. lra. Qed.
Lemma at9_x : x32 (input32 at9 v37) = x32 at9.
Proof. apply (B2SF_inj 24 128); vm_compute; reflexivity. Qed.
Lemma at9_o : out32 (input32 at9 v37) = out32 at9.
Proof. apply (B2SF_inj 24 128); vm_compute; reflexivity. Qed.
Lemma at9_fixed : input32 at9 v37 = at9.
Proof.
  pose proof at9_x as HX. pose proof at9_o as HO. generalize dependent at9. intros f HX HO.
  unfold input32 in *. cbn [x32 out32] in *. destruct f as [x o c0 c1 c2 c3]. cbn [x32 out32 k0_32 k1_32 k2_32 k3_32] in *. rewrite HX in *. rewrite HO. reflexivity.
Qed.
(** What a user may not expect, and what C34 shows for the filter over the reals: a constant does not
    pass through unchanged.  With the default lpf_step of 16, the value 3.7 comes out nine units in
    the last place away, and stays there for ever. *)
Theorem C130_constant_unchanged_refuted :
  exists tc v, covered tc (Rabs (B2R v)) /\ is_finite v = true /\ B2R tc = 16 /\
  forall n, (9 <= n)%nat -> B2R (out32 (fold_left input32 (repeat v n) (new_lpf32 tc v))) = B2R v + 9 / 4194304.
Proof.
  exists tc16, v37. split; [|split; [|split]].
  - split; [vm_compute; reflexivity|]. rewrite tc16_value, v37_value. rewrite Rabs_pos_eq by lra. lra.
  - vm_compute; reflexivity.
  - exact tc16_value.
  - intros n Hn. replace n with (9 + (n - 9))%nat by lia. rewrite repeat_app, fold_left_app. fold at9.
    assert (Q : forall k, fold_left input32 (repeat v37 k) at9 = at9) by (induction k as [|k IH]; [reflexivity|]; cbn [repeat fold_left]; rewrite at9_fixed; exact IH).
    rewrite Q, at9_out, v37_value. lra.
Qed.
(** The bound is for real configurations: lpf_step 16 and coordinates up to 100 m give 1.2 mm of slack
    at worst (12 * 2^-24 * 16 * 100); the hypotheses are met by a used object. *)
Example C130_nonvacuous :
  covered tc16 100 /\ sized 100 v37 /\ Forall (fun c => sized 100 (arg c)) [In32 v37; Set32 (f32_of_Z 16); In32 tc16] /\ slack tc16 * 100 < / 800.
Proof.
  assert (A : is_finite tc16 = true) by (vm_compute; reflexivity). assert (B : is_finite v37 = true) by (vm_compute; reflexivity).
  assert (SA : sized 100 tc16) by (split; [exact A|rewrite tc16_value, Rabs_pos_eq by lra; lra]).
  split; [split; [exact A|rewrite tc16_value; lra]|]. split; [split; [exact B|rewrite v37_value, Rabs_pos_eq by lra; lra]|]. split.
  - constructor; [split; [exact B|cbn [arg]; rewrite v37_value, Rabs_pos_eq by lra; lra]|]. constructor; [exact SA|]. constructor; [exact SA|constructor].
  - unfold slack. rewrite tc16_value. lra.
Qed.
