(** Property theorems C79, C80, C81, C85, C86: histories of localization steps.  The ray
    caster, the voxel filter, the parameters, the initial particles and all inputs of the
    outside world are arbitrary. *)
From Coq Require Import String Reals ZArith List Bool Arith Lia Lra.
From Verif Require PfModel FilterModel AccumModel FilterProofs.
From Verif Require Import Arith KdModel QuatModel StateModel StateSpec RayModel LidarModel NdModel ParamModel NodeModel NodeSpec NodeFrame NodeLocProofs NodeStepProofs.
Import ListNotations.
Open Scope nat_scope.
Open Scope list_scope.

(** ** Arithmetic *)
Lemma Rtrunc_nat x : Rtrunc (INR x * (3 / 4)) = Z.of_nat (3 * x / 4).
Proof.
  unfold Rtrunc. pose proof (pos_INR x) as Hx. replace (Rltb (INR x * (3 / 4)) 0) with false by (symmetry; apply Rltb_false; lra).
  apply Rfloor_unique. rewrite <- INR_IZR_INZ.
  pose proof (Nat.div_mod (3 * x) 4 ltac:(lia)) as D. pose proof (Nat.mod_upper_bound (3 * x) 4 ltac:(lia)) as M.
  apply (f_equal INR) in D. rewrite !plus_INR, !mult_INR in D. apply lt_INR in M. pose proof (pos_INR ((3 * x) mod 4)) as P. cbn [INR] in *. lra.
Qed.

Lemma iter_succ_r (f : nat -> nat) k : forall x, Nat.iter (S k) f x = Nat.iter k f (f x).
Proof. induction k as [|k IH]; intro x; [reflexivity|]. change (Nat.iter (S (S k)) f x) with (f (Nat.iter (S k) f x)). rewrite IH. reflexivity. Qed.

Section Hist.
Context {S : Type} (caster : cloud -> (pt -> R -> search) -> raycaster S)
        (voxel : R * R * R -> list lpt -> list lpt) (p : params).
Notation node := (node (S := S)).
Implicit Types n : node.
Notation entry := (@entry S).

Lemma shrunk_shrink x : (0 <= num_particles p)%Z -> (np p <? Z.of_nat x)%Z = true -> Z.to_nat (shrunk p x) = shrink p x.
Proof.
  intros Hn H. apply Z.ltb_lt in H. unfold shrunk, reduced, shrink, np_nat, np in *. rewrite Rtrunc_nat.
  destruct (Nat.ltb_spec (Z.to_nat (num_particles p)) x); [|lia].
  destruct (Z.ltb_spec (num_particles p) (Z.of_nat (3 * x / 4))); lia.
Qed.
Lemma too_many_size n : (0 <= num_particles p)%Z -> too_many p n = (np_nat p <? psize n).
Proof.
  intro Hn. unfold too_many, np_nat, np. destruct (Z.ltb_spec (num_particles p) (Z.of_nat (psize n))), (Nat.ltb_spec (Z.to_nat (num_particles p)) (psize n)); auto; lia.
Qed.

(** ** Shape of the messages of a localization step *)
Lemma publish_tf_out n e est n' est' o x : publish_tf_step p n e est = (n', est', o) -> In x o -> exists s a z, x = OTf s a z.
Proof.
  intro H. apply publish_tf_step_shape in H. destruct H as (fp & fa & mp & mr & _ & _ & _ & ->).
  destruct (publish_tf p); [intros [<-|[]]; eauto|intros []].
Qed.
Lemma loc_status n e h n' o : localized p n e h n' o -> forall s d a b c, In (OStatus s d a b c) o ->
  s = stat (n_out n') /\ d = (match s_error s, s_conv s with ERROR_POINTS_NOT_FOUND, _ | _, LARGE_STD_VALUE => true | _, _ => false end).
Proof.
  intros [(est & ratio & n1 & n2 & est' & c0 & o1 & o2 & ps & _ & _ & _ & _ & _ & T & _ & -> & Hm & _) _ _ _ _ _ _ _ _ _ _ _] s d a b c Hi.
  apply in_app_or in Hi. destruct Hi as [Hi|Hi]; [destruct (publish_tf_out _ _ _ _ _ _ _ T Hi) as (? & ? & ? & ?); discriminate|]. cbn [app] in Hi.
  destruct Hi as [Hi|Hi]; [discriminate|]. apply in_app_or in Hi. destruct Hi as [Hi|Hi]; [destruct (Hm _ Hi) as (? & ? & ?); discriminate|].
  destruct Hi as [Hi|[Hi|[]]]; [discriminate|]. injection Hi as <- <- _ _ _. split; reflexivity.
Qed.
Lemma loc_has_status n e h n' o : localized p n e h n' o -> exists d a b c, In (OStatus (stat (n_out n')) d a b c) o.
Proof.
  intros [(est & ratio & n1 & n2 & est' & c0 & o1 & o2 & ps & _ & _ & _ & _ & _ & T & _ & -> & Hm & _) _ _ _ _ _ _ _ _ _ _ _].
  repeat eexists. apply in_or_app. right. apply in_or_app. right. apply in_or_app. right. right. left. reflexivity.
Qed.
Lemma loc_has_pose n e h n' o : localized p n e h n' o -> existsb is_pose o = true.
Proof.
  intros [(est & ratio & n1 & n2 & est' & c0 & o1 & o2 & ps & _ & _ & _ & _ & _ & T & _ & -> & Hm & _) _ _ _ _ _ _ _ _ _ _ _].
  apply existsb_exists. eexists. split; [apply in_or_app; right; left; reflexivity|reflexivity].
Qed.
Lemma loc_pose n e h n' o : localized p n e h n' o -> forall t x c, In (OPose t x c) o ->
  s_conv (stat (n_out n')) = conv_status p (fix_cnt (n_out n)) c (s_conv (stat (n_out n))) /\ s_error (stat (n_out n')) = s_error (stat (n_out n)) /\ t = h_stamp h.
Proof.
  intros [(est & ratio & n1 & n2 & est' & c0 & o1 & o2 & ps & _ & _ & _ & _ & _ & T & _ & -> & Hm & -> & _) _ _ _ _ _ _ _ _ _ _ _] t x c Hi.
  apply in_app_or in Hi. destruct Hi as [Hi|Hi]; [destruct (publish_tf_out _ _ _ _ _ _ _ T Hi) as (? & ? & ? & ?); discriminate|]. cbn [app] in Hi.
  destruct Hi as [Hi|Hi]; [injection Hi as <- _ <-; cbn; auto|]. apply in_app_or in Hi. destruct Hi as [Hi|Hi]; [destruct (Hm _ Hi) as (? & ? & ?); discriminate|].
  destruct Hi as [Hi|[Hi|[]]]; discriminate.
Qed.

(** ** The counter of the global localization status *)
Fixpoint fixof (l : list nat) : nat :=
  match l with [] => 0 | s :: t => if np_nat p <? s then settle p else pred (fixof t) end.
Lemma fixof_pos l : forall m, m < fixof l <-> exists k s, nth_error l k = Some s /\ np_nat p < s /\ k + m < settle p.
Proof.
  induction l as [|s t IH]; intro m; cbn [fixof].
  - split; [lia|]. intros (k & s & H & _). destruct k; discriminate.
  - destruct (Nat.ltb_spec (np_nat p) s) as [Hs|Hs].
    + split; [intro H; exists 0, s; cbn; auto|]. intros (k & s' & _ & _ & H). lia.
    + rewrite <- Nat.lt_succ_lt_pred, IH. split.
      * intros (k & s' & H1 & H2 & H3). exists (Datatypes.S k), s'. split; [exact H1|]. split; [exact H2|lia].
      * intros ([|k] & s' & H1 & H2 & H3); cbn in H1; [injection H1 as <-; lia|]. exists k, s'. split; [exact H1|]. split; [exact H2|lia].
Qed.

Hypothesis Hlpf : (0 <= Rceil (lpf_step p))%Z.
Hypothesis Hnp : (0 <= num_particles p)%Z.

Lemma settle_fix : fix_steps p = Datatypes.S (settle p).
Proof. rewrite fix_steps_pos by exact Hlpf. unfold settle. f_equal. lia. Qed.
Lemma fix_after n e h n' o l : localized p n e h n' o -> fix_cnt (n_out n) = fixof l -> fix_cnt (n_out n') = fixof (psize n :: l).
Proof. intros L H. rewrite (lz_fix _ _ _ _ _ _ L), settle_fix, H, too_many_size by exact Hnp. cbn [fixof]. destruct (np_nat p <? psize n); reflexivity. Qed.

(** the j-th localization step, with everything known about it *)
Lemma trace_loc evs : forall n tr l, trace voxel p caster n evs = Ok tr -> fix_cnt (n_out n) = fixof l ->
  forall j x, nth_error (loc_steps tr) j = Some x ->
  exists e h n2 n3, localized p n2 e h n3 (outs x) /\ stat (n_out n2) = status0
    /\ same_out (before x) n2 /\ n_pf n2 = n_pf (before x) /\ n_odom n2 = n_odom (before x) /\ n_out (after x) = n_out n3 /\ n_pf (after x) = n_pf n3
    /\ fix_cnt (n_out n2) = fixof (rev (firstn j (map (@size_before S) (loc_steps tr))) ++ l).
Proof.
  induction evs as [|ev t IH]; cbn; intros n tr l H Hf j x Hx.
  - injection H as <-. destruct j; discriminate.
  - bok H. destruct x0 as [n1 o1]. bok H. injection H as <-. apply event_cases in E; [|exact Hlpf].
    unfold loc_steps in *. cbn [filter] in Hx |- *.
    destruct E as [A1 A2 A3 A4 A5 _|m e h n2 n3 A1 A2 A3 A4 A5 A6 A7 A8 A9 A10].
    + assert (Lz : localizes {| before := n; what := ev; outs := o1; after := n1 |} = false) by (apply no_pose_existsb; exact A5).
      rewrite Lz in Hx |- *. eapply IH; [exact E0| |exact Hx]. rewrite (so_fix _ _ A1). exact Hf.
    + assert (Lz : localizes {| before := n; what := ev; outs := o1; after := n1 |} = true) by exact (loc_has_pose _ _ _ _ _ A8).
      rewrite Lz in Hx |- *.
      assert (F2 : fix_cnt (n_out n2) = fixof l) by (rewrite (so_fix _ _ A2); exact Hf).
      destruct j as [|j]; cbn [nth_error map firstn rev] in *.
      * injection Hx as <-. exists e, h, n2, n3. cbn. repeat (split; [assumption|]). exact F2.
      * assert (F1 : fix_cnt (n_out n1) = fixof (psize n2 :: l)) by (rewrite A9; eapply fix_after; eassumption).
        destruct (IH _ _ _ E0 F1 j x Hx) as (e' & h' & n2' & n3' & B1 & B2 & B3 & B4 & B5 & B6 & B7 & B8).
        exists e', h', n2', n3'. repeat (split; [assumption|]). rewrite <- app_assoc. cbn [app]. unfold size_before at 2. cbn [before].
        replace (psize n2) with (length (PfModel.parts RA (n_pf n))) in B8 by (unfold psize; rewrite A3; reflexivity). exact B8.
Qed.
Lemma recent_fix (tr : list entry) j x : nth_error (loc_steps tr) j = Some x ->
  0 < fixof (rev (firstn j (map (@size_before S) (loc_steps tr)))) <-> 0 < j /\ recently_global p tr (j - 1) j.
Proof.
  intro Hx. assert (Hj : j < length (loc_steps tr)) by (apply nth_error_Some; congruence).
  rewrite fixof_pos. unfold recently_global. set (L := loc_steps tr) in *.
  assert (Len : length (firstn j (map (@size_before S) L)) = j) by (rewrite firstn_length, map_length; lia).
  assert (N : forall i, i < j -> nth_error (firstn j (map (@size_before S) L)) i = option_map (@size_before S) (nth_error L i)).
  { intros i Hi. rewrite <- nth_error_map. clear -Hi. revert i Hi. generalize (map (@size_before S) L) as l. induction j as [|j IH]; intros [|a l] [|i] Hi; cbn; try lia; try reflexivity. apply IH. lia. }
  assert (Rv : forall k, k < j -> nth_error (rev (firstn j (map (@size_before S) L))) k = option_map (@size_before S) (nth_error L (j - 1 - k))).
  { intros k Hk. rewrite <- N by lia. set (F := firstn j (map (@size_before S) L)) in *. clearbody F.
    rewrite (nth_error_nth' (rev F) 0) by (rewrite rev_length; lia). rewrite (nth_error_nth' F 0) by lia. rewrite rev_nth by lia. do 2 f_equal. lia. }
  split.
  - intros (k & s & H1 & H2 & H3). assert (Hk : k < j). { assert (K : k < length (rev (firstn j (map (@size_before S) L)))) by (apply nth_error_Some; congruence). rewrite rev_length, Len in K. exact K. }
    rewrite Rv in H1 by exact Hk. destruct (nth_error L (j - 1 - k)) as [y|] eqn:Ey; [|discriminate]. cbn in H1. injection H1 as <-.
    split; [lia|]. exists (j - 1 - k), y. repeat split; auto; lia.
  - intros (H0 & i & y & H1 & H2 & H3 & H4). exists (j - 1 - i), (size_before y). split; [|lia]. rewrite Rv by lia. replace (j - 1 - (j - 1 - i)) with i by lia. rewrite H1. reflexivity.
Qed.
Lemma fix_zero gen rc0 : fix_cnt (n_out (configure (S := S) p gen rc0)) = fixof [].
Proof. reflexivity. Qed.

(** ** C79 *)
(** A localization step takes the particle count one step towards the configured one; the
    status message reports the new count.  Any other event except the services that ask for a
    number leaves it. *)
Theorem C79_one_step evs n tr x : trace voxel p caster n evs = Ok tr -> In x tr ->
  (localizes x = true -> size_after x = shrink p (size_before x) /\ forall s d a b c, In (OStatus s d a b c) (outs x) -> s_size s = size_after x)
  /\ (localizes x = false -> resizes (what x) = false -> size_after x = size_before x).
Proof.
  revert n tr. induction evs as [|ev t IH]; cbn; intros n tr H Hx.
  - injection H as <-. destruct Hx.
  - bok H. destruct x0 as [n1 o1]. bok H. injection H as <-. destruct Hx as [<-|Hx]; [|eapply IH; eassumption]. clear IH E0.
    apply event_cases in E; [|exact Hlpf]. unfold localizes, size_before, size_after. cbn [before after outs what].
    destruct E as [A1 A2 A3 A4 A5 _|m e h n2 n3 A1 A2 A3 A4 A5 A6 A7 A8 A9 A10].
    + apply no_pose_existsb in A5. rewrite A5. split; [discriminate|]. intros _ Hr. apply A2. exact Hr.
    + rewrite (loc_has_pose _ _ _ _ _ A8). split; [|discriminate]. intros _.
      pose proof (lz_size _ _ _ _ _ _ A8) as Z. unfold psize in Z. rewrite A3 in Z. rewrite A10.
      assert (K : length (PfModel.parts RA (n_pf n3)) = shrink p (length (PfModel.parts RA (n_pf n)))).
      { rewrite Z. unfold too_many, psize. rewrite A3. destruct (np p <? _)%Z eqn:Et.
        - apply shrunk_shrink; assumption.
        - unfold shrink. apply Z.ltb_ge in Et. unfold np in Et. unfold np_nat. destruct (Nat.ltb_spec (Z.to_nat (num_particles p)) (length (PfModel.parts RA (n_pf n)))); [lia|reflexivity]. }
      split; [exact K|]. intros s d a b c Hi. destruct (loc_status _ _ _ _ _ A8 _ _ _ _ _ Hi) as [-> _].
      destruct A8 as [(est & ratio & q1 & q2 & est' & c0 & r1 & r2 & ps & _ & _ & _ & _ & _ & _ & _ & _ & _ & -> & _) _ _ _ _ _ _ _ _ _ _ _]. reflexivity.
Qed.
(** After a history without resizing services the count is the start count shrunk once per
    localization step. *)
Theorem C79_history evs : forall n tr n' o, trace voxel p caster n evs = Ok tr -> steps caster voxel p n evs = Ok (n', o) ->
  forallb (fun ev => negb (resizes ev)) evs = true ->
  psize n' = Nat.iter (length (loc_steps tr)) (shrink p) (psize n).
Proof.
  induction evs as [|ev t IH]; intros n tr n' o Ht H Hr.
  - cbn in *. injection Ht as <-. injection H as <- _. reflexivity.
  - pose proof (fun y => C79_one_step (ev :: t) n tr y Ht) as O. cbn [trace] in Ht. cbn [steps] in H. cbn [forallb] in Hr. apply andb_true_iff in Hr. destruct Hr as [Hr1 Hr2].
    bok Ht. destruct x as [n1 o1]. bok Ht. injection Ht as <-. rewrite E in H. cbn [bind] in H. bok H. destruct x0 as [n2 o2]. injection H as <- _.
    specialize (O _ (or_introl eq_refl)). destruct O as [O1 O2].
    pose proof (IH _ _ _ _ E0 E1 Hr2) as K. rewrite K. unfold loc_steps. cbn [filter]. unfold size_after, size_before in *. cbn [before after what] in *.
    destruct (localizes _) eqn:El.
    + cbn [length]. change (psize n1) with (length (PfModel.parts RA (n_pf n1))). rewrite (proj1 (O1 eq_refl)).
      rewrite iter_succ_r. reflexivity.
    + apply negb_true_iff in Hr1. change (psize n1) with (length (PfModel.parts RA (n_pf n1))). rewrite (O2 eq_refl Hr1). reflexivity.
Qed.
(** The count never grows, never falls below the configured number, and is exactly the
    configured number after finitely many steps (and from then on). *)
Theorem C79_returns x k :
  Nat.iter k (shrink p) x <= x /\ Nat.min x (np_nat p) <= Nat.iter k (shrink p) x
  /\ (x - np_nat p <= k -> Nat.iter k (shrink p) x = Nat.min x (np_nat p)).
Proof.
  assert (A : forall y, shrink p y <= y /\ Nat.min y (np_nat p) <= shrink p y /\ (np_nat p < y -> shrink p y < y)).
  { intro y. unfold shrink. destruct (Nat.ltb_spec (np_nat p) y); [|lia].
    assert (3 * y / 4 < y) by (apply Nat.div_lt_upper_bound; lia). lia. }
  assert (B : Nat.iter k (shrink p) x <= x /\ Nat.min x (np_nat p) <= Nat.iter k (shrink p) x /\ Nat.iter k (shrink p) x <= Nat.max (Nat.min x (np_nat p)) (x - k)).
  { induction k as [|k IH]; [cbn; lia|]. change (Nat.iter (Datatypes.S k) (shrink p) x) with (shrink p (Nat.iter k (shrink p) x)). set (y := Nat.iter k (shrink p) x) in *. clearbody y. destruct (A y) as (B1 & B2 & B3). lia. }
  lia.
Qed.
(** Together: *)
Theorem C79_count_returns evs n tr n' o : trace voxel p caster n evs = Ok tr -> steps caster voxel p n evs = Ok (n', o) ->
  forallb (fun ev => negb (resizes ev)) evs = true ->
  psize n' <= psize n /\ (psize n - np_nat p <= length (loc_steps tr) -> psize n' = Nat.min (psize n) (np_nat p)).
Proof.
  intros H1 H2 H3. rewrite (C79_history evs n tr n' o H1 H2 H3). pose proof (C79_returns (psize n) (length (loc_steps tr))) as (A & _ & B). auto.
Qed.

(** ** C80 *)
(** The status of the j-th localization step is GLOBAL_LOCALIZATION exactly if one of the
    last [settle] steps or this one started with more particles than configured. *)
Theorem C80_status_window evs gen rc0 tr j x :
  trace voxel p caster (configure p gen rc0) evs = Ok tr -> nth_error (loc_steps tr) j = Some x ->
  (published_status x (fun s => s_status s = GLOBAL_LOCALIZATION) <-> recently_global p tr j j).
Proof.
  intros H Hx. destruct (trace_loc _ _ _ [] H eq_refl _ _ Hx) as (e & h & n2 & n3 & L & St & So & Pf & Od & A1 & A2 & Fx).
  rewrite app_nil_r in Fx. pose proof (recent_fix tr j x Hx) as RF. rewrite <- Fx in RF.
  assert (K : s_status (stat (n_out n3)) = GLOBAL_LOCALIZATION <-> (np_nat p < size_before x \/ 0 < fix_cnt (n_out n2))).
  { destruct L as [(est & ratio & q1 & q2 & est' & c0 & r1 & r2 & ps & _ & _ & _ & _ & _ & _ & _ & _ & _ & -> & _) _ _ _ _ _ _ _ _ _ _ _].
    cbn [s_status]. unfold next_status. rewrite too_many_size by exact Hnp. unfold psize. rewrite Pf. fold (size_before x).
    rewrite St. cbn [s_status status0]. destruct (Nat.ltb_spec (np_nat p) (size_before x)); cbn [orb]; [split; auto|].
    destruct (Nat.eqb_spec (fix_cnt (n_out n2)) 0) as [E0|E0]; cbn [negb].
    - split; [destruct (Rltb ratio (match_ratio_thresh p)); discriminate|lia].
    - split; [lia|reflexivity]. }
  transitivity (s_status (stat (n_out n3)) = GLOBAL_LOCALIZATION).
  { unfold published_status. split.
    - intros (s & d & a & b & c & Hi & Hs). destruct (loc_status _ _ _ _ _ L _ _ _ _ _ Hi) as [-> _]. exact Hs.
    - intro Hs. destruct (loc_has_status _ _ _ _ _ L) as (d & a & b & c & Hi). exists (stat (n_out n3)), d, a, b, c. auto. }
  rewrite K, RF. unfold recently_global. split.
  - intros [Hs|(Hj & i & y & H1 & H2 & H3 & H4)]; [exists j, x|exists i, y]; repeat split; auto; lia.
  - intros (i & y & H1 & H2 & H3 & H4). destruct (Nat.eq_dec i j) as [->|Hij].
    + left. rewrite Hx in H1. injection H1 as <-. exact H4.
    + right. split; [lia|]. exists i, y. repeat split; auto; lia.
Qed.

(** ** C81 *)
Theorem C81_convergence evs gen rc0 tr j x :
  trace voxel p caster (configure p gen rc0) evs = Ok tr -> nth_error (loc_steps tr) j = Some x ->
  forall t pose c s d a b m, In (OPose t pose c) (outs x) -> In (OStatus s d a b m) (outs x) ->
  (s_conv s = LARGE_STD_VALUE <-> ~ (0 < j /\ recently_global p tr (j - 1) j) /\ too_wide p c)
  /\ (s_conv s = CONVERGED <-> s_conv s <> LARGE_STD_VALUE /\ narrow p c)
  /\ s_error s = ERROR_NORMAL.
Proof.
  intros H Hx t pose c s d a b m Hc Hs. destruct (trace_loc _ _ _ [] H eq_refl _ _ Hx) as (e & h & n2 & n3 & L & St & So & Pf & Od & A1 & A2 & Fx).
  rewrite app_nil_r in Fx. pose proof (recent_fix tr j x Hx) as RF. rewrite <- Fx in RF.
  destruct (loc_status _ _ _ _ _ L _ _ _ _ _ Hs) as [-> _]. destruct (loc_pose _ _ _ _ _ L _ _ _ Hc) as (K1 & K2 & _). rewrite K2, St. cbn [s_error status0].
  rewrite K1, St. cbn [s_conv status0]. rewrite <- RF. clear -S.
  assert (Ab : Rabs (sqrt (c 3 3 + c 4 4 + c 5 5)) = sqrt (c 3 3 + c 4 4 + c 5 5)) by (apply Rabs_pos_eq, sqrt_pos).
  unfold conv_status, too_wide, narrow, std_xy. destruct (std_warn p) as [[txy tz] tyaw]. rewrite Ab.
  set (W := (_ || _ || _)%bool).
  assert (HW : W = true <-> (txy < sqrt (c 0%nat 0%nat + c 1%nat 1%nat) \/ tz < sqrt (c 2%nat 2%nat) \/ tyaw < sqrt (c 5%nat 5%nat))%R).
  { unfold W. rewrite !orb_true_iff. rewrite !Rltb_true. tauto. }
  set (V := (Rltb _ (fix_dist p) && _)%bool).
  assert (HV : V = true <-> (sqrt (c 0%nat 0%nat + c 1%nat 1%nat + c 2%nat 2%nat) < fix_dist p /\ sqrt (c 3%nat 3%nat + c 4%nat 4%nat + c 5%nat 5%nat) < fix_ang p)%R).
  { unfold V. rewrite andb_true_iff. rewrite !Rltb_true. tauto. }
  clearbody W V. destruct (Nat.eqb_spec (fix_cnt (n_out n2)) 0) as [E0|E0].
  - rewrite E0. destruct W.
    + split; [|split; [|reflexivity]]; (split; [|try reflexivity; try tauto]).
      * intros _. split; [lia|tauto].
      * discriminate.
    + destruct V; (split; [|split; [|reflexivity]]); (split; try discriminate); intuition (try discriminate; try lia; auto).
  - destruct V; (split; [|split; [|reflexivity]]); (split; try discriminate); intuition (try discriminate; try lia; auto).
Qed.
(** The diagnostics level is ERROR exactly if points are missing or the deviation is large;
    a status that is not from a localization step always reports missing points. *)
Theorem C81_diagnostics evs n tr x : trace voxel p caster n evs = Ok tr -> In x tr ->
  forall s d a b c, In (OStatus s d a b c) (outs x) ->
  (d = true <-> s_error s = ERROR_POINTS_NOT_FOUND \/ s_conv s = LARGE_STD_VALUE)
  /\ (localizes x = false -> s_error s = ERROR_POINTS_NOT_FOUND).
Proof.
  revert n tr. induction evs as [|ev t IH]; cbn; intros n tr H Hx.
  - injection H as <-. destruct Hx.
  - bok H. destruct x0 as [n1 o1]. bok H. injection H as <-. destruct Hx as [<-|Hx]; [|eapply IH; eassumption]. clear IH E0.
    apply event_cases in E; [|exact Hlpf]. unfold localizes. cbn [outs]. intros s d a b c Hi.
    destruct E as [A1 A2 A3 A4 A5 _|m e h n2 n3 A1 A2 A3 A4 A5 A6 A7 A8 A9 A10].
    + destruct (A4 _ _ _ _ _ Hi) as (-> & _ & -> & _). split; [split; auto|auto].
    + rewrite (loc_has_pose _ _ _ _ _ A8). split; [|discriminate].
      destruct (loc_status _ _ _ _ _ A8 _ _ _ _ _ Hi) as [_ ->]. destruct (s_error s), (s_conv s); split; intro K; auto; try discriminate; destruct K; discriminate.
Qed.
(** The first step after a global localization is not protected: with a wide covariance it
    reports GLOBAL_LOCALIZATION together with LARGE_STD and level ERROR. *)
Theorem C81_first_step_not_protected evs gen rc0 tr j x :
  trace voxel p caster (configure p gen rc0) evs = Ok tr -> nth_error (loc_steps tr) j = Some x ->
  np_nat p < size_before x -> ~ (0 < j /\ recently_global p tr (j - 1) j) ->
  forall t pose c s d a b m, In (OPose t pose c) (outs x) -> In (OStatus s d a b m) (outs x) -> too_wide p c ->
  s_status s = GLOBAL_LOCALIZATION /\ s_conv s = LARGE_STD_VALUE /\ d = true.
Proof.
  intros H Hx Hs Hr t pose c s d a b m Hp Ho Hw.
  destruct (C81_convergence evs gen rc0 tr j x H Hx t pose c s d a b m Hp Ho) as (A & _ & _).
  assert (Hc : s_conv s = LARGE_STD_VALUE) by (apply A; auto).
  assert (Hin : In x tr) by (apply nth_error_In in Hx; unfold loc_steps in Hx; apply filter_In in Hx; tauto).
  destruct (C81_diagnostics evs _ tr x H Hin s d a b m Ho) as (D & _).
  split; [|split; [exact Hc|apply D; auto]].
  assert (G : published_status x (fun s => s_status s = GLOBAL_LOCALIZATION)).
  { apply (C80_status_window evs gen rc0 tr j x H Hx). exists j, x. repeat split; auto; lia. }
  destruct G as (s' & d' & a' & b' & c' & Hi' & Hs').
  destruct (trace_loc _ _ _ [] H eq_refl _ _ Hx) as (e & h & n2 & n3 & L & _).
  destruct (loc_status _ _ _ _ _ L _ _ _ _ _ Ho) as [-> _]. destruct (loc_status _ _ _ _ _ L _ _ _ _ _ Hi') as [-> _]. exact Hs'.
Qed.

(** ** C85 *)
Lemma clock_invariant evs : forall n n' o, steps caster voxel p n evs = Ok (n', o) ->
  FilterProofs.coeffs 5 FilterModel.FILTER_LPF (rate (n_out n)) -> FilterModel.angle (rate (n_out n)) = false ->
  (0 <= - FilterModel.x_ (rate (n_out n)) <= 2 * 5 * 1)%R -> (0 <= tf_base (n_out n) <= 1)%R ->
  FilterProofs.coeffs 5 FilterModel.FILTER_LPF (rate (n_out n')) /\ FilterModel.angle (rate (n_out n')) = false
  /\ (0 <= - FilterModel.x_ (rate (n_out n')) <= 2 * 5 * 1)%R /\ (0 <= tf_base (n_out n') <= 1)%R.
Proof.
  induction evs as [|ev t IH]; cbn; intros n n' o H H1 H2 H3 H4.
  - injection H as <- <-. auto.
  - bok H. destruct x as [n1 o1]. bok H. destruct x as [n2 o2]. injection H as <- <-. apply event_cases in E; [|exact Hlpf].
    destruct E as [A1 A2 A3 A4 A5 _|m e h q2 q3 A1 A2 A3 A4 A5 A6 A7 A8 A9 A10].
    + apply (IH _ _ _ E0); rewrite ?(so_rate _ _ A1), ?(so_base _ _ A1); assumption.
    + set (dt := (let dt := (e_now e - localized_last (n_out q2))%R in if Rltb 1 dt then 1%R else if Rltb dt 0 then 0%R else dt)).
      assert (Hd : (0 <= dt <= 1)%R).
      { unfold dt. cbv zeta. destruct (Rltb 1 _) eqn:B1; [lra|]. destruct (Rltb _ 0) eqn:B2; [lra|]. apply Rltb_false in B1. apply Rltb_false in B2. lra. }
      assert (Hrt : rate (n_out n1) = FilterModel.input (rate (n_out n)) dt) by (rewrite A9, (lz_rate _ _ _ _ _ _ A8), (so_rate _ _ A2); reflexivity).
      pose proof (FilterProofs.lpf_hull 5 0 1 (rate (n_out n)) dt ltac:(lra) H1 H2 ltac:(lra) Hd) as [L1 L2].
      apply (IH _ _ _ E0).
      * rewrite Hrt. apply FilterProofs.coeffs_input. exact H1.
      * rewrite Hrt. exact H2.
      * rewrite Hrt. lra.
      * rewrite A9, (lz_base _ _ _ _ _ _ A8), <- A9, Hrt. exact L2.
Qed.
(** Whatever the wall clock does, the adaptive tolerance stays between zero and one second. *)
Theorem C85_tolerance_range evs gen rc0 n o : steps caster voxel p (configure p gen rc0) evs = Ok (n, o) ->
  (0 <= tf_base (n_out n) <= 1)%R.
Proof.
  intro H. refine (proj2 (proj2 (proj2 (clock_invariant evs _ _ _ H _ _ _ _)))).
  - exact (FilterProofs.coeffs_new 5 FilterModel.FILTER_LPF 0 false).
  - reflexivity.
  - cbn. unfold Rdiv. rewrite Rmult_0_r, Rmult_0_l. lra.
  - cbn. lra.
Qed.
(** So every transform is published with a stamp at most one second beyond the configured
    tolerance after the odometry stamp (or the current time without odometry). *)
Theorem C85_stamp_range evs gen rc0 n o m e n' o' : steps caster voxel p (configure p gen rc0) evs = Ok (n, o) ->
  step caster voxel p n (ECloud m e) = Ok (n', o') ->
  let base := if has_odom (n_odom n) then odom_last (n_odom n) else e_now e in
  forall t x z, In (OTf t x z) o' -> (base + tf_tolerance p <= t <= base + 1 + tf_tolerance p)%R.
Proof.
  intros H Hs base t x z Hi. pose proof (C85_tolerance_range _ _ _ _ _ H) as Hb. apply event_cases in Hs; [|exact Hlpf].
  destruct Hs as [A1 A2 A3 A4 A5 A6|m' e' h n2 n3 A1 A2 A3 A4 A5 A6 A7 A8 A9 A10]; [destruct (A6 _ _ _ Hi)|].
  injection A1 as <- <-.
  destruct A8 as [(est & ratio & q1 & q2 & est' & c0 & r1 & r2 & ps & _ & B1 & B2 & _ & _ & T & _ & -> & Hm & _) _ _ _ _ _ _ _ _ _ _ _].
  apply in_app_or in Hi. destruct Hi as [Hi|Hi].
  - apply publish_tf_step_shape in T. destruct T as (fp & fa & mp & mr & _ & _ & _ & ->).
    pose proof (after_jump_ok p q1 est) as J. cbv zeta in J. destruct J as (_ & _ & _ & _ & _ & _ & _ & _ & _ & _ & _ & J & _).
    set (nj := after_jump p q1 est) in *. clearbody nj.
    destruct (publish_tf p); [|destruct Hi]. destruct Hi as [Hi|[]]. injection Hi as <- _ _.
    rewrite J, B2, (so_base _ _ A2), B1, A4. fold base. lra.
  - cbn [app] in Hi. destruct Hi as [Hi|Hi]; [discriminate|]. apply in_app_or in Hi. destruct Hi as [Hi|Hi]; [destruct (Hm _ Hi) as (? & ? & ?); discriminate|].
    destruct Hi as [Hi|[Hi|[]]]; discriminate.
Qed.

(** ** C86 *)
(** Once an entropy was computed, every later status reports a computed entropy. *)
Lemma entropy_kept evs : forall n n' o, steps caster voxel p n evs = Ok (n', o) -> PfModel.entropy RA (n_pf n) <> None -> PfModel.entropy RA (n_pf n') <> None.
Proof.
  induction evs as [|ev t IH]; cbn; intros n n' o H Hn.
  - injection H as <- <-. exact Hn.
  - bok H. destruct x as [n1 o1]. bok H. destruct x as [n2 o2]. injection H as <- <-. apply event_cases in E; [|exact Hlpf]. apply (IH _ _ _ E0).
    destruct E as [A1 A2 A3 A4 A5 _|m e h q2 q3 A1 A2 A3 A4 A5 A6 A7 A8 A9 A10]; [apply A3; exact Hn|].
    rewrite A10. apply (lz_entropy _ _ _ _ _ _ A8). rewrite A3. exact Hn.
Qed.
Theorem C86_computed_entropy_stays evs n n' o : steps caster voxel p n evs = Ok (n', o) -> PfModel.entropy RA (n_pf n) <> None ->
  forall s d a b c, In (OStatus s d a b c) o -> s_entropy s <> None.
Proof.
  revert n n' o. induction evs as [|ev t IH]; cbn; intros n n' o H Hn s d a b c Hi.
  - injection H as <- <-. destruct Hi.
  - bok H. destruct x as [n1 o1]. bok H. destruct x as [n2 o2]. injection H as <- <-.
    assert (Hn1 : PfModel.entropy RA (n_pf n1) <> None). { apply (entropy_kept [ev] n n1 o1); [|exact Hn]. cbn. rewrite E. cbn. rewrite app_nil_r. reflexivity. }
    apply in_app_or in Hi. destruct Hi as [Hi|Hi]; [|exact (IH _ _ _ E0 Hn1 _ _ _ _ _ Hi)].
    apply event_cases in E; [|exact Hlpf].
    destruct E as [A1 A2 A3 A4 A5 _|m e h q2 q3 A1 A2 A3 A4 A5 A6 A7 A8 A9 A10].
    + destruct (A4 _ _ _ _ _ Hi) as (_ & _ & _ & ->). exact Hn.
    + destruct (loc_status _ _ _ _ _ A8 _ _ _ _ _ Hi) as [-> _]. rewrite A10 in Hn1.
      destruct A8 as [(est & ratio & r1 & r2 & est' & c0 & r3 & r4 & ps & _ & _ & _ & _ & _ & _ & _ & _ & _ & -> & _) _ _ _ _ _ _ _ _ _ _ _]. exact Hn1.
Qed.
End Hist.

(** C86: but a status with a never written entropy is published: with the default
    accumulation and skipping, a first cloud of which no point is left does it, for every
    voxel filter that maps the empty cloud to the empty cloud. *)
Theorem C86_uninitialised_entropy_refuted {S} caster voxel p gen (rc0 : S) base m e :
  (0 <= Rceil (lpf_step p))%Z -> accum_cloud p = 0%Z -> skip_measure p = 1%Z -> use_sampler_normal p = false ->
  voxel (ds_x p, ds_y p, ds_z p) [] = [] -> (forall k, e_like e [] k = []) ->
  cm_conv m = Some [] -> cm_lookup m (frame_odom p) (cm_frame m) (cm_stamp m) <> None -> transforms_ok p e ->
  exists n o s d a b c, steps caster voxel p (configure p gen rc0)
      [EMap (Some base) 1 1; ECloud m e] = Ok (n, o)
    /\ In (OStatus s d a b c) o /\ s_entropy s = None.
Proof.
  intros Hl Ha Hk Hu Hv Hs Hc Hm [T1 T2].
  assert (Hp : cm_pts p m = Some []) by (unfold cm_pts; rewrite Hc; destruct (cm_lookup m _ _ _); [reflexivity|congruence]).
  assert (H1 : exists n1 o1, step caster voxel p (configure p gen rc0) (EMap (Some base) 1 1) = Ok (n1, o1) /\ has_map (n_map n1) = true
    /\ local (n_acc n1) = Some [] /\ headers (n_acc n1) = [] /\ cnt_measure (n_out n1) = cnt_measure (n_out (configure p gen rc0))
    /\ PfModel.entropy RA (n_pf n1) = None).
  { do 2 eexists. split; [reflexivity|]. repeat split. }
  destruct H1 as (n1 & o1 & E1 & M & L & Hd & C & N). cbn [steps]. rewrite E1. cbn [bind step].
  assert (C0 : cnt_measure (n_out n1) = 0%Z) by (rewrite C; reflexivity). clear E1 C.
  assert (E2 : exists n2 s d a b c, cbCloud caster voxel p n1 m e = Ok (n2, [OStatus s d a b c]) /\ s_entropy s = None).
  { destruct n1 as [mp [a1 a2 a3] od im ou ld pf0]. cbn [n_map n_acc n_out n_pf local headers] in *. subst a2 a3. destruct ou as [u1 u2 u3 u4 u5 u6 u7 u8 u9 u10]. cbn [cnt_measure] in C0. subst u8.
    unfold cbCloud. cbn [n_map]. rewrite M. unfold push_calls. rewrite Ha, Hp. cbn. unfold accumCloud. rewrite Hp. cbn. unfold measure, gate, skip_size. rewrite Hk. cbn.
    unfold prepare, base_tf, origin_of. cbn.
    destruct (e_lookup e _ _ _) as [tf|] eqn:Et; [|destruct (T1 _ Et)]. destruct (e_lookup5 e _ _ _ _ _) as [tf5|] eqn:Eo; [|destruct (T2 _ _ _ Eo)]. cbn. rewrite Hv. unfold statistics. rewrite Hu. cbn. unfold filters, like_filter. cbn.
    match goal with |- context [e_like e [] ?k] => rewrite (Hs k) end. cbn.
    do 6 eexists. split; [reflexivity|]. exact N. }
  destruct E2 as (n2 & s & d & a & b & c & E2 & Es). rewrite E2. cbn [bind app].
  exists n2, (o1 ++ [OStatus s d a b c] ++ []), s, d, a, b, c. split; [reflexivity|]. split; [|exact Es]. apply in_or_app. right. left. reflexivity.
Qed.
