(** Property C78: global localization. *)
From Coq Require Import String Reals ZArith NArith List Bool Arith Lra Lia.
From Verif Require PfModel PfSpec RsumLemmas AccumModel.
From Verif Require Import Arith KdModel QuatModel StateModel StateSpec RayModel LidarModel LidarSpec NdModel ParamModel NodeModel NodeSpec NodeFrame NodeMapProofs NodeAliveSpec NodeAliveProofs NodeAliveProofs2.
Import ListNotations.
Open Scope R_scope.
Open Scope list_scope.

(** ** Specification *)
(** the position a little more than one grid length above a cell *)
Definition above (grid : R) (c : vec3) : pt := {| px := vx c; py := vy c; pz := vz c + (1 / 100 + grid) |}.
(** there is no cell within a grid length of this position (in the metric of the node's search) *)
Definition free_above (s : scale) (grid : R) (cells : list lpt) (c : lpt) : Prop :=
  forall c', In c' cells -> grid * grid <= dist_sq s (to_pt (p3 c')) (above grid (p3 c)).
Definition metric (p : params) : scale := let '(wx, wy, wz, _) := dist_weight p in (wx, wy, wz).
(** the searches of global localization are answered from the cells *)
Definition legal_hits (p : params) (cells : list lpt) (hits : list pt -> pt -> R -> list (nat * R)) : Prop :=
  forall q r, flann_result (metric p) 0 (to_pts cells) q r 1 (hits (to_pts cells) q r).
(** [s] stands on the cell [c] with the [k]-th of [dir] headings, relative to the last orientation
    [iq] of the inertial sensor *)
Definition stands (c : lpt) (iq : quat) (dir k : nat) (s : state) : Prop :=
  s = state_pr (p3 c) (qnormalized (qmul (setRPY (V3 0 0 (2 * PI * INR k / INR dir))) iq)).

(** ** The kept cells *)
Lemma flann_empty s pts q r out : flann_result s 0 pts q r 1 out -> (out = [] <-> forall x, In x pts -> r * r <= dist_sq s x q).
Proof.
  intros (_ & H2 & _ & _ & H5 & _). split.
  - intros -> x Hx. destruct (Rle_or_lt (r * r) (dist_sq s x q)) as [H|H]; [exact H|]. exfalso.
    apply In_nth_error in Hx. destruct Hx as (i & Hi). apply (H5 (or_intror (Nat.lt_0_1)) i x Hi). lra.
  - intro H. destruct out as [|[i d] t]; [reflexivity|]. exfalso. destruct (H2 i d (or_introl eq_refl)) as (x & Hx & Hd & Hlt).
    specialize (H x (nth_error_In _ _ Hx)). lra.
Qed.
Lemma keep_floor_keeps p cells hits : legal_hits p cells hits ->
  forall l, keeps (free_above (metric p) (glob_grid p) cells) (keep_floor p (hits (to_pts cells)) l) l.
Proof.
  intros H0 l. induction l as [|c t IH]; cbn [keep_floor]; [constructor|].
  pose proof (H0 (above (glob_grid p) (p3 c)) (glob_grid p)) as H. apply flann_empty in H.
  assert (E : hits (to_pts cells) (raised p c) (glob_grid p) = [] <-> free_above (metric p) (glob_grid p) cells c).
  { change (raised p c) with (above (glob_grid p) (p3 c)). rewrite H. unfold free_above, to_pts. split; intros G.
    - intros c' Hc'. apply G. apply in_map_iff. eauto.
    - intros x Hx. apply in_map_iff in Hx. destruct Hx as (c' & <- & Hc'). apply G, Hc'. }
  destruct (hits (to_pts cells) (raised p c) (glob_grid p)); [apply keeps_yes; [apply E; reflexivity|exact IH]|]. apply keeps_no; [|exact IH]. intro G. apply E in G. discriminate.
Qed.
Theorem C78_kept_cells p cells hits : legal_hits p cells hits ->
  keeps (free_above (metric p) (glob_grid p) cells) (keep_floor p (hits (to_pts cells)) cells) cells.
Proof. intro H. apply (keep_floor_keeps p cells hits H). Qed.
(** a cell that no cell exceeds in height is kept *)
Lemma keeps_in {X} (P : X -> Prop) u v : keeps P u v -> forall x, In x v -> P x -> In x u.
Proof. induction 1 as [|x u v Hx _ IH|x u v Hx _ IH]; intros y Hy Py; [exact Hy| |]; destruct Hy as [<-|Hy]; [left; reflexivity|right; auto|contradiction|auto]. Qed.
Lemma highest (l : list lpt) : l <> [] -> exists c, In c l /\ forall c', In c' l -> vz (p3 c') <= vz (p3 c).
Proof.
  induction l as [|c t IH]; [congruence|]. intros _. destruct t as [|c1 t].
  - exists c. split; [left; reflexivity|]. intros c' [<-|[]]. lra.
  - destruct IH as (m & Hm & H); [discriminate|]. destruct (Rle_or_lt (vz (p3 m)) (vz (p3 c))) as [L|L].
    + exists c. split; [left; reflexivity|]. intros c' [<-|Hc']; [lra|]. specialize (H c' Hc'). lra.
    + exists m. split; [right; exact Hm|]. intros c' [<-|Hc']; [lra|]. apply H, Hc'.
Qed.
Lemma keeps_unique {X} (P : X -> Prop) u u' v : keeps P u v -> keeps P u' v -> u = u'.
Proof.
  intro H. revert u'. induction H as [|x u v Hx _ IH|x u v Hx _ IH]; intros u' H'; inversion H'; subst; try contradiction; [reflexivity|f_equal; auto|auto].
Qed.
Theorem C78_some_cell_is_kept p cells hits : legal_hits p cells hits -> cells <> [] -> 0 <= glob_grid p ->
  (let '(_, _, wz, _) := dist_weight p in 1 <= wz) -> keep_floor p (hits (to_pts cells)) cells <> [].
Proof.
  intros H Hc Hg Hw. destruct (highest cells Hc) as (c & Hin & Hmax).
  assert (Hf : free_above (metric p) (glob_grid p) cells c).
  { intros c' Hc'. specialize (Hmax c' Hc'). unfold metric. destruct (dist_weight p) as [[[wx wy] wz] w4]. unfold dist_sq, above, to_pt. cbn [px py pz].
    pose proof (Rle_0_sqr (wx * vx (p3 c') - wx * vx (p3 c))) as Q1. pose proof (Rle_0_sqr (wy * vy (p3 c') - wy * vy (p3 c))) as Q2. unfold Rsqr in *.
    set (h := vz (p3 c) + (1 / 100 + glob_grid p) - vz (p3 c')). assert (Hh : glob_grid p <= h) by (unfold h; lra).
    replace (wz * vz (p3 c') - wz * (vz (p3 c) + (1 / 100 + glob_grid p))) with (- (wz * h)) by (unfold h; ring).
    assert (Hwh : glob_grid p <= wz * h) by nra. nra. }
  pose proof (keeps_in _ _ _ (C78_kept_cells p cells hits H) c Hin Hf) as K. intro E. rewrite E in K. destruct K.
Qed.

(** ** The particles *)
Lemma fill_spec iq prob dir : (1 <= dir)%nat -> forall ps pts c qs, (c < dir)%nat ->
  fill iq prob (Z.of_nat dir) ps pts (Z.of_nat c) = Some qs ->
  length qs = length ps /\ forall j q, nth_error qs j = Some q ->
    exists cell, nth_error pts ((c + j) / dir) = Some cell /\ stands cell iq dir ((c + j) mod dir) (PfModel.st RA q)
      /\ PfModel.w RA q = prob /\ PfModel.bias RA q = 1.
Proof.
  intros Hd. induction ps as [|x ps IH]; intros pts c qs Hc H; cbn [fill] in H.
  - injection H as <-. split; [reflexivity|]. intros [|j] q Hq; discriminate.
  - destruct pts as [|cell pts]; [discriminate|].
    assert (Hhead : (c / dir = 0)%nat /\ (c mod dir = c)%nat) by (split; [apply Nat.div_small|apply Nat.mod_small]; exact Hc).
    assert (Hs : stands cell iq dir c (state_pr (p3 cell) (heading iq (Z.of_nat c) (Z.of_nat dir)))).
    { unfold stands, heading. rewrite <- !INR_IZR_INZ. reflexivity. }
    destruct (Z.of_nat dir <=? Z.of_nat c + 1)%Z eqn:E.
    + apply Z.leb_le in E. assert (Ec : (c + 1 = dir)%nat) by lia.
      destruct (fill iq prob (Z.of_nat dir) ps pts 0) as [qs'|] eqn:Ef; [|discriminate]. cbn [option_map] in H. injection H as <-.
      destruct (IH pts O qs' ltac:(lia) Ef) as [L1 L2]. split; [cbn [length]; rewrite L1; reflexivity|].
      intros [|j] q Hq; cbn [nth_error] in Hq.
      * injection Hq as <-. exists cell. rewrite Nat.add_0_r. destruct Hhead as [-> ->]. split; [reflexivity|]. split; [exact Hs|]. split; reflexivity.
      * destruct (L2 j q Hq) as (cl & C1 & C2). exists cl. cbn [Nat.add] in C1, C2. replace (c + S j)%nat with (j + 1 * dir)%nat by lia.
        rewrite Nat.div_add, Nat.mod_add by lia. split; [|exact C2]. rewrite Nat.add_1_r. exact C1.
    + apply Z.leb_gt in E. replace (Z.of_nat c + 1)%Z with (Z.of_nat (c + 1)) in H by lia.
      destruct (fill iq prob (Z.of_nat dir) ps (cell :: pts) (Z.of_nat (c + 1))) as [qs'|] eqn:Ef; [|discriminate]. cbn [option_map] in H. injection H as <-.
      destruct (IH (cell :: pts) (c + 1)%nat qs' ltac:(lia) Ef) as [L1 L2]. split; [cbn [length]; rewrite L1; reflexivity|].
      intros [|j] q Hq; cbn [nth_error] in Hq.
      * injection Hq as <-. exists cell. rewrite Nat.add_0_r. destruct Hhead as [-> ->]. split; [reflexivity|]. split; [exact Hs|]. split; reflexivity.
      * destruct (L2 j q Hq) as (cl & C1 & C2). exists cl. replace (c + S j)%nat with (c + 1 + j)%nat by lia. split; assumption.
Qed.

Section Props.
Context {S : Type} (caster : cloud -> (pt -> R -> search) -> raycaster S)
        (voxel : R * R * R -> list lpt -> list lpt) (p : params).
Notation node := (node (S := S)).
Implicit Types n : node.

(** The service after any history: the particles are exactly the combinations of a kept cell of
    the current map and a heading, in this order, all with the same weight and with bias one. *)
Theorem C78_one_particle_per_cell_and_heading evs gen rc0 n o hits srt n' o' :
  steps caster voxel p (configure p gen rc0) evs = Ok (n, o) -> avail (expect_run voxel p evs) = true ->
  step caster voxel p n (EGlobal hits srt) = Ok (n', o') -> sorts srt -> PfModel.parts RA (n_pf n) <> [] -> (1 <= glob_div_yaw p)%Z ->
  let cells := voxel (glob_grid p, glob_grid p, glob_grid p) (content (expect_run voxel p evs)) in
  legal_hits p cells hits ->
  let dir := Z.to_nat (glob_div_yaw p) in
  forall kept, keeps (free_above (metric p) (glob_grid p) cells) kept cells -> (Z.of_nat (length kept) * glob_div_yaw p < 2 ^ 64)%Z ->
  o' = [OService (RTrigger true (MParticles (length kept * dir)))]
  /\ length (PfModel.parts RA (n_pf n')) = (length kept * dir)%nat
  /\ (forall i k cell, nth_error kept i = Some cell -> (k < dir)%nat ->
       exists q, nth_error (PfModel.parts RA (n_pf n')) (i * dir + k) = Some q
         /\ stands cell (imu_quat (n_imu n)) dir k (PfModel.st RA q) /\ PfModel.w RA q = 1 / INR (length kept) /\ PfModel.bias RA q = 1)
  /\ (kept <> [] -> PfSpec.Rsum (map (PfModel.w RA) (PfModel.parts RA (n_pf n'))) = INR dir).
Proof.
  intros Hs Hav H Hd Hne0 Hdir cells Hh dir kept Hk Hn. apply inv_reach in Hs.
  pose proof (iv_has _ _ _ _ Hs) as Hm. rewrite Hav in Hm.
  destruct (iv_map _ _ _ _ Hs Hav) as (l & c & A1 & A2 & A3 & A4 & A5 & A6 & _).
  cbn [step] in H. unfold cbGlobalLocalization in H. rewrite Hm in H. unfold get_obj in H. rewrite A1, A4 in H. cbn [of_option bind] in H. rewrite A6 in H. fold cells in H.
  rewrite <- (keeps_unique _ _ _ _ Hk (C78_kept_cells p cells hits Hh)) in H.
  assert (Hl0 : (0 < length (PfModel.parts RA (n_pf n)))%nat) by (destruct (PfModel.parts RA (n_pf n)); [congruence|cbn; lia]).
  destruct (resize_total (sorted_dup srt (n_pf n)) (glob_num p (length kept)) (n_pf n) (sorted_dup_ne _ _ Hd Hl0)) as (f & Ef & Hlen & _). rewrite Ef in H. cbn [of_option bind] in H.
  bok H. rename x into ps. injection H as <- <-. cbn [n_pf set_pf PfModel.parts].
  destruct (fill (imu_quat (n_imu n)) _ _ _ kept 0) as [ps'|] eqn:Efl; [|discriminate]. injection E as ->.
  assert (Edir : glob_div_yaw p = Z.of_nat dir) by (unfold dir; rewrite Z2Nat.id; lia).
  rewrite Edir in Efl, Hn. change 0%Z with (Z.of_nat 0) in Efl.
  assert (Hd1 : (1 <= dir)%nat) by lia. destruct (fill_spec _ _ dir Hd1 _ _ _ _ Hd1 Efl) as [L1 L2].
  assert (Hg : glob_num p (length kept) = (length kept * dir)%nat).
  { unfold glob_num. rewrite Edir, Z.mod_small by lia. lia. }
  rewrite Hlen, Hg in L1. split; [rewrite L1; reflexivity|]. split; [exact L1|].
  assert (Hq : forall i k cell, nth_error kept i = Some cell -> (k < dir)%nat ->
       exists q, nth_error ps (i * dir + k) = Some q
         /\ stands cell (imu_quat (n_imu n)) dir k (PfModel.st RA q) /\ PfModel.w RA q = 1 / INR (length kept) /\ PfModel.bias RA q = 1).
  { intros i k cell Hi Hkd. assert (Hil : (i < length kept)%nat) by (apply nth_error_Some; congruence).
    destruct (nth_error ps (i * dir + k)) as [q|] eqn:Eq.
    2:{ exfalso. apply nth_error_None in Eq. rewrite L1 in Eq. nia. }
    exists q. split; [reflexivity|]. destruct (L2 _ q Eq) as (cl & C1 & C2). cbn [Nat.add] in C1, C2.
    replace (i * dir + k)%nat with (k + i * dir)%nat in C1, C2 by lia. rewrite Nat.div_add, Nat.div_small in C1 by lia. rewrite Nat.mod_add, Nat.mod_small in C2 by lia.
    cbn [Nat.add] in C1. rewrite Hi in C1. injection C1 as <-. exact C2. }
  split; [exact Hq|]. intro Hne.
  assert (Hw : map (PfModel.w RA) ps = repeat (1 / INR (length kept)) (length kept * dir)).
  { rewrite <- L1. clear -L2. induction ps as [|q t IH] in L2 |- *.
    - reflexivity.
    - cbn [map length repeat]. destruct (L2 O q eq_refl) as (_ & _ & _ & -> & _). f_equal.
      assert (G : forall j q0, nth_error t j = Some q0 -> PfModel.w RA q0 = 1 / INR (length kept)).
      { intros j q0 Hj. destruct (L2 (Datatypes.S j) q0 Hj) as (_ & _ & _ & W & _). exact W. }
      clear -G. induction t as [|q t IH]; [reflexivity|]. cbn [map length repeat]. rewrite (G O q eq_refl). f_equal. apply IH. intros j q0 Hj. apply (G (Datatypes.S j)). exact Hj. }
  rewrite Hw, RsumLemmas.Rsum_repeat, mult_INR. field. apply not_0_INR. destruct kept; [congruence|discriminate].
Qed.
(** The answer of the service does not say whether a cell was kept: with a small vertical weight
    a map of one cell leaves no particle at all. *)
Theorem C78_small_weight_refuted evs gen rc0 n o c hits srt n' o' :
  steps caster voxel p (configure p gen rc0) evs = Ok (n, o) -> avail (expect_run voxel p evs) = true ->
  step caster voxel p n (EGlobal hits srt) = Ok (n', o') -> sorts srt -> PfModel.parts RA (n_pf n) <> [] -> (1 <= glob_div_yaw p)%Z ->
  voxel (glob_grid p, glob_grid p, glob_grid p) (content (expect_run voxel p evs)) = [c] -> legal_hits p [c] hits ->
  0 < glob_grid p -> (let '(_, _, wz, _) := dist_weight p in 0 <= wz /\ wz * (1 / 100 + glob_grid p) < glob_grid p) ->
  o' = [OService (RTrigger true (MParticles 0))] /\ PfModel.parts RA (n_pf n') = [].
Proof.
  intros Hs Hav H Hd Hne0 Hdir Hc Hh Hg Hw.
  assert (K : keeps (free_above (metric p) (glob_grid p) [c]) [] [c]).
  { apply keeps_no; [|constructor]. intro F. specialize (F c (or_introl eq_refl)). unfold metric in F. destruct (dist_weight p) as [[[wx wy] wz] w4].
    unfold dist_sq, above, to_pt in F. cbn [px py pz] in F. set (h := 1 / 100 + glob_grid p) in *.
    replace (wz * vz (p3 c) - wz * (vz (p3 c) + h)) with (- (wz * h)) in F by ring. assert (0 < h) by (unfold h; lra). assert (0 <= wz * h) by nra. nra. }
  pose proof (C78_one_particle_per_cell_and_heading evs gen rc0 n o hits srt n' o' Hs Hav H Hd Hne0 Hdir) as T. cbn zeta in T. rewrite Hc in T.
  destruct (T Hh [] K) as (T1 & T2 & _); [cbn; lia|]. split; [exact T1|]. destruct (PfModel.parts RA (n_pf n')); [reflexivity|discriminate].
Qed.
End Props.
