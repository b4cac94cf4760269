(** Properties C83, C84, C92: which clouds a measurement uses and how often one is made. *)
From Coq Require Import String Reals ZArith NArith List Bool Arith Lia.
From Verif Require PfModel FilterModel AccumModel.
From Verif Require Import Arith KdModel QuatModel StateModel StateSpec RayModel LidarModel NdModel ParamModel NodeModel NodeSpec NodeFrame NodeLocProofs NodeStepProofs NodeMapProofs NodeAccProofs.
Import ListNotations.
Open Scope nat_scope.
Open Scope list_scope.

Lemma nproc_existsb cs : nproc cs <= 1 -> existsb is_process cs = (nproc cs =? 1).
Proof.
  induction cs as [|c t IH]; cbn; [reflexivity|]. destruct c; cbn; intro H; try (apply IH; exact H).
  destruct (nproc t); [reflexivity|lia].
Qed.

Section Skip.
Context {S : Type} (caster : cloud -> (pt -> R -> search) -> raycaster S)
        (voxel : R * R * R -> list lpt -> list lpt) (p : params).
Notation node := (node (S := S)).
Implicit Types n : node.

(** what a measurement does, by the counter *)
Lemma measure_gate n e n' o : (0 <= Rceil (lpf_step p))%Z -> measure caster voxel p n e = Ok (n', o) ->
  cnt_measure (n_out n') = ((cnt_measure (n_out n) + 1) mod 2 ^ 64)%Z
  /\ ((cnt_measure (n_out n') mod skip_size p)%Z <> 0%Z -> o = [] /\ n_pf n' = n_pf n /\ n_acc n' = n_acc n /\ n_map n' = n_map n
        /\ n_odom n' = n_odom n /\ n_imu n' = n_imu n /\ n_lid n' = n_lid n)
  /\ ((cnt_measure (n_out n') mod skip_size p)%Z = 0%Z -> transforms_ok p e -> headers (n_acc n) <> [] -> existsb is_status o = true).
Proof.
  intros Hl H. unfold measure in H. bok H. destruct x as [n0 go]. apply gate_ok in E.
  destruct E as (G1 & G2 & G3 & G4 & G5 & G6 & _ & _ & _ & _ & _ & _ & _ & _ & _ & G16 & _ & Gb).
  destruct go; cbn [negb] in H.
  2:{ injection H as <- <-. split; [exact G16|]. symmetry in Gb. apply Z.eqb_neq in Gb. split; [intros _; repeat split; assumption|]. intro K. congruence. }
  symmetry in Gb. apply Z.eqb_eq in Gb.
  bok H. destruct x as [n1 ready]. pose proof E as Ep. apply prepare_ok in E. destruct E as (P1 & P2 & P3 & P4 & P5 & P6 & _).
  destruct ready as [[[h pc] os]|].
  2:{ injection H as <- <-. rewrite P4. split; [exact G16|]. split; [congruence|]. intros _ [T1 T2] Hh.
      unfold prepare in Ep. rewrite G2 in Ep. destruct (rev (headers (n_acc n))) as [|h0 t0] eqn:Er.
      { apply (f_equal (@rev _)) in Er. rewrite rev_involutive in Er. cbn in Er. congruence. }
      destruct (local (n_acc n)); [|discriminate]. destruct (base_tf p e h0) eqn:Eb; [|destruct (T1 _ Eb)].
      destruct (get_origins_total (origin_of p e h0) (headers (n_acc n))) as (os & Eo).
      { intros h1 K. unfold origin_of in K. pose proof (T2 (h_frame h1) (h_stamp h1) (h_stamp h0)) as T3. destruct (e_lookup5 e _ _ _ _ _); [discriminate|congruence]. }
      rewrite Eo in Ep. discriminate. }
  bok H. clear E x. destruct (filters p n1 e (voxel (ds_x p, ds_y p, ds_z p) pc)) as [[n2 bp] lp] eqn:E2. apply filters_ok in E2.
  destruct E2 as (F1 & F2 & F3 & F4 & F5 & F6 & F7).
  destruct lp as [|l lp].
  - destruct (force_update (points_lost n2)) as [n3 o3] eqn:E3. unfold force_update in E3. injection E3 as E3 E4.
    injection H as <- <-.
    assert (Ec : cnt_measure (n_out n3) = cnt_measure (n_out n0)) by (rewrite <- E3; cbn; rewrite F5, P4; reflexivity).
    rewrite Ec. split; [exact G16|]. split; [congruence|]. intros _ _ _. rewrite <- E4. reflexivity.
  - pose proof (localize_spec caster p _ _ _ _ _ _ _ _ _ Hl H) as L. pose proof (lz_cnt _ _ _ _ _ _ L) as Lc. rewrite F5, P4 in Lc. rewrite Lc.
    split; [exact G16|]. split; [congruence|]. intros _ _ _.
    destruct (lz_ex _ _ _ _ _ _ L) as (est & ratio & m1 & m2 & est' & c & o1 & o2 & parts & _ & _ & _ & _ & _ & _ & _ & -> & _).
    rewrite !existsb_app. cbn. rewrite !orb_true_r. reflexivity.
Qed.

(** other events leave the output side alone *)
Lemma other_out n ev n' o : (forall m e, ev <> ECloud m e) -> step caster voxel p n ev = Ok (n', o) -> n_out n' = n_out n.
Proof.
  intros Hn H. destruct ev; cbn [step] in H.
  - unfold cbMapcloud in H. destruct conv as [b|]; [|injection H as <- <-; reflexivity]. unfold loadMapCloud in H. apply timer_out in H. apply H.
  - unfold cbLoadPCD in H. destruct file as [b|]; [|injection H as <- <-; reflexivity]. bok H. destruct x as [n1 o1]. injection H as <- <-.
    unfold loadMapCloud in E. apply timer_out in E. apply E.
  - unfold cbMapcloudUpdate in H. destruct conv; injection H as <- <-; reflexivity.
  - apply timer_out in H. apply H.
  - unfold cbPosition in H. destruct (Rltb (1 / 10) _); [injection H as <- <-; reflexivity|]. destruct (pose_in_map p lk m); injection H as <- <-; reflexivity.
  - apply (cbOdom_frame voxel) in H. apply H.
  - apply (cbImu_frame voxel) in H. apply H.
  - destruct (Hn m e eq_refl).
  - unfold cbLandmark in H. bok H. injection H as <- <-. reflexivity.
  - unfold cbResizeParticle in H. bok H. injection H as <- <-. reflexivity.
  - unfold cbExpansionReset in H. injection H as <- <-. reflexivity.
  - unfold cbGlobalLocalization in H. destruct (has_map (n_map n)); [bok H; bok H; bok H|]; injection H as <- <-; reflexivity.
Qed.
(** one event: the counter advances exactly with the process calls *)
Lemma step_counter n ev n' o x : (0 <= Rceil (lpf_step p))%Z -> step caster voxel p n ev = Ok (n', o) ->
  x = {| before := n; what := ev; outs := o; after := n' |} ->
  if processes p x then
    cnt_measure (n_out n') = ((cnt_measure (n_out n) + 1) mod 2 ^ 64)%Z
    /\ exists m e, ev = ECloud m e
    /\ ((cnt_measure (n_out n') mod skip_size p)%Z <> 0%Z -> o = [] /\ n_pf n' = n_pf n)
    /\ ((cnt_measure (n_out n') mod skip_size p)%Z = 0%Z -> transforms_ok p e ->
        (forall a cs na, push_calls p (ac (n_acc n)) m = Ok (a, cs) -> at_process voxel p caster e (set_stat n status0) cs = Ok (Some na) -> headers (n_acc na) <> []) ->
        existsb is_status o = true)
  else cnt_measure (n_out n') = cnt_measure (n_out n).
Proof.
  intros Hl H Hx. assert (D : (exists m e, ev = ECloud m e) \/ forall m e, ev <> ECloud m e) by (destruct ev; eauto; right; discriminate).
  destruct D as [(m & e & ->)|D].
  - cbn [step] in H. unfold cbCloud in H. unfold processes. rewrite Hx. cbn [what before]. destruct (has_map (n_map n)) eqn:Eh.
    2:{ cbn [andb]. injection H as <- <-. reflexivity. }
    bok H. destruct x0 as [a cs]. bok H. destruct x0 as [n1 o1]. injection H as <- <-. change (ac (n_acc (set_stat n status0))) with (ac (n_acc n)) in E.
    rewrite E. cbn [andb]. pose proof (push_calls_once _ _ _ _ _ E) as Hc. rewrite (nproc_existsb _ Hc).
    destruct (nproc cs) as [|[|k]] eqn:Ec; [| |lia]; cbn [Nat.eqb].
    + apply callbacks_none in E0; [|exact Ec]. destruct E0 as (A1 & A2 & A3 & A4 & A5 & A6 & ->). cbn [set_acc n_out]. rewrite A1. reflexivity.
    + pose proof (callbacks_one _ _ _ _ _ _ _ _ Ec E0) as (na & nb & B0 & B1 & B2 & B3 & B4 & B5 & B6 & B7 & B8 & B9 & _).
      apply measure_gate in B7; [|exact Hl]. destruct B7 as (C1 & C2 & C3). cbn [set_acc n_out n_pf]. rewrite B8, B9.
      replace (cnt_measure (n_out na)) with (cnt_measure (n_out n)) in C1 by (rewrite B1; reflexivity). split; [exact C1|].
      exists m, e. split; [reflexivity|]. split.
      * intro K. destruct (C2 K) as (-> & -> & _). split; [reflexivity|]. rewrite B2. reflexivity.
      * intros K T Hh. apply (C3 K T). exact (Hh a cs na E B0).
  - assert (Hp : processes p x = false) by (unfold processes; rewrite Hx; cbn [what]; destruct ev; try reflexivity; destruct (D m e eq_refl)).
    rewrite Hp. rewrite (other_out _ _ _ _ D H). reflexivity.
Qed.

(** the headers at a measurement are never empty *)
Lemma process_input n os x acc m e a cs na : node_ok p n os x acc -> has_map (n_map n) = true ->
  push_calls p (ac (n_acc n)) m = Ok (a, cs) -> at_process voxel p caster e (set_stat n status0) cs = Ok (Some na) ->
  exists buf, buf <> [] /\ holds p (n_acc na) buf /\ is_suffix buf (if (accum_cloud p =? 0)%Z then acc ++ [m] else acc)
    /\ ((accum_cloud p =? 0)%Z = true -> buf = [m]) /\ n_pf na = n_pf n /\ n_lid na = n_lid n /\ n_map na = n_map n.
Proof.
  intros [Hm Ha] Hmap Hp Hat.
  assert (Fr : n_pf na = n_pf n /\ n_lid na = n_lid n /\ n_map na = n_map n).
  { clear -Hat. change (n_pf n) with (n_pf (set_stat n status0)). change (n_lid n) with (n_lid (set_stat n status0)). change (n_map n) with (n_map (set_stat n status0)).
    revert Hat. generalize (set_stat n status0). induction cs as [|c t IH]; intros n0 H; cbn in H; [discriminate|].
    destruct c as [|m0 b|]; [injection H as <-; auto| |]; bok H; destruct x as [n1 o1];
      (apply callback_other in E; [|discriminate]); destruct E as (E1 & E2 & E3 & E4 & E5 & E6 & _); apply IH in H; rewrite <- E2, <- E5, <- E6; exact H. }
  destruct (accum_cloud p =? 0)%Z eqn:Ez.
  - apply Z.eqb_eq in Ez. destruct (cloud_pass caster voxel p (set_stat n status0) e m a cs Ez Hp na Hat) as [_ K]. exists [m].
    split; [discriminate|]. split; [exact K|]. split; [exists acc; reflexivity|]. split; [reflexivity|exact Fr].
  - apply Z.eqb_neq in Ez.
    assert (Hl : local (n_acc n) <> None).
    { pose proof (iv_has _ _ _ _ Hm) as Hav. rewrite Hmap in Hav. destruct (iv_map _ _ _ _ Hm (eq_sym Hav)) as (? & ? & ? & ? & ? & ? & ? & ? & ? & ? & Hl & ?). exact Hl. }
    destruct (accum_process caster voxel p (set_stat n status0) e m acc a cs Ez Ha Hp Hl na Hat) as (K0 & buf & K1 & K2 & K3). exists buf.
    split; [exact K1|]. split; [exact K2|]. split; [exact K3|]. split; [discriminate|exact Fr].
Qed.
End Skip.

Section Props.
Context {S : Type} (caster : cloud -> (pt -> R -> search) -> raycaster S)
        (voxel : R * R * R -> list lpt -> list lpt) (p : params).
Notation node := (node (S := S)).
Implicit Types n : node.

(** every entry of a trace comes after a completed history *)
Lemma trace_in evs : forall n tr x, trace voxel p caster n evs = Ok tr -> In x tr ->
  exists evs1 evs2 o, evs = evs1 ++ what x :: evs2 /\ steps caster voxel p n evs1 = Ok (before x, o) /\ step caster voxel p (before x) (what x) = Ok (after x, outs x).
Proof.
  induction evs as [|ev t IH]; cbn; intros n tr x H Hx.
  - injection H as <-. destruct Hx.
  - bok H. destruct x0 as [n1 o1]. bok H. injection H as <-. destruct Hx as [<-|Hx].
    + exists [], t, []. cbn. auto.
    + destruct (IH _ _ _ E0 Hx) as (evs1 & evs2 & o & -> & A & B). exists (ev :: evs1), evs2, (o1 ++ o). split; [reflexivity|]. split; [|exact B].
      cbn. rewrite E. cbn. rewrite A. reflexivity.
Qed.
Lemma counter_trace evs : forall n tr k, (0 <= Rceil (lpf_step p))%Z -> trace voxel p caster n evs = Ok tr ->
  (cnt_measure (n_out n) = Z.of_nat k mod 2 ^ 64)%Z ->
  forall j x, nth_error (filter (processes p) tr) j = Some x -> (cnt_measure (n_out (after x)) = Z.of_nat (k + Datatypes.S j) mod 2 ^ 64)%Z.
Proof.
  induction evs as [|ev t IH]; cbn [trace]; intros n tr k Hl H Hk j x Hx.
  - injection H as <-. destruct j; discriminate.
  - bok H. destruct x0 as [n1 o1]. bok H. injection H as <-. rename x0 into tr.
    set (y := {| before := n; what := ev; outs := o1; after := n1 |}) in *.
    pose proof (step_counter caster voxel p n ev n1 o1 y Hl E eq_refl) as K. cbn [filter] in Hx.
    destruct (processes p y) eqn:Ep.
    + destruct K as (K & _). assert (K' : (cnt_measure (n_out n1) = Z.of_nat (k + 1) mod 2 ^ 64)%Z).
      { rewrite K, Hk, Nat2Z.inj_add, Zplus_mod_idemp_l. reflexivity. }
      destruct j as [|j].
      * injection Hx as <-. exact K'.
      * cbn [nth_error] in Hx. rewrite (IH _ _ (k + 1) Hl E0 K' j x Hx). f_equal. lia.
    + eapply IH; try eassumption. congruence.
Qed.
Lemma skip_small : (1 <= skip_measure p < 2 ^ 31)%Z -> skip_size p = skip_measure p.
Proof. intros H. unfold skip_size. apply Z.mod_small. lia. Qed.

(** C83: among the clouds that are processed, exactly those whose number (from 1) is a
    multiple of skip_measure make a measurement.  Such a cloud publishes a status whenever the
    transforms are available; the others publish nothing and leave all particles alone *)
Theorem C83_every_skip_th_measures evs gen rc0 tr j x m e : (0 <= Rceil (lpf_step p))%Z ->
  trace voxel p caster (configure p gen rc0) evs = Ok tr ->
  nth_error (filter (processes p) tr) j = Some x -> what x = ECloud m e ->
  (Z.of_nat (Datatypes.S j) < 2 ^ 64)%Z -> (1 <= skip_measure p < 2 ^ 31)%Z ->
  if Datatypes.S j mod Z.to_nat (skip_measure p) =? 0
  then transforms_ok p e -> existsb is_status (outs x) = true
  else outs x = [] /\ n_pf (after x) = n_pf (before x).
Proof.
  intros Hl Ht Hj Hw Hs Hk.
  pose proof (counter_trace evs _ _ 0 Hl Ht eq_refl j x Hj) as Hc. cbn [Nat.add] in Hc. rewrite Z.mod_small in Hc by lia.
  pose proof (nth_error_In _ _ Hj) as Hin. apply filter_In in Hin. destruct Hin as [Hin Hpr].
  destruct (trace_in _ _ _ _ Ht Hin) as (evs1 & evs2 & o & -> & H1 & H2).
  assert (Hx : x = {| before := before x; what := what x; outs := outs x; after := after x |}) by (destruct x; reflexivity).
  pose proof (step_counter caster voxel p _ _ _ _ x Hl H2 Hx) as K. rewrite Hpr in K. destruct K as (_ & m' & e' & Hw' & K1 & K2).
  rewrite Hw in Hw'. injection Hw' as <- <-. rewrite Hc, (skip_small Hk) in K1, K2.
  replace (Z.of_nat (Datatypes.S j) mod skip_measure p)%Z with (Z.of_nat (Datatypes.S j mod Z.to_nat (skip_measure p))) in K1, K2
    by (rewrite Nat2Z.inj_mod, Z2Nat.id by lia; reflexivity).
  destruct (Datatypes.S j mod Z.to_nat (skip_measure p)) as [|r]; cbn [Nat.eqb].
  - intro T. apply (K2 eq_refl T). intros a cs na Hp Hat.
    assert (Hm : has_map (n_map (before x)) = true).
    { unfold processes in Hpr. rewrite Hw in Hpr. apply andb_prop in Hpr. apply Hpr. }
    destruct (process_input caster voxel p _ _ _ _ m e a cs na (node_reach caster voxel p _ _ _ _ _ H1) Hm Hp Hat) as (buf & B1 & [_ B2] & _).
    rewrite B2. intro Hb. apply B1. destruct buf; [reflexivity|discriminate Hb].
  - apply K1. lia.
Qed.
(** a cloud that is not processed publishes nothing either *)
Theorem C83_other_clouds_are_silent evs gen rc0 tr x m e : (0 <= Rceil (lpf_step p))%Z ->
  trace voxel p caster (configure p gen rc0) evs = Ok tr -> In x tr -> what x = ECloud m e -> processes p x = false ->
  outs x = [] /\ n_pf (after x) = n_pf (before x).
Proof.
  intros Hl Ht Hin Hw Hp. destruct (trace_in _ _ _ _ Ht Hin) as (evs1 & evs2 & o & -> & H1 & H2). rewrite Hw in H2. cbn [step] in H2. unfold cbCloud in H2.
  unfold processes in Hp. rewrite Hw in Hp. destruct (has_map (n_map (before x))).
  - bok H2. destruct x0 as [a cs]. bok H2. destruct x0 as [n1 o1]. injection H2 as H2 H3. rewrite <- H2, <- H3.
    change (ac (n_acc (set_stat (before x) status0))) with (ac (n_acc (before x))) in E. rewrite E in Hp. cbn [andb] in Hp.
    pose proof (push_calls_once _ _ _ _ _ E) as Hc. rewrite (nproc_existsb _ Hc) in Hp. apply callbacks_none in E0; [|destruct (nproc cs) as [|[|k]]; [reflexivity|discriminate|lia]].
    destruct E0 as (_ & A & _ & _ & _ & _ & ->). split; [reflexivity|]. cbn [set_acc n_pf]. rewrite A. reflexivity.
  - injection H2 as H2 H3. rewrite <- H2, <- H3. split; reflexivity.
Qed.
(** with skip_measure = 0 processing a cloud is a division by zero *)
Theorem C83_zero_is_undefined n m e a cs : skip_measure p = 0%Z -> has_map (n_map n) = true ->
  push_calls p (ac (n_acc n)) m = Ok (a, cs) -> existsb is_process cs = true -> step caster voxel p n (ECloud m e) = Undef.
Proof.
  intros Hz Hm Hp He. cbn [step]. unfold cbCloud. rewrite Hm. change (ac (n_acc (set_stat n status0))) with (ac (n_acc n)). rewrite Hp. cbn [bind].
  assert (G : forall n0, measure caster voxel p n0 e = Undef) by (intro n0; unfold measure, gate, skip_size; rewrite Hz; reflexivity).
  assert (K : callbacks caster voxel p e (set_stat n status0) cs = Undef); [|rewrite K; reflexivity].
  unfold push_calls in Hp. destruct (accum_cloud p =? 0)%Z.
  - injection Hp as <- <-. unfold AccumModel.push_pass in *. destruct (cm_pts p m) as [pts|] eqn:Ep; [|discriminate].
    cbn [callbacks callback bind]. unfold accumCloud. rewrite Ep. cbn [set_acc n_acc accumClear local bind callbacks callback]. rewrite G. reflexivity.
  - apply of_option_ok in Hp. unfold AccumModel.push, AccumModel.push_process, AccumModel.push_tail in Hp.
    repeat match type of Hp with context [if ?b then _ else _] => destruct b | context [match AccumModel.keys ?b with _ => _ end] => destruct (AccumModel.keys b) end;
      try discriminate; injection Hp as <- <-; try discriminate He; cbn [callbacks callback]; rewrite G; reflexivity.
Qed.
End Props.
(** of any [skip] consecutive numbers exactly one is a multiple of [skip] *)
Theorem C83_one_in_every_skip i skip : 1 <= skip -> exists! j, i <= j < i + skip /\ Datatypes.S j mod skip = 0.
Proof.
  intro Hs. pose proof (Nat.div_mod (i + skip) skip ltac:(lia)) as D. pose proof (Nat.mod_upper_bound (i + skip) skip ltac:(lia)) as B.
  assert (Hq : 1 <= (i + skip) / skip) by (apply Nat.div_le_lower_bound; lia).
  set (q := (i + skip) / skip) in *. set (r := (i + skip) mod skip) in *.
  assert (Hx : 1 <= skip * q) by nia.
  exists (skip * q - 1). split.
  - split; [lia|]. replace (Datatypes.S (skip * q - 1)) with (q * skip) by lia. apply Nat.mod_mul. lia.
  - intros j [[J1 J2] J3]. apply Nat.mod_divides in J3; [|lia]. destruct J3 as (c & J3). assert (c = q) by nia. subst c. lia.
Qed.

Section Inputs.
Context {S : Type} (caster : cloud -> (pt -> R -> search) -> raycaster S)
        (voxel : R * R * R -> list lpt -> list lpt) (p : params).
Notation node := (node (S := S)).
Implicit Types n : node.

Lemma mw_holds evs gen rc0 n o m e n1 h pc os : steps caster voxel p (configure p gen rc0) evs = Ok (n, o) ->
  measures_with voxel p caster n m e n1 h pc os ->
  exists tf buf, base_tf p e h = Some tf /\ buf <> [] /\ pc = to_base tf (labelled p 0 buf) /\ map msg_header buf <> []
    /\ rev (map msg_header buf) = h :: tl (rev (map msg_header buf)) /\ get_origins (origin_of p e h) (map msg_header buf) = Some os
    /\ is_suffix buf (if (accum_cloud p =? 0)%Z then accepted voxel p expected0 evs ++ [m] else accepted voxel p expected0 evs)
    /\ ((accum_cloud p =? 0)%Z = true -> buf = [m]) /\ n_pf n1 = n_pf n /\ n_lid n1 = n_lid n /\ n_map n1 = n_map n.
Proof.
  intros H [a cs na n0 Hm Hp Hat Hg Hpr].
  destruct (process_input caster voxel p _ _ _ _ m e a cs na (node_reach caster voxel p _ _ _ _ _ H) Hm Hp Hat) as (buf & B1 & [B2 B3] & B4 & B5 & B6 & B7 & B8).
  apply gate_ok in Hg. destruct Hg as (G1 & G2 & G3 & G4 & G5 & G6 & _).
  pose proof (prepare_ok _ _ _ _ _ Hpr) as (P1 & _ & _ & _ & P5 & P6 & _).
  unfold prepare in Hpr. rewrite G2, B2, B3 in Hpr. destruct (rev (map msg_header buf)) as [|h0 t0] eqn:Er; [discriminate|].
  destruct (base_tf p e h0) as [tf|] eqn:Eb; [|discriminate]. destruct (get_origins (origin_of p e h0) (map msg_header buf)) as [os0|] eqn:Eo; [|discriminate].
  injection Hpr as _ <- <- <-. exists tf, buf. rewrite Er. cbn [tl]. assert (map msg_header buf <> []) by (destruct buf; [congruence|discriminate]). repeat split; auto; congruence.
Qed.

(** C92: a measurement uses the latest accepted clouds (a consecutive run of them, in order,
    at least one; without accumulation just the arriving one), each point exactly once, moved
    to the robot frame exactly once, and labelled with the number of its cloud; the stamp is
    that of the newest of these clouds, the robot frame is the one at that time, and the i-th
    origin is that of the i-th cloud's sensor at the time of that cloud, moved there through the
    odometry frame *)
Theorem C92_latest_clouds_exactly_once evs gen rc0 n o m e n1 h pc os :
  steps caster voxel p (configure p gen rc0) evs = Ok (n, o) -> measures_with voxel p caster n m e n1 h pc os ->
  exists tf buf, e_lookup e (frame_base p) (frame_odom p) (h_stamp h) = Some tf /\ buf <> []
    /\ (if (accum_cloud p =? 0)%Z then buf = [m] else is_suffix buf (accepted voxel p expected0 evs))
    /\ pc = map (fun q => {| p3 := vadd (qrot (snd tf) (p3 q)) (fst tf); lab := lab q |}) (labelled p 0 buf)
    /\ (exists pre l, buf = pre ++ [l] /\ h = msg_header l)
    /\ length os = length buf
    /\ forall i c, nth_error buf i = Some c ->
         exists tf', e_lookup5 e (frame_base p) (h_stamp h) (cm_frame c) (cm_stamp c) (frame_odom p) = Some tf' /\ nth_error os i = Some (fst tf').
Proof.
  intros H Hw. destruct (mw_holds _ _ _ _ _ _ _ _ _ _ _ H Hw) as (tf & buf & B1 & B2 & B3 & B4 & B5 & B6 & B7 & B8 & _).
  exists tf, buf. split; [exact B1|]. split; [exact B2|]. split; [destruct (accum_cloud p =? 0)%Z; auto|]. split; [exact B3|]. split.
  - destruct (exists_last B2) as (pre & l & ->). exists pre, l. split; [reflexivity|]. rewrite map_app, rev_app_distr in B5. cbn in B5. injection B5 as B5. congruence.
  - split; [rewrite (get_origins_len _ _ _ B6); apply map_length|]. intros i c Hi. pose proof (map_nth_error msg_header _ _ Hi) as Hj.
    destruct (get_origins_nth _ _ _ _ _ B6 Hj) as [N1 N2]. rewrite N1. unfold origin_of in *. cbn [msg_header h_frame h_stamp] in *.
    destruct (e_lookup5 e _ _ _ _ _) as [tf'|]; [|destruct (N2 eq_refl)]. exists tf'. split; reflexivity.
Qed.

(** ... and no cloud is used by a second measurement: the next measurements use at most the
    cloud that triggered the previous one and clouds accepted later *)
Theorem C92_no_cloud_is_used_twice evs gen rc0 n o m e n1 h pc os n' o' evs2 n2 o2 m2 e2 n1' h2 pc2 os2 :
  steps caster voxel p (configure p gen rc0) evs = Ok (n, o) -> measures_with voxel p caster n m e n1 h pc os ->
  step caster voxel p n (ECloud m e) = Ok (n', o') ->
  steps caster voxel p n' evs2 = Ok (n2, o2) -> measures_with voxel p caster n2 m2 e2 n1' h2 pc2 os2 ->
  exists tf buf, e_lookup e2 (frame_base p) (frame_odom p) (h_stamp h2) = Some tf
    /\ pc2 = map (fun q => {| p3 := vadd (qrot (snd tf) (p3 q)) (fst tf); lab := lab q |}) (labelled p 0 buf)
    /\ if (accum_cloud p =? 0)%Z then buf = [m2]
       else is_suffix buf ((match in_odom p m with Some _ => [m] | None => [] end)
                           ++ accepted voxel p (expect_run voxel p (evs ++ [ECloud m e])) evs2).
Proof.
  intros H Hw Hs H2 Hw2. rewrite in_odom_eq.
  assert (Ok' : node_ok p n' (o ++ o') (expect_run voxel p (evs ++ [ECloud m e])) (match cm_pts p m with Some _ => [m] | None => [] end)).
  { pose proof (node_reach caster voxel p _ _ _ _ _ H) as K. pose proof (node_step _ _ _ _ _ _ _ _ _ _ K Hs) as [K1 _].
    unfold expect_run. rewrite fold_left_app. split; [exact K1|].
    intro Hz. destruct Hw as [a cs na n0 Hm Hp Hat Hg Hpr]. cbn [step] in Hs. unfold cbCloud in Hs. rewrite Hm in Hs.
    change (ac (n_acc (set_stat n status0))) with (ac (n_acc n)) in Hs. rewrite Hp in Hs. cbn [bind] in Hs. bok Hs. destruct x as [n3 o3]. injection Hs as <- <-.
    assert (Hn : nproc cs = 1).
    { pose proof (push_calls_once _ _ _ _ _ Hp) as Hc. destruct (nproc cs) as [|[|k]] eqn:En; [|reflexivity|lia]. exfalso. clear -Hat En.
      revert Hat. generalize (set_stat n status0). induction cs as [|c t IH]; intros n0 Hat; cbn in Hat; [discriminate|].
      destruct c; [discriminate| |]; bok Hat; destruct x; eapply IH; eassumption. }
    exact (cloud_after caster voxel p (set_stat n status0) e m a cs n3 o3 Hz Hp Hn E Hz). }
  pose proof (node_steps caster voxel p evs2 _ _ _ _ _ _ Ok' H2) as K.
  destruct Hw2 as [a cs na n0 Hm Hp Hat Hg Hpr].
  destruct (process_input caster voxel p _ _ _ _ m2 e2 a cs na K Hm Hp Hat) as (buf & B1 & [B2 B3] & B4 & B5 & _).
  apply gate_ok in Hg. destruct Hg as (_ & G2 & _).
  unfold prepare in Hpr. rewrite G2, B2, B3 in Hpr. destruct (rev (map msg_header buf)) as [|h0 t0] eqn:Er; [discriminate|].
  destruct (base_tf p e2 h0) as [tf|] eqn:Eb; [|discriminate]. destruct (get_origins (origin_of p e2 h0) (map msg_header buf)) as [os0|] eqn:Eo; [|discriminate].
  injection Hpr as _ <- <- <-. exists tf, buf. split; [exact Eb|]. split; [reflexivity|].
  destruct (accum_cloud p =? 0)%Z; [apply B5; reflexivity|exact B4].
Qed.

Lemma clip_in a b c d l q : In q (clip a b c d l) -> In q l.
Proof. unfold clip. rewrite filter_In. tauto. Qed.
(** C84: every point that reaches a measurement model has an origin *)
Theorem C84_every_point_has_an_origin evs gen rc0 n o m e n1 h pc os n2 bp lp :
  steps caster voxel p (configure p gen rc0) evs = Ok (n, o) -> measures_with voxel p caster n m e n1 h pc os ->
  filters p n1 e (voxel (ds_x p, ds_y p, ds_z p) pc) = (n2, bp, lp) ->
  keeps_labels (voxel (ds_x p, ds_y p, ds_z p)) -> picks_members (e_beam e) -> picks_members (e_like e) ->
  forall q, In q bp \/ In q lp -> 
  exists origin c tf', nth_error os (lab q) = Some origin /\ In c (accepted voxel p expected0 evs ++ [m])
    /\ e_lookup5 e (frame_base p) (h_stamp h) (cm_frame c) (cm_stamp c) (frame_odom p) = Some tf' /\ origin = fst tf'.
Proof.
  intros H Hw Hf Hv Hb Hlk q Hq. destruct (mw_holds _ _ _ _ _ _ _ _ _ _ _ H Hw) as (tf & buf & B1 & B2 & B3 & B4 & B5 & B6 & B7 & B8 & _).
  assert (Hin : In q (voxel (ds_x p, ds_y p, ds_z p) pc)).
  { unfold filters in Hf. injection Hf as _ <- <-. unfold beam_filter, like_filter in Hq. cbn [fst] in Hq.
    destruct Hq as [Hq|Hq]; [apply Hb in Hq|apply Hlk in Hq]; eapply clip_in; exact Hq. }
  destruct (Hv _ _ Hin) as (q0 & Hq0 & Hle). rewrite B3 in Hq0. unfold to_base in Hq0. apply in_map_iff in Hq0. destruct Hq0 as (q1 & Eq & Hq1).
  apply labelled_lt in Hq1. assert (lab q0 = lab q1) by (rewrite <- Eq; reflexivity).
  assert (Hlt : lab q < length (map msg_header buf)) by (rewrite map_length; lia).
  rewrite map_length in Hlt. apply nth_error_Some in Hlt. destruct (nth_error buf (lab q)) as [c|] eqn:Ec; [|congruence].
  destruct (get_origins_nth _ _ _ _ _ B6 (map_nth_error msg_header _ _ Ec)) as [N1 N2]. unfold origin_of in *. cbn [msg_header h_frame h_stamp] in *.
  destruct (e_lookup5 e _ _ _ _ _) as [tf'|] eqn:E5; [|destruct (N2 eq_refl)]. exists (fst tf'), c, tf'. split; [exact N1|]. split; [|split; [exact E5|reflexivity]].
  apply nth_error_In in Ec. destruct (accum_cloud p =? 0)%Z eqn:Ez.
  - rewrite (B8 eq_refl) in Ec. apply in_or_app. right. exact Ec.
  - destruct B7 as (pre & ->). rewrite !in_app_iff. auto.
Qed.
End Inputs.
