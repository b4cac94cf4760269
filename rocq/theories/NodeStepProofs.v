(** What one event can do: either nothing to the output side, or exactly one localization step. *)
From Coq Require Import String Reals ZArith List Bool Arith Lia Lra.
From Verif Require PfModel FilterModel AccumModel.
From Verif Require Import Arith KdModel QuatModel StateModel StateSpec RayModel LidarModel NdModel ParamModel NodeModel NodeSpec NodeFrame NodeLocProofs.
Import ListNotations.
Open Scope nat_scope.
Open Scope list_scope.

Section Steps.
Context {S : Type} (caster : cloud -> (pt -> R -> search) -> raycaster S)
        (voxel : R * R * R -> list lpt -> list lpt) (p : params).
Notation node := (node (S := S)).
Implicit Types n : node.

(** everything the localization step reads from the output side, except status and counter *)
Record same_out n n' : Prop := {
  so_fix : fix_cnt (n_out n') = fix_cnt (n_out n); so_rate : rate (n_out n') = rate (n_out n);
  so_base : tf_base (n_out n') = tf_base (n_out n); so_last : localized_last (n_out n') = localized_last (n_out n);
  so_pos : f_pos (n_out n') = f_pos (n_out n); so_ang : f_ang (n_out n') = f_ang (n_out n);
  so_prev : state_prev (n_out n') = state_prev (n_out n); so_match : match_last (n_out n') = match_last (n_out n) }.
Lemma same_out_eq n n' : n_out n' = n_out n -> same_out n n'.
Proof. intro H. constructor; rewrite H; reflexivity. Qed.
Lemma same_out_trans a b c : same_out a b -> same_out b c -> same_out a c.
Proof. intros [] []. constructor; congruence. Qed.
Definition no_pose (o : list output) : Prop := forall t a c, ~ In (OPose t a c) o.
Lemma no_pose_nil : no_pose []. Proof. intros t a c []. Qed.
Lemma no_pose_existsb o : no_pose o <-> existsb is_pose o = false.
Proof.
  split.
  - intro H. destruct (existsb is_pose o) eqn:E; [|reflexivity]. apply existsb_exists in E. destruct E as (x & Hx & Ex). destruct x; try discriminate.
    exfalso. eapply H. exact Hx.
  - intros H t a c Hi. assert (existsb is_pose o = true) by (apply existsb_exists; eexists; split; [exact Hi|reflexivity]). congruence.
Qed.

(** one call of the measurement *)
Inductive measured n (e : menv) n' (o : list output) : Prop :=
| m_quiet : same_out n n' -> n_pf n' = n_pf n -> n_odom n' = n_odom n ->
    (o = [] /\ stat (n_out n') = stat (n_out n)
     \/ o = [OStatus (stat (n_out n')) true (has_map (n_map n)) (has_odom (n_odom n)) (has_imu (n_imu n))]
        /\ s_status (stat (n_out n')) = s_status (stat (n_out n)) /\ s_error (stat (n_out n')) = ERROR_POINTS_NOT_FOUND
        /\ s_entropy (stat (n_out n')) = PfModel.entropy RA (n_pf n)) -> measured n e n' o
| m_loc n2 h : same_out n n2 -> n_pf n2 = n_pf n -> n_odom n2 = n_odom n -> stat (n_out n2) = stat (n_out n) ->
    n_imu n2 = n_imu n -> n_map n2 = n_map n -> n_acc n2 = n_acc n' ->
    localized p n2 e h n' o -> measured n e n' o.
Lemma measure_cases n e n' o : (0 <= Rceil (lpf_step p))%Z -> measure caster voxel p n e = Ok (n', o) -> measured n e n' o.
Proof.
  intros Hl. unfold measure. intro H. bok H. destruct x as [n0 go]. apply gate_ok in E.
  destruct E as (G1 & G2 & G3 & G4 & G5 & G6 & G7 & G8 & G9 & G10 & G11 & G12 & G13 & G14 & G15 & _).
  destruct (negb go).
  { injection H as <- <-. apply m_quiet; auto. constructor; assumption. }
  bok H. destruct x as [n1 ready]. apply prepare_ok in E. destruct E as (P1 & P2 & P3 & P4 & P5 & P6 & _).
  assert (So : same_out n n1) by (constructor; rewrite P4; assumption).
  destruct ready as [[[h pc] os]|].
  2:{ injection H as <- <-. apply m_quiet; auto; try congruence. left. split; [reflexivity|]. rewrite P4. assumption. }
  bok H. clear E x. destruct (filters p n1 e (voxel (ds_x p, ds_y p, ds_z p) pc)) as [[n2 bp] lp] eqn:E2. apply filters_ok in E2.
  destruct E2 as (F1 & F2 & F3 & F4 & F5 & F6 & F7).
  assert (So2 : same_out n n2) by (eapply same_out_trans; [exact So|apply same_out_eq; assumption]).
  destruct lp as [|l lp].
  - unfold force_update in H. injection H as <- <-. apply m_quiet; cbn; try congruence.
    + destruct So2; constructor; cbn; assumption.
    + right. rewrite F1, F3, F4, F5, F6, P1, P2, P3, P4, P6, G1, G3, G4, G6, G7. repeat split; reflexivity.
  - pose proof (localize_spec caster p _ _ _ _ _ _ _ _ _ Hl H) as L. pose proof (lz_acc _ _ _ _ _ _ L) as La.
    eapply m_loc with (n2 := n2) (h := h); try congruence; auto.
Qed.

(** the calls of one cloud message contain the measurement at most once *)
Fixpoint nproc (cs : list (AccumModel.call cloud_msg)) : nat :=
  match cs with [] => 0 | AccumModel.Process :: t => Datatypes.S (nproc t) | _ :: t => nproc t end.
Lemma push_calls_once a m a' cs : push_calls p a m = Ok (a', cs) -> nproc cs <= 1.
Proof.
  unfold push_calls. destruct (accum_cloud p =? 0)%Z.
  - intro H. injection H as _ <-. unfold AccumModel.push_pass. destruct (cm_pts p m); cbn; lia.
  - intro H. apply of_option_ok in H. unfold AccumModel.push, AccumModel.push_process, AccumModel.push_tail in H.
    repeat match type of H with context [if ?b then _ else _] => destruct b | context [match AccumModel.keys a with _ => _ end] => destruct (AccumModel.keys a) end;
      try discriminate; injection H as _ <-; cbn; lia.
Qed.
Lemma callback_other e n c n' o : c <> AccumModel.Process -> callback caster voxel p e n c = Ok (n', o) ->
  n_out n' = n_out n /\ n_pf n' = n_pf n /\ n_odom n' = n_odom n /\ n_imu n' = n_imu n /\ n_map n' = n_map n /\ n_lid n' = n_lid n /\ o = [].
Proof.
  destruct c as [|m ok|]; cbn; intro Hc; [congruence| |].
  - intro H. bok H. destruct x as [n1 b]. injection H as <- <-. unfold accumCloud in E.
    destruct (cm_pts p m); [|injection E as <- <-; auto 10].
    destruct (local (n_acc n)); [|discriminate]. injection E as <- <-. cbn. auto 10.
  - intro H. injection H as <- <-. cbn. auto 10.
Qed.
Lemma callbacks_none e cs : forall n n' o, nproc cs = 0 -> callbacks caster voxel p e n cs = Ok (n', o) ->
  n_out n' = n_out n /\ n_pf n' = n_pf n /\ n_odom n' = n_odom n /\ n_imu n' = n_imu n /\ n_map n' = n_map n /\ n_lid n' = n_lid n /\ o = [].
Proof.
  induction cs as [|c t IH]; cbn; intros n n' o Hn H.
  - injection H as <- <-. auto 10.
  - bok H. destruct x as [n1 o1]. bok H. destruct x as [n2 o2]. injection H as <- <-.
    apply callback_other in E; [|intros ->; discriminate Hn]. apply IH in E0; [|destruct c; [discriminate|assumption|assumption]].
    destruct E as (A1 & A2 & A3 & A4 & A5 & A6 & ->), E0 as (B1 & B2 & B3 & B4 & B5 & B6 & ->). rewrite B1, B2, B3, B4, B5, B6. auto 10.
Qed.
Lemma callbacks_one e cs : forall n n' o, nproc cs = 1 -> callbacks caster voxel p e n cs = Ok (n', o) ->
  exists na nb, at_process voxel p caster e n cs = Ok (Some na)
    /\ n_out na = n_out n /\ n_pf na = n_pf n /\ n_odom na = n_odom n /\ n_imu na = n_imu n /\ n_map na = n_map n /\ n_lid na = n_lid n
    /\ measure caster voxel p na e = Ok (nb, o)
    /\ n_out n' = n_out nb /\ n_pf n' = n_pf nb /\ n_odom n' = n_odom nb /\ n_imu n' = n_imu nb /\ n_map n' = n_map nb /\ n_lid n' = n_lid nb.
Proof.
  induction cs as [|c t IH]; cbn; intros n n' o Hn H; [discriminate|].
  bok H. destruct x as [n1 o1]. bok H. destruct x as [n2 o2]. injection H as <- <-. destruct c as [|m ok|].
  - cbn in E. injection Hn as Hn. apply callbacks_none in E0; [|exact Hn]. destruct E0 as (A1 & A2 & A3 & A4 & A5 & A6 & ->). rewrite app_nil_r.
    exists n, n1. auto 20.
  - pose proof E as E'. apply callback_other in E; [|discriminate]. destruct E as (A1 & A2 & A3 & A4 & A5 & A6 & ->). cbn [callback] in E'.
    destruct (IH _ _ _ Hn E0) as (na & nb & B0 & B1 & B2 & B3 & B4 & B5 & B6 & B7). exists na, nb.
    cbn [callback]. rewrite E'. cbn. rewrite B0. rewrite B1, B2, B3, B4, B5, B6. auto 20.
  - pose proof E as E'. apply callback_other in E; [|discriminate]. destruct E as (A1 & A2 & A3 & A4 & A5 & A6 & ->). cbn [callback] in E'.
    destruct (IH _ _ _ Hn E0) as (na & nb & B0 & B1 & B2 & B3 & B4 & B5 & B6 & B7). exists na, nb.
    injection E' as <-. cbn. rewrite B0. rewrite B1, B2, B3, B4, B5, B6. auto 20.
Qed.

(** one event *)
Definition keeps_entropy n n' : Prop := PfModel.entropy RA (n_pf n) <> None -> PfModel.entropy RA (n_pf n') <> None.
Inductive event_effect n (ev : event) n' (o : list output) : Prop :=
| ev_quiet : same_out n n' -> (resizes ev = false -> psize n' = psize n) -> keeps_entropy n n' ->
    (forall s d a b c, In (OStatus s d a b c) o ->
       d = true /\ s_status s = NORMAL /\ s_error s = ERROR_POINTS_NOT_FOUND /\ s_entropy s = PfModel.entropy RA (n_pf n)) ->
    no_pose o -> (forall s x z, ~ In (OTf s x z) o) -> event_effect n ev n' o
| ev_loc m e h n2 n3 : ev = ECloud m e -> same_out n n2 -> n_pf n2 = n_pf n -> n_odom n2 = n_odom n -> n_imu n2 = n_imu n ->
    n_map n2 = n_map n -> stat (n_out n2) = status0 ->
    localized p n2 e h n3 o -> n_out n' = n_out n3 -> n_pf n' = n_pf n3 -> n_odom n' = n_odom n3 -> event_effect n ev n' o.

Ltac noin H := repeat (destruct H as [H|H]; try discriminate H); destruct H.
Lemma cbOdom_psize n fr t x lk n' o : cbOdom p n fr t x lk = Ok (n', o) -> psize n' = psize n /\ keeps_entropy n n'.
Proof.
  assert (A : forall n1 t x n' b, odom_apply p n1 t x = (n', b) -> psize n' = psize n1 /\ PfModel.entropy RA (n_pf n') = PfModel.entropy RA (n_pf n1)).
  { clear. intros n1 t x n' b. unfold odom_apply. repeat match goal with |- (if ?c then _ else _) = _ -> _ => destruct c end;
      intro H; injection H as <- <-; unfold psize; cbn; auto. rewrite mapi_len. auto. }
  assert (B : forall n1 t a q tf n' b, imu_apply p n1 t a q tf = (n', b) -> psize n' = psize n1 /\ keeps_entropy n1 n').
  { clear. intros n1 t a q tf n' b. unfold imu_apply. repeat match goal with |- (if ?c then _ else _) = _ -> _ => destruct c end; try destruct tf;
      intro H; injection H as <- <-; unfold psize, keeps_entropy; cbn; auto. split; [apply measure_len|apply measure_entropy]. }
  unfold cbOdom. destruct (odom_apply p n t x) as [n1 go] eqn:E. apply A in E. destruct E as [E1 E2].
  destruct (go && fake_imu p).
  - destruct (imu_apply p n1 t _ (rot x) (imu_tf p lk fr)) as [n2 go2] eqn:E3. apply B in E3. destruct E3 as [E3 E4].
    destruct (go2 && fake_odom p); [discriminate|]. intro H. injection H as <- <-. split; [congruence|]. unfold keeps_entropy in *. rewrite <- E2. exact E4.
  - intro H. injection H as <- <-. split; [congruence|]. unfold keeps_entropy. rewrite E2. auto.
Qed.
Lemma cbImu_psize n fr t a q lk n' o : cbImu p n fr t a q lk = Ok (n', o) -> psize n' = psize n /\ keeps_entropy n n'.
Proof.
  assert (A : forall n1 t x n' b, odom_apply p n1 t x = (n', b) -> psize n' = psize n1 /\ PfModel.entropy RA (n_pf n') = PfModel.entropy RA (n_pf n1)).
  { clear. intros n1 t x n' b. unfold odom_apply. repeat match goal with |- (if ?c then _ else _) = _ -> _ => destruct c end;
      intro H; injection H as <- <-; unfold psize; cbn; auto. rewrite mapi_len. auto. }
  assert (B : forall n1 t a q tf n' b, imu_apply p n1 t a q tf = (n', b) -> psize n' = psize n1 /\ keeps_entropy n1 n').
  { clear. intros n1 t a q tf n' b. unfold imu_apply. repeat match goal with |- (if ?c then _ else _) = _ -> _ => destruct c end; try destruct tf;
      intro H; injection H as <- <-; unfold psize, keeps_entropy; cbn; auto. split; [apply measure_len|apply measure_entropy]. }
  unfold cbImu. destruct (imu_apply p n t a q (imu_tf p lk fr)) as [n1 go] eqn:E. apply B in E. destruct E as [E1 E2].
  destruct (go && fake_odom p).
  - destruct (odom_apply p n1 t _) as [n2 go2] eqn:E3. apply A in E3. destruct E3 as [E3 E4].
    destruct (go2 && fake_imu p); [discriminate|]. intro H. injection H as <- <-. split; [congruence|]. unfold keeps_entropy in *. rewrite E4. exact E2.
  - intro H. injection H as <- <-. split; [congruence|exact E2].
Qed.
Lemma quiet_event n ev n' o : n_out n' = n_out n -> (resizes ev = false -> psize n' = psize n) -> keeps_entropy n n' ->
  (forall x, In x o -> match x with OStatus _ _ _ _ _ | OPose _ _ _ | OTf _ _ _ => False | _ => True end) -> event_effect n ev n' o.
Proof.
  intros H1 H2 H3 H4. apply ev_quiet; auto using same_out_eq.
  - intros s d a b c Hi. destruct (H4 _ Hi).
  - intros t a c Hi. exact (H4 _ Hi).
  - intros t a c Hi. exact (H4 _ Hi).
Qed.
Lemma timer_out n now n' o : cbMapUpdateTimer n now = Ok (n', o) -> n_out n' = n_out n /\ n_pf n' = n_pf n /\
  forall x, In x o -> exists c, x = OMap c.
Proof.
  unfold cbMapUpdateTimer. intro H. bok H. destruct x as [m o']. injection H as <- <-. split; [reflexivity|]. split; [reflexivity|].
  unfold timer_map in E. destruct (has_map (n_map n)); [|injection E as <- <-; intros x []].
  destruct (pc_update (n_map n)).
  - destruct (match pc_map2 (n_map n) with Some l => _ | None => _ end) as [h0 m2]. bok E. bok E. injection E as <- <-. intros zz [<-|[]]. eauto.
  - destruct (pc_map2 (n_map n)); [injection E as <- <-; intros x []|]. bok E. injection E as <- <-. intros zz [<-|[]]. eauto.
Qed.
Lemma event_cases n ev n' o : (0 <= Rceil (lpf_step p))%Z -> step caster voxel p n ev = Ok (n', o) -> event_effect n ev n' o.
Proof.
  intros Hl H. destruct ev; cbn [step] in H.
  - unfold cbMapcloud in H. destruct conv as [b|].
    + unfold loadMapCloud in H. apply timer_out in H. destruct H as (H1 & H2 & H3). apply quiet_event; [exact H1|intros _; unfold psize; rewrite H2; reflexivity|unfold keeps_entropy; rewrite H2; auto|].
      intros x Hx. destruct (H3 x Hx) as (c & ->). exact I.
    + injection H as <- <-. apply quiet_event; [reflexivity|reflexivity|exact (fun x => x)|intros x []].
  - unfold cbLoadPCD in H. destruct file as [b|].
    + bok H. destruct x as [n1 o1]. injection H as <- <-. unfold loadMapCloud in E. apply timer_out in E. destruct E as (H1 & H2 & H3).
      apply quiet_event; [exact H1|intros _; unfold psize; rewrite H2; reflexivity|unfold keeps_entropy; rewrite H2; auto|].
      intros x Hx. apply in_app_or in Hx. destruct Hx as [Hx|[<-|[]]]; [|exact I]. destruct (H3 x Hx) as (c & ->). exact I.
    + injection H as <- <-. apply quiet_event; [reflexivity|reflexivity|exact (fun x => x)|intros x [<-|[]]; exact I].
  - unfold cbMapcloudUpdate in H. destruct conv as [b|]; injection H as <- <-; (apply quiet_event; [reflexivity|reflexivity|exact (fun x => x)|intros x []]).
  - apply timer_out in H. destruct H as (H1 & H2 & H3). apply quiet_event; [exact H1|intros _; unfold psize; rewrite H2; reflexivity|unfold keeps_entropy; rewrite H2; auto|].
    intros x Hx. destruct (H3 x Hx) as (c & ->). exact I.
  - unfold cbPosition in H. destruct (Rltb (1 / 10) _); [injection H as <- <-; (apply quiet_event; [reflexivity|reflexivity|exact (fun x => x)|intros x []])|].
    destruct (pose_in_map p lk m); injection H as <- <-; (apply quiet_event; [reflexivity| |exact (fun x => x)|]).
    + intros _. unfold psize. cbn [set_map set_pf n_pf PfModel.predict PfModel.init PfModel.parts]. rewrite !mapi_len. reflexivity.
    + intros x [<-|[]]; exact I.
    + reflexivity.
    + intros x [].
  - pose proof (cbOdom_psize _ _ _ _ _ _ _ H) as [H1 H2]. apply (cbOdom_frame voxel) in H. destruct H as (_ & _ & H3 & _ & ->). apply quiet_event; [exact H3|intros _; exact H1|exact H2|intros z []].
  - pose proof (cbImu_psize _ _ _ _ _ _ _ _ H) as [H1 H2]. apply (cbImu_frame voxel) in H. destruct H as (_ & _ & H3 & _ & ->). apply quiet_event; [exact H3|intros _; exact H1|exact H2|intros z []].
  - unfold cbCloud in H. destruct (has_map (n_map n)) eqn:Eh.
    2:{ injection H as <- <-. apply ev_quiet; [constructor; reflexivity|reflexivity|exact (fun x => x)|intros ? ? ? ? ? []|intros ? ? ? []|intros ? ? ? []]. }
    bok H. destruct x as [a cs]. bok H. destruct x as [n1 o1]. injection H as <- <-.
    pose proof (push_calls_once _ _ _ _ E) as Hc. destruct (nproc cs) as [|[|k]] eqn:Ec; [| |lia].
    + apply callbacks_none in E0; [|exact Ec]. destruct E0 as (A1 & A2 & A3 & A4 & A5 & A6 & ->).
      apply ev_quiet; try (intros ? ? ? ? ? []); try (intros ? ? ? []).
      * constructor; cbn; rewrite A1; reflexivity.
      * intros _. unfold psize. cbn. rewrite A2. reflexivity.
      * unfold keeps_entropy. cbn. rewrite A2. auto.
    + apply callbacks_one in E0; [|exact Ec]. destruct E0 as (na & nb & B0 & B1 & B2 & B3 & B4 & B5 & B6 & B7 & B8 & B9 & B10 & B11 & B12 & B13).
      apply measure_cases in B7; [|exact Hl].
      assert (Sa : same_out n na) by (constructor; rewrite B1; reflexivity).
      assert (St : stat (n_out na) = status0) by (rewrite B1; reflexivity).
      change (n_pf (set_stat n status0)) with (n_pf n) in B2. change (n_odom (set_stat n status0)) with (n_odom n) in B3.
      change (n_imu (set_stat n status0)) with (n_imu n) in B4. change (n_map (set_stat n status0)) with (n_map n) in B5.
      destruct B7 as [C1 C2 C3 C4|n2 h C1 C2 C3 C4 C5 C6 C7 C8].
      * apply ev_quiet.
        -- eapply same_out_trans; [exact Sa|]. eapply same_out_trans; [exact C1|]. apply same_out_eq. exact B8.
        -- intros _. unfold psize. cbn [set_acc n_pf]. rewrite B9, C2, B2. reflexivity.
        -- unfold keeps_entropy. cbn [set_acc n_pf]. rewrite B9, C2, B2. auto.
        -- intros s d a0 b c Hi. destruct C4 as [[-> _]|(-> & D1 & D2 & D3)]; [destruct Hi|]. destruct Hi as [Hi|[]]. injection Hi as <- <- _ _ _.
           rewrite D1, St, D3, B2. auto.
        -- intros t x c Hi. destruct C4 as [[-> _]|(-> & _)]; [destruct Hi|]. destruct Hi as [Hi|[]]. discriminate.
        -- intros t x c Hi. destruct C4 as [[-> _]|(-> & _)]; [destruct Hi|]. destruct Hi as [Hi|[]]. discriminate.
      * eapply ev_loc with (n2 := n2) (n3 := nb); try reflexivity; try congruence; try exact C8; try assumption.
        eapply same_out_trans; [exact Sa|exact C1].
  - unfold cbLandmark in H. bok H. injection H as <- <-.
    apply of_option_ok, resample_ok in E. destruct E as [E1 E2].
    apply quiet_event; [reflexivity| | |intros zz [<-|[]]; exact I].
    + intros _. unfold psize. cbn [set_pf n_pf]. rewrite E1. apply measure_len.
    + unfold keeps_entropy. cbn [set_pf n_pf]. rewrite E2. apply measure_entropy.
  - unfold cbResizeParticle in H. bok H. injection H as <- <-. apply of_option_ok, resize_ok in E. destruct E as [E1 E2].
    apply quiet_event; [reflexivity|discriminate| |intros zz [<-|[<-|[]]]; exact I].
    unfold keeps_entropy. cbn [set_pf n_pf]. rewrite E2. auto.
  - unfold cbExpansionReset in H. injection H as <- <-. apply quiet_event; [reflexivity| |exact (fun x => x)|intros zz [<-|[<-|[]]]; exact I].
    intros _. unfold psize. cbn. apply mapi_len.
  - unfold cbGlobalLocalization in H. destruct (has_map (n_map n)).
    + bok H. bok H. bok H. injection H as <- <-. apply of_option_ok, resize_ok in E0. destruct E0 as [E3 E4].
      apply quiet_event; [reflexivity|discriminate| |intros zz [<-|[]]; exact I].
      unfold keeps_entropy. cbn. rewrite E4. auto.
    + injection H as <- <-. apply quiet_event; [reflexivity|reflexivity|exact (fun x => x)|intros zz [<-|[]]; exact I].
Qed.

(** ** Traces *)
Lemma trace_steps evs : forall n tr, trace voxel p caster n evs = Ok tr -> exists n' o, steps caster voxel p n evs = Ok (n', o) /\ o = flat_map (@outs S) tr.
Proof.
  induction evs as [|ev t IH]; cbn; intros n tr H.
  - injection H as <-. eauto.
  - bok H. destruct x as [n1 o1]. bok H. injection H as <-. rewrite E. cbn. destruct (IH _ _ E0) as (n' & o & H1 & ->). rewrite H1. cbn. eauto.
Qed.
End Steps.
