(** The accumulated cloud inside the node. *)
From Coq Require Import String Reals ZArith NArith List Bool Arith Lia.
From Verif Require PfModel FilterModel AccumModel.
From Verif Require Import Arith KdModel QuatModel StateModel StateSpec RayModel LidarModel NdModel ParamModel NodeModel NodeSpec NodeFrame NodeLocProofs NodeStepProofs NodeMapProofs.
Import ListNotations.
Open Scope nat_scope.
Open Scope list_scope.

Lemma in_odom_eq p m : in_odom p m = cm_pts p m.
Proof. unfold in_odom, cm_pts. destruct (cm_lookup m _ _ _) as [[t r]|]; [|reflexivity]. destruct (cm_conv m); reflexivity. Qed.
Lemma labelled_app p a : forall i b, labelled p i (a ++ b) = labelled p i a ++ labelled p (i + length a) b.
Proof. induction a as [|m a IH]; intros i b; cbn; [rewrite Nat.add_0_r; reflexivity|]. rewrite IH, <- app_assoc. do 3 f_equal. lia. Qed.
Lemma labelled_lt p a : forall i q, In q (labelled p i a) -> lab q < i + length a.
Proof.
  induction a as [|m a IH]; intros i q H; cbn in *; [destruct H|]. apply in_app_or in H. destruct H as [H|H].
  - apply in_map_iff in H. destruct H as (v & <- & _). cbn. lia.
  - apply IH in H. lia.
Qed.
Lemma suffix_nil {X} (l : list X) : is_suffix [] l.
Proof. exists l. rewrite app_nil_r. reflexivity. Qed.
Lemma suffix_snoc {X} (s l : list X) x : is_suffix s l -> is_suffix (s ++ [x]) (l ++ [x]).
Proof. intros (pre & ->). exists pre. rewrite app_assoc. reflexivity. Qed.
Lemma get_origins_len f hs : forall os, get_origins f hs = Some os -> length os = length hs.
Proof.
  induction hs as [|h t IH]; intros os H; cbn in H; [injection H as <-; reflexivity|].
  destruct (f h); [|discriminate]. destruct (get_origins f t) eqn:E; [|discriminate]. cbn in H. injection H as <-. cbn. f_equal. apply IH. reflexivity.
Qed.
Lemma get_origins_nth f hs : forall os i h, get_origins f hs = Some os -> nth_error hs i = Some h -> nth_error os i = f h /\ f h <> None.
Proof.
  induction hs as [|h t IH]; intros os i h0 H Hi; [destruct i; discriminate|]. cbn in H.
  destruct (f h) eqn:Ef; [|discriminate]. destruct (get_origins f t) eqn:E; [|discriminate]. cbn in H. injection H as <-.
  destruct i; cbn in *; [injection Hi as <-; rewrite Ef; split; [reflexivity|discriminate]|eauto].
Qed.
Lemma get_origins_total f hs : (forall h, f h <> None) -> exists os, get_origins f hs = Some os.
Proof.
  intro Hf. induction hs as [|h t IH]; cbn; [eauto|]. destruct (f h) eqn:E; [|destruct (Hf _ E)]. destruct IH as (os & ->). cbn. eauto.
Qed.

Section Acc.
Context {S : Type} (caster : cloud -> (pt -> R -> search) -> raycaster S)
        (voxel : R * R * R -> list lpt -> list lpt) (p : params).
Notation node := (node (S := S)).
Implicit Types n : node.

(** the buffer holds exactly the clouds [buf] *)
Definition holds (a : accst) (buf : list cloud_msg) : Prop :=
  local a = Some (labelled p 0 buf) /\ headers a = map msg_header buf.
(** with accumulation the buffer is, between messages, the latest accepted clouds *)
Definition acc_ok n (acc : list cloud_msg) : Prop :=
  accum_cloud p <> 0%Z ->
  (local (n_acc n) = None /\ AccumModel.keys (ac (n_acc n)) = [] /\ headers (n_acc n) = [])
  \/ exists buf, holds (n_acc n) buf /\ length (AccumModel.keys (ac (n_acc n))) = length buf /\ is_suffix buf acc.
Lemma acc_same n n' acc : n_acc n' = n_acc n -> acc_ok n acc -> acc_ok n' acc.
Proof. unfold acc_ok. intros ->. auto. Qed.

Lemma holds_clear a : holds (accumClear a) [].
Proof. split; reflexivity. Qed.
Lemma accum_true e n m buf n' o : holds (n_acc n) buf -> cm_pts p m <> None ->
  callback caster voxel p e n (AccumModel.Accumulate m true) = Ok (n', o) ->
  holds (n_acc n') (buf ++ [m]) /\ o = [].
Proof.
  intros [H1 H2] Hm. cbn. unfold accumCloud. destruct (cm_pts p m) as [pts|] eqn:Ep; [|congruence]. rewrite H1. cbn. intro H. injection H as <- <-.
  split; [|reflexivity]. split; cbn.
  - rewrite labelled_app. cbn. unfold msg_points. rewrite in_odom_eq, Ep, app_nil_r, H2, map_length. reflexivity.
  - rewrite H2, map_app. reflexivity.
Qed.
Lemma accum_false e n m b n' o : cm_pts p m = None -> callback caster voxel p e n (AccumModel.Accumulate m b) = Ok (n', o) -> n' = n.
Proof. intro Hm. cbn. unfold accumCloud. rewrite Hm. cbn. intro H. injection H as <- <-. reflexivity. Qed.
(** a processed buffer keeps its labels and headers *)
Lemma measure_acc n e n' o : measure caster voxel p n e = Ok (n', o) -> ac (n_acc n') = ac (n_acc n) /\ headers (n_acc n') = headers (n_acc n).
Proof. intro H. apply measure_frame in H. tauto. Qed.
(** set_acc at the end of cbCloud *)
Definition with_ac n a : node := set_acc n {| ac := a; local := local (n_acc n); headers := headers (n_acc n) |}.

(** the buffer at a measurement *)
Lemma accum_process n e m acc a cs : accum_cloud p <> 0%Z -> acc_ok n acc -> push_calls p (ac (n_acc n)) m = Ok (a, cs) -> local (n_acc n) <> None ->
  forall na, at_process voxel p caster e n cs = Ok (Some na) -> n_acc na = n_acc n /\ exists buf, buf <> [] /\ holds (n_acc na) buf /\ is_suffix buf acc.
Proof.
  intros Hz Ha Hp Hl. unfold push_calls in Hp. destruct (accum_cloud p =? 0)%Z eqn:Ez; [apply Z.eqb_eq in Ez; congruence|]. clear Ez.
  apply of_option_ok in Hp. destruct (Ha Hz) as [(Ha1 & _)|(buf & Hb & Hk & Hs)]; [congruence|].
  set (ok := match cm_pts p m with Some _ => true | None => false end) in *.
  assert (Proc : AccumModel.keys (ac (n_acc n)) <> [] -> Some (AccumModel.push_process (cm_frame m) m ok (ac (n_acc n))) = Some (a, cs) ->
    forall na, at_process voxel p caster e n cs = Ok (Some na) -> n_acc na = n_acc n /\ exists buf, buf <> [] /\ holds (n_acc na) buf /\ is_suffix buf acc).
  { intros Hne Hq na Hna. unfold AccumModel.push_process, AccumModel.push_tail in Hq.
    destruct ok; injection Hq as <- <-; cbn in Hna; injection Hna as <-; (split; [reflexivity|]);
        (exists buf; split; [intros ->; destruct (AccumModel.keys (ac (n_acc n))); [congruence|discriminate Hk]|split; assumption]). }
  assert (NoP : nproc cs = 0 -> forall na, at_process voxel p caster e n cs = Ok (Some na) -> n_acc na = n_acc n /\ exists buf, buf <> [] /\ holds (n_acc na) buf /\ is_suffix buf acc).
  { intros Hn na Hna. exfalso. clear -Hn Hna. revert n Hna. induction cs as [|c t IH]; intros n Hna; cbn in Hna; [discriminate|].
    destruct c; [discriminate| |]; cbn in Hn; bok Hna; destruct x; eapply IH; eassumption. }
  unfold AccumModel.push in Hp.
  destruct (length (AccumModel.keys (ac (n_acc n))) <? AccumModel.accum_max (acc_cfg p)).
  - destruct (AccumModel.keys (ac (n_acc n))) as [|f ks] eqn:Ek.
    + destruct ok; injection Hp as <- <-; apply NoP; reflexivity.
    + destruct (negb (String.eqb f (cm_frame m))); [destruct ok; injection Hp as <- <-; apply NoP; reflexivity|].
      destruct (AccumModel.cnt_accum (ac (n_acc n)) <? AccumModel.accum (acc_cfg p)); [destruct ok; injection Hp as <- <-; apply NoP; reflexivity|].
      apply Proc; [discriminate|exact Hp].
  - destruct (AccumModel.keys (ac (n_acc n))) as [|f ks] eqn:Ek; [discriminate|]. apply Proc; [discriminate|exact Hp].
Qed.

(** one cloud message with accumulation: the buffer at the measurement and afterwards *)
Lemma cloud_accum n e m acc a cs n' o : accum_cloud p <> 0%Z -> acc_ok n acc -> push_calls p (ac (n_acc n)) m = Ok (a, cs) ->
  callbacks caster voxel p e n cs = Ok (n', o) -> local (n_acc n) <> None ->
  acc_ok (with_ac n' a) (match cm_pts p m with Some _ => acc ++ [m] | None => acc end).
Proof.
  intros Hz Ha Hp Hc Hl. unfold push_calls in Hp. destruct (accum_cloud p =? 0)%Z eqn:Ez; [apply Z.eqb_eq in Ez; congruence|]. clear Ez.
  apply of_option_ok in Hp. destruct (Ha Hz) as [(Ha1 & _)|(buf & Hb & Hk & Hs)]; [congruence|].
  set (ok := match cm_pts p m with Some _ => true | None => false end) in *.
  set (acc' := match cm_pts p m with Some _ => acc ++ [m] | None => acc end).
  (* the message alone is accumulated on top of a buffer *)
  assert (Add : forall n1 b1 n2 o2 (k : list string), holds (n_acc n1) b1 -> is_suffix b1 acc -> length k = length b1 -> ok = true ->
     callbacks caster voxel p e n1 [AccumModel.Accumulate m true] = Ok (n2, o2) ->
     forall c, acc_ok (with_ac n2 {| AccumModel.cnt_accum := c; AccumModel.keys := k ++ [cm_frame m] |}) acc').
  { intros n1 b1 n2 o2 k H1 H2 H3 H4 H5 c. cbn [callbacks] in H5. bok H5. destruct x as [n3 o3]. cbn in H5. injection H5 as <- <-.
    assert (Hm : cm_pts p m <> None) by (unfold ok in H4; destruct (cm_pts p m); [discriminate|discriminate H4]).
    destruct (accum_true e n1 m b1 n3 o3 H1 Hm E) as [K _]. intros _. right. exists (b1 ++ [m]). split; [exact K|]. cbn. rewrite !app_length, H3. split; [reflexivity|].
    unfold acc'. destruct (cm_pts p m); [|congruence]. apply suffix_snoc. exact H2. }
  (* a failed message clears the buffer *)
  assert (Fail : forall n2 o2 c, ok = false -> callbacks caster voxel p e n [AccumModel.Accumulate m false; AccumModel.Clear] = Ok (n2, o2) ->
     acc_ok (with_ac n2 {| AccumModel.cnt_accum := c; AccumModel.keys := [] |}) acc').
  { intros n2 o2 c H4 H5. cbn [callbacks] in H5. bok H5. destruct x as [n3 o3]. bok H5. destruct x as [n4 o4]. injection H5 as <- <-.
    bok E0. destruct x as [n5 o5]. cbn in E0. injection E0 as <- <-. cbn in E1. injection E1 as <- <-.
    intros _. right. exists []. split; [apply holds_clear|]. split; [reflexivity|apply suffix_nil]. }
  unfold AccumModel.push in Hp.
  assert (Proc : Some (AccumModel.push_process (cm_frame m) m ok (ac (n_acc n))) = Some (a, cs) -> acc_ok (with_ac n' a) acc').
  { intros Hq. unfold AccumModel.push_process, AccumModel.push_tail in Hq. cbn [AccumModel.reset AccumModel.cnt_accum AccumModel.keys] in Hq.
    destruct ok eqn:Eok; injection Hq as <- <-; cbn [callbacks] in Hc; bok Hc; destruct x as [n1 o1]; bok Hc; destruct x as [n2 o2]; injection Hc as <- <-;
        bok E0; destruct x as [n3 o3]; bok E0; destruct x as [n4 o4]; injection E0 as <- <-; cbn in E1; injection E1 as <- <-.
    - exact (Add (set_acc n1 (accumClear (n_acc n1))) [] _ _ [] (holds_clear (n_acc n1)) (suffix_nil _) eq_refl eq_refl E2 1).
    - bok E2. destruct x as [n5 o5]. cbn in E2. injection E2 as <- <-. assert (Hm : cm_pts p m = None) by (unfold ok in Eok; destruct (cm_pts p m); [discriminate|reflexivity]).
      apply (accum_false e _ m false _ _ Hm) in E0. subst n5. intros _. right. exists []. split; [apply holds_clear|]. split; [reflexivity|apply suffix_nil]. }
  destruct (length (AccumModel.keys (ac (n_acc n))) <? AccumModel.accum_max (acc_cfg p)).
  - destruct (AccumModel.keys (ac (n_acc n))) as [|f ks] eqn:Ek.
    + destruct ok eqn:Eok; injection Hp as <- <-.
      * eapply (Add n buf _ _ []); eauto.
      * eapply Fail; [reflexivity|exact Hc].
    + destruct (negb (String.eqb f (cm_frame m))).
      * destruct ok eqn:Eok; injection Hp as <- <-.
        -- eapply (Add n buf _ _ (f :: ks)); eauto.
        -- eapply Fail; [reflexivity|exact Hc].
      * destruct (AccumModel.cnt_accum (ac (n_acc n)) <? AccumModel.accum (acc_cfg p)).
        -- destruct ok eqn:Eok; injection Hp as <- <-.
           ++ eapply (Add n buf _ _ (f :: ks)); eauto.
           ++ eapply Fail; [reflexivity|exact Hc].
        -- apply Proc. exact Hp.
  - destruct (AccumModel.keys (ac (n_acc n))) as [|f ks] eqn:Ek; [discriminate|]. apply Proc. exact Hp.
Qed.
(** after a measurement the buffer holds at most the arriving cloud *)
Lemma cloud_after n e m a cs n' o : accum_cloud p <> 0%Z -> push_calls p (ac (n_acc n)) m = Ok (a, cs) -> nproc cs = 1 ->
  callbacks caster voxel p e n cs = Ok (n', o) ->
  acc_ok (with_ac n' a) (match cm_pts p m with Some _ => [m] | None => [] end).
Proof.
  intros Hz Hp Hn Hc. unfold push_calls in Hp. destruct (accum_cloud p =? 0)%Z eqn:Ez; [apply Z.eqb_eq in Ez; congruence|]. clear Ez.
  apply of_option_ok in Hp. unfold AccumModel.push in Hp.
  assert (Proc : Some (AccumModel.push_process (cm_frame m) m (match cm_pts p m with Some _ => true | None => false end) (ac (n_acc n))) = Some (a, cs) ->
     acc_ok (with_ac n' a) (match cm_pts p m with Some _ => [m] | None => [] end)).
  { intros Hq. unfold AccumModel.push_process, AccumModel.push_tail in Hq. cbn [AccumModel.reset AccumModel.cnt_accum AccumModel.keys] in Hq.
    destruct (cm_pts p m) as [pts|] eqn:Em; injection Hq as <- <-; cbn [callbacks] in Hc; bok Hc; destruct x as [n1 o1]; bok Hc; destruct x as [n2 o2]; injection Hc as <- <-;
      bok E0; destruct x as [n3 o3]; bok E0; destruct x as [n4 o4]; injection E0 as <- <-; cbn in E1; injection E1 as <- <-;
      bok E2; destruct x as [n5 o5]; cbn in E2; injection E2 as <- <-.
    - assert (Hm : cm_pts p m <> None) by congruence. destruct (accum_true e (set_acc n1 (accumClear (n_acc n1))) m [] n5 o5 (holds_clear (n_acc n1)) Hm E0) as [K _].
      intros _. right. exists [m]. split; [exact K|]. split; [reflexivity|exists []; reflexivity].
    - apply (accum_false e _ m false _ _ Em) in E0. subst n5. intros _. right. exists []. split; [apply holds_clear|]. split; [reflexivity|apply suffix_nil]. }
  repeat match type of Hp with
    | context [if ?b then _ else _] => destruct b
    | context [match AccumModel.keys ?k with _ => _ end] => destruct (AccumModel.keys k)
    | context [match cm_pts p ?k with _ => _ end] => fail 1
    end; try discriminate; try (apply Proc; exact Hp);
  exfalso; destruct (cm_pts p m); injection Hp as <- <-; discriminate Hn.
Qed.
(** one cloud message without accumulation *)
Lemma cloud_pass n e m a cs : accum_cloud p = 0%Z -> push_calls p (ac (n_acc n)) m = Ok (a, cs) ->
  forall na, at_process voxel p caster e n cs = Ok (Some na) -> cm_pts p m <> None /\ holds (n_acc na) [m].
Proof.
  intros Hz Hp na Hna. unfold push_calls in Hp. rewrite Hz in Hp. cbn in Hp. injection Hp as _ <-.
  unfold AccumModel.push_pass in Hna. destruct (cm_pts p m) as [pts|] eqn:Ep; cbn in Hna; unfold accumCloud in Hna; rewrite Ep in Hna; cbn in Hna; [|discriminate].
  injection Hna as <-. split; [discriminate|]. split; cbn; [|reflexivity]. unfold msg_points. rewrite in_odom_eq, Ep, app_nil_r. reflexivity.
Qed.

(** the map side, needed to know when clouds are accepted *)
Record node_ok n (os : list output) (x : expected) (acc : list cloud_msg) : Prop := {
  no_map : inv p n os x; no_acc : acc_ok n acc }.
Lemma node_step n os x acc ev n' o : node_ok n os x acc -> step caster voxel p n ev = Ok (n', o) ->
  node_ok n' (os ++ o) (expect_step voxel p (fun cur u => cur ++ u) x ev)
    (acc ++ match ev with ECloud m _ => match avail x, in_odom p m with true, Some _ => [m] | _, _ => [] end | _ => [] end).
Proof.
  intros [Hm Ha] H. split; [eapply inv_step; eassumption|].
  assert (Load : forall s b t n' o, loadMapCloud voxel p n s b t = Ok (n', o) -> acc_ok n' (acc ++ [])).
  { intros s b t n1 o1 Hl. rewrite app_nil_r. unfold loadMapCloud, cbMapUpdateTimer in Hl. bok Hl. destruct x0 as [mm oo]. injection Hl as <- <-.
    intros Hz. right. exists []. cbn. apply Z.eqb_neq in Hz. rewrite Hz. cbn. split; [split; reflexivity|]. split; [reflexivity|apply suffix_nil]. }
  destruct ev; cbn [step] in H.
  - unfold cbMapcloud in H. destruct conv as [b|]; [eapply Load; exact H|]. injection H as <- <-. rewrite app_nil_r. exact Ha.
  - unfold cbLoadPCD in H. destruct file as [b|]; [|injection H as <- <-; rewrite app_nil_r; exact Ha].
    bok H. destruct x0 as [n1 o1]. injection H as <- <-. eapply Load; exact E.
  - rewrite app_nil_r. unfold cbMapcloudUpdate in H. destruct conv; injection H as <- <-; exact Ha.
  - rewrite app_nil_r. unfold cbMapUpdateTimer in H. bok H. destruct x0 as [mm oo]. injection H as <- <-. exact Ha.
  - rewrite app_nil_r. apply cbPosition_frame in H. destruct H as (B1 & _). eapply acc_same; eassumption.
  - rewrite app_nil_r. apply (cbOdom_frame voxel) in H. destruct H as (_ & B1 & _). eapply acc_same; eassumption.
  - rewrite app_nil_r. apply (cbImu_frame voxel) in H. destruct H as (_ & B1 & _). eapply acc_same; eassumption.
  - rewrite in_odom_eq. unfold cbCloud in H. pose proof (iv_has _ _ _ _ Hm) as Hav. rewrite <- Hav. destruct (has_map (n_map n)) eqn:Eh.
    + bok H. destruct x0 as [a cs]. bok H. destruct x0 as [n1 o1]. injection H as <- <-.
      destruct (Z.eq_dec (accum_cloud p) 0) as [Hz|Hz]; [intro Hz'; congruence|].
      assert (Hloc : local (n_acc n) <> None) by (destruct (iv_map _ _ _ _ Hm (eq_sym Hav)) as (? & ? & ? & ? & ? & ? & ? & ? & ? & ? & Hl & ?); exact Hl).
      assert (Ha' : acc_ok (set_stat n status0) acc) by exact Ha.
      pose proof (cloud_accum (set_stat n status0) e m acc a cs n1 o1 Hz Ha' E E0 Hloc) as K.
      destruct (cm_pts p m); [exact K|rewrite app_nil_r; exact K].
    + injection H as <- <-. rewrite app_nil_r. exact Ha.
  - rewrite app_nil_r. unfold cbLandmark in H. bok H. injection H as <- <-. exact Ha.
  - rewrite app_nil_r. unfold cbResizeParticle in H. bok H. injection H as <- <-. exact Ha.
  - rewrite app_nil_r. unfold cbExpansionReset in H. injection H as <- <-. exact Ha.
  - rewrite app_nil_r. unfold cbGlobalLocalization in H. destruct (has_map (n_map n)); [bok H; bok H; bok H|]; injection H as <- <-; exact Ha.
Qed.
Lemma node_steps evs : forall n os x acc n' o, node_ok n os x acc -> steps caster voxel p n evs = Ok (n', o) ->
  node_ok n' (os ++ o) (fold_left (expect_step voxel p (fun cur u => cur ++ u)) evs x) (acc ++ accepted voxel p x evs).
Proof.
  induction evs as [|ev t IH]; cbn; intros n os x acc n' o Hi H.
  - injection H as <- <-. rewrite !app_nil_r. exact Hi.
  - bok H. destruct x0 as [n1 o1]. bok H. destruct x0 as [n2 o2]. injection H as <- <-.
    pose proof (IH _ _ _ _ _ _ (node_step _ _ _ _ _ _ _ Hi E) E0) as K. rewrite <- !app_assoc in K.
    match type of K with node_ok _ _ _ (acc ++ ?l) => match goal with |- node_ok _ _ _ (acc ++ ?r) => assert (Eq : r = l); [|rewrite Eq; exact K] end end.
    destruct ev; try reflexivity. destruct (avail x); [|reflexivity]. destruct (in_odom p m); reflexivity.
Qed.
Lemma node_reach evs gen rc0 n o : steps caster voxel p (configure p gen rc0) evs = Ok (n, o) ->
  node_ok n o (expect_run voxel p evs) (accepted voxel p expected0 evs).
Proof.
  intro H. refine (node_steps evs _ [] _ [] _ _ _ H). split; [apply inv_init|]. intros _. left. repeat split; reflexivity.
Qed.
End Acc.
