(** C129: a negative number of clouds to accumulate switches the localization off. *)
From Coq Require Import String Reals ZArith NArith List Bool Arith Lia.
From Verif Require PfModel FilterModel AccumModel.
From Verif Require Import Arith KdModel QuatModel StateModel StateSpec RayModel LidarModel NdModel ParamModel NodeModel NodeSpec NodeFrame NodeLocProofs NodeStepProofs NodeMapProofs NodeAccProofs NodeAccProps NodeDemo.
Import ListNotations.
Open Scope nat_scope.
Open Scope list_scope.

Section Neg.
Context {S : Type} (caster : cloud -> (pt -> R -> search) -> raycaster S)
        (voxel : R * R * R -> list lpt -> list lpt) (p : params).
Notation node := (node (S := S)).
Implicit Types n : node.

Definition few (k : nat) (a : AccumModel.accum_st) : Prop := length (AccumModel.keys a) <= k /\ AccumModel.cnt_accum a <= k.
Lemma few_le k k' a : few k a -> k <= k' -> few k' a. Proof. unfold few. lia. Qed.
Lemma few_reset k a : few k (AccumModel.reset a). Proof. unfold few. cbn. lia. Qed.
Lemma big z : (- 2 ^ 31 <= z < 0)%Z -> (Z.of_nat (Z.to_nat (z mod 2 ^ 64)) = 2 ^ 64 + z)%Z.
Proof. intro H. replace (z mod 2 ^ 64)%Z with (2 ^ 64 + z)%Z; [rewrite Z2Nat.id; lia|]. apply Z.mod_unique with (-1)%Z; lia. Qed.
Lemma push_few k a m a' cs : (- 2 ^ 31 <= accum_cloud p < 0)%Z -> (- 2 ^ 31 <= total_accum_max p < 0)%Z -> (Z.of_nat k < 2 ^ 63)%Z -> few k a ->
  push_calls p a m = Ok (a', cs) -> few (Datatypes.S k) a' /\ nproc cs = 0.
Proof.
  intros Ha Hm Hk (F1 & F2) H. unfold push_calls in H. assert (Ez : (accum_cloud p =? 0)%Z = false) by (apply Z.eqb_neq; lia). rewrite Ez in H.
  pose proof (big _ Ha) as Ba. pose proof (big _ Hm) as Bm.
  unfold AccumModel.push in H. cbn [acc_cfg AccumModel.accum AccumModel.accum_max] in H.
  set (A := Z.to_nat (accum_cloud p mod 2 ^ 64)) in *. set (B := Z.to_nat (total_accum_max p mod 2 ^ 64)) in *. clearbody A B.
  assert (E1 : (length (AccumModel.keys a) <? B) = true) by (apply Nat.ltb_lt; lia). rewrite E1 in H.
  assert (E2 : (AccumModel.cnt_accum a <? A) = true) by (apply Nat.ltb_lt; lia). rewrite E2 in H.
  destruct (AccumModel.keys a) as [|f r] eqn:Ek; destruct (cm_pts p m); cbn [of_option negb] in H;
    repeat match type of H with context [if ?b then _ else _] => destruct b end; injection H as <- <-;
    (split; [unfold few; cbn [AccumModel.keys AccumModel.cnt_accum AccumModel.reset]; cbn [length] in *; rewrite ?app_length; cbn [length]; lia|reflexivity]).
Qed.
Lemma other_few k n ev n' o : few k (ac (n_acc n)) -> (forall m e, ev <> ECloud m e) -> step caster voxel p n ev = Ok (n', o) -> few k (ac (n_acc n')).
Proof.
  intros F Hn H.
  assert (Load : forall s b t n' o, loadMapCloud voxel p n s b t = Ok (n', o) -> few k (ac (n_acc n'))).
  { intros s b t n1 o1 Hl. unfold loadMapCloud, cbMapUpdateTimer in Hl. bok Hl. destruct x as [mm oo]. injection Hl as <- <-. cbn.
    destruct (accum_cloud p =? 0)%Z; [exact F|apply few_reset]. }
  destruct ev; cbn [step] in H.
  - unfold cbMapcloud in H. destruct conv as [b|]; [eapply Load; exact H|]. injection H as <- <-. exact F.
  - unfold cbLoadPCD in H. destruct file as [b|]; [|injection H as <- <-; exact F]. bok H. destruct x as [n1 o1]. injection H as <- <-. eapply Load; exact E.
  - unfold cbMapcloudUpdate in H. destruct conv; injection H as <- <-; exact F.
  - unfold cbMapUpdateTimer in H. bok H. destruct x as [mm oo]. injection H as <- <-. exact F.
  - unfold cbPosition in H. destruct (Rltb (1 / 10) _); [injection H as <- <-; exact F|]. destruct (pose_in_map p lk m); injection H as <- <-; exact F.
  - apply (cbOdom_frame voxel) in H. destruct H as (_ & -> & _). exact F.
  - apply (cbImu_frame voxel) in H. destruct H as (_ & -> & _). exact F.
  - destruct (Hn m e eq_refl).
  - unfold cbLandmark in H. bok H. injection H as <- <-. exact F.
  - unfold cbResizeParticle in H. bok H. injection H as <- <-. exact F.
  - unfold cbExpansionReset in H. injection H as <- <-. exact F.
  - unfold cbGlobalLocalization in H. destruct (has_map (n_map n)); [bok H; bok H; bok H|]; injection H as <- <-; exact F.
Qed.
Lemma cloud_silent k n m e n' o : (- 2 ^ 31 <= accum_cloud p < 0)%Z -> (- 2 ^ 31 <= total_accum_max p < 0)%Z -> (Z.of_nat k < 2 ^ 63)%Z -> few k (ac (n_acc n)) ->
  step caster voxel p n (ECloud m e) = Ok (n', o) -> few (Datatypes.S k) (ac (n_acc n')) /\ o = [] /\ n_pf n' = n_pf n.
Proof.
  intros Ha Hm Hk F H. cbn [step] in H. unfold cbCloud in H. destruct (has_map (n_map n)).
  2:{ injection H as <- <-. split; [apply (few_le k); [exact F|lia]|]. split; reflexivity. }
  bok H. destruct x as [a cs]. bok H. destruct x as [n1 o1]. injection H as <- <-.
  destruct (push_few k _ _ _ _ Ha Hm Hk F E) as [F' Hc]. apply callbacks_none in E0; [|exact Hc]. destruct E0 as (_ & E2 & _ & _ & _ & _ & ->).
  split; [exact F'|]. split; [reflexivity|]. cbn [set_acc n_pf]. rewrite E2. reflexivity.
Qed.
Lemma few_steps evs : (- 2 ^ 31 <= accum_cloud p < 0)%Z -> (- 2 ^ 31 <= total_accum_max p < 0)%Z -> forall k n n' o,
  (Z.of_nat (k + length evs) < 2 ^ 63)%Z -> few k (ac (n_acc n)) -> steps caster voxel p n evs = Ok (n', o) -> few (k + length evs) (ac (n_acc n')).
Proof.
  intros Ha Hm. induction evs as [|ev t IH]; intros k n n' o Hk F H; cbn [steps length] in *.
  - injection H as <- <-. rewrite Nat.add_0_r. exact F.
  - bok H. destruct x as [n1 o1]. bok H. destruct x as [n2 o2]. injection H as <- <-.
    rewrite <- Nat.add_succ_comm in *. apply (IH (Datatypes.S k) n1 n2 o2); [exact Hk| |exact E0].
    assert (D : (exists m e, ev = ECloud m e) \/ forall m e, ev <> ECloud m e) by (destruct ev; eauto; right; discriminate).
    destruct D as [(m & e & ->)|D]; [apply (cloud_silent k n m e n1 o1 Ha Hm ltac:(lia) F E)|].
    apply (few_le k); [|lia]. apply (other_few k n ev n1 o1 F D E).
Qed.
(** From the start, in any history of fewer than 2^63 events, no cloud publishes anything or touches the
    particles ... *)
Theorem C129_never_measures evs gen rc0 tr x m e : (- 2 ^ 31 <= accum_cloud p < 0)%Z -> (- 2 ^ 31 <= total_accum_max p < 0)%Z ->
  (Z.of_nat (length evs) < 2 ^ 63)%Z -> trace voxel p caster (configure p gen rc0) evs = Ok tr -> In x tr -> what x = ECloud m e ->
  outs x = [] /\ n_pf (after x) = n_pf (before x).
Proof.
  intros Ha Hm Hk Ht Hx Hw. destruct (trace_in _ _ _ _ _ _ _ Ht Hx) as (evs1 & evs2 & o & -> & H1 & H2). rewrite Hw in H2.
  rewrite app_length in Hk. cbn [length] in Hk.
  assert (F : few (0 + length evs1) (ac (n_acc (before x)))).
  { apply (few_steps evs1 Ha Hm 0 (configure p gen rc0) (before x) o); [lia| |exact H1]. unfold few. cbn. lia. }
  cbn [Nat.add] in F. destruct (cloud_silent (length evs1) _ m e _ _ Ha Hm ltac:(lia) F H2) as (_ & B). exact B.
Qed.
(** ... while every cloud that can be transformed is added to the buffer, which is not emptied: after a
    map has arrived and clouds have come (no failed transform), the buffer holds the points of all of them. *)
Definition pushed (m : cloud_msg) : nat := match cm_pts p m with Some l => length l | None => 0 end.
Definition buffered n : nat := match local (n_acc n) with Some l => length l | None => 0 end.
Lemma cloud_grows k n m e pts : (- 2 ^ 31 <= accum_cloud p < 0)%Z -> (- 2 ^ 31 <= total_accum_max p < 0)%Z -> (Z.of_nat k < 2 ^ 63)%Z -> few k (ac (n_acc n)) ->
  has_map (n_map n) = true -> local (n_acc n) <> None -> cm_pts p m = Some pts ->
  exists n', step caster voxel p n (ECloud m e) = Ok (n', []) /\ few (Datatypes.S k) (ac (n_acc n')) /\ has_map (n_map n') = true /\ local (n_acc n') <> None
    /\ buffered n' = buffered n + length pts /\ n_pf n' = n_pf n.
Proof.
  intros Ha Hm Hk F Hh Hl Hp. cbn [step]. unfold cbCloud. rewrite Hh.
  destruct (push_calls p (ac (n_acc (set_stat n status0))) m) as [[a cs]| | |] eqn:E.
  2,3,4: exfalso.
  - pose proof (push_few k _ _ _ _ Ha Hm Hk F E) as [F' _].
    assert (Ec : cs = [AccumModel.Accumulate m true]).
    { clear F'. destruct F as [F1 F2]. change (ac (n_acc (set_stat n status0))) with (ac (n_acc n)) in E. unfold push_calls in E. assert (Ez : (accum_cloud p =? 0)%Z = false) by (apply Z.eqb_neq; lia). rewrite Ez, Hp in E.
      pose proof (big _ Ha) as Ba. pose proof (big _ Hm) as Bm. unfold AccumModel.push in E. cbn [acc_cfg AccumModel.accum AccumModel.accum_max] in E.
      set (A := Z.to_nat (accum_cloud p mod 2 ^ 64)) in *. set (B := Z.to_nat (total_accum_max p mod 2 ^ 64)) in *. clearbody A B.
      assert (E1 : (length (AccumModel.keys (ac (n_acc n))) <? B) = true) by (apply Nat.ltb_lt; lia).
      assert (E2 : (AccumModel.cnt_accum (ac (n_acc n)) <? A) = true) by (apply Nat.ltb_lt; lia).
      rewrite E1, E2 in E. destruct (AccumModel.keys (ac (n_acc n))) as [|f r]; cbn [of_option] in E; [|destruct (negb _)]; injection E as _ <-; reflexivity. }
    subst cs. destruct n as [mp [ca lo hs] od im ou ld pf0]. cbn [n_acc local n_map] in *. destruct lo as [l|]; [|congruence].
    cbn [bind callbacks callback]. unfold accumCloud. rewrite Hp. cbn. eexists. split; [reflexivity|]. split; [exact F'|]. split; [exact Hh|]. split; [discriminate|].
    split; [|reflexivity]. unfold buffered. cbn. rewrite app_length, map_length. reflexivity.
  - unfold push_calls in E. destruct (accum_cloud p =? 0)%Z; [discriminate|]. destruct (AccumModel.push _ _ _ _ _); discriminate.
  - unfold push_calls in E. assert (Ez : (accum_cloud p =? 0)%Z = false) by (apply Z.eqb_neq; lia). rewrite Ez, Hp in E.
    destruct F as [F1 _]. pose proof (big _ Hm) as Bm. unfold AccumModel.push in E. cbn [acc_cfg AccumModel.accum AccumModel.accum_max] in E.
    set (B := Z.to_nat (total_accum_max p mod 2 ^ 64)) in *. clearbody B. change (ac (n_acc (set_stat n status0))) with (ac (n_acc n)) in E.
    assert (E1 : (length (AccumModel.keys (ac (n_acc n))) <? B) = true) by (apply Nat.ltb_lt; lia). rewrite E1 in E.
    destruct (AccumModel.keys (ac (n_acc n))); cbn [of_option] in E; repeat match type of E with context [if ?b then _ else _] => destruct b end; discriminate.
  - unfold push_calls in E. destruct (accum_cloud p =? 0)%Z; [discriminate|]. destruct (AccumModel.push _ _ _ _ _); discriminate.
Qed.
Theorem C129_buffer_grows gen rc0 base stamp now clouds : (- 2 ^ 31 <= accum_cloud p < 0)%Z -> (- 2 ^ 31 <= total_accum_max p < 0)%Z ->
  (Z.of_nat (length clouds) < 2 ^ 62)%Z -> Forall (fun c => cm_pts p (fst c) <> None) clouds ->
  exists n o, steps caster voxel p (configure p gen rc0) (EMap (Some base) stamp now :: map (fun c => ECloud (fst c) (snd c)) clouds) = Ok (n, o)
    /\ (exists l, local (n_acc n) = Some l /\ length l = list_sum (map (fun c => match cm_pts p (fst c) with Some l => length l | None => 0 end) clouds))
    /\ n_pf n = n_pf (configure p gen rc0) /\ forall x, In x o -> exists c, x = OMap c.
Proof.
  intros Ha Hm Hk Hf.
  assert (G : forall clouds k n, (Z.of_nat (k + length clouds) < 2 ^ 63)%Z -> Forall (fun c => cm_pts p (fst c) <> None) clouds -> few k (ac (n_acc n)) ->
    has_map (n_map n) = true -> local (n_acc n) <> None ->
    exists n', steps caster voxel p n (map (fun c => ECloud (fst c) (snd c)) clouds) = Ok (n', []) /\ local (n_acc n') <> None /\ n_pf n' = n_pf n
      /\ buffered n' = buffered n + list_sum (map (fun c => match cm_pts p (fst c) with Some l => length l | None => 0 end) clouds)).
  { clear - Ha Hm. induction clouds as [|[m e] t IH]; intros k n Hk Hf F Hh Hl; cbn [map steps].
    - exists n. cbn. repeat split; auto.
    - apply Forall_cons_iff in Hf. destruct Hf as [H0 Hf]. cbn [fst snd length] in *. destruct (cm_pts p m) as [pts|] eqn:Ep; [|congruence].
      destruct (cloud_grows k n m e pts Ha Hm ltac:(lia) F Hh Hl Ep) as (n1 & E1 & F1 & Hh1 & Hl1 & B1 & P1). rewrite E1. cbn [bind].
      destruct (IH (Datatypes.S k) n1 ltac:(lia) Hf F1 Hh1 Hl1) as (n2 & E2 & Hl2 & P2 & B2). rewrite E2. cbn [bind app]. exists n2.
      split; [reflexivity|]. split; [exact Hl2|]. split; [congruence|]. rewrite B2, B1. cbn [map list_sum fold_right fst]. unfold list_sum. cbn [fold_right]. rewrite ?Ep. lia. }
  assert (H1 : exists n1 o1, step caster voxel p (configure p gen rc0) (EMap (Some base) stamp now) = Ok (n1, o1) /\ has_map (n_map n1) = true
    /\ local (n_acc n1) = Some [] /\ n_pf n1 = n_pf (configure p gen rc0) /\ few 0 (ac (n_acc n1)) /\ forall x, In x o1 -> exists c, x = OMap c).
  { do 2 eexists. split; [reflexivity|]. repeat split.
    - cbn. destruct (accum_cloud p =? 0)%Z; cbn; lia.
    - cbn. destruct (accum_cloud p =? 0)%Z; cbn; lia.
    - intros x [<-|[]]. eauto. }
  destruct H1 as (n1 & o1 & E1 & M & L & P & F & O). cbn [steps]. rewrite E1. cbn [bind].
  destruct (G clouds 0 n1 ltac:(lia) Hf F M ltac:(congruence)) as (n2 & E2 & L2 & P2 & B2). rewrite E2. cbn [bind].
  exists n2, (o1 ++ []). split; [reflexivity|]. split; [|split; [congruence|rewrite app_nil_r; exact O]].
  unfold buffered in B2. rewrite L in B2. destruct (local (n_acc n2)) as [l|]; [|congruence]. exists l. split; [reflexivity|]. exact B2.
Qed.
End Neg.

(** One parameter suffices: with accum_cloud = -1 the default of the total limit is -10. *)
Definition neg_accum : params := load_params (fun x => x) false false (0, 0, 0)%R (set_param "accum_cloud" (PInt (-1)) (fun _ => None)).
Example C129_nonvacuous :
  accum_cloud neg_accum = (-1)%Z /\ total_accum_max neg_accum = (-10)%Z /\
  exists clouds : list (cloud_msg * menv), length clouds = 1 /\ Forall (fun c => cm_pts neg_accum (fst c) <> None) clouds.
Proof.
  split; [reflexivity|]. split; [reflexivity|]. exists [(NodeDemo.demo_cloud 1, NodeDemo.demo_env)]. split; [reflexivity|]. constructor; [|constructor]. cbn. discriminate.
Qed.
