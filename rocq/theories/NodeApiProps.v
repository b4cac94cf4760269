(** Property theorems C109 and C110: what every event publishes, and what the services answer.
    Everywhere the ray caster, the voxel filter, the parameters, the initial particles and all
    inputs of the outside world are arbitrary. *)
From Coq Require Import String Reals ZArith List Bool Arith Lia Lra.
From Verif Require PfModel FilterModel AccumModel PfProofs.
From Verif Require Import Arith KdModel QuatModel StateModel StateSpec RayModel LidarModel NdModel ParamModel
  NodeModel NodeSpec NodeFrame NodeMapProofs NodeMapProps NodeLocProofs NodeStepProofs NodePostProofs.
Import ListNotations.
Open Scope nat_scope.
Open Scope list_scope.

(** the topic (or service) a message belongs to *)
Inductive topic := TMap | TParticles | TTf | TPose | TMatched | TStatus | TService.
Definition topic_of (o : output) : topic :=
  match o with
  | OMap _ => TMap | OParticles _ _ => TParticles | OTf _ _ _ => TTf | OPose _ _ _ => TPose
  | OMatched _ _ => TMatched | OStatus _ _ _ _ _ => TStatus | OService _ => TService
  end.
(** the answers among the messages *)
Definition answers (out : list output) : list response :=
  flat_map (fun o => match o with OService r => [r] | _ => [] end) out.

Section ApiProps.
Context {S : Type} (caster : cloud -> (pt -> R -> search) -> raycaster S)
        (voxel : R * R * R -> list lpt -> list lpt) (p : params).
Notation node := (node (S := S)).
Implicit Types n : node.

(** ** What each event publishes, in order; [x]: the map as the history says *)
Definition full_step : list topic -> Prop := fun ts => exists matched,
  (matched = [] \/ matched = [TMatched])
  /\ ts = (if publish_tf p then [TTf] else []) ++ [TPose] ++ matched ++ [TParticles; TStatus].
Definition publishes (x : expected) (ev : event) (ts : list topic) : Prop :=
  match ev with
  | EMap (Some _) _ _ => ts = [TMap]
  | EMap None _ _ => ts = []
  | ELoadPcd (Some _) _ => ts = [TMap; TService]
  | ELoadPcd None _ => ts = [TService]
  | EUpdate _ => ts = []
  | ETimer _ => ts = match avail x, pending x with true, Some _ => [TMap] | _, _ => [] end
  | EPosition m lk _ _ _ => ts = if pose_accepted p m lk then [TParticles] else []
  | EOdom _ _ _ _ | EImu _ _ _ _ _ => ts = []
  | ECloud _ _ => ts = [] \/ avail x = true /\ (ts = [TStatus] \/ full_step ts)
  | ELandmark _ _ _ _ _ _ => ts = [TParticles]
  | EResize _ _ _ | EExpansion _ _ => ts = [TParticles; TService]
  | EGlobal _ _ => ts = [TService]
  end.
(** the answer to a service call; [mapped]: a map is loaded, [k]: the number of particles after it *)
Definition answer_to (mapped : bool) (k : nat) (ev : event) : list response :=
  match ev with
  | ELoadPcd (Some _) _ => [RLoad true]
  | ELoadPcd None _ => [RLoad false]
  | EResize _ _ _ => [REmpty]
  | EExpansion _ _ => [RTrigger false MEmpty]
  | EGlobal _ _ => if mapped then [RTrigger true (MParticles k)] else [RTrigger false MNoMap]
  | _ => []
  end.

Lemma tf_topics n e est : map topic_of (snd (publish_tf_step p n e est)) = if publish_tf p then [TTf] else [].
Proof. unfold publish_tf_step. destruct (map_odom est (odom (n_odom n))). cbn [snd]. destruct (publish_tf p); reflexivity. Qed.
Lemma localize_topics n e h os full bp lp n' out : localize caster p n e h os full bp lp = Ok (n', out) -> full_step (map topic_of out).
Proof.
  unfold localize. intro H. bok H. destruct x as [[n1 est] ratio]. pose proof (tf_topics n1 e est) as Ht.
  destruct (publish_tf_step p n1 e est) as [[n2 est'] o1]. cbn [snd] in Ht. bok H. bok H. bok H. destruct x1 as [n5 o2]. bok H. bok H.
  unfold force_update in H. apply f_equal with (f := fun r => match r with Ok v => snd v | _ => [] end) in H. cbn [snd] in H. rewrite <- H. rewrite map_app, Ht.
  unfold match_output in E2.
  match type of E2 with (if ?b then _ else _) = _ => destruct b end.
  - bok E2. destruct x3 as [m u]. apply f_equal with (f := fun r => match r with Ok v => snd v | _ => [] end) in E2. cbn [snd] in E2. rewrite <- E2. exists [TMatched]. split; [right|]; reflexivity.
  - apply f_equal with (f := fun r => match r with Ok v => snd v | _ => [] end) in E2. cbn [snd] in E2. rewrite <- E2. exists []. split; [left|]; reflexivity.
Qed.
Lemma measure_topics n e n' o : measure caster voxel p n e = Ok (n', o) ->
  map topic_of o = [] \/ map topic_of o = [TStatus] \/ full_step (map topic_of o).
Proof.
  unfold measure. intro H. bok H. destruct x as [n0 go].
  destruct go; cbn [negb] in H; [|injection H as <- <-; left; reflexivity].
  bok H. destruct x as [n1 ready]. destruct ready as [[[h pc] os]|]; [|injection H as <- <-; left; reflexivity]. bok H.
  destruct (filters p n1 e (voxel (ds_x p, ds_y p, ds_z p) pc)) as [[n2 bp] lp] eqn:E2. destruct lp as [|l lp].
  - unfold force_update in H. injection H as <- <-. right. left. reflexivity.
  - right. right. exact (localize_topics _ _ _ _ _ _ _ _ _ H).
Qed.
Lemma cloud_topics n m e n' o : step caster voxel p n (ECloud m e) = Ok (n', o) ->
  map topic_of o = [] \/ has_map (n_map n) = true /\ (map topic_of o = [TStatus] \/ full_step (map topic_of o)).
Proof.
  cbn [step]. unfold cbCloud. intro H. destruct (has_map (n_map n)) eqn:Hm; [|injection H as <- <-; left; reflexivity].
  bok H. destruct x as [a cs]. bok H. destruct x as [n5 o5]. injection H as <- <-.
  pose proof (push_calls_once _ _ _ _ _ E) as Hc. destruct (nproc cs) as [|[|k]] eqn:En; [|clear Hc|lia].
  - apply callbacks_none in E0; [|exact En]. destruct E0 as (_ & _ & _ & _ & _ & _ & ->). left. reflexivity.
  - destruct (callbacks_one _ _ _ _ _ _ _ _ En E0) as (na & nb & B0 & B1 & B2 & B3 & B4 & B5 & B6 & B7 & _).
    destruct (measure_topics _ _ _ _ B7) as [H|[H|H]]; auto.
Qed.
Lemma load_topics n stamp pts now n' o : loadMapCloud voxel p n stamp pts now = Ok (n', o) -> map topic_of o = [TMap].
Proof.
  unfold loadMapCloud, cbMapUpdateTimer, timer_map. cbn [n_map set_acc set_map has_map pc_update pc_map2 pc_map]. intro H. bok H. destruct x as [m o'].
  cbn [get_obj heap] in E. bok E. injection E as _ <-. injection H as _ <-. reflexivity.
Qed.
Lemma timer_topics n now n' o : cbMapUpdateTimer n now = Ok (n', o) -> (has_map (n_map n) = true -> pc_map2 (n_map n) <> None) ->
  map topic_of o = if has_map (n_map n) then match pc_update (n_map n) with Some _ => [TMap] | None => [] end else [].
Proof.
  unfold cbMapUpdateTimer, timer_map. intros H Hm. bok H. destruct x as [m o']. injection H as _ <-.
  destruct (has_map (n_map n)); [|injection E as _ <-; reflexivity]. specialize (Hm eq_refl). destruct (pc_update (n_map n)).
  - destruct (match pc_map2 (n_map n) with Some l => _ | None => _ end) as [h0 m2]. bok E. bok E. injection E as _ <-. reflexivity.
  - destruct (pc_map2 (n_map n)); [injection E as _ <-; reflexivity|congruence].
Qed.
Lemma step_topics n x ev n' o os : inv p n os x -> step caster voxel p n ev = Ok (n', o) -> publishes x ev (map topic_of o).
Proof.
  intros [V1 V2 V3 V4] H. destruct ev; cbn [publishes step] in *.
  - unfold cbMapcloud in H. destruct conv; [exact (load_topics _ _ _ _ _ _ H)|injection H as _ <-; reflexivity].
  - unfold cbLoadPCD in H. destruct file; [|injection H as _ <-; reflexivity]. bok H. destruct x0 as [n1 o1]. injection H as _ <-.
    rewrite map_app, (load_topics _ _ _ _ _ _ E). reflexivity.
  - unfold cbMapcloudUpdate in H. destruct conv; injection H as _ <-; reflexivity.
  - apply timer_topics in H.
    + rewrite H, V1. destruct (avail x); [|reflexivity]. destruct (pc_update (n_map n)); [destruct V2 as (c & _ & ->); reflexivity|rewrite V2; reflexivity].
    + intro Hm. rewrite V1 in Hm. destruct (V4 Hm) as (l & c & _ & -> & _). discriminate.
  - unfold cbPosition in H. unfold pose_accepted. destruct (Rltb (1 / 10) _); [injection H as _ <-; reflexivity|]. unfold pose_in_map in H. cbn [negb andb].
    destruct (lk _ _ _); cbn [option_map] in H; [|injection H as _ <-; reflexivity]. injection H as _ <-. reflexivity.
  - unfold cbOdom in H. destruct (odom_apply p n stamp pose) as [n1 go]. destruct (go && fake_imu p); [|injection H as _ <-; reflexivity].
    destruct (imu_apply _ _ _ _ _ _) as [n2 go2]. destruct (go2 && fake_odom p); [discriminate|injection H as _ <-; reflexivity].
  - unfold cbImu in H. destruct (imu_apply _ _ _ _ _ _) as [n1 go]. destruct (go && fake_odom p); [|injection H as _ <-; reflexivity].
    destruct (odom_apply _ _ _ _) as [n2 go2]. destruct (go2 && fake_imu p); [discriminate|injection H as _ <-; reflexivity].
  - rewrite <- V1. exact (cloud_topics _ _ _ _ _ H).
  - unfold cbLandmark in H. bok H. injection H as _ <-. reflexivity.
  - unfold cbResizeParticle in H. bok H. injection H as _ <-. reflexivity.
  - unfold cbExpansionReset in H. injection H as _ <-. reflexivity.
  - unfold cbGlobalLocalization in H. destruct (has_map (n_map n)); [|injection H as _ <-; reflexivity]. bok H. bok H. bok H. injection H as _ <-. reflexivity.
Qed.

(** C110: after every history, every event publishes exactly the messages of its kind, in this
    order.  In particular a localization step that publishes a pose publishes the transform first
    (if configured), then the pose, then the matched points, the particles and the status; and
    nothing else ever publishes a pose, a transform or a status. *)
Theorem C110_publications evs gen rc0 n out ev n' o :
  steps caster voxel p (configure p gen rc0) evs = Ok (n, out) -> step caster voxel p n ev = Ok (n', o) ->
  publishes (expect_run voxel p evs) ev (map topic_of o).
Proof. intros H Hs. apply inv_reach in H. exact (step_topics _ _ _ _ _ _ H Hs). Qed.

Lemma answers_topics o : ~ In TService (map topic_of o) -> answers o = [].
Proof.
  induction o as [|x o IH]; [reflexivity|]. intro H. cbn [map In] in H. destruct x; cbn; try (apply IH; intro; apply H; right; assumption).
  exfalso. apply H. left. reflexivity.
Qed.
Lemma avail_loaded evs : avail (expect_run voxel p evs) = map_loaded evs false.
Proof.
  unfold expect_run. change false with (avail expected0) at 1. generalize expected0 as x.
  induction evs as [|e t IH]; intro x; cbn; [reflexivity|]. rewrite IH.
  destruct e; cbn; try reflexivity; try (destruct conv; reflexivity); try (destruct file; reflexivity);
    try (destruct (pose_accepted p m lk); reflexivity); try (destruct (avail x) eqn:Ea, (pending x); cbn; rewrite ?Ea; reflexivity).
Qed.
(** C109: exactly one answer to every service call, none to anything else.  load_pcd succeeds
    exactly when the file could be read; global localization exactly when the last attempt to load
    a map succeeded, and then its text is the number of particles the filter now has. *)
Theorem C109_service_answers evs gen rc0 n out ev n' o :
  steps caster voxel p (configure p gen rc0) evs = Ok (n, out) -> step caster voxel p n ev = Ok (n', o) ->
  answers o = answer_to (map_loaded evs false) (length (PfModel.parts RA (n_pf n'))) ev.
Proof.
  intros H Hs. pose proof (C110_publications _ _ _ _ _ _ _ _ H Hs) as T. apply inv_reach in H. destruct H as [V1 _ _ _]. rewrite avail_loaded in V1.
  destruct ev; cbn [publishes answer_to step] in *.
  - apply answers_topics. destruct conv; rewrite T; [intros [|[]]; discriminate|intros []].
  - unfold cbLoadPCD in Hs. destruct file; [|injection Hs as _ <-; reflexivity]. bok Hs. destruct x as [n1 o1]. injection Hs as _ <-.
    unfold answers. rewrite flat_map_app. fold (answers o1). rewrite (answers_topics o1); [reflexivity|]. rewrite (load_topics _ _ _ _ _ _ E). intros [|[]]; discriminate.
  - apply answers_topics. rewrite T. intros [].
  - apply answers_topics. rewrite T. destruct (avail (expect_run voxel p evs)), (pending (expect_run voxel p evs)); cbn; try intros [|[]]; try intros []; discriminate.
  - apply answers_topics. rewrite T. destruct (pose_accepted p m lk); [intros [|[]]; discriminate|intros []].
  - apply answers_topics. rewrite T. intros [].
  - apply answers_topics. rewrite T. intros [].
  - apply answers_topics. destruct T as [T|(_ & [T|(mt & Hm & T)])]; rewrite T; [intros []|intros [|[]]; discriminate|].
    destruct Hm as [-> | ->], (publish_tf p); cbn; intuition discriminate.
  - apply answers_topics. rewrite T. intros [|[]]; discriminate.
  - unfold cbResizeParticle in Hs. bok Hs. injection Hs as _ <-. reflexivity.
  - unfold cbExpansionReset in Hs. injection Hs as _ <-. reflexivity.
  - unfold cbGlobalLocalization in Hs. rewrite V1 in Hs. destruct (map_loaded evs false); [|injection Hs as _ <-; reflexivity].
    bok Hs. bok Hs. bok Hs. injection Hs as <- <-. reflexivity.
Qed.
(** C109: the expansion service answers success=false with an empty text although it always
    perturbs every particle, whether or not a map is loaded *)
Theorem C109_expansion_answer_refuted n z now : exists n' o,
  step caster voxel p n (EExpansion z now) = Ok (n', o)
  /\ answers o = [RTrigger false MEmpty]
  /\ length (PfModel.parts RA (n_pf n')) = length (PfModel.parts RA (n_pf n))
  /\ forall i q, nth_error (PfModel.parts RA (n_pf n)) i = Some q ->
       option_map (PfModel.st RA) (nth_error (PfModel.parts RA (n_pf n')) i)
       = Some (splus (PfModel.st RA q) (diag_noise state0 (sigma_of (expansion_var p)) (z i))).
Proof.
  eexists. eexists. split; [reflexivity|]. split; [reflexivity|]. cbn [n_pf set_pf]. unfold PfModel.add_noise, PfModel.predict.
  split; [apply mapi_len|]. intros i q Hq. cbn [PfModel.parts]. rewrite PfProofs.mapi_nth, Hq. reflexivity.
Qed.
(** non-vacuity: every kind of answer occurs; a map, a call of each service *)
Example C109_nonvacuous file now gen rc0 hits srt :
  exists n out, steps caster voxel p (configure p gen rc0) [EGlobal hits srt; ELoadPcd None now; ELoadPcd (Some file) now; EExpansion (fun _ _ => 0%R) 0%R] = Ok (n, out)
    /\ answers out = [RTrigger false MNoMap; RLoad false; RLoad true; RTrigger false MEmpty]
    /\ map topic_of out = [TService; TService; TMap; TService; TParticles; TService]
    /\ map_loaded [EGlobal hits srt; ELoadPcd None now; ELoadPcd (Some file) now; EExpansion (fun _ _ => 0%R) 0%R] false = true.
Proof. eexists. eexists. split; [reflexivity|]. split; [|split]; reflexivity. Qed.
End ApiProps.
