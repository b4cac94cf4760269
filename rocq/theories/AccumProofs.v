From Coq Require Import String List Arith Bool Lia ZifyBool ZifyNat.
From Verif Require Import AccumModel AccumSpec.
Import ListNotations.

Definition lead_of (ks : list string) : nat :=
  match ks with [] => 0 | k :: _ => length (filter (String.eqb k) ks) end.

(** The invariant of every reachable state. *)
Record Inv (c : accum_cfg) (s : accum_st) (b : client) : Prop := {
  inv_keys : keys s = map frame (buf b);
  inv_cnt : cnt_accum s = lead_count (buf b);
  inv_cnt_max : cnt_accum s <= Nat.max (accum c) 1;
  inv_len : length (buf b) <= accum_max c;
  inv_seen : seen b = [];
}.

Lemma lead_count_snoc l m :
  lead_count (l ++ [m]) =
  match l with
  | [] => 1
  | x :: _ => lead_count l + if String.eqb (frame x) (frame m) then 1 else 0
  end.
Proof.
  destruct l as [|x l]; cbn.
  - rewrite String.eqb_refl. reflexivity.
  - rewrite String.eqb_refl. cbn. rewrite filter_app, app_length. cbn.
    destruct (String.eqb (frame x) (frame m)); cbn; lia.
Qed.

Lemma inv_start c : 0 < accum_max c -> Inv c accum_init client0.
Proof. intros H; constructor; cbn; lia || reflexivity. Qed.

(** Everything one push does, in one case analysis. *)
Inductive push_case (c : accum_cfg) (m : cloud) (ok : bool) (s : accum_st) (b : client)
  : accum_st -> client -> list (call cloud) -> Prop :=
| pc_add s' : ok = true -> length (buf b) < accum_max c ->
    (buf b = [] \/ (exists f, hd_error (buf b) = Some f /\
        (frame f <> frame m \/ lead_count (buf b) < accum c))) ->
    push_case c m ok s b s'
      {| buf := buf b ++ [m]; seen := seen b; closed := closed b |}
      [Accumulate m true]
| pc_fail s' : ok = false -> length (buf b) < accum_max c ->
    (buf b = [] \/ (exists f, hd_error (buf b) = Some f /\
        (frame f <> frame m \/ lead_count (buf b) < accum c))) ->
    push_case c m ok s b s'
      {| buf := []; seen := []; closed := closed b ++ [(buf b, seen b)] |}
      [Accumulate m false; Clear]
| pc_proc s' : buf b <> [] ->
    (length (buf b) = accum_max c \/
     (exists f, hd_error (buf b) = Some f /\ frame f = frame m /\
        lead_count (buf b) = Nat.max (accum c) 1)) ->
    push_case c m ok s b s'
      {| buf := if ok then [m] else []; seen := [];
         closed := closed b ++ [(buf b, seen b ++ [buf b])] |}
      [Process; Clear; Accumulate m ok].

Lemma lead_count_pos l : l <> [] -> 1 <= lead_count l.
Proof.
  destruct l as [|x l]; [congruence|intros _]. cbn. rewrite String.eqb_refl. cbn. lia.
Qed.

Lemma push_step c m ok s b :
  0 < accum_max c -> Inv c s b ->
  exists s' b' cs, step c (s, b) (Push m ok) = Some (s', b', cs)
    /\ push_case c m ok s b s' b' cs /\ Inv c s' b'.
Proof.
  intros Hpos [Hk Hc Hm Hl Hs]. cbn [step].
  assert (Hlen : length (keys s) = length (buf b)) by (rewrite Hk, map_length; reflexivity).
  unfold push. rewrite Hlen.
  destruct (Nat.ltb_spec (length (buf b)) (accum_max c)) as [Hlt|Hlt].
  - destruct (buf b) as [|f l] eqn:Hb.
    + rewrite Hk. cbn [map]. destruct ok; do 3 eexists; (split; [reflexivity|]).
      * split.
        { unfold client_run; cbn [fold_left client_step].
          apply pc_add; rewrite ?Hb; cbn [length] in *; auto; lia. }
        constructor; cbn; rewrite ?Hb; cbn; rewrite ?String.eqb_refl; auto; cbn; lia.
      * split.
        { unfold client_run; cbn [fold_left client_step]. apply pc_fail; rewrite ?Hb; cbn [length] in *; auto; lia. }
        constructor; cbn; auto; lia.
    + rewrite Hk. cbn [map].
      destruct (String.eqb (frame f) (frame m)) eqn:Hf; cbn [negb].
      * apply String.eqb_eq in Hf.
        destruct (Nat.ltb_spec (cnt_accum s) (accum c)) as [Hcc|Hcc].
        -- destruct ok; do 3 eexists; (split; [reflexivity|]).
           ++ split.
              { unfold client_run; cbn [fold_left client_step]. apply pc_add; rewrite ?Hb; auto; cbn [length] in *; try lia.
                right; exists f; split; auto. right. lia. }
              constructor; cbn [buf keys cnt_accum seen client_run fold_left client_step]; auto; rewrite ?Hb.
              ** rewrite map_app. reflexivity.
              ** rewrite lead_count_snoc. rewrite Hf, String.eqb_refl. lia.
              ** lia.
              ** rewrite app_length; cbn [length] in *; lia.
           ++ split.
              { unfold client_run; cbn [fold_left client_step]. apply pc_fail; rewrite ?Hb; auto; cbn [length] in *; try lia.
                right; exists f; split; auto. right. lia. }
              constructor; cbn; auto; lia.
        -- assert (Hlp : 1 <= lead_count (f :: l)) by (apply lead_count_pos; congruence).
           unfold push_process, push_tail.
           destruct ok; do 3 eexists; (split; [reflexivity|]); split.
           ++ apply pc_proc with (ok := true); rewrite ?Hb; [congruence|].
              right; exists f; split; auto. split; auto. lia.
           ++ constructor; cbn; auto; rewrite ?String.eqb_refl; cbn; lia.
           ++ apply pc_proc with (ok := false); rewrite ?Hb; [congruence|].
              right; exists f; split; auto. split; auto. lia.
           ++ constructor; cbn; auto; rewrite ?String.eqb_refl; cbn; lia.
      * apply String.eqb_neq in Hf.
        destruct ok; do 3 eexists; (split; [reflexivity|]).
        -- split.
           { unfold client_run; cbn [fold_left client_step]. apply pc_add; rewrite ?Hb; auto; cbn [length] in *; try lia.
             right; exists f; auto. }
           constructor; cbn [buf keys cnt_accum seen client_run fold_left client_step]; auto; rewrite ?Hb.
           ** rewrite map_app. reflexivity.
           ** rewrite lead_count_snoc. apply String.eqb_neq in Hf. rewrite Hf. lia.
           ** rewrite app_length; cbn [length] in *; lia.
        -- split.
           { unfold client_run; cbn [fold_left client_step]. apply pc_fail; rewrite ?Hb; auto; cbn [length] in *; try lia.
             right; exists f; auto. }
           constructor; cbn; auto; lia.
  - assert (Hn : buf b <> []) by (intros E; rewrite E in Hlt; cbn [length] in Hlt; lia).
    destruct (keys s) as [|k ks] eqn:Hks.
    { destruct (buf b); [congruence|discriminate]. }
    unfold push_process, push_tail.
    destruct ok; do 3 eexists; (split; [reflexivity|]); split.
    + apply pc_proc with (ok := true); auto; left; lia.
    + constructor; cbn; auto; rewrite ?String.eqb_refl; cbn; lia.
    + apply pc_proc with (ok := false); auto; left; lia.
    + constructor; cbn; auto; rewrite ?String.eqb_refl; cbn; lia.
Qed.

Lemma step_inv c s b e :
  0 < accum_max c -> Inv c s b ->
  exists s' b' cs, step c (s, b) e = Some (s', b', cs) /\ Inv c s' b'
    /\ match e with Push m ok => push_case c m ok s b s' b' cs
       | Reset => cs = [Clear] /\ b' = client_step b Clear end.
Proof.
  intros Hpos HI. destruct e as [m ok|].
  - destruct (push_step c m ok s b Hpos HI) as (s' & b' & cs & H1 & H2 & H3).
    exists s', b', cs. auto.
  - do 3 eexists. split; [reflexivity|]. split; [|split; reflexivity].
    constructor; cbn; auto; lia.
Qed.

Lemma run_inv c es s b :
  0 < accum_max c -> Inv c s b ->
  exists s' b', run c es (s, b) = Some (s', b') /\ Inv c s' b'.
Proof.
  intros Hpos. revert s b. induction es as [|e es IH]; intros s b HI.
  - exists s, b. auto.
  - cbn [run]. destruct (step_inv c s b e Hpos HI) as (s' & b' & cs & H1 & H2 & _).
    rewrite H1. apply IH; assumption.
Qed.

Lemma reachable_inv c s b : 0 < accum_max c -> reachable c s b -> Inv c s b.
Proof.
  intros Hpos [es H]. destruct (run_inv c es _ _ Hpos (inv_start c Hpos)) as (s' & b' & H1 & H2).
  unfold start in H. rewrite H1 in H. injection H as -> ->. exact H2.
Qed.

Lemma run_app c es1 es2 st :
  run c (es1 ++ es2) st =
  match run c es1 st with Some st' => run c es2 st' | None => None end.
Proof.
  revert st. induction es1 as [|e es1 IH]; intros st; cbn; [reflexivity|].
  destruct (step c st e) as [[[s' b'] cs]|]; [apply IH|reflexivity].
Qed.

(** ** Conservation *)
Definition total (b : client) : list cloud := concat (map fst (closed b)) ++ buf b.
Definition closed_ok (b : client) : Prop :=
  Forall (fun p => snd p = [] \/ snd p = [fst p]) (closed b).

Lemma step_total c s b e s' b' cs :
  0 < accum_max c -> Inv c s b -> step c (s, b) e = Some (s', b', cs) ->
  total b' = total b ++ accepted [e] /\ (closed_ok b -> closed_ok b').
Proof.
  intros Hpos HI Hst.
  destruct (step_inv c s b e Hpos HI) as (s1 & b1 & cs1 & H1 & H2 & H3).
  rewrite Hst in H1. injection H1 as <- <- <-.
  assert (Hs := inv_seen _ _ _ HI).
  unfold total, closed_ok.
  destruct e as [m ok|].
  - inversion H3 as [s0 Hok | s0 Hok | s0]; subst; cbn [closed buf];
      rewrite ?map_app, ?concat_app; cbn [map concat fst]; rewrite ?app_nil_r.
    + split; [rewrite app_assoc; reflexivity|auto].
    + split; [cbn; rewrite ?app_nil_r; reflexivity|].
      intros HF. apply Forall_app; split; [exact HF|]. constructor; [|constructor]. left. exact Hs.
    + split; [destruct ok; cbn; rewrite ?app_nil_r; reflexivity|].
      intros HF. apply Forall_app; split; [exact HF|]. constructor; [|constructor].
      right. cbn. rewrite Hs. reflexivity.
  - destruct H3 as [-> ->]. cbn. rewrite map_app, concat_app. cbn. rewrite !app_nil_r.
    split; [reflexivity|]. intros HF. apply Forall_app; split; [exact HF|].
    constructor; [|constructor]. left. exact Hs.
Qed.

Lemma accepted_cons e es : accepted (e :: es) = accepted [e] ++ accepted es.
Proof. destruct e as [m [|]|]; reflexivity. Qed.

Lemma run_total c es s b s' b' :
  0 < accum_max c -> Inv c s b -> closed_ok b -> run c es (s, b) = Some (s', b') ->
  total b' = total b ++ accepted es /\ closed_ok b'.
Proof.
  intros Hpos. revert s b. induction es as [|e es IH]; intros s b HI Hok Hr.
  - cbn in Hr. injection Hr as <- <-. cbn. rewrite app_nil_r. auto.
  - cbn [run] in Hr. destruct (step_inv c s b e Hpos HI) as (s1 & b1 & cs & H1 & H2 & _).
    rewrite H1 in Hr. destruct (step_total c s b e s1 b1 cs Hpos HI H1) as [Ht Hc].
    destruct (IH s1 b1 H2 (Hc Hok) Hr) as [Ht2 Hc2]. split; [|exact Hc2].
    rewrite Ht2, Ht, (accepted_cons e es), app_assoc. reflexivity.
Qed.

(** ** The buffer is what was accumulated since the last clear *)
Lemma since_clear_app acc cs1 cs2 :
  since_clear acc (cs1 ++ cs2) = since_clear (since_clear acc cs1) cs2.
Proof.
  revert acc. induction cs1 as [|x cs1 IH]; intros acc; cbn; [reflexivity|].
  destruct x as [|m [|]|]; apply IH.
Qed.
Lemma client_run_buf cs b : buf (client_run cs b) = since_clear (buf b) cs.
Proof.
  unfold client_run. revert b. induction cs as [|x cs IH]; intros b; cbn; [reflexivity|].
  rewrite IH. destruct x as [|m [|]|]; reflexivity.
Qed.
Lemma step_client c s b e s' b' cs :
  step c (s, b) e = Some (s', b', cs) -> b' = client_run cs b.
Proof.
  destruct e as [m ok|]; cbn [step].
  - destruct (push c (frame m) m ok s) as [[s1 cs1]|]; [|discriminate].
    intros H; injection H as <- <- <-. reflexivity.
  - intros H; injection H as <- <- <-. reflexivity.
Qed.
Lemma run_buf c es st s' b' :
  run c es st = Some (s', b') -> buf b' = since_clear (buf (snd st)) (calls_of c es st).
Proof.
  revert st. induction es as [|e es IH]; intros [s b] Hr; cbn [run calls_of] in *.
  - injection Hr as <- <-. reflexivity.
  - destruct (step c (s, b) e) as [[[s1 b1] cs]|] eqn:Hst; [|discriminate].
    rewrite since_clear_app. apply IH in Hr. rewrite Hr. cbn [snd].
    rewrite (step_client _ _ _ _ _ _ _ Hst), client_run_buf. reflexivity.
Qed.

(** ** Theorems *)

(* what a process call sees *)
Lemma process_sees c es s b m ok s' b' cs :
  0 < accum_max c -> run c es start = Some (s, b) ->
  step c (s, b) (Push m ok) = Some (s', b', cs) ->
  forall pre post, cs = pre ++ Process :: post ->
  pre = [] /\ buf b <> [] /\ buf b = since_clear [] (calls_of c es start)
  /\ keys s = map frame (buf b) /\ processed b' = processed b ++ [buf b]
  /\ (buf b' = if ok then [m] else []) /\ post = [Clear; Accumulate m ok].
Proof.
  intros Hpos Hr Hst pre post Hcs.
  assert (HI : Inv c s b) by (apply reachable_inv; [assumption|exists es; assumption]).
  destruct (push_step c m ok s b Hpos HI) as (s1 & b1 & cs1 & H1 & H2 & H3).
  rewrite Hst in H1. injection H1 as <- <- <-.
  inversion H2 as [s0 Hok | s0 Hok | s0 Hne Hwhy]; subst.
  - destruct pre as [|x [|y pre]]; discriminate.
  - destruct pre as [|x [|y [|z pre]]]; discriminate.
  - destruct pre as [|x [|y [|z [|w pre]]]]; try discriminate.
    match goal with H : _ = [] ++ _ |- _ => cbn in H; injection H as <- end.
    repeat split; auto.
    + apply run_buf in Hr. exact Hr.
    + apply (inv_keys _ _ _ HI).
    + unfold processed. cbn. rewrite (inv_seen _ _ _ HI). cbn.
      rewrite map_app, concat_app. cbn. rewrite !app_nil_r. reflexivity.
Qed.

Lemma accum_conserve c es s b :
  0 < accum_max c -> run c es start = Some (s, b) ->
  concat (map fst (closed b)) ++ buf b = accepted es
  /\ Forall (fun p => snd p = [] \/ snd p = [fst p]) (closed b) /\ seen b = [].
Proof.
  intros Hpos Hr.
  destruct (run_total c es _ _ s b Hpos (inv_start c Hpos) (Forall_nil _) Hr) as [H1 H2].
  split; [exact H1|]. split; [exact H2|].
  apply (inv_seen c s b). apply reachable_inv; [assumption|exists es; assumption].
Qed.

(* the only way a batch is closed unprocessed is a failed accumulation or a reset *)
Lemma accum_dropped_only c s b e s' b' cs :
  0 < accum_max c -> reachable c s b ->
  step c (s, b) e = Some (s', b', cs) ->
  closed b' = closed b \/ closed b' = closed b ++ [(buf b, [buf b])]
  \/ (closed b' = closed b ++ [(buf b, [])] /\ (e = Reset \/ exists m, e = Push m false)).
Proof.
  intros Hpos Hr Hst. assert (HI := reachable_inv c s b Hpos Hr).
  destruct (step_inv c s b e Hpos HI) as (s1 & b1 & cs1 & H1 & H2 & H3).
  rewrite Hst in H1. injection H1 as <- <- <-.
  assert (Hs := inv_seen _ _ _ HI).
  destruct e as [m ok|].
  - inversion H3 as [s0 Hok | s0 Hok | s0 Hne Hwhy]; subst; cbn [closed]; auto.
    + right; right. rewrite Hs. split; [reflexivity|right; exists m; reflexivity].
    + right; left. rewrite Hs. reflexivity.
  - destruct H3 as [-> ->]. cbn. right; right. rewrite Hs. auto.
Qed.

Lemma accum_bounded c s b :
  0 < accum_max c -> reachable c s b ->
  length (buf b) <= accum_max c /\ lead_count (buf b) <= Nat.max (accum c) 1.
Proof.
  intros Hpos Hr. destruct (reachable_inv c s b Hpos Hr) as [_ H2 H3 H4 _]. lia.
Qed.

Lemma accum_composition c s b m ok s' b' cs :
  0 < accum_max c -> reachable c s b ->
  step c (s, b) (Push m ok) = Some (s', b', cs) -> In Process cs ->
  length (buf b) = accum_max c \/
  (exists f, hd_error (buf b) = Some f /\ frame f = frame m /\
     lead_count (buf b) = Nat.max (accum c) 1).
Proof.
  intros Hpos Hr Hst Hin.
  destruct (push_step c m ok s b Hpos (reachable_inv c s b Hpos Hr)) as (s1 & b1 & cs1 & H1 & H2 & H3).
  rewrite Hst in H1. injection H1 as <- <- <-.
  inversion H2 as [s0 Hok | s0 Hok | s0 Hne Hwhy]; subst; cbn in Hin.
  - destruct Hin as [Hx|[]]; discriminate.
  - destruct Hin as [Hx|[Hx|[]]]; discriminate.
  - exact Hwhy.
Qed.

(* converse: the batch is processed as soon as one of the two conditions holds *)
Lemma accum_trigger c s b m ok s' b' cs :
  0 < accum_max c -> reachable c s b ->
  step c (s, b) (Push m ok) = Some (s', b', cs) ->
  (length (buf b) = accum_max c \/
   (exists f, hd_error (buf b) = Some f /\ frame f = frame m /\
     lead_count (buf b) = Nat.max (accum c) 1)) -> In Process cs.
Proof.
  intros Hpos Hr Hst Hwhy.
  destruct (push_step c m ok s b Hpos (reachable_inv c s b Hpos Hr)) as (s1 & b1 & cs1 & H1 & H2 & H3).
  rewrite Hst in H1. injection H1 as <- <- <-.
  inversion H2 as [s0 Hok Hl Hw | s0 Hok Hl Hw | s0 Hne Hw]; subst; [exfalso|exfalso|cbn; auto].
  - destruct Hwhy as [E|(f & Hh & Hf & Hle)]; [lia|].
    destruct Hw as [Hb|(f2 & Hh2 & [Hf2|Hl2])]; [rewrite Hb in Hh; discriminate|congruence|].
    lia.
  - destruct Hwhy as [E|(f & Hh & Hf & Hle)]; [lia|].
    destruct Hw as [Hb|(f2 & Hh2 & [Hf2|Hl2])]; [rewrite Hb in Hh; discriminate|congruence|].
    lia.
Qed.

Lemma accum_failed c s b m s' b' cs :
  0 < accum_max c -> reachable c s b ->
  step c (s, b) (Push m false) = Some (s', b', cs) ->
  s' = accum_init /\ buf b' = [] /\
  (cs = [Accumulate m false; Clear] /\ processed b' = processed b \/
   cs = [Process; Clear; Accumulate m false] /\ processed b' = processed b ++ [buf b]).
Proof.
  intros Hpos Hr Hst. assert (HI := reachable_inv c s b Hpos Hr).
  destruct (push_step c m false s b Hpos HI) as (s1 & b1 & cs1 & H1 & H2 & H3).
  rewrite Hst in H1. injection H1 as <- <- <-.
  assert (Hs := inv_seen _ _ _ HI).
  assert (Hempty : buf b' = [] -> s' = accum_init).
  { intros Hb. destruct H3 as [Hk Hc _ _ _]. rewrite Hb in Hk, Hc. cbn in Hk, Hc.
    destruct s' as [n l]; cbn in *; subst. reflexivity. }
  inversion H2 as [s0 Hok | s0 Hok | s0 Hne Hwhy]; subst; try discriminate; cbn [buf] in *.
  - split; [auto|]. split; [reflexivity|]. left. split; [reflexivity|].
    unfold processed; cbn. rewrite Hs, map_app, concat_app; cbn. rewrite !app_nil_r. reflexivity.
  - split; [auto|]. split; [reflexivity|]. right. split; [reflexivity|].
    unfold processed; cbn. rewrite Hs, map_app, concat_app; cbn. rewrite !app_nil_r. reflexivity.
Qed.

(** progress *)
Definition all_ok (e : event) : Prop := exists m, e = Push m true.

Lemma progress_aux c n es s b :
  0 < accum_max c -> Inv c s b -> accum_max c + 1 - length (buf b) <= n ->
  length es = n -> Forall all_ok es ->
  exists pre post, calls_of c es (s, b) = pre ++ Process :: post.
Proof.
  intros Hpos. revert es s b.
  induction n as [|n IH]; intros es s b HI Hn Hlen Hall.
  - pose proof (inv_len _ _ _ HI). lia.
  - destruct es as [|e es]; [discriminate|].
    inversion Hall as [|? ? [m He] Hall']; subst e. injection Hlen as Hlen. subst.
    destruct (push_step c m true s b Hpos HI) as (s1 & b1 & cs1 & H1 & H2 & H3).
    cbn [calls_of]. rewrite H1.
    inversion H2 as [s0 Hok | s0 Hok | s0 Hne Hwhy]; subst; try discriminate.
    + destruct (IH es s1 _ H3) as (pre & post & He); try assumption.
      { cbn [buf]. rewrite app_length. cbn. lia. }
      { reflexivity. }
      rewrite He. exists (Accumulate m true :: pre), post. reflexivity.
    + exists [], ([Clear; Accumulate m true] ++ calls_of c es (s1, {| buf := [m]; seen := []; closed := closed b ++ [(buf b, seen b ++ [buf b])] |})).
      reflexivity.
Qed.

Lemma accum_progress c s b es :
  0 < accum_max c -> reachable c s b ->
  length es = accum_max c + 1 -> Forall (fun e => exists m, e = Push m true) es ->
  In Process (calls_of c es (s, b)).
Proof.
  intros Hpos Hr Hlen Hall.
  destruct (progress_aux c (length es) es s b Hpos (reachable_inv c s b Hpos Hr)) as (pre & post & H);
    auto; [lia|].
  rewrite H. apply in_or_app. right. left. reflexivity.
Qed.

(** the bound is attained: [limit] pushes of pairwise different sensors process nothing *)

(* single sensor *)
Definition period (c : accum_cfg) : nat := Nat.min (Nat.max (accum c) 1) (accum_max c).

Lemma lead_count_same f l : Forall (fun m => frame m = f) l -> lead_count l = length l.
Proof.
  intros H. destruct l as [|x l]; [reflexivity|]. cbn [lead_count].
  inversion H as [|? ? Hx Hl]; subst.
  assert (E : filter (fun y => String.eqb (frame x) (frame y)) (x :: l) = x :: l).
  { clear -H. induction H as [|y l' Hy Hl IH]; [reflexivity|].
    cbn. rewrite Hy, String.eqb_refl, IH. reflexivity. }
  rewrite E. reflexivity.
Qed.

Lemma count_app (cs1 cs2 : list (call cloud)) :
  length (filter is_process (cs1 ++ cs2))
  = length (filter is_process cs1) + length (filter is_process cs2).
Proof. rewrite filter_app, app_length. reflexivity. Qed.

Lemma single_aux c f ms s b :
  0 < accum_max c -> Inv c s b -> Forall (fun m => frame m = f) (buf b) ->
  Forall (fun m => frame m = f) ms ->
  length (buf b) <= period c ->
  length (filter is_process (calls_of c (map (fun m => Push m true) ms) (s, b)))
    = (length (buf b) + length ms - 1) / period c.
Proof.
  intros Hpos. revert s b. induction ms as [|m ms IH]; intros s b HI Hb Hms Hle.
  - assert (Hp : 1 <= period c) by (unfold period; lia).
    cbn [map calls_of filter length]. symmetry. rewrite Nat.add_0_r.
    apply Nat.div_small. lia.
  - inversion Hms as [|? ? Hm Hms']; subst.
    assert (Hp : 1 <= period c) by (unfold period; lia).
    assert (Hlc := lead_count_same _ _ Hb).
    destruct (push_step c m true s b Hpos HI) as (s1 & b1 & cs1 & H1 & H2 & H3).
    cbn [map calls_of]. rewrite H1.
    inversion H2 as [s0 Hok Hl Hw | s0 Hok | s0 Hne Hwhy]; subst; try discriminate.
    + rewrite count_app, IH; cbn [buf].
      * rewrite app_length. cbn [length]. cbn. f_equal. lia.
      * exact H3.
      * apply Forall_app; split; [assumption|]. constructor; auto.
      * exact Hms'.
      * rewrite app_length. cbn.
        destruct Hw as [E|(g & Hh & [Hf|Hl2])].
        -- rewrite E. cbn. unfold period. lia.
        -- destruct (buf b) as [|g' l]; [discriminate|]. injection Hh as ->.
           inversion Hb; subst. congruence.
        -- unfold period. lia.
    + assert (Hlen : length (buf b) = period c).
      { unfold period in *. destruct Hwhy as [E|(g & Hh & Hf & E)]; [lia|].
        rewrite Hlc in E. lia. }
      rewrite count_app, IH; cbn [buf]; auto; try (cbn; lia).
      cbn [filter is_process length].
      replace (length (buf b) + S (length ms) - 1) with (1 * period c + (1 + length ms - 1)) by lia.
      rewrite Nat.div_add_l by lia. lia.
Qed.

Lemma accum_single c f ms :
  0 < accum_max c -> Forall (fun m => frame m = f) ms ->
  length (filter is_process (calls_of c (map (fun m => Push m true) ms) start))
    = (length ms - 1) / Nat.min (Nat.max (accum c) 1) (accum_max c).
Proof.
  intros Hpos Hms. unfold start.
  rewrite (single_aux c f ms) by (auto using inv_start; cbn; constructor || lia).
  reflexivity.
Qed.

(** never undefined *)
Lemma accum_safe c es :
  0 < accum_max c -> run c es start <> None.
Proof.
  intros Hpos H. destruct (run_inv c es _ _ Hpos (inv_start c Hpos)) as (s' & b' & H1 & _).
  unfold start in H. congruence.
Qed.
Lemma accum_zero_limit c m ok :
  accum_max c = 0 -> step c start (Push m ok) = None.
Proof. intros H. cbn. unfold push. rewrite H. reflexivity. Qed.

(** pass-through *)
Lemma pass_step m ok b :
  client_run (push_pass m ok) b =
  if ok then {| buf := [m]; seen := [[m]]; closed := closed b ++ [(buf b, seen b)] |}
  else {| buf := []; seen := []; closed := closed b ++ [(buf b, seen b)] |}.
Proof. destruct ok; reflexivity. Qed.

Lemma pass_processed es b :
  processed (run_pass es b) = processed b ++ map (fun m => [m]) (accepted es).
Proof.
  revert b. unfold run_pass. induction es as [|e es IH]; intros b; cbn [fold_left].
  - cbn. rewrite app_nil_r. reflexivity.
  - rewrite IH. destruct e as [m [|]|]; cbn; unfold processed; cbn;
      rewrite map_app, concat_app; cbn; rewrite ?app_nil_r, <- ?app_assoc; reflexivity.
Qed.
