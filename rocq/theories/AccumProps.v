(** Property theorems C16-C23: cloud accumulation. *)
From Coq Require Import String List Arith Bool Lia.
From Verif Require Import AccumModel AccumSpec AccumProofs.
Import ListNotations.
Open Scope string_scope.
Open Scope list_scope.

(** C16: when process is called, the client's buffer is non-empty, is exactly the
    sequence of clouds accumulated since the last clear, has one remembered key
    per cloud; it is handed over once, and afterwards the buffer restarts with the
    triggering cloud (iff that one accumulated). *)
Theorem C16_process_sees : forall c es s b m ok s' b' cs,
  0 < accum_max c -> run c es start = Some (s, b) ->
  step c (s, b) (Push m ok) = Some (s', b', cs) ->
  forall pre post, cs = pre ++ Process :: post ->
  pre = [] /\ buf b <> [] /\ buf b = since_clear [] (calls_of c es start)
  /\ keys s = map frame (buf b) /\ processed b' = processed b ++ [buf b]
  /\ (buf b' = if ok then [m] else []) /\ post = [Clear; Accumulate m ok].
Proof. exact process_sees. Qed.

(** C17: conservation: closed batches followed by the buffer are exactly the
    accepted clouds; each closed batch was processed at most once, as a whole. *)
Theorem C17_conservation : forall c es s b,
  0 < accum_max c -> run c es start = Some (s, b) ->
  concat (map fst (closed b)) ++ buf b = accepted es
  /\ Forall (fun p => snd p = [] \/ snd p = [fst p]) (closed b) /\ seen b = [].
Proof. exact accum_conserve. Qed.

(** C17, second half: a batch is closed unprocessed only by a failure or a reset. *)
Theorem C17_dropped_only_on_failure_or_reset : forall c s b e s' b' cs,
  0 < accum_max c -> reachable c s b ->
  step c (s, b) e = Some (s', b', cs) ->
  closed b' = closed b \/ closed b' = closed b ++ [(buf b, [buf b])]
  \/ (closed b' = closed b ++ [(buf b, [])] /\ (e = Reset \/ exists m, e = Push m false)).
Proof. exact accum_dropped_only. Qed.

(** C18 *)
Theorem C18_bounded : forall c s b,
  0 < accum_max c -> reachable c s b ->
  length (buf b) <= accum_max c /\ lead_count (buf b) <= Nat.max (accum c) 1.
Proof. exact accum_bounded. Qed.

(** C19: and the two conditions are also sufficient. *)
Theorem C19_composition : forall c s b m ok s' b' cs,
  0 < accum_max c -> reachable c s b ->
  step c (s, b) (Push m ok) = Some (s', b', cs) ->
  (In Process cs <->
   (length (buf b) = accum_max c \/
    (exists f, hd_error (buf b) = Some f /\ frame f = frame m /\
       lead_count (buf b) = Nat.max (accum c) 1))).
Proof.
  exact (fun c s b m ok s' b' cs Hp Hr Hs =>
    conj (accum_composition c s b m ok s' b' cs Hp Hr Hs)
         (accum_trigger c s b m ok s' b' cs Hp Hr Hs)).
Qed.

(** C20 *)
Theorem C20_progress : forall c s b es,
  0 < accum_max c -> reachable c s b ->
  length es = accum_max c + 1 -> Forall (fun e => exists m, e = Push m true) es ->
  In Process (calls_of c es (s, b)).
Proof. exact accum_progress. Qed.

(** C20: one sensor only: process is called exactly every min(max(accum,1),limit)
    clouds, the first time on the cloud after that many. *)
Theorem C20_single_sensor : forall c f ms,
  0 < accum_max c -> Forall (fun m => frame m = f) ms ->
  length (filter is_process (calls_of c (map (fun m => Push m true) ms) start))
    = (length ms - 1) / Nat.min (Nat.max (accum c) 1) (accum_max c).
Proof. exact accum_single. Qed.

(** C21 *)
Theorem C21_failed_cloud : forall c s b m s' b' cs,
  0 < accum_max c -> reachable c s b ->
  step c (s, b) (Push m false) = Some (s', b', cs) ->
  s' = accum_init /\ buf b' = [] /\
  (cs = [Accumulate m false; Clear] /\ processed b' = processed b \/
   cs = [Process; Clear; Accumulate m false] /\ processed b' = processed b ++ [buf b]).
Proof. exact accum_failed. Qed.

(** C22 *)
Theorem C22_pass_through : forall es b,
  processed (run_pass es b) = processed b ++ map (fun m => [m]) (accepted es).
Proof. exact pass_processed. Qed.
(** after every cloud the buffer holds that cloud alone, or nothing if it failed *)
Theorem C22_buffer_is_the_last_cloud : forall es m ok b,
  buf (run_pass (es ++ [Push m ok]) b) = if ok then [m] else [].
Proof. intros es m ok b. unfold run_pass. rewrite fold_left_app. destruct ok; reflexivity. Qed.

(** C23 *)
Theorem C23_positive_limit_is_safe : forall c es,
  0 < accum_max c -> run c es start <> None.
Proof. exact accum_safe. Qed.
Theorem C23_zero_limit_is_undefined : forall c m ok,
  accum_max c = 0 -> step c start (Push m ok) = None.
Proof. exact accum_zero_limit. Qed.

(** Non-vacuity: a concrete history with two sensors, accum=2, limit=5: the fifth
    push triggers processing of four clouds, a later failure drops a batch. *)
Definition ex_cfg := {| accum := 2; accum_max := 5 |}.
Definition cl k i := {| frame := k; ident := i |}.
Definition ex_hist := [Push (cl "a" 1) true; Push (cl "b" 2) true; Push (cl "a" 3) true;
                       Push (cl "b" 4) true].
Example C16_hypotheses_met :
  exists s b s' b' post, run ex_cfg ex_hist start = Some (s, b) /\ 0 < accum_max ex_cfg /\
    step ex_cfg (s, b) (Push (cl "a" 5) true) = Some (s', b', [] ++ Process :: post) /\
    buf b = [cl "a" 1; cl "b" 2; cl "a" 3; cl "b" 4].
Proof. do 5 eexists. repeat split; reflexivity || (cbn; lia). Qed.
Example C17_example :
  exists s b, run ex_cfg (ex_hist ++ [Push (cl "a" 5) true; Push (cl "b" 6) false;
                                      Push (cl "a" 7) true; Reset]) start = Some (s, b) /\
    map fst (closed b) =
      [[cl "a" 1; cl "b" 2; cl "a" 3; cl "b" 4]; [cl "a" 5]; [cl "a" 7]] /\
    processed b = [[cl "a" 1; cl "b" 2; cl "a" 3; cl "b" 4]].
Proof. do 2 eexists. repeat split; reflexivity. Qed.
(** C19's second alternative (the limit) does occur: sensor "a" stopped. *)
Example C19_limit_reached :
  exists s b s' b' post,
    run ex_cfg [Push (cl "a" 1) true; Push (cl "b" 2) true; Push (cl "b" 3) true;
                Push (cl "b" 4) true; Push (cl "b" 5) true] start = Some (s, b) /\
    length (buf b) = accum_max ex_cfg /\
    step ex_cfg (s, b) (Push (cl "b" 6) true) = Some (s', b', Process :: post).
Proof. do 5 eexists. repeat split; reflexivity. Qed.
(** C20: the bound limit+1 is attained: five clouds, nothing processed yet. *)
Example C20_bound_attained :
  filter is_process (calls_of ex_cfg [Push (cl "a" 1) true; Push (cl "b" 2) true;
    Push (cl "c" 3) true; Push (cl "d" 4) true; Push (cl "e" 5) true] start) = [].
Proof. reflexivity. Qed.
Example C22_example :
  processed (run_pass [Push (cl "a" 1) true; Push (cl "a" 2) false; Push (cl "b" 3) true] client0)
  = [[cl "a" 1]; [cl "b" 3]].
Proof. reflexivity. Qed.
