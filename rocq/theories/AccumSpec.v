(** Independent vocabulary for the accumulation properties: what a client that
    implements the three callbacks in the obvious way sees.
    (The node's callbacks are /repo/src/mcl_3dl.cpp 267-302: accumulate appends to
    a buffer iff it returns true, clear empties the buffer, process reads it;
    a map load calls clear and then reset, lines 1162-1163.) *)
From Coq Require Import String List Arith Bool.
From Verif Require Import AccumModel.
Import ListNotations.

(** A cloud: the sensor frame it came from (the key) and its identity. *)
Record cloud := { frame : string; ident : nat }.

(** What happens from outside: a cloud arrives (and accumulating it would succeed
    or fail), or the node resets the accumulation. *)
Inductive event := Push (m : cloud) (ok : bool) | Reset.

(** The client: the current buffer, the buffer contents seen by each process call
    since the last clear, and the log of closed buffers
    (content, contents seen by the process calls on it). *)
Record client := {
  buf : list cloud;
  seen : list (list cloud);
  closed : list (list cloud * list (list cloud))
}.
Definition client0 : client := {| buf := []; seen := []; closed := [] |}.

Definition client_step (b : client) (c : call cloud) : client :=
  match c with
  | Process => {| buf := buf b; seen := seen b ++ [buf b]; closed := closed b |}
  | Accumulate m true => {| buf := buf b ++ [m]; seen := seen b; closed := closed b |}
  | Accumulate m false => b
  | Clear => {| buf := []; seen := []; closed := closed b ++ [(buf b, seen b)] |}
  end.
Definition client_run (cs : list (call cloud)) (b : client) : client :=
  fold_left client_step cs b.

Definition is_process (c : call cloud) : bool :=
  match c with Process => true | _ => false end.

(** One external event on accumulator and client; [None] = undefined behaviour.
    The third component is the list of callbacks made. *)
Definition step (c : accum_cfg) (st : accum_st * client) (e : event)
  : option (accum_st * client * list (call cloud)) :=
  let '(s, b) := st in
  match e with
  | Push m ok =>
      match push c (frame m) m ok s with
      | None => None
      | Some (s', cs) => Some (s', client_run cs b, cs)
      end
  | Reset => Some (reset s, client_run [Clear] b, [Clear])
  end.

(** Whole histories. *)
Fixpoint run (c : accum_cfg) (es : list event) (st : accum_st * client)
  : option (accum_st * client) :=
  match es with
  | [] => Some st
  | e :: es' =>
      match step c st e with
      | None => None
      | Some (s', b', _) => run c es' (s', b')
      end
  end.
Definition start : accum_st * client := (accum_init, client0).
Definition reachable (c : accum_cfg) (s : accum_st) (b : client) : Prop :=
  exists es, run c es start = Some (s, b).

(** All callbacks made by a history, in order. *)
Fixpoint calls_of (c : accum_cfg) (es : list event) (st : accum_st * client)
  : list (call cloud) :=
  match es with
  | [] => []
  | e :: es' =>
      match step c st e with
      | None => []
      | Some (s', b', cs) => cs ++ calls_of c es' (s', b')
      end
  end.

(** The successfully accumulated clouds of a history, in arrival order. *)
Fixpoint accepted (es : list event) : list cloud :=
  match es with
  | [] => []
  | Push m true :: es' => m :: accepted es'
  | _ :: es' => accepted es'
  end.

(** Clouds successfully accumulated since the last clear, read off the callbacks. *)
Fixpoint since_clear (acc : list cloud) (cs : list (call cloud)) : list cloud :=
  match cs with
  | [] => acc
  | Clear :: cs' => since_clear [] cs'
  | Accumulate m true :: cs' => since_clear (acc ++ [m]) cs'
  | _ :: cs' => since_clear acc cs'
  end.

(** All batches handed to process, in order. *)
Definition processed (b : client) : list (list cloud) :=
  concat (map snd (closed b)) ++ seen b.

(** Number of clouds of the sensor that started the batch. *)
Definition lead_count (l : list cloud) : nat :=
  match l with
  | [] => 0
  | m :: _ => length (filter (fun x => String.eqb (frame m) (frame x)) l)
  end.

(** The pass-through accumulator driven by the same client. *)
Definition step_pass (b : client) (e : event) : client :=
  match e with
  | Push m ok => client_run (push_pass m ok) b
  | Reset => client_run [Clear] b
  end.
Definition run_pass (es : list event) (b : client) : client := fold_left step_pass es b.
