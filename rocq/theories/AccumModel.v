(** Model of the cloud accumulation logic.
    Source: /repo/src/cloud_accum.cpp lines 41-125 and
    /repo/include/mcl_3dl/cloud_accum.h lines 42-98.

    The class calls back three user functions.  [push] is modelled as a function
    that returns the new member variables and the *sequence of callbacks it made*;
    whether [accumulate(msg)] returns true is decided by the environment and is an
    input.  Reading [keys_.front()] of an empty vector is undefined behaviour and
    is the result [None].
    Simplification: size_t is [nat] (counters never exceed the limit, proved). *)
From Coq Require Import String List Arith Bool.
Import ListNotations.

(** cloud_accum.h:94-97: accum_ and accum_max_ are fixed, cnt_accum_ and keys_ vary. *)
Record accum_cfg := { accum : nat; accum_max : nat }.
Record accum_st := { cnt_accum : nat; keys : list string }.

(** A callback made by push; [Accumulate m ok] carries its message and result. *)
Inductive call (M : Type) :=
| Process | Accumulate (m : M) (ok : bool) | Clear.
Arguments Process {M}. Arguments Accumulate {M}. Arguments Clear {M}.

(** cloud_accum.h:75-82 constructor *)
Definition accum_init : accum_st := {| cnt_accum := 0; keys := [] |}.

(** cloud_accum.cpp:121-125 *)
Definition reset (s : accum_st) : accum_st := {| cnt_accum := 0; keys := [] |}.

Section Push.
Context {M : Type}.

(** cloud_accum.cpp:114-118, the tail of push after process/clear/reset *)
Definition push_tail (k : string) (m : M) (ok : bool) (s : accum_st)
  : accum_st * list (call M) :=
  if ok then
    ({| cnt_accum := S (cnt_accum s); keys := keys s ++ [k] |}, [Accumulate m true])
  else (s, [Accumulate m false]).

(** cloud_accum.cpp:109-118 *)
Definition push_process (k : string) (m : M) (ok : bool) (s : accum_st)
  : accum_st * list (call M) :=
  let s1 := reset s in
  let '(s2, cs) := push_tail k m ok s1 in
  (s2, Process :: Clear :: cs).

(** cloud_accum.cpp:53-119 *)
Definition push (c : accum_cfg) (k : string) (m : M) (ok : bool) (s : accum_st)
  : option (accum_st * list (call M)) :=
  if length (keys s) <? accum_max c then
    match keys s with
    | [] =>                                              (* line 64: size()==0 *)
        if ok then
          Some ({| cnt_accum := 1; keys := keys s ++ [k] |}, [Accumulate m true])
        else Some (reset s, [Accumulate m false; Clear])
    | f :: _ =>
        if negb (String.eqb f k) then                    (* line 64: front() != key *)
          if ok then
            Some ({| cnt_accum := cnt_accum s; keys := keys s ++ [k] |},
                  [Accumulate m true])
          else Some (reset s, [Accumulate m false; Clear])
        else if cnt_accum s <? accum c then              (* line 83 *)
          if ok then
            Some ({| cnt_accum := S (cnt_accum s); keys := keys s ++ [k] |},
                  [Accumulate m true])
          else Some (reset s, [Accumulate m false; Clear])
        else Some (push_process k m ok s)
    end
  else
    match keys s with                                    (* line 106: keys_.front() *)
    | [] => None
    | _ :: _ => Some (push_process k m ok s)
    end.

(** cloud_accum.cpp:41-51 (pass-through logic: no member variables) *)
Definition push_pass (m : M) (ok : bool) : list (call M) :=
  if ok then [Clear; Accumulate m true; Process] else [Clear; Accumulate m false].

End Push.
