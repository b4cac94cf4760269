(** Vocabulary for the search properties. *)
From Coq Require Import Reals List.
From Verif Require Import Arith KdModel.
Import ListNotations.

(** The neighbours a brute force search of the whole cloud finds: ids and points. *)
Definition neighbours (s : scale) (cloud : list pt) (q : pt) (radius : R) : list (nat * pt) :=
  filter (fun ip => Rltb (dist_sq s (snd ip) q) (radius * radius)) (combine (seq 0 (length cloud)) cloud).

(** Points with three distance weights. *)
Definition mkpt (x y z : R) : pt := {| px := x; py := y; pz := z |}.

(** The object after any sequence of configuration and loading calls. *)
Inductive call := CEps (e : R) | CRep (r : scale) | CLoad (cloud : list pt).
Definition apply_call (k : kdt) (c : call) : kdt :=
  match c with
  | CEps e => setEpsilon e k
  | CRep r => setPointRepresentation r k
  | CLoad cl => setInputCloud cl k
  end.
Fixpoint last_load (cs : list call) (acc : option (list pt)) : option (list pt) :=
  match cs with [] => acc | CLoad c :: cs' => last_load cs' (Some c) | _ :: cs' => last_load cs' acc end.
Fixpoint last_rep (cs : list call) (acc : option scale) : option scale :=
  match cs with [] => acc | CRep c :: cs' => last_rep cs' (Some c) | _ :: cs' => last_rep cs' acc end.
Fixpoint last_eps (cs : list call) (acc : option R) : option R :=
  match cs with [] => acc | CEps c :: cs' => last_eps cs' (Some c) | _ :: cs' => last_eps cs' acc end.
(** All three coordinate weights are at least 1. *)
Definition at_least_one (s : scale) : Prop := let '(a, b, c) := s in (1 <= a /\ 1 <= b /\ 1 <= c)%R.
(** The distance weights in force: those of the last setPointRepresentation, else 1. *)
Definition weights_used (cs : list call) : scale :=
  match last_rep cs None with Some s => s | None => (1, 1, 1)%R end.
