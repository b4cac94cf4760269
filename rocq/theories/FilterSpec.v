(** Vocabulary for the filter properties. *)
From Coq Require Import Reals ZArith List Bool.
From Verif Require Import FilterModel.
Import ListNotations.
Open Scope R_scope.

(** A use of the object: construction, then any calls of in() and set(). *)
Inductive fcall := In (v : R) | Set_ (v : R).
Definition fstep (f : filt) (c : fcall) : filt :=
  match c with In v => input f v | Set_ v => set f v end.
(** The object after feeding a list of inputs, and all the outputs seen. *)
Definition feed (f : filt) (ins : list R) : filt := fold_left input ins f.
Fixpoint outputs (f : filt) (ins : list R) : list R :=
  match ins with [] => [] | i :: r => out (input f i) :: outputs (input f i) r end.
(** Objects a client can have: constructed with some parameters and used somehow. *)
Definition lpf (T : R) (ang : bool) (f : filt) : Prop :=
  exists out0 cs, f = fold_left fstep cs (new_filt FILTER_LPF T out0 ang).
Definition hpf (T : R) (ang : bool) (f : filt) : Prop :=
  exists out0 cs, f = fold_left fstep cs (new_filt FILTER_HPF T out0 ang).
(** x is an odd multiple of half a turn *)
Definition half_turn (x : R) : Prop := exists m : Z, x = IZR (2 * m + 1) * PI.
(** No input of the run is exactly half a turn away from the output it meets. *)
Fixpoint no_half_turn (f : filt) (ins : list R) : Prop :=
  match ins with
  | [] => True
  | i :: r => ~ half_turn (i - out f) /\ no_half_turn (input f i) r
  end.
(** Two input sequences that describe the same directions. *)
Definition same_directions (us vs : list R) : Prop :=
  Forall2 (fun u v => exists k : Z, v = u + IZR k * (2 * PI)) us vs.
(** The same for the vector filter, and the call one component sees. *)
Inductive fcall3 := In3 (v : R * R * R) | Set3 (v : R * R * R).
Definition fstep3 (f : filt3) (c : fcall3) : filt3 :=
  match c with In3 v => input3 f v | Set3 v => set3 f v end.
Definition comp_call (pr : R * R * R -> R) (c : fcall3) : fcall :=
  match c with In3 v => In (pr v) | Set3 v => Set_ (pr v) end.
