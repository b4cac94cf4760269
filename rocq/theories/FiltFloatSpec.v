(** Vocabulary for C130: a use of a smoothing filter computed in single precision, beside the same
    use of the filter over the reals. *)
From Coq Require Import Reals ZArith List Bool.
From Flocq Require Import Core.Core IEEE754.BinarySingleNaN.
From Verif Require Import Ieee LikeFloatErr FilterModel FilterSpec FiltFloatModel.
Import ListNotations.
Local Open Scope R_scope.

(** the calls a client can make: in(v) and set(v), on float values *)
Inductive call32 := In32 (v : f32) | Set32 (v : f32).
Definition arg (c : call32) : f32 := match c with In32 v | Set32 v => v end.
Definition fstep32 (g : filt32) (c : call32) : filt32 := match c with In32 v => input32 g v | Set32 v => set32 g v end.
(** the same call on the filter over the reals *)
Definition real_call (c : call32) : fcall := match c with In32 v => In (B2R v) | Set32 v => Set_ (B2R v) end.
(** a finite float of magnitude at most M *)
Definition sized (M : R) (v : f32) : Prop := is_finite v = true /\ Rabs (B2R v) <= M.
(** the configurations and magnitudes the bound covers: time constant from 1 to 1024 steps, the largest
    magnitude seen between 1e-15 and 1e15 *)
Definition covered (tc : f32) (M : R) : Prop := is_finite tc = true /\ 1 <= B2R tc <= 1024 /\ / 1000000000000000 <= M <= 1000000000000000.
(** 12 * 2^-24 * time constant *)
Definition slack (tc : f32) : R := 12 / 16777216 * B2R tc.

(** the same for the filter of a vector *)
Inductive vcall32 := VIn32 (v : f32 * f32 * f32) | VSet32 (v : f32 * f32 * f32).
Definition varg (c : vcall32) : f32 * f32 * f32 := match c with VIn32 v | VSet32 v => v end.
Definition vstep32 (g : vfilt32) (c : vcall32) : vfilt32 := match c with VIn32 v => in_vec32 g v | VSet32 v => set_vec32 g v end.
Definition real3 (v : f32 * f32 * f32) : R * R * R := let '(a, b, c) := v in (B2R a, B2R b, B2R c).
Definition real_call3 (c : vcall32) : fcall3 := match c with VIn32 v => In3 (real3 v) | VSet32 v => Set3 (real3 v) end.
Definition sized3 (M : R) (v : f32 * f32 * f32) : Prop := let '(a, b, c) := v in sized M a /\ sized M b /\ sized M c.
