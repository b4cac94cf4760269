(** Words for statements about distances reported as floats. *)
From Coq Require Import Reals List Bool.
From Flocq Require Import IEEE754.BinarySingleNaN.
From Verif Require Import Ieee.
Local Open Scope R_scope.

(** a search result that is not NaN and not negative *)
Definition a_distance (d : option f32) : Prop := match d with None => True | Some x => nn x end.
(** a finite one *)
Definition a_finite_distance (d : option f32) : Prop := match d with None => True | Some x => nonneg32 x end.
(** [a] reports a map point at least as close as [b] does (finding nothing is farthest) *)
Definition at_least_as_close (a b : option f32) : Prop :=
  match b with None => True | Some y => exists x, a = Some x /\ Bleb x y = true end.
(** the distance stays within the two settings, on the numbers the floats stand for *)
Definition within (dmin flat : f32) (d : option f32) : Prop :=
  exists x, d = Some x /\ is_finite x = true /\ (f2r (Bsqrt mode_NE x) <= f2r dmin)%R /\ (f2r flat <= f2r dmin)%R.
(** what the C++ settings must be: finite and not negative *)
Definition sane (dmin flat weight : f32) : Prop := nonneg32 dmin /\ nonneg32 flat /\ nonneg32 weight.
(** what the documentation says a point with squared distance [sq] adds *)
Definition documented (dmin flat weight : f32) (d : option f32) : R :=
  match d with
  | None => 0
  | Some sq => f2r weight * Rmax 0 (f2r dmin - Rmax (sqrt (f2r sq)) (f2r flat))
  end.

