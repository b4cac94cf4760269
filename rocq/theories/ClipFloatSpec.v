(** Vocabulary for C131: which points clipping must keep and which it must remove. *)
From Coq Require Import Reals List Bool.
From Flocq Require Import Core.Core IEEE754.BinarySingleNaN.
From Verif Require Import Ieee ClipFloatModel.
Local Open Scope R_scope.

Definition finite_point (p : pt32) : Prop := is_finite (px p) = true /\ is_finite (py p) = true /\ is_finite (pz p) = true.
(** the exact squared horizontal distance from the sensor *)
Definition dist2 (p : pt32) : R := B2R (px p) * B2R (px p) + B2R (py p) * B2R (py p).
(** usable limits: a micrometre to 1e15 m, or no near limit; ordered heights are not needed *)
Definition limits (near far zmin zmax : f32) : Prop :=
  is_finite near = true /\ is_finite far = true /\ is_finite zmin = true /\ is_finite zmax = true /\
  (B2R near = 0 \/ / 1000000 <= B2R near <= 1000000000000000) /\ / 1000000 <= B2R far <= 1000000000000000.
(** four units of 2^-24 relative to the squared limit: two of the distance itself *)
Definition m4 : R := 4 / 16777216.
Definition surely_inside (near far zmin zmax : f32) (p : pt32) : Prop :=
  B2R near * B2R near * (1 + m4) <= dist2 p <= B2R far * B2R far * (1 - m4) /\ B2R zmin <= B2R (pz p) <= B2R zmax.
Definition surely_outside (near far zmin zmax : f32) (p : pt32) : Prop :=
  dist2 p < B2R near * B2R near * (1 - m4) \/ B2R far * B2R far * (1 + m4) < dist2 p \/
  B2R (pz p) < B2R zmin \/ B2R zmax < B2R (pz p).
