(** Vocabulary for C132. *)
From Coq Require Import Reals List Bool.
From Flocq Require Import Core.Core IEEE754.BinarySingleNaN.
From Verif Require Import Ieee QuatModel StateModel NdModel.
Import ListNotations.
Local Open Scope R_scope.

Definition real_vec (v : vec32) : vec3 := let '(x, y, z) := v in V3 (B2R x) (B2R y) (B2R z).
Definition real_quat (q : quat32) : quat := let '(x, y, z, w) := q in Q4 (B2R x) (B2R y) (B2R z) (B2R w).
(** finite coordinates of magnitude at most M *)
Definition coords (M : R) (v : vec32) : Prop := let '(x, y, z) := v in
  (is_finite x = true /\ is_finite y = true /\ is_finite z = true) /\ Rabs (B2R x) <= M /\ Rabs (B2R y) <= M /\ Rabs (B2R z) <= M.
Definition finite_quat (q : quat32) : Prop := let '(x, y, z, w) := q in
  is_finite x = true /\ is_finite y = true /\ is_finite z = true /\ is_finite w = true.
(** a length between 1/2 and 2 *)
Definition fair_length (q : quat) : Prop := / 4 <= qx q * qx q + qy q * qy q + qz q * qz q + qw q * qw q <= 4.
(** finite, and each coordinate within e of v *)
Definition near_vec (e : R) (f : vec32) (v : vec3) : Prop := let '(x, y, z) := f in
  (is_finite x = true /\ is_finite y = true /\ is_finite z = true) /\
  Rabs (B2R x - vx v) <= e /\ Rabs (B2R y - vy v) <= e /\ Rabs (B2R z - vz v) <= e.
