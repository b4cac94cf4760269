(** Vocabulary for the likelihood of the IMU. *)
From Coq Require Import Reals.
From Flocq Require Import IEEE754.BinarySingleNaN.
From Verif Require Import Ieee QuatModel.
Open Scope R_scope.

(** density of the normal distribution with standard deviation |sigma| *)
Definition gauss (sigma x : R) : R := / (Rabs sigma * sqrt (2 * PI)) * exp (- (x / sigma) ^ 2 / 2).
(** [t] is the angle between [a] and [b] *)
Definition angle_between (a b : vec3) (t : R) : Prop := 0 <= t <= PI /\ vdot a b = vnorm a * vnorm b * cos t.
(** expf on the special values *)
Definition exp_ok (expf : f32 -> f32) : Prop :=
  expf (B754_infinity true) = B754_zero false /\ expf B754_nan = B754_nan.
(** acosf outside [-1,1] *)
Definition acos_ok (acosf : f32 -> f32) : Prop := forall x, Bltb (f32_of_Z 1) x = true -> acosf x = B754_nan.
