(** Vocabulary for C126: single precision quaternions and the reals they stand for. *)
From Coq Require Import Reals ZArith List Bool.
From Flocq Require Import Core.Core IEEE754.BinarySingleNaN.
From Verif Require Import Arith Ieee QuatModel NdModel QuatFloatModel.
Open Scope R_scope.

Definition finite3 (v : vec32) : Prop := let '(x, y, z) := v in is_finite x = true /\ is_finite y = true /\ is_finite z = true.
Definition finite4 (q : quat32) : Prop := let '(x, y, z, w) := q in is_finite x = true /\ is_finite y = true /\ is_finite z = true /\ is_finite w = true.
(** the real quaternion *)
Definition value (q : quat32) : quat := let '(x, y, z, w) := q in Q4 (f2r x) (f2r y) (f2r z) (f2r w).
(** squared length *)
Definition length2 (q : quat) : R := qx q * qx q + qy q * qy q + qz q * qz q + qw q * qw q.
(** finite, and the squared length is 1 up to k *)
Definition nearly_unit (k : R) (q : quat32) : Prop := finite4 q /\ Rabs (length2 (value q) - 1) <= k.
(** every component differs by at most k *)
Definition within4 (k : R) (a b : quat) : Prop :=
  Rabs (qx a - qx b) <= k /\ Rabs (qy a - qy b) <= k /\ Rabs (qz a - qz b) <= k /\ Rabs (qw a - qw b) <= k.
(** a (very weak) requirement on the C library: finite results with sin^2 + cos^2 = 1 up to 1/1000 *)
Definition trig_ok (sinf cosf : f32 -> f32) : Prop := forall x, is_finite x = true ->
  is_finite (sinf x) = true /\ is_finite (cosf x) = true /\ Rabs (f2r (sinf x) * f2r (sinf x) + f2r (cosf x) * f2r (cosf x) - 1) <= / 1000.
(** an odometry step between nearly unit quaternions, or finite noise *)
Definition usable (s : rot_step) : Prop :=
  match s with
  | Odometry yd prev cur => is_finite (fdiv32 yd (f32_of_Z 2)) = true /\ nearly_unit (/ 100) prev /\ nearly_unit (/ 100) cur
  | Resampled (r, p, y) => is_finite (fdiv32 r (f32_of_Z 2)) = true /\ is_finite (fdiv32 p (f32_of_Z 2)) = true /\ is_finite (fdiv32 y (f32_of_Z 2)) = true
  end.

(** ** exact counterparts, for the accuracy statement *)
(** Euclidean distance of quaternions *)
Definition qdist (a b : quat) : R := sqrt (length2 (qsub a b)).
(** sinf and cosf with an absolute error of at most 1.25e-7 (two units in the last place near 1) *)
Definition trig_good (sinf cosf : f32 -> f32) : Prop := forall x, is_finite x = true ->
  is_finite (sinf x) = true /\ is_finite (cosf x) = true /\ Rabs (f2r (sinf x) - sin (f2r x)) <= / 8000000 /\ Rabs (f2r (cosf x) - cos (f2r x)) <= / 8000000.
(** the same history in exact arithmetic: the new rotation is (turn about z) (old rotation) (previous odometry^-1 * current), or (roll, pitch, yaw) (old rotation) *)
Definition exact_step (q : quat) (s : rot_step) : quat :=
  match s with
  | Odometry yd prev cur => qnormalized (qmul (qmul (setAxisAng (V3 0 0 1) (f2r yd)) q) (qmul (inv (value prev)) (value cur)))
  | Resampled (r, p, y) => qnormalized (qmul (setRPY (V3 (f2r r) (f2r p) (f2r y))) q)
  end.
(** finite numbers, nearly unit orientations *)
Definition usable_in (s : rot_step) : Prop :=
  match s with
  | Odometry yd prev cur => is_finite yd = true /\ nearly_unit (/ 100) prev /\ nearly_unit (/ 100) cur
  | Resampled (r, p, y) => is_finite r = true /\ is_finite p = true /\ is_finite y = true
  end.
