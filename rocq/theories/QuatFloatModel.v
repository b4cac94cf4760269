(** Rotations of particles in single precision (binary32, round to nearest even).
    Sinf/cosf of the C library are parameters. *)
From Coq Require Import Reals ZArith List Bool.
From Flocq Require Import Core.Core IEEE754.BinarySingleNaN.
From Verif Require Import Arith Ieee NdModel.
Import ListNotations.

Section Q.
Context (sinf cosf : f32 -> f32).
(** quat.h:91-94 *)
Definition qnorm32 (a : quat32) : f32 := Bsqrt mode_NE (qdot32 a a).
(** quat.h:144-147 *)
Definition qscale32 (a : quat32) (s : f32) : quat32 :=
  let '(x, y, z, w) := a in (fmult32 x s, fmult32 y s, fmult32 z s, fmult32 w s).
(** quat.h:148-151: 1.0 / s is a double, narrowed to the float argument of operator* *)
Definition recip32 (s : f32) : f32 := f32_of_f64 (div64 (f64_of_Z 1) (f64_of_f32 s)).
Definition qdiv32 (a : quat32) (s : f32) : quat32 := qscale32 a (recip32 s).
(** quat.h:175-182 *)
Definition qnormalized32 (a : quat32) : quat32 := qdiv32 a (qnorm32 a).
(** quat.h:216-225 with vec3.h:115-118, 139-142, 153-156: the quaternion of a rotation about an axis *)
Definition setAxisAng32 (axis : vec32) (ang : f32) : quat32 :=
  let '(x, y, z) := axis in let n := norm32 axis in
  let h := fdiv32 ang (f32_of_Z 2) in let s := sinf h in
  qnormalized32 (fmult32 (fdiv32 x n) s, fmult32 (fdiv32 y n) s, fmult32 (fdiv32 z n) s, cosf h).
Definition ez32 : vec32 := (f32_of_Z 0, f32_of_Z 0, f32_of_Z 1).
(** quat.h:202-215 *)
Definition setRPY32 (rpy : vec32) : quat32 :=
  let '(r, p, y) := rpy in let half x := fdiv32 x (f32_of_Z 2) in
  let t2 := cosf (half r) in let t3 := sinf (half r) in
  let t4 := cosf (half p) in let t5 := sinf (half p) in
  let t0 := cosf (half y) in let t1 := sinf (half y) in
  let m a b c := fmult32 (fmult32 a b) c in
  (fminus32 (m t0 t3 t4) (m t1 t2 t5), fplus32 (m t0 t2 t5) (m t1 t3 t4),
   fminus32 (m t1 t2 t4) (m t0 t3 t5), fplus32 (m t0 t2 t4) (m t1 t3 t5)).
(** motion_prediction_model_differential_drive.h:49 *)
Definition relative32 (prev cur : quat32) : quat32 := qmul32 (qinv32 prev) cur.
(** motion_prediction_model_differential_drive.h:62-63 *)
Definition predict_rot32 (yaw_diff : f32) (rel rot : quat32) : quat32 :=
  qnormalized32 (qmul32 (qmul32 (setAxisAng32 ez32 yaw_diff) rot) rel).
(** state_6dof.h:246, 259 and pf.h resampling: the noise is added, then the state is normalized *)
Definition resample_rot32 (rpy : vec32) (rot : quat32) : quat32 := qnormalized32 (qmul32 (setRPY32 rpy) rot).
(** what happens to the rotation of a particle: an odometry step or resampling with noise *)
Inductive rot_step := Odometry (yaw_diff : f32) (prev cur : quat32) | Resampled (rpy : vec32).
Definition rot_step32 (rot : quat32) (s : rot_step) : quat32 :=
  match s with
  | Odometry yd prev cur => predict_rot32 yd (relative32 prev cur) rot
  | Resampled rpy => resample_rot32 rpy rot
  end.
End Q.
