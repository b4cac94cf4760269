(** Model of the normal likelihood and of the IMU (gravity) measurement model:
    /repo/include/mcl_3dl/nd.h:41-81,
    /repo/include/mcl_3dl/imu_measurement_models/imu_measurement_model_gravity.h:40-66.
    Real versions, and versions in the float/double arithmetic of the code (no fused
    multiply-add; expf and acosf are arbitrary functions). *)
From Coq Require Import Reals ZArith List Bool.
From Flocq Require Import Core.Core IEEE754.BinarySingleNaN.
From Verif Require Import Arith Ieee QuatModel StateModel.
Import ListNotations.
Open Scope R_scope.

(** nd.h:45-53, real arithmetic *)
Record nd := { nd_a : R; nd_sq2 : R }.
Definition nd_new (sigma : R) : nd := {| nd_a := 1 / sqrt (2 * PI * sigma * sigma); nd_sq2 := sigma * sigma * 2 |}.
Definition nd_eval (d : nd) (x : R) : R := nd_a d * exp (- x * x / nd_sq2 d).

(** imu_measurement_model_gravity.h:48-60, real arithmetic *)
Record gravity := { gr_nd : nd; gr_acc : vec3; gr_norm : R }.
Definition gravity_new (acc_var : R) : gravity := {| gr_nd := nd_new acc_var; gr_acc := V3 0 0 0; gr_norm := 0 |}.
Definition gravity_set (g : gravity) (acc : vec3) : gravity := {| gr_nd := gr_nd g; gr_acc := acc; gr_norm := vnorm acc |}.
Definition gravity_arg (g : gravity) (s : state) : R :=
  let est := qrot (inv (rot s)) (V3 0 0 1) in vdot est (gr_acc g) / (gr_norm g * vnorm est).
Definition gravity_measure (g : gravity) (s : state) : R := nd_eval (gr_nd g) (acos (gravity_arg g s)).

(** ** float / double *)
(** float to double: exact *)
Definition f64_of_f32 (x : f32) : f64 :=
  match x with
  | B754_zero s => B754_zero s
  | B754_infinity s => B754_infinity s
  | B754_nan => B754_nan
  | B754_finite s m e _ => binary_normalize 53 1024 _ _ mode_NE (cond_Zopp s (Zpos m)) e s
  end.
(** M_PI *)
Definition pi64 : f64 := binary_normalize 53 1024 _ _ mode_NE 7074237752028440 (-51) false.
Definition mul64 : f64 -> f64 -> f64 := Bmult mode_NE.
Definition div64 : f64 -> f64 -> f64 := Bdiv mode_NE.
(** nd.h:45-53 with FLT_TYPE = float *)
Record nd32 := { nd32_a : f32; nd32_sq2 : f32 }.
Definition nd32_new (sigma : f32) : nd32 :=
  let s := f64_of_f32 sigma in
  {| nd32_a := f32_of_f64 (div64 (f64_of_Z 1) (Bsqrt mode_NE (mul64 (mul64 (mul64 (f64_of_Z 2) pi64) s) s)));
     nd32_sq2 := f32_of_f64 (mul64 (f64_of_f32 (fmult32 sigma sigma)) (f64_of_Z 2)) |}.
Definition nd32_eval (expf : f32 -> f32) (d : nd32) (x : f32) : f32 :=
  fmult32 (nd32_a d) (expf (fdiv32 (fmult32 (Bopp x) x) (nd32_sq2 d))).
(** vec3.h and quat.h in float: vec3.h (dot, norm), quat.h:87-90, 131-151, 183-190 *)
Definition vec32 : Type := f32 * f32 * f32.
Definition quat32 : Type := f32 * f32 * f32 * f32.
Definition dot32 (a b : vec32) : f32 :=
  let '(ax, ay, az) := a in let '(bx, by_, bz) := b in fplus32 (fplus32 (fmult32 ax bx) (fmult32 ay by_)) (fmult32 az bz).
Definition norm32 (a : vec32) : f32 := Bsqrt mode_NE (dot32 a a).
Definition qmul32 (a b : quat32) : quat32 :=
  let '(x, y, z, w) := a in let '(x', y', z', w') := b in
  let t p q r u := fminus32 (fplus32 (fplus32 p q) r) u in
  (t (fmult32 w x') (fmult32 x w') (fmult32 y z') (fmult32 z y'),
   t (fmult32 w y') (fmult32 y w') (fmult32 z x') (fmult32 x z'),
   t (fmult32 w z') (fmult32 z w') (fmult32 x y') (fmult32 y x'),
   fminus32 (fminus32 (fminus32 (fmult32 w w') (fmult32 x x')) (fmult32 y y')) (fmult32 z z')).
Definition qconj32 (a : quat32) : quat32 := let '(x, y, z, w) := a in (Bopp x, Bopp y, Bopp z, w).
Definition qdot32 (a b : quat32) : f32 :=
  let '(x, y, z, w) := a in let '(x', y', z', w') := b in
  fplus32 (fplus32 (fplus32 (fmult32 x x') (fmult32 y y')) (fmult32 z z')) (fmult32 w w').
(** operator/ multiplies by 1.0 / s computed in double and narrowed *)
Definition qinv32 (a : quat32) : quat32 :=
  let s := f32_of_f64 (div64 (f64_of_Z 1) (f64_of_f32 (qdot32 a a))) in
  let '(x, y, z, w) := qconj32 a in (fmult32 x s, fmult32 y s, fmult32 z s, fmult32 w s).
Definition qrot32 (q : quat32) (v : vec32) : vec32 :=
  let '(a, b, c) := v in let '(x, y, z, _) := qmul32 (qmul32 q (a, b, c, B754_zero false)) (qconj32 q) in (x, y, z).
(** imu_measurement_model_gravity.h:48-60 in float *)
Definition gravity_arg32 (acc : vec32) (r : quat32) : f32 :=
  let est := qrot32 (qinv32 r) (B754_zero false, B754_zero false, f32_of_Z 1) in
  fdiv32 (dot32 est acc) (fmult32 (norm32 acc) (norm32 est)).
Definition gravity_measure32 (expf acosf : f32 -> f32) (d : nd32) (acc : vec32) (r : quat32) : f32 :=
  nd32_eval expf d (acosf (gravity_arg32 acc r)).
