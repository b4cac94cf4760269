(** Model: the smoothing filter (FILTER_LPF, angle = false) in binary32/binary64 arithmetic.
    Source: /repo/include/mcl_3dl/filter.h lines 54-98, as used by Vec3 filters
    (/repo/include/mcl_3dl/filter_vec3.h lines 40-73) for the published position and the measured
    acceleration.  Literals written 1.0 are double, so the coefficients are computed in double and
    narrowed to the float members; 2 * time_const and 1 - k_[2] are computed in float.
    Simplifications: no contraction of multiply and add; the angular variant (remainder in double) is
    only modelled over the reals (FilterModel).  The asserts are not modelled (the theorems show that
    they hold). *)
From Coq Require Import ZArith.
From Flocq Require Import Core.Core IEEE754.BinarySingleNaN.
From Verif Require Import Ieee NdModel.

(** filter.h:49-51 *)
Record filt32 := { x32 : f32; out32 : f32; k0_32 : f32; k1_32 : f32; k2_32 : f32; k3_32 : f32 }.
(** filter.h:61 / 68: -1 / (1.0 + 2 * time_const) *)
Definition gain32 (tc : f32) : f32 :=
  f32_of_f64 (div64 (f64_of_Z (-1)) (Bplus mode_NE (f64_of_Z 1) (f64_of_f32 (fmult32 (f32_of_Z 2) tc)))).
(** filter.h:63: (1.0 - 2 * time_const) * k_[3] *)
Definition pole32 (tc c3 : f32) : f32 :=
  f32_of_f64 (mul64 (Bminus mode_NE (f64_of_Z 1) (f64_of_f32 (fmult32 (f32_of_Z 2) tc))) (f64_of_f32 c3)).
(** filter.h:64: -k_[1] - 1.0 *)
Definition feed32 (c1 : f32) : f32 := f32_of_f64 (Bminus mode_NE (f64_of_f32 (Bopp c1)) (f64_of_Z 1)).
(** filter.h:65 and 78: (1 - k_[2]) * out0 / k_[3] *)
Definition start32 (c2 c3 out0 : f32) : f32 := fdiv32 (fmult32 (fminus32 (f32_of_Z 1) c2) out0) c3.
(** filter.h:54-66 *)
Definition new_lpf32 (tc out0 : f32) : filt32 :=
  let c3 := gain32 tc in let c2 := Bopp c3 in let c1 := pole32 tc c3 in
  {| x32 := start32 c2 c3 out0; out32 := out0; k0_32 := feed32 c1; k1_32 := c1; k2_32 := c2; k3_32 := c3 |}.
(** filter.h:76-80 *)
Definition set32 (f : filt32) (out0 : f32) : filt32 :=
  {| x32 := start32 (k2_32 f) (k3_32 f) out0; out32 := out0; k0_32 := k0_32 f; k1_32 := k1_32 f; k2_32 := k2_32 f; k3_32 := k3_32 f |}.
(** filter.h:81-94 *)
Definition input32 (f : filt32) (i : f32) : filt32 :=
  let x := fplus32 (fmult32 (k0_32 f) i) (fmult32 (k1_32 f) (x32 f)) in
  {| x32 := x; out32 := fplus32 (fmult32 (k2_32 f) i) (fmult32 (k3_32 f) x);
     k0_32 := k0_32 f; k1_32 := k1_32 f; k2_32 := k2_32 f; k3_32 := k3_32 f |}.

(** filter_vec3.h:43-44: three filters and the vector of their last outputs *)
Record vfilt32 := { v32 : f32 * f32 * f32; vfx : filt32; vfy : filt32; vfz : filt32 }.
(** filter_vec3.h:47-57, with angle = false and FILTER_LPF *)
Definition new_vec32 (tc out0 : f32 * f32 * f32) : vfilt32 :=
  let '(t0, t1, t2) := tc in let '(a, b, c) := out0 in
  {| v32 := out0; vfx := new_lpf32 t0 a; vfy := new_lpf32 t1 b; vfz := new_lpf32 t2 c |}.
(** filter_vec3.h:58-63 *)
Definition set_vec32 (f : vfilt32) (out0 : f32 * f32 * f32) : vfilt32 :=
  let '(a, b, c) := out0 in {| v32 := out0; vfx := set32 (vfx f) a; vfy := set32 (vfy f) b; vfz := set32 (vfz f) c |}.
(** filter_vec3.h:64-69 *)
Definition in_vec32 (f : vfilt32) (i : f32 * f32 * f32) : vfilt32 :=
  let '(a, b, c) := i in let x := input32 (vfx f) a in let y := input32 (vfy f) b in let z := input32 (vfz f) c in
  {| v32 := (out32 x, out32 y, out32 z); vfx := x; vfy := y; vfz := z |}.
