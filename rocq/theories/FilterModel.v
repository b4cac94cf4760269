(** Model of the first order filters: /repo/include/mcl_3dl/filter.h:38-99 and
    /repo/include/mcl_3dl/filter_vec3.h:40-73.
    Simplification: real arithmetic; the two asserts on finiteness (filter.h:83,92)
    hold for every real number. *)
From Coq Require Import Reals ZArith List Bool.
From Verif Require Import Arith.
Import ListNotations.
Open Scope R_scope.

(** filter.h:41-45 *)
Inductive filter_type := FILTER_HPF | FILTER_LPF.
(** filter.h:48-51 *)
Record filt := { angle : bool; x_ : R; out : R; k0 : R; k1 : R; k2 : R; k3 : R }.

(** filter.h:54-75 *)
Definition new_filt (t : filter_type) (time_const out0 : R) (ang : bool) : filt :=
  let c3 := - 1 / (1 + 2 * time_const) in
  match t with
  | FILTER_LPF =>
      let c2 := - c3 in
      let c1 := (1 - 2 * time_const) * c3 in
      let c0 := - c1 - 1 in
      {| angle := ang; x_ := (1 - c2) * out0 / c3; out := out0;
         k0 := c0; k1 := c1; k2 := c2; k3 := c3 |}
  | FILTER_HPF =>
      let c2 := - c3 * 2 * time_const in
      let c1 := (1 - 2 * time_const) * c3 in
      let c0 := 2 * time_const * (- c1 + 1) in
      {| angle := ang; x_ := (1 - c2) * out0 / c3; out := out0;
         k0 := c0; k1 := c1; k2 := c2; k3 := c3 |}
  end.

(** filter.h:76-80 *)
Definition set (f : filt) (out0 : R) : filt :=
  {| angle := angle f; x_ := (1 - k2 f) * out0 / k3 f; out := out0;
     k0 := k0 f; k1 := k1 f; k2 := k2 f; k3 := k3 f |}.

(** C remainder(): nearest integer quotient, ties to the even one *)
Definition rne (x : R) : Z :=
  let n := Rfloor x in
  let fr := x - IZR n in
  if Rltb fr (/ 2) then n
  else if Rltb (/ 2) fr then (n + 1)%Z
  else if Z.even n then n else (n + 1)%Z.
Definition remainder (x y : R) : R := x - y * IZR (rne (x / y)).

(** filter.h:81-94 *)
Definition input (f : filt) (i : R) : filt :=
  let tmp_in := if angle f then out f + remainder (i - out f) (PI * 2) else i in
  let x := k0 f * tmp_in + k1 f * x_ f in
  {| angle := angle f; x_ := x; out := k2 f * tmp_in + k3 f * x;
     k0 := k0 f; k1 := k1 f; k2 := k2 f; k3 := k3 f |}.

(** filter_vec3.h:40-73: three independent filters (the extra member x_ always
    equals their outputs) *)
Record filt3 := { v_out : R * R * R; fx : filt; fy : filt; fz : filt }.
Definition new_filt3 (t : filter_type) (tc out0 : R * R * R) (ang : bool) : filt3 :=
  let '(t0, t1, t2) := tc in let '(a, b, c) := out0 in
  {| v_out := out0; fx := new_filt t t0 a ang; fy := new_filt t t1 b ang;
     fz := new_filt t t2 c ang |}.
Definition set3 (f : filt3) (out0 : R * R * R) : filt3 :=
  let '(a, b, c) := out0 in
  {| v_out := out0; fx := set (fx f) a; fy := set (fy f) b; fz := set (fz f) c |}.
Definition input3 (f : filt3) (i : R * R * R) : filt3 :=
  let '(a, b, c) := i in
  let x := input (fx f) a in let y := input (fy f) b in let z := input (fz f) c in
  {| v_out := (out x, out y, out z); fx := x; fy := y; fz := z |}.
