(** Model of the vector and quaternion classes:
    /repo/include/mcl_3dl/vec3.h:37-161 and /repo/include/mcl_3dl/quat.h:40-247.
    Simplifications: real arithmetic; division by zero is Coq's total division, so
    theorems that involve it have non-zero hypotheses; the in-place operators are the
    corresponding pure functions. *)
From Coq Require Import Reals List Bool.
From Verif Require Import Arith.
Open Scope R_scope.

(** vec3.h:40-54 *)
Record vec3 := V3 { vx : R; vy : R; vz : R }.
Definition v0 : vec3 := V3 0 0 0.
(** vec3.h:55-90 (any other index reads x_) *)
Definition v_get (v : vec3) (i : nat) : R :=
  match i with 0%nat => vx v | 1%nat => vy v | 2%nat => vz v | _ => vx v end.
(** vec3.h:99-118 *)
Definition vadd (a b : vec3) : vec3 := V3 (vx a + vx b) (vy a + vy b) (vz a + vz b).
Definition vsub (a b : vec3) : vec3 := V3 (vx a - vx b) (vy a - vy b) (vz a - vz b).
Definition vopp (a : vec3) : vec3 := V3 (- vx a) (- vy a) (- vz a).
Definition vscale (a : vec3) (s : R) : vec3 := V3 (vx a * s) (vy a * s) (vz a * s).
Definition vdiv (a : vec3) (s : R) : vec3 := V3 (vx a / s) (vy a / s) (vz a / s).
(** vec3.h:139-160 *)
Definition vdot (a b : vec3) : R := vx a * vx b + vy a * vy b + vz a * vz b.
Definition vcross (a b : vec3) : vec3 :=
  V3 (vy a * vz b - vz a * vy b) (vz a * vx b - vx a * vz b) (vx a * vy b - vy a * vx b).
Definition vtimes (a b : vec3) : vec3 := V3 (vx a * vx b) (vy a * vy b) (vz a * vz b).
Definition vnorm (a : vec3) : R := sqrt (vdot a a).
Definition vnormalized (a : vec3) : vec3 := vdiv a (vnorm a).

(** quat.h:43-54 *)
Record quat := Q4 { qx : R; qy : R; qz : R; qw : R }.
(** quat.h:80-86 *)
Definition q1 : quat := Q4 0 0 0 1.
(** quat.h:87-94 *)
Definition qdot (a b : quat) : R := qx a * qx b + qy a * qy b + qz a * qz b + qw a * qw b.
Definition qnorm (a : quat) : R := sqrt (qdot a a).
(** quat.h:103-130 *)
Definition qadd (a b : quat) : quat := Q4 (qx a + qx b) (qy a + qy b) (qz a + qz b) (qw a + qw b).
Definition qsub (a b : quat) : quat := Q4 (qx a - qx b) (qy a - qy b) (qz a - qz b) (qw a - qw b).
Definition qopp (a : quat) : quat := Q4 (- qx a) (- qy a) (- qz a) (- qw a).
(** quat.h:131-138 *)
Definition qmul (a q : quat) : quat :=
  Q4 (qw a * qx q + qx a * qw q + qy a * qz q - qz a * qy q)
     (qw a * qy q + qy a * qw q + qz a * qx q - qx a * qz q)
     (qw a * qz q + qz a * qw q + qx a * qy q - qy a * qx q)
     (qw a * qw q - qx a * qx q - qy a * qy q - qz a * qz q).
(** quat.h:183-186 *)
Definition conj (a : quat) : quat := Q4 (- qx a) (- qy a) (- qz a) (qw a).
(** quat.h:139-143 *)
Definition qrot (a : quat) (v : vec3) : vec3 :=
  let r := qmul (qmul a (Q4 (vx v) (vy v) (vz v) 0)) (conj a) in V3 (qx r) (qy r) (qz r).
(** quat.h:144-151 *)
Definition qscale (a : quat) (s : R) : quat := Q4 (qx a * s) (qy a * s) (qz a * s) (qw a * s).
Definition qdiv (a : quat) (s : R) : quat := qscale a (1 / s).
(** quat.h:175-182 *)
Definition qnormalized (a : quat) : quat := qdiv a (qnorm a).
(** quat.h:187-190 *)
Definition inv (a : quat) : quat := qdiv (conj a) (qdot a a).

(** C atan2 on reals (signed zeros do not exist there) *)
Definition atan2 (y x : R) : R :=
  if Rltb 0 x then atan (y / x)
  else if Rltb x 0 then (if Rltb y 0 then atan (y / x) - PI else atan (y / x) + PI)
  else if Rltb 0 y then PI / 2
  else if Rltb y 0 then - (PI / 2)
  else 0.
(** quat.h:191-201 *)
Definition getRPY (q : quat) : vec3 :=
  let ysq := qy q * qy q in
  let t0 := - 2 * (ysq + qz q * qz q) + 1 in
  let t1 := 2 * (qx q * qy q + qw q * qz q) in
  let t2 := Rmax (- 1) (Rmin 1 (- 2 * (qx q * qz q - qw q * qy q))) in
  let t3 := 2 * (qy q * qz q + qw q * qx q) in
  let t4 := - 2 * (qx q * qx q + ysq) + 1 in
  V3 (atan2 t3 t4) (asin t2) (atan2 t1 t0).
(** quat.h:202-215 and 76-79 *)
Definition setRPY (rpy : vec3) : quat :=
  let t2 := cos (vx rpy / 2) in
  let t3 := sin (vx rpy / 2) in
  let t4 := cos (vy rpy / 2) in
  let t5 := sin (vy rpy / 2) in
  let t0 := cos (vz rpy / 2) in
  let t1 := sin (vz rpy / 2) in
  Q4 (t0 * t3 * t4 - t1 * t2 * t5)
     (t0 * t2 * t5 + t1 * t3 * t4)
     (t1 * t2 * t4 - t0 * t3 * t5)
     (t0 * t2 * t4 + t1 * t3 * t5).
(** quat.h:216-225 and 55-58 *)
Definition setAxisAng (axis : vec3) (ang : R) : quat :=
  let a := vdiv axis (vnorm axis) in
  let s := sin (ang / 2) in
  qnormalized (Q4 (vx a * s) (vy a * s) (vz a * s) (cos (ang / 2))).
(** quat.h:226-239; 1.0 - 0.000001 *)
Definition axis_cut : R := 1 - 1 / 1000000.
Definition getAxisAng (q : quat) : vec3 * R :=
  if Rleb axis_cut (Rabs (qw q)) then (V3 0 0 1, 0)
  else
    let ang := acos (qw q) * 2 in
    let ang' := if Rltb PI ang then ang - 2 * PI else ang in
    let wsq := 1 - qw q * qw q in
    (vdiv (V3 (qx q) (qy q) (qz q)) (sqrt wsq), ang').
(** quat.h:168-174 *)
Definition weighted (q : quat) (s : R) : quat :=
  let '(axis, ang) := getAxisAng q in setAxisAng axis (ang * s).
(** quat.h:240-246 *)
Definition rotateAxis (q r : quat) : quat :=
  let '(axis, ang) := getAxisAng q in setAxisAng (qrot r axis) ang.

(** quat.h:59-75 *)
Definition fromFrontUp (forward up_raw : vec3) : quat :=
  let xv := vnormalized forward in
  let yv := vnormalized (vcross up_raw xv) in
  let zv := vnormalized (vcross xv yv) in
  let w := sqrt (Rmax 0 (1 + vx xv + vy yv + vz zv)) / 2 in
  let x := sqrt (Rmax 0 (1 + vx xv - vy yv - vz zv)) / 2 in
  let y := sqrt (Rmax 0 (1 - vx xv + vy yv - vz zv)) / 2 in
  let z := sqrt (Rmax 0 (1 - vx xv - vy yv + vz zv)) / 2 in
  Q4 (if Rltb 0 (vy zv - vz yv) then - x else x)
     (if Rltb 0 (vz xv - vx zv) then - y else y)
     (if Rltb 0 (vx yv - vy xv) then - z else z)
     w.
