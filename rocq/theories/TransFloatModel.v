(** Model: State6DOF::transform in binary32: /repo/include/mcl_3dl/state_6dof.h lines 214-225, with
    quat.h lines 139-143 (rotation of a vector) and 175-182 (normalization), vec3.h lines 99-102
    (addition).
    Simplifications: the fields of a point other than the coordinates are not touched by the code and
    are left out; no contraction of multiply and add. *)
From Coq Require Import List.
From Verif Require Import Ieee NdModel QuatFloatModel.

(** vec3.h:99-102 *)
Definition vadd32 (a b : vec32) : vec32 :=
  let '(x, y, z) := a in let '(x', y', z') := b in (fplus32 x x', fplus32 y y', fplus32 z z').
(** state_6dof.h:214-225 *)
Definition transform32 (rot : quat32) (pos : vec32) (pc : list vec32) : list vec32 :=
  let r := qnormalized32 rot in map (fun p => vadd32 (qrot32 r p) pos) pc.
