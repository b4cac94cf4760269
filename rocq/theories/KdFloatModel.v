(** The chunking of /repo/include/mcl_3dl/chunked_kdtree.h on C++ floats (binary32). The chunk
    containers themselves are KdModel.place, which does not depend on the number type. *)
From Coq Require Import ZArith List Bool.
From Flocq Require Import Core.Core IEEE754.BinarySingleNaN.
From Verif Require Import Ieee NdModel KdModel.
Import ListNotations.

(** point_types.h: coordinates are floats *)
Record fpt := { fx : f32; fy : f32; fz : f32 }.

(** [static_cast<int>(std::floor(x))] for a finite [x] with a result in the int range (anything
    else is undefined behaviour and is given the value 0 here) *)
Definition floor32 (x : f32) : Z :=
  match x with
  | B754_finite s m e _ =>
      if (0 <=? e)%Z then (cond_Zopp s (Zpos m) * 2 ^ e)%Z else (cond_Zopp s (Zpos m) / 2 ^ (- e))%Z
  | _ => 0%Z
  end.
(** chunked_kdtree.h:94: [1.0 / chunk_length] in double, stored in a float *)
Definition pos_to_chunk (L : f32) : f32 := f32_of_f64 (Bdiv mode_NE (f64_of_Z 1) (f64_of_f32 L)).
(** chunked_kdtree.h:258-263, one axis *)
Definition chunk1_32 (L x : f32) : Z := floor32 (fmult32 x (pos_to_chunk L)).
Definition getChunkId32 (L : f32) (p : fpt) : cid := (chunk1_32 L (fx p), chunk1_32 L (fy p), chunk1_32 L (fz p)).
(** chunked_kdtree.h:139-158, one axis: [p.x - chunk_id.x_ * chunk_length_], the int converted to
    float; all operations in float *)
Definition bound1_32 (L rmax x : f32) (c : Z) : Z :=
  let in_chunk := fminus32 x (fmult32 (f32_of_Z c) L) in
  if Bltb in_chunk rmax then (-1)%Z
  else if Bltb (fminus32 L rmax) in_chunk then 1%Z else 0%Z.
Definition bounds32 (L rmax : f32) (p : fpt) : Z * Z * Z :=
  let '(cx, cy, cz) := getChunkId32 L p in
  (bound1_32 L rmax (fx p) cx, bound1_32 L rmax (fy p) cy, bound1_32 L rmax (fz p) cz).
(** chunked_kdtree.h:130-203: the points and their indices, chunk by chunk *)
Definition place32 (L rmax : f32) (cloud : list fpt) : vmap fpt * vmap nat :=
  place (getChunkId32 L) (bounds32 L rmax) 0 cloud [] [].
