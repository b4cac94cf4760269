(** Vocabulary for the sampler properties. *)
From Coq Require Import Reals List Bool Arith.
From Coq Require Import Permutation.
From Flocq Require Import IEEE754.BinarySingleNaN.
From Verif Require Import Arith Ieee QuatModel StateModel LidarModel SamplerModel.
Import ListNotations.

(** [u] consists of points of [v] at pairwise different places. *)
Definition distinct_places {X} (u v : list X) : Prop :=
  exists ids, NoDup ids /\ Forall2 (fun i x => nth_error v i = Some x) ids u.
(** the engine after [k] draws of the same distribution *)
Fixpoint draws {A E} (draw : A -> E -> A * E) (b : A) (k : nat) (e : E) : E :=
  match k with O => e | S k' => draws draw b k' (snd (draw b e)) end.
(** A generator of reals in [0,b) that sooner or later hits every interval. *)
Definition fair {E} (draw : R -> E -> R * E) : Prop :=
  forall b e lo hi, (0 <= lo < hi)%R -> (hi <= b)%R -> exists k, (lo < fst (draw b (draws draw b k e)) < hi)%R.
Definition in_unit_range {E} (draw : R -> E -> R * E) : Prop :=
  forall b e, (0 < b)%R -> (0 <= fst (draw b e) < b)%R.

(** IEEE-754 binary64 (double) *)
Definition B64 (log : f64 -> f64) : arith := {|
  F := f64; f0 := B754_zero false; f1 := f64_of_Z 1;
  fadd := Bplus mode_NE; fsub := Bminus mode_NE; fmul := Bmult mode_NE; fdiv := Bdiv mode_NE;
  fopp := Bopp; flt := Bltb; fofnat := fun n => f64_of_Z (Z.of_nat n);
  frecip := fun n => Bdiv mode_NE (f64_of_Z 1) (f64_of_Z (Z.of_nat n));
  flog := log; ftrunc := fun x => Z.to_nat (Btrunc x) |}.
Definition nan64 : f64 := B754_nan.
Definition zero64 : f64 := B754_zero false.
Definition sqrt64 : f64 -> f64 := Bsqrt mode_NE.
Definition abs64 : f64 -> f64 := Babs.

(** [u] is a unit eigenvector of the symmetric 3x3 matrix [m] for the eigenvalue [l] *)
Definition mulv (m : mat3) (u : vec3) : vec3 :=
  let r i := (m i 0%nat * vx u + m i 1%nat * vy u + m i 2%nat * vz u)%R in V3 (r 0%nat) (r 1%nat) (r 2%nat).
Definition eigen (m : mat3) (l : R) (u : vec3) : Prop := mulv m u = vscale u l /\ vnorm u = 1%R.
(** [u] is a principal axis: an eigenvector for the largest eigenvalue *)
Definition principal (m : mat3) (u : vec3) : Prop :=
  exists l, eigen m l u /\ forall l' u', eigen m l' u' -> (l' <= l)%R.
Definition symmetric (m : mat3) : Prop := forall i j, m i j = m j i.

(** The weight a point should get: 1 without a normal, otherwise from 1 (normal perpendicular
    to the direction [d]) to [mw] (parallel), linear in the angle. *)
Definition point_weight (mw : R) (d : R * R * R) (n : option (R * R * R)) : R :=
  match n, d with
  | None, _ => 1%R
  | Some (nx, ny, nz), (dx, dy, dz) =>
      (1 + (mw - 1) * (1 - acos (Rmin 1 (Rabs (nx * dx + ny * dy + nz * dz))) / (PI / 2)))%R
  end.
(** The maximum weight for a spread with principal deviations in the ratio [r]. *)
Definition ratio_weight (lo hi w r : R) : R :=
  if Rlt_dec r lo then 1%R else if Rlt_dec hi r then w else (1 + (w - 1) * ((r - lo) / (hi - lo)))%R.
(** sum of the first [i] numbers *)
Fixpoint sum_first (i : nat) (l : list R) : R :=
  match i, l with S i', x :: l' => (x + sum_first i' l')%R | _, _ => 0%R end.
(** reflection of the axes: [s i] is 1 or -1 *)
Definition sign_flip (s : nat -> R) (u : vec3) : vec3 := V3 (s 0%nat * vx u) (s 1%nat * vy u) (s 2%nat * vz u).
Definition is_sign (s : nat -> R) : Prop := forall i, s i = 1%R \/ s i = (-1)%R.
