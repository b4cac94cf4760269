(** Model: clipping of the measured cloud in binary32, as the two models do it before they sample.
    Sources: /repo/src/lidar_measurement_model_likelihood.cpp lines 59-60 (the squared limits, computed
    in float once when the configuration is read) and 84-99 (the predicate, std::remove_if and erase);
    /repo/src/lidar_measurement_model_beam.cpp lines 62-63 and 103-118 (the same code).
    Simplification: the label and the intensity of a point play no part and are left out; no
    contraction of multiply and add. *)
From Coq Require Import List Bool.
From Flocq Require Import IEEE754.BinarySingleNaN.
From Verif Require Import Arith Ieee LidarModel.

Record pt32 := { px : f32; py : f32; pz : f32 }.
(** lidar_measurement_model_likelihood.cpp:84-93 with the limits of :59-60 *)
Definition clipped32 (log : f32 -> f32) (near far zmin zmax : f32) (p : pt32) : bool :=
  clip_removes (A := B32 log) (fmult32 far far) (fmult32 near near) zmin zmax (px p) (py p) (pz p).
(** lidar_measurement_model_likelihood.cpp:94-97 *)
Definition clip32 (log : f32 -> f32) (near far zmin zmax : f32) (pc : list pt32) : list pt32 :=
  filter (fun p => negb (clipped32 log near far zmin zmax p)) pc.
