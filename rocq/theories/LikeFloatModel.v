(** The score and the match ratio of the likelihood model for any number type, so that
    the same definition can be read over the reals (LidarModel) and over C++ floats. *)
From Coq Require Import Reals ZArith List Bool.
From Verif Require Import Arith.
Import ListNotations.

(** std::max(a, b): [(a < b) ? b : a] *)
Definition cxx_max {A : arith} (a b : A) : A := if flt a b then b else a.

(** src/lidar_measurement_model_likelihood.cpp:128-130: what one point whose nearest map
    point is at squared distance [sq] adds to the score before the weight; [None] is
    the [continue] of line 130. parameters.h:86-88: all three settings are floats, and
    std::sqrt of a float is a float. The comparison [dist < 0.0] widens to double, which
    is exact. *)
Definition like_dist {A : arith} (root : A -> A) (dmin flat sq : A) : option A :=
  let dist := fsub dmin (cxx_max (root sq) flat) in
  if flt dist f0 then None else Some dist.

(** src/lidar_measurement_model_likelihood.cpp:124-135: the loop. One entry of [found]
    for each point: what radiusSearch wrote into sqdist[0], or [None] when it found
    nothing. *)
Fixpoint like_fold {A : arith} (root : A -> A) (dmin flat weight : A) (found : list (option A)) (score : A) (num : nat) : A * nat :=
  match found with
  | [] => (score, num)
  | None :: rest => like_fold root dmin flat weight rest score num
  | Some sq :: rest =>
      match like_dist root dmin flat sq with
      | None => like_fold root dmin flat weight rest score num
      | Some dist => like_fold root dmin flat weight rest (fadd score (fmul dist weight)) (num + 1)
      end
  end.

(** src/lidar_measurement_model_likelihood.cpp:136: [static_cast<float>(num) / size()];
    the size is converted to float as well *)
Definition like_ratio {A : arith} (num n : nat) : A := fdiv (fofnat num) (fofnat n).

(** src/lidar_measurement_model_likelihood.cpp:111-138 after the searches *)
Definition like_result {A : arith} (root : A -> A) (dmin flat weight : A) (found : list (option A)) : A * A :=
  match found with
  | [] => (f1, f0)
  | _ => let '(score, num) := like_fold root dmin flat weight found f0 0 in (score, like_ratio num (length found))
  end.

(** src/mcl_3dl.cpp:407-424: [likelihood = 1; likelihood *= beam; likelihood *= likelihood
    model; return likelihood * odom_error]. The models are in a std::map, "beam" first. *)
Definition particle_likelihood {A : arith} (beam like odom : A) : A := fmul (fmul (fmul f1 beam) like) odom.
