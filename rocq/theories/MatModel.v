(** Model of the multidimensional normal likelihood (/repo/include/mcl_3dl/nd.h:60-80), of the
    landmark likelihood built from it (/repo/src/mcl_3dl.cpp:899-927) and of the multivariate
    noise generator (/repo/include/mcl_3dl/noise_generators/multivariate_noise_generator.h:40-95)
    with the initial pose generated from it (/repo/src/mcl_3dl.cpp:174-187).
    Simplifications: real arithmetic, except for [ndn32_a] and [ndn32_eval] (float/double, no
    fused multiply-add); a matrix is a function of row and column, a vector a function of
    the index, and only indices below the dimension count.  Eigen's inverse() and
    SelfAdjointEigenSolver are inputs (specified in MatSpec.v). *)
From Coq Require Import Reals ZArith List Bool.
From Flocq Require Import Core.Core IEEE754.BinarySingleNaN.
From Verif Require Import Arith Ieee NdModel QuatModel StateModel.
Import ListNotations.
Open Scope R_scope.

Definition mat : Type := nat -> nat -> R.
Definition vec : Type := nat -> R.
Fixpoint rsum (n : nat) (f : nat -> R) : R := match n with O => 0 | S k => rsum k f + f k end.
(** Eigen's determinant(): expansion along the first row *)
Definition minor (j : nat) (m : mat) : mat := fun a b => m (S a) (if (b <? j)%nat then b else S b).
Fixpoint det (n : nat) (m : mat) : R :=
  match n with O => 1 | S k => rsum (S k) (fun j => (-1) ^ j * m 0%nat j * det k (minor j m)) end.

(** nd.h:67-71 *)
Record ndn := { ndn_a : R; ndn_inv : mat }.
Definition ndn_new (n : nat) (sigma inverse : mat) : ndn :=
  {| ndn_a := 1 / (Rpower (2 * PI) (/ 2 * INR n) * sqrt (det n sigma)); ndn_inv := inverse |}.
(** nd.h:72-75: ((-0.5 x^T) sigma_inv) x *)
Definition ndn_eval (n : nat) (d : ndn) (x : vec) : R :=
  ndn_a d * exp (rsum n (fun j => rsum n (fun i => (- / 2 * x i) * ndn_inv d i j) * x j)).

(** nd.h:69, 74 with FLT_TYPE = float: [c] is the double pow(2 pi, 0.5 * DIMENSION), [dt] the
    computed determinant, [v] the computed exponent; [expf] is whatever std::exp computes *)
Definition ndn32_a (c : f64) (dt : f32) : f32 :=
  f32_of_f64 (div64 (f64_of_Z 1) (mul64 c (f64_of_f32 (Bsqrt mode_NE dt)))).
Definition ndn32_eval (expf : f32 -> f32) (c : f64) (dt v : f32) : f32 := fmult32 (ndn32_a c dt) (expf v).

(** mcl_3dl.cpp:901-904: the message is row-major, Eigen reads column-major *)
Definition landmark_sigma (cov : list R) : mat := fun i j => nth (i + 6 * j) cov 0.
(** mcl_3dl.cpp:913-926, [inverse]: Eigen's inverse() *)
Definition landmark_like (cov : list R) (inverse : mat -> mat) (diff_vec : list R) : R :=
  ndn_eval 6 (ndn_new 6 (landmark_sigma cov) (inverse (landmark_sigma cov))) (fun i => nth i diff_vec 0).

(** multivariate_noise_generator.h:61-75: the matrix given to the solver (row-major) *)
Definition cov_matrix (dim : nat) (cov : list R) : mat := fun i j => nth (j + i * dim) cov 0.
(** multivariate_noise_generator.h:73-74, [vecs] and [vals]: the result of the solver *)
Definition norm_transform (vecs : mat) (vals : vec) : mat := fun i j => vecs i j * sqrt (vals j).
(** multivariate_noise_generator.h:77-89, [z]: the drawn numbers *)
Definition multi_noise (dim : nat) (mean : vec) (t : mat) (z : vec) : list R :=
  map (fun i => mean i + rsum dim (fun j => t i j * z j)) (seq 0 dim).
(** mcl_3dl.cpp:182-187 and state_6dof.h:226-248: the generated initial pose, [solver]: Eigen's
    SelfAdjointEigenSolver *)
Definition initial_state (solver : mat -> mat * vec) (mean : state) (cov : list R) (z : vec) : state :=
  let m := set_mean mean in let (vecs, vals) := solver (cov_matrix 6 cov) in noise_state (multi_noise 6 (fun i => nth i m 0) (norm_transform vecs vals) z) m.
