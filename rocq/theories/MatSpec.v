(** Vocabulary of C101-C103. *)
From Coq Require Import Reals List.
From Flocq Require Import IEEE754.BinarySingleNaN.
From Verif Require Import Ieee MatModel.
Import ListNotations.
Open Scope R_scope.

Definition delta (i j : nat) : R := if Nat.eqb i j then 1 else 0.
(** the quadratic form of a matrix *)
Definition form (n : nat) (m : mat) (x : vec) : R := rsum n (fun i => rsum n (fun j => x i * m i j * x j)).
Definition nonzero (n : nat) (x : vec) : Prop := exists i, (i < n)%nat /\ x i <> 0.
Definition pos_def (n : nat) (m : mat) : Prop := forall x, nonzero n x -> 0 < form n m x.
Definition pos_semidef (n : nat) (m : mat) : Prop := forall x, 0 <= form n m x.
Definition symmetric (n : nat) (m : mat) : Prop := forall i j, (i < n)%nat -> (j < n)%nat -> m i j = m j i.
Definition is_inverse (n : nat) (m b : mat) : Prop :=
  forall i k, (i < n)%nat -> (k < n)%nat -> rsum n (fun j => m i j * b j k) = delta i k.
(** independent components: off-diagonal entries are zero *)
Definition diagonal_of (n : nat) (m : mat) (v : vec) : Prop :=
  forall i j, (i < n)%nat -> (j < n)%nat -> m i j = if Nat.eqb i j then v i else 0.
Fixpoint rprod (n : nat) (f : nat -> R) : R := match n with O => 1 | S k => rprod k f * f k end.
(** Eigen's self-adjoint solver: orthonormal eigenvectors (columns) of the matrix whose upper
    triangle is the mirror image of the lower triangle of the argument *)
Definition lower (m : mat) : mat := fun i j => if Nat.ltb i j then m j i else m i j.
Definition eigen_of (n : nat) (m vecs : mat) (vals : vec) : Prop :=
  (forall a b, (a < n)%nat -> (b < n)%nat -> rsum n (fun i => vecs i a * vecs i b) = delta a b)
  /\ (forall i j, (i < n)%nat -> (j < n)%nat -> rsum n (fun k => vecs i k * vals k * vecs j k) = lower m i j).
(** [inverse] inverts the matrix with the entries of [m]; [solver] decomposes it *)
Definition inverts (n : nat) (inverse : mat -> mat) (m : mat) : Prop :=
  forall m', (forall i j, (i < n)%nat -> (j < n)%nat -> m' i j = m i j) -> is_inverse n m' (inverse m').
Definition decomposes (n : nat) (solver : mat -> mat * vec) (m : mat) : Prop :=
  forall m', (forall i j, (i < n)%nat -> (j < n)%nat -> m' i j = m i j) -> eigen_of n m' (fst (solver m')) (snd (solver m')).
(** a weighted family of vectors, its mean and covariance *)
Definition average (l : list (R * vec)) (f : vec -> R) : R := fold_right (fun px s => fst px * f (snd px) + s) 0 l.
Definition has_mean (n : nat) (l : list (R * vec)) (m : vec) : Prop := forall i, (i < n)%nat -> average l (fun x => x i) = m i.
Definition has_cov (n : nat) (l : list (R * vec)) (m : vec) (c : mat) : Prop :=
  forall i j, (i < n)%nat -> (j < n)%nat -> average l (fun x => (x i - m i) * (x j - m j)) = c i j.
Definition total (l : list (R * vec)) : R := average l (fun _ => 1).
(** the generated vectors for a weighted family of draws *)
Definition samples (n : nat) (mean : vec) (t : mat) (l : list (R * vec)) : list (R * vec) :=
  map (fun pz => (fst pz, (fun i => nth i (multi_noise n mean t (snd pz)) 0) : vec)) l.
(** std::exp on floats: NaN for NaN, otherwise not negative and not NaN *)
Definition exp32_ok (expf : f32 -> f32) : Prop :=
  expf B754_nan = B754_nan /\ forall x, is_nan x = false -> is_nan (expf x) = false /\ Bsign (expf x) = false.
(** a matrix with one row replaced, with two neighbouring rows exchanged *)
Definition set_row (m : mat) (i : nat) (r : vec) : mat := fun a b => if Nat.eqb a i then r b else m a b.
Definition swap_rows (i : nat) (m : mat) : mat :=
  fun a b => m (if Nat.eqb a i then S i else if Nat.eqb a (S i) then i else a) b.
