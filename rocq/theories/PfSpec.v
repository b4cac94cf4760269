(** Independent vocabulary for the particle filter properties. *)
From Coq Require Import Reals ZArith List Arith Bool Permutation.
From Verif Require Import Arith PfModel.
Import ListNotations.

(** Sum of a list of reals. *)
Definition Rsum (l : list R) : R := fold_right Rplus 0%R l.

(** The products weight_i * likelihood_i in particle order (any arithmetic). *)
Definition scores (A : arith) {T} (L : nat -> T -> A) (f : filter A T) : list A :=
  map (fun ip => fmul (w A (snd ip)) (L (fst ip) (st A (snd ip))))
      (combine (seq 0 (length (parts A f))) (parts A f)).

(** Weights and poses of a filter, in order. *)
Definition weights (A : arith) {T} (f : filter A T) : list A := map (w A) (parts A f).
Definition poses (A : arith) {T} (f : filter A T) : list T := map (st A) (parts A f).
Definition biases (A : arith) {T} (f : filter A T) : list A := map (bias A) (parts A f).
Arguments weights : clear implicits. Arguments weights A {T}.
Arguments poses : clear implicits. Arguments poses A {T}.
Arguments biases : clear implicits. Arguments biases A {T}.

(** Shannon entropy with the convention 0 ln 0 = 0. *)
Definition xlnx (p : R) : R := if Rlt_dec 0 p then (p * ln p)%R else 0%R.
Definition shannon (ps : list R) : R := (- Rsum (map xlnx ps))%R.

(** [from_pool plus normalize noise pool prev k out sel]: the output poses [out]
    were taken from [pool] at the non-decreasing positions [sel], starting not before
    [prev]; a position that repeats the previous one may have been perturbed by a
    noise, every noise drawn (numbered from [k]) is used for exactly one output, in
    order; everything else is an exact copy. *)
Inductive from_pool {T} (plus : T -> T -> T) (normalize : T -> T) (noise : nat -> T) (pool : list T)
  : nat -> nat -> list T -> list nat -> Prop :=
| fp_nil prev k : from_pool plus normalize noise pool prev k [] []
| fp_copy prev k s j out sel :
    prev <= j -> nth_error pool j = Some s ->
    from_pool plus normalize noise pool j k out sel ->
    from_pool plus normalize noise pool prev k (s :: out) (j :: sel)
| fp_noisy prev k s out sel :
    nth_error pool prev = Some s ->
    from_pool plus normalize noise pool prev (S k) out sel ->
    from_pool plus normalize noise pool prev k
      (normalize (plus s (noise k)) :: out) (prev :: sel).

(** Stronger version: a repeated position is always perturbed. *)
Inductive from_pool_strict {T} (plus : T -> T -> T) (normalize : T -> T) (noise : nat -> T) (pool : list T)
  : nat -> nat -> list T -> list nat -> Prop :=
| fps_nil prev k : from_pool_strict plus normalize noise pool prev k [] []
| fps_copy prev k s j out sel :
    prev < j -> nth_error pool j = Some s ->
    from_pool_strict plus normalize noise pool j k out sel ->
    from_pool_strict plus normalize noise pool prev k (s :: out) (j :: sel)
| fps_noisy prev k s out sel :
    nth_error pool prev = Some s ->
    from_pool_strict plus normalize noise pool prev (S k) out sel ->
    from_pool_strict plus normalize noise pool prev k
      (normalize (plus s (noise k)) :: out) (prev :: sel).

(** Plain selection without noise. *)
Definition picks {T} (pool out : list T) (sel : list nat) : Prop :=
  Forall2 (fun s j => nth_error pool j = Some s) out sel.
Fixpoint nondecreasing (prev : nat) (l : list nat) : Prop :=
  match l with [] => True | j :: l' => prev <= j /\ nondecreasing j l' end.

(** Number of occurrences. *)
Definition occurrences (j : nat) (sel : list nat) : Z := Z.of_nat (count_occ Nat.eq_dec sel j).
(** An integer is x rounded down or up. *)
Definition floor_or_ceil (x : R) (n : Z) : Prop := n = Rfloor x \/ n = Rceil x.

(** Weighted mean of one component. *)
Definition comp (c : nat) (s : list R) : R := nth c s 0%R.
Definition wmean (c : nat) (ps : list (particle RA (list R))) : R :=
  (Rsum (map (fun p => w RA p * comp c (st RA p)) ps) / Rsum (map (w RA) ps))%R.

(** Quadratic form of a matrix in a direction. *)
Definition quad (dim : nat) (m : nat -> nat -> R) (v : nat -> R) : R :=
  Rsum (map (fun j => Rsum (map (fun k => v j * m j k * v k)%R (seq 0 dim))) (seq 0 dim)).

(** The first [k] particles are those a pass ratio uses: everything up to and including the
    first particle at which the running total of the weights exceeds the ratio. *)
Definition passed (pass : R) (ws : list R) (k : nat) : Prop :=
  k <= length ws
  /\ (forall j, 0 < j < k -> (Rsum (firstn j ws) <= pass)%R)
  /\ (k = length ws \/ (0 < k /\ (pass < Rsum (firstn k ws))%R)).
(** [qs] is a random sample of the ratio from [ps], without repetition: everything if the ratio
    is not below one, else as many particles as the ratio asks for, rounded down. *)
Definition sample_of {X} (ratio : R) (ps qs : list X) : Prop :=
  exists rest, Permutation ps (qs ++ rest)
    /\ if Rlt_dec ratio 1 then (INR (length qs) <= INR (length ps) * ratio < INR (length qs) + 1)%R else rest = [].
