(** The determinant of the model (expansion along the first row) is the determinant: linear in
    every row, alternating, one for the identity; it is positive for positive definite matrices. *)
From Coq Require Import Reals List Arith Lra Lia Bool.
From Verif Require Import Arith MatModel MatSpec MatProofs.
Import ListNotations.
Open Scope R_scope.

Definition skip (j k : nat) : nat := if (k <? j)%nat then k else S k.
Ltac skp := unfold skip in *; repeat match goal with
  | |- context [(?a <? ?b)%nat] => destruct (Nat.ltb_spec a b)
  | H : context [(?a <? ?b)%nat] |- _ => destruct (Nat.ltb_spec a b) end; try lia.
Lemma minor_skip j m a b : minor j m a b = m (S a) (skip j b). Proof. reflexivity. Qed.
Lemma skip_lt j k n : (k < n)%nat -> (skip j k < S n)%nat. Proof. intros; skp. Qed.

Lemma rsum_skip N G : forall j, (j <= N)%nat -> rsum N (fun k => G (skip j k)) = rsum (S N) (fun b => if Nat.eqb b j then 0 else G b).
Proof.
  induction N as [|N IH]; intros j Hj.
  - cbn [rsum]. replace j with O by lia. cbn. lra.
  - destruct (Nat.eq_dec j (S N)) as [->|Hn].
    + change (rsum (S (S N)) ?f) with (rsum (S N) f + f (S N)); cbv beta. rewrite Nat.eqb_refl, Rplus_0_r. apply rsum_ext. intros i Hi.
      destruct (Nat.eqb_spec i (S N)); [lia|]. unfold skip. destruct (Nat.ltb_spec i (S N)); [reflexivity|lia].
    + change (rsum (S N) (fun k => G (skip j k))) with (rsum N (fun k => G (skip j k)) + G (skip j N)).
      rewrite IH by lia. change (rsum (S (S N)) ?f) with (rsum (S N) f + f (S N)); cbv beta.
      destruct (Nat.eqb_spec (S N) j); [lia|]. f_equal. unfold skip. destruct (Nat.ltb_spec N j); [lia|reflexivity].
Qed.

(** linear in every row *)
Lemma det_row_linear n : forall m i (a : R) u v, (i < n)%nat ->
  det n (set_row m i (fun b => a * u b + v b)) = a * det n (set_row m i u) + det n (set_row m i v).
Proof.
  induction n as [|n IH]; intros m i a u v Hi; [lia|]. cbn [det]. rewrite <- rsum_scale, <- rsum_plus. apply rsum_ext. intros j Hj.
  destruct i as [|i].
  - assert (E : forall r, det n (minor j (set_row m 0 r)) = det n (minor j m)) by (intro r; apply det_ext; intros; reflexivity).
    rewrite !E. unfold set_row. cbn [Nat.eqb]. ring.
  - assert (E : forall r, det n (minor j (set_row m (S i) r)) = det n (set_row (minor j m) i (fun b => r (skip j b))))
      by (intro r; apply det_ext; intros x y _ _; reflexivity).
    rewrite !E. rewrite (IH (minor j m) i a (fun b => u (skip j b)) (fun b => v (skip j b))) by lia.
    assert (Z : forall r, set_row m (S i) r 0%nat j = m 0%nat j) by reflexivity. rewrite !Z. ring.
Qed.

(** expansion along the first two rows *)
Definition pick (lo hi x : nat) : nat := skip hi (skip lo x).
Definition rest2 (n : nat) (m : mat) (a c : nat) : R := det n (fun x y => m (S (S x)) (pick (Nat.min a c) (Nat.max a c) y)).
Definition sg (j b : nat) : R := if (b <? j)%nat then (-1) ^ b else - (-1) ^ b.
Lemma rest2_sym n m a c : rest2 n m a c = rest2 n m c a.
Proof. unfold rest2. rewrite Nat.min_comm, Nat.max_comm. reflexivity. Qed.
Lemma det_two n m : det (S (S n)) m =
  rsum (S (S n)) (fun j => rsum (S (S n)) (fun b => if Nat.eqb b j then 0 else (-1) ^ j * sg j b * m 0%nat j * m 1%nat b * rest2 n m j b)).
Proof.
  change (det (S (S n)) m) with (rsum (S (S n)) (fun j => (-1) ^ j * m 0%nat j * det (S n) (minor j m))).
  apply rsum_ext. intros j Hj. rewrite <- (rsum_skip (S n) (fun b => (-1) ^ j * sg j b * m 0%nat j * m 1%nat b * rest2 n m j b) j) by lia.
  change (det (S n) (minor j m)) with (rsum (S n) (fun k => (-1) ^ k * minor j m 0%nat k * det n (minor k (minor j m)))).
  rewrite <- rsum_scale. apply rsum_ext. intros k Hk. rewrite minor_skip.
  assert (E : det n (minor k (minor j m)) = rest2 n m j (skip j k)).
  { apply det_ext. intros x y _ _. rewrite !minor_skip. f_equal. unfold pick. skp. }
  rewrite E. assert (Es : sg j (skip j k) = (-1) ^ k).
  { unfold sg, skip. destruct (Nat.ltb_spec k j) as [H|H].
    - destruct (Nat.ltb_spec k j); [reflexivity|lia].
    - destruct (Nat.ltb_spec (S k) j); [lia|]. cbn [pow]. ring. }
  rewrite Es. ring.
Qed.
(** exchanging neighbouring rows changes the sign *)
Lemma det_swap n : forall m i, (S i < n)%nat -> det n (swap_rows i m) = - det n m.
Proof.
  induction n as [|n IH]; intros m i Hi; [lia|]. destruct i as [|i].
  - destruct n as [|n]; [lia|]. rewrite !det_two.
    assert (Er : forall j b, rest2 n (swap_rows 0 m) j b = rest2 n m j b) by (intros; apply det_ext; intros; reflexivity).
    rewrite rsum_swap.
    replace (- rsum (S (S n)) (fun j => rsum (S (S n)) (fun b => if Nat.eqb b j then 0 else (-1) ^ j * sg j b * m 0%nat j * m 1%nat b * rest2 n m j b)))
      with (-1 * rsum (S (S n)) (fun j => rsum (S (S n)) (fun b => if Nat.eqb b j then 0 else (-1) ^ j * sg j b * m 0%nat j * m 1%nat b * rest2 n m j b))) by ring.
    rewrite <- rsum_scale. apply rsum_ext. intros j _. rewrite <- rsum_scale. apply rsum_ext. intros b _.
    rewrite Er, (rest2_sym n m b j). unfold swap_rows. cbn [Nat.eqb]. rewrite (Nat.eqb_sym j b).
    destruct (Nat.eqb_spec b j) as [->|H]; [ring|].
    assert (E : (-1) ^ b * sg b j = - ((-1) ^ j * sg j b)).
    { unfold sg. destruct (Nat.ltb_spec j b), (Nat.ltb_spec b j); try lia; ring. }
    rewrite E. ring.
  - cbn [det]. replace (- rsum (S n) (fun j => (-1) ^ j * m 0%nat j * det n (minor j m)))
      with (-1 * rsum (S n) (fun j => (-1) ^ j * m 0%nat j * det n (minor j m))) by ring.
    rewrite <- rsum_scale. apply rsum_ext. intros j _.
    assert (E : det n (minor j (swap_rows (S i) m)) = det n (swap_rows i (minor j m))).
    { apply det_ext. intros x y _ _. unfold minor, swap_rows. cbn [Nat.eqb]. f_equal. destruct (Nat.eqb x i); [reflexivity|]. destruct x as [|x]; [reflexivity|]. cbn [Nat.eqb]. destruct (Nat.eqb x i); reflexivity. }
    rewrite E, IH by lia. unfold swap_rows. cbn [Nat.eqb]. ring.
Qed.
Lemma det_identity n : det n delta = 1.
Proof.
  rewrite (det_diagonal n delta (fun _ => 1)); [|intros i j _ _; reflexivity].
  induction n as [|n IH]; cbn [rprod]; [reflexivity|]. rewrite IH. ring.
Qed.

(** two equal rows *)
Lemma det_equal_first n : forall i m, (S i < n)%nat -> (forall b, m (S i) b = m 0%nat b) -> det n m = 0.
Proof.
  induction i as [|i IH]; intros m Hi E.
  - pose proof (det_swap n m 0 Hi) as H. assert (det n (swap_rows 0 m) = det n m); [|lra].
    apply det_ext. intros x y _ _. unfold swap_rows. destruct x as [|[|x]]; cbn [Nat.eqb]; auto.
  - pose proof (det_swap n m (S i) Hi) as H. rewrite (IH (swap_rows (S i) m)) in H; [lra|lia|].
    intro b. unfold swap_rows. cbn [Nat.eqb]. rewrite Nat.eqb_refl. apply E.
Qed.
(** subtracting multiples of the first row from the others *)
Definition elim (k : nat) (c : vec) (m : mat) : mat :=
  fun a b => if ((1 <=? a) && (a <=? k))%nat then m a b - c a * m 0%nat b else m a b.
Lemma det_elim n c m : forall k, (k < n)%nat -> det n (elim k c m) = det n m.
Proof.
  induction k as [|k IH]; intros Hk.
  - apply det_ext. intros x y _ _. unfold elim. destruct x; reflexivity.
  - assert (Ek : forall r, (forall x, x <> S k -> forall b, elim (S k) c m x b = set_row (elim k c m) (S k) r x b)).
    { intros r x Hx b. unfold elim, set_row. destruct (Nat.eqb_spec x (S k)); [contradiction|].
      destruct (Nat.leb_spec 1 x), (Nat.leb_spec x (S k)), (Nat.leb_spec x k); cbn [andb]; try lia; reflexivity. }
    transitivity (det n (set_row (elim k c m) (S k) (fun b => (- c (S k)) * m 0%nat b + m (S k) b))).
    { apply det_ext. intros x y _ _. destruct (Nat.eq_dec x (S k)) as [->|Hx]; [|apply Ek, Hx].
      unfold elim, set_row. rewrite Nat.eqb_refl. cbn [Nat.leb]. rewrite Nat.leb_refl. cbn [andb]. ring. }
    rewrite det_row_linear by lia.
    rewrite (det_equal_first n k (set_row (elim k c m) (S k) (m 0%nat))); [|lia|].
    2:{ intro b. unfold set_row, elim. cbn [Nat.eqb]. rewrite Nat.eqb_refl. cbn [Nat.leb andb]. reflexivity. }
    rewrite Rmult_0_r, Rplus_0_l. rewrite <- IH by lia. apply det_ext. intros x y _ _. unfold set_row.
    destruct (Nat.eqb_spec x (S k)) as [->|]; [|reflexivity]. unfold elim.
    destruct (Nat.leb_spec (S k) k); [lia|]. rewrite andb_false_r. reflexivity.
Qed.
(** a first column of zeros *)
Lemma det_zero_column n : forall m, (0 < n)%nat -> (forall i, (i < n)%nat -> m i 0%nat = 0) -> det n m = 0.
Proof.
  induction n as [|n IH]; intros m Hn H; [lia|]. cbn [det]. apply rsum_0. intros j Hj. destruct j as [|j].
  - rewrite H by lia. ring.
  - destruct n as [|n]; [lia|]. rewrite (IH (minor (S j) m)); [ring|lia|]. intros i Hi. apply (H (S i)). lia.
Qed.
Lemma det_first_column n m : (forall i, (i < n)%nat -> m (S i) 0%nat = 0) -> det (S n) m = m 0%nat 0%nat * det n (fun a b => m (S a) (S b)).
Proof.
  intro H. cbn [det]. rewrite rsum_S. rewrite rsum_0; [cbn [pow]; rewrite Rplus_0_r, Rmult_1_l; reflexivity|].
  intros j Hj. rewrite det_zero_column; [ring|lia|]. intros i Hi. apply (H i Hi).
Qed.
(** Schur complement *)
Definition schur (m : mat) : mat := fun a b => m (S a) (S b) - m (S a) 0%nat / m 0%nat 0%nat * m 0%nat (S b).
Lemma det_schur n m : m 0%nat 0%nat <> 0 -> det (S n) m = m 0%nat 0%nat * det n (schur m).
Proof.
  intro H. rewrite <- (det_elim (S n) (fun a => m a 0%nat / m 0%nat 0%nat) m n) by lia. rewrite det_first_column.
  - f_equal. apply det_ext. intros x y Hx Hy. unfold elim, schur.
    destruct (Nat.leb_spec 1 (S x)); [|lia]. destruct (Nat.leb_spec (S x) n); [reflexivity|lia].
  - intros i Hi. unfold elim. destruct (Nat.leb_spec 1 (S i)); [|lia]. destruct (Nat.leb_spec (S i) n); [|lia].
    cbn [andb]. field. exact H.
Qed.
Lemma pos_def_corner n m : pos_def (S n) m -> 0 < m 0%nat 0%nat.
Proof.
  intro P. assert (N : nonzero (S n) (delta 0)) by (exists O; split; [lia|]; unfold delta; cbn; lra).
  specialize (P _ N). unfold form in P. rewrite rsum_S in P.
  rewrite (rsum_0 n) in P.
  2:{ intros i _. apply rsum_0. intros j _. unfold delta. cbn [Nat.eqb]. ring. }
  rewrite rsum_S, (rsum_0 n) in P.
  2:{ intros j _. unfold delta. cbn [Nat.eqb]. ring. }
  unfold delta in P. cbn [Nat.eqb] in P. lra.
Qed.
Lemma pos_def_schur n m : pos_def (S n) m -> pos_def n (schur m).
Proof.
  intros P x Hx. pose proof (pos_def_corner n m P) as H0.
  set (w := rsum n (fun j => m 0%nat (S j) * x j)).
  set (y := fun i => match i with O => - w / m 0%nat 0%nat | S k => x k end : R).
  assert (N : nonzero (S n) y) by (destruct Hx as (i & Hi & Hxi); exists (S i); split; [lia|exact Hxi]).
  specialize (P y N). replace (form n (schur m) x) with (form (S n) m y); [exact P|].
  unfold form. rewrite rsum_S. rewrite rsum_S.
  assert (A : rsum n (fun i => y 0%nat * m 0%nat (S i) * y (S i)) = y 0%nat * w).
  { unfold w. rewrite <- rsum_scale. apply rsum_ext. intros i _. unfold y at 2. ring. }
  rewrite A. assert (B : y 0%nat * m 0%nat 0%nat * y 0%nat + y 0%nat * w = 0) by (unfold y; field; lra).
  rewrite B, Rplus_0_l. apply rsum_ext. intros i _. rewrite rsum_S. unfold y at 1 2 3. 
  transitivity (x i * m (S i) 0%nat * (- w / m 0%nat 0%nat) + rsum n (fun j => x i * m (S i) (S j) * x j)); [reflexivity|].
  unfold schur.
  rewrite (rsum_ext n (fun j => x i * (m (S i) (S j) - m (S i) 0%nat / m 0%nat 0%nat * m 0%nat (S j)) * x j)
             (fun j => x i * m (S i) (S j) * x j + (- x i * m (S i) 0%nat / m 0%nat 0%nat) * (m 0%nat (S j) * x j))).
  - rewrite rsum_plus, rsum_scale. fold w. field. lra.
  - intros j _. field. lra.
Qed.
Lemma det_pos_def n : forall m, pos_def n m -> 0 < det n m.
Proof.
  induction n as [|n IH]; intros m P; [cbn; lra|]. pose proof (pos_def_corner n m P) as H.
  rewrite det_schur by lra. apply Rmult_lt_0_compat; [exact H|]. apply IH, pos_def_schur, P.
Qed.
