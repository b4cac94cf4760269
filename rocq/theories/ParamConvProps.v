(** C116, conversions between the type of a parameter on the server and the type of the setting. *)
From Coq Require Import Reals ZArith NArith String List Bool Lra Lia.
From Verif Require Import Arith ParamModel ParamTabProps.
Import ListNotations.
Local Open Scope R_scope.

Lemma Rceil_bounds x : IZR (Rceil x) - 1 < x <= IZR (Rceil x).
Proof. pose proof (Rceil_spec x). lra. Qed.

(** A number given as an integer is taken for a real setting; a real number given for an integer setting is rounded to
    the nearest integer (halves up) if it is not negative, and always rounded down if it is negative; truth values and
    texts never become numbers nor the other way round, and then the default counts. *)
Theorem C116_conversions : forall (s : server) (k : string),
  (forall n d, s k = Some (PInt n) -> param to_double s k d = IZR n)
  /\ (forall x d, s k = Some (PDouble x) -> 0 <= x -> IZR (param to_int s k d) - / 2 <= x < IZR (param to_int s k d) + / 2)
  /\ (forall x d, s k = Some (PDouble x) -> x < 0 -> IZR (param to_int s k d) <= x < IZR (param to_int s k d) + 1)
  /\ (forall b dr di ds, s k = Some (PBool b) -> param to_double s k dr = dr /\ param to_int s k di = di /\ param to_string s k ds = ds)
  /\ (forall t dr di db, s k = Some (PString t) -> param to_double s k dr = dr /\ param to_int s k di = di /\ param to_bool s k db = db)
  /\ (forall n db ds, s k = Some (PInt n) -> param to_bool s k db = db /\ param to_string s k ds = ds).
Proof.
  intros s k. unfold param. split; [intros n d ->; reflexivity|]. split; [|split; [|repeat split; intros; match goal with E : s k = _ |- _ => rewrite E end; reflexivity]].
  - intros x d -> P. cbn [to_int]. unfold round_int. cbv zeta. pose proof (Rfloor_spec x) as F. destruct (Rltb x 0) eqn:E; [apply Rltb_true in E; lra|].
    destruct (Rltb (x - IZR (Rfloor x)) (/ 2)) eqn:H.
    + apply Rltb_true in H. lra.
    + apply Rltb_false in H. pose proof (Rceil_bounds x) as C.
      assert (Q : (Rceil x <= Rfloor x + 1)%Z). { apply Z.lt_succ_r. apply lt_IZR. rewrite succ_IZR, plus_IZR. lra. }
      assert (Q' : (Rfloor x + 1 <= Rceil x)%Z). { apply Zlt_le_succ. apply lt_IZR. lra. }
      assert (E2 : Rceil x = (Rfloor x + 1)%Z) by lia. rewrite E2, plus_IZR in *. lra.
  - intros x d -> P. cbn [to_int]. unfold round_int. cbv zeta. pose proof (Rfloor_spec x) as F. destruct (Rltb x 0) eqn:E; [exact F|apply Rltb_false in E; lra].
Qed.

(** A count that is given as a negative integer becomes a huge number: 2^64 (or, for 32 bit settings, 2^32) is added. *)
Theorem C116_negative_counts : forall n : Z, (- 2 ^ 31 <= n < 2 ^ 31)%Z ->
  (0 <= n -> Z.of_N (int_to_size n) = n /\ Z.of_nat (int_to_u32 n) = n)%Z
  /\ (n < 0 -> Z.of_N (int_to_size n) = 2 ^ 64 + n /\ Z.of_nat (int_to_u32 n) = 2 ^ 32 + n)%Z.
Proof.
  intros n H. unfold int_to_size, int_to_u32. split; intro S.
  - rewrite !Z.mod_small by lia. lia.
  - assert (A : (n mod 2 ^ 64 = 2 ^ 64 + n)%Z) by (symmetry; apply (Z.mod_unique _ _ (-1)); lia).
    assert (B : (n mod 2 ^ 32 = 2 ^ 32 + n)%Z) by (symmetry; apply (Z.mod_unique _ _ (-1)); lia). rewrite A, B. lia.
Qed.

(** The heading count is the nearest integer, halves away from zero. *)
Theorem C116_heading_count_rounding : forall x,
  (0 <= x -> IZR (lround x) - / 2 <= x < IZR (lround x) + / 2) /\ (x < 0 -> IZR (lround x) - / 2 < x <= IZR (lround x) + / 2).
Proof.
  intro x. unfold lround. split; intro P.
  - destruct (Rltb x 0) eqn:E; [apply Rltb_true in E; lra|]. pose proof (Rfloor_spec (x + / 2)). lra.
  - destruct (Rltb x 0) eqn:E; [|apply Rltb_false in E; lra]. rewrite opp_IZR. pose proof (Rfloor_spec (- x + / 2)). lra.
Qed.

Example C116_conversions_nonvacuous :
  param to_int (fun _ => Some (PDouble (25 / 10))) "num_particles" 64%Z = 3%Z
  /\ param to_int (fun _ => Some (PDouble (- (11 / 10)))) "num_particles" 64%Z = (-2)%Z
  /\ int_to_size (-1) = 18446744073709551615%N.
Proof.
  assert (U : forall n m : Z, IZR n < IZR m + 1 -> IZR m < IZR n + 1 -> n = m).
  { intros n m A B. assert (n < m + 1)%Z by (apply lt_IZR; rewrite plus_IZR; exact A). assert (m < n + 1)%Z by (apply lt_IZR; rewrite plus_IZR; exact B). lia. }
  destruct (C116_conversions (fun _ => Some (PDouble (25 / 10))) "num_particles") as (_ & A & _).
  destruct (C116_conversions (fun _ => Some (PDouble (- (11 / 10)))) "num_particles") as (_ & _ & B & _).
  specialize (A _ 64%Z eq_refl ltac:(lra)). specialize (B _ 64%Z eq_refl ltac:(lra)).
  split; [|split; [|reflexivity]]; apply U; lra.
Qed.
