(** The arithmetic the code is written over.

    The filter is a C++ template over FLT_TYPE (/repo/include/mcl_3dl/pf.h:46,
    89, 112, 158).  The model is written once over a record of operations with no
    algebraic laws: a theorem for every [arith] holds for IEEE-754 with rounding,
    NaN and infinities as well.  [RA] is the instance over the real numbers. *)
From Coq Require Import Reals ZArith List Bool Lra Lia.
Import ListNotations.

Record arith := {
  F :> Type;
  f0 : F; f1 : F;
  fadd : F -> F -> F; fsub : F -> F -> F; fmul : F -> F -> F; fdiv : F -> F -> F;
  fopp : F -> F;
  flt : F -> F -> bool;           (* IEEE [<]: false when an operand is NaN *)
  fofnat : nat -> F;              (* conversion of a size_t *)
  frecip : nat -> F;              (* 1.0 / size : division in double, then narrowing *)
  flog : F -> F;                  (* std::log *)
  ftrunc : F -> nat               (* static_cast<size_t>(x) for x >= 0 *)
}.
Arguments f0 {_}. Arguments f1 {_}. Arguments fadd {_}. Arguments fsub {_}.
Arguments fmul {_}. Arguments fdiv {_}. Arguments fopp {_}. Arguments flt {_}.
Arguments fofnat {_}. Arguments frecip {_}. Arguments flog {_}. Arguments ftrunc {_}.

(** Strict comparison of reals as a boolean. *)
Definition Rltb (x y : R) : bool := if Rlt_dec x y then true else false.
Definition Rleb (x y : R) : bool := if Rle_dec x y then true else false.
Lemma Rltb_true x y : Rltb x y = true <-> (x < y)%R.
Proof. unfold Rltb. destruct (Rlt_dec x y); split; intros; auto; discriminate. Qed.
Lemma Rltb_false x y : Rltb x y = false <-> (y <= x)%R.
Proof.
  unfold Rltb. destruct (Rlt_dec x y); split; intros; auto; try discriminate; lra.
Qed.
Lemma Rleb_true x y : Rleb x y = true <-> (x <= y)%R.
Proof. unfold Rleb. destruct (Rle_dec x y); split; intros; auto; discriminate. Qed.
Lemma Rleb_false x y : Rleb x y = false <-> (y < x)%R.
Proof.
  unfold Rleb. destruct (Rle_dec x y); split; intros; auto; try discriminate; lra.
Qed.

(** Mathematical floor. *)
Definition Rfloor (x : R) : Z := Int_part x.
Lemma Rfloor_spec x : (IZR (Rfloor x) <= x < IZR (Rfloor x) + 1)%R.
Proof. unfold Rfloor. destruct (base_Int_part x) as [H1 H2]. split; lra. Qed.
Lemma Rfloor_unique x n : (IZR n <= x < IZR n + 1)%R -> Rfloor x = n.
Proof.
  intros [H1 H2]. destruct (Rfloor_spec x) as [H3 H4].
  assert (A : (IZR n < IZR (Rfloor x) + 1)%R) by lra.
  assert (B : (IZR (Rfloor x) < IZR n + 1)%R) by lra.
  rewrite <- plus_IZR in A, B. apply lt_IZR in A, B. lia.
Qed.
Definition Rceil (x : R) : Z := (- Rfloor (- x))%Z.
Lemma Rceil_spec x : (IZR (Rceil x) - 1 < x <= IZR (Rceil x))%R.
Proof. unfold Rceil. rewrite opp_IZR. destruct (Rfloor_spec (- x)). lra. Qed.

Definition RA : arith := {|
  F := R; f0 := 0%R; f1 := 1%R;
  fadd := Rplus; fsub := Rminus; fmul := Rmult; fdiv := Rdiv; fopp := Ropp;
  flt := Rltb; fofnat := INR; frecip := fun n => (1 / INR n)%R;
  flog := ln; ftrunc := fun x => Z.to_nat (Rfloor x)
|}.
