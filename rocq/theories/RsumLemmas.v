From Coq Require Import Reals ZArith List Arith Bool Permutation Lra Lia.
From Verif Require Import Arith PfModel PfSpec.
Import ListNotations.
Local Open Scope R_scope.

Lemma Rsum_app l1 l2 : Rsum (l1 ++ l2) = Rsum l1 + Rsum l2.
Proof. unfold Rsum. induction l1 as [|x l1 IH]; cbn; [lra|]. rewrite IH. lra. Qed.
Lemma fold_left_Rplus l a : fold_left Rplus l a = a + Rsum l.
Proof. revert a. induction l as [|x l IH]; intros a; cbn; [lra|]. rewrite IH. unfold Rsum. cbn. lra. Qed.
Lemma Rsum_scale c l : Rsum (map (fun x => c * x) l) = c * Rsum l.
Proof. unfold Rsum. induction l as [|x l IH]; cbn; [lra|]. rewrite IH. lra. Qed.
Lemma Rsum_map_scale {X} c (g : X -> R) l : Rsum (map (fun x => c * g x) l) = c * Rsum (map g l).
Proof. unfold Rsum. induction l as [|x l IH]; cbn; [lra|]. rewrite IH. lra. Qed.
Lemma Rsum_map_scale_r {X} c (g : X -> R) l : Rsum (map (fun x => g x * c) l) = Rsum (map g l) * c.
Proof. unfold Rsum. induction l as [|x l IH]; cbn; [lra|]. rewrite IH. lra. Qed.
Lemma Rsum_map_div {X} c (g : X -> R) l : Rsum (map (fun x => g x / c) l) = Rsum (map g l) / c.
Proof. unfold Rdiv. apply Rsum_map_scale_r. Qed.
Lemma Rsum_map_plus {X} (g h : X -> R) l :
  Rsum (map (fun x => g x + h x) l) = Rsum (map g l) + Rsum (map h l).
Proof. unfold Rsum. induction l as [|x l IH]; cbn; [lra|]. rewrite IH. lra. Qed.
Lemma Rsum_map_minus {X} (g h : X -> R) l :
  Rsum (map (fun x => g x - h x) l) = Rsum (map g l) - Rsum (map h l).
Proof. unfold Rsum. induction l as [|x l IH]; cbn; [lra|]. rewrite IH. lra. Qed.
Lemma Rsum_nonneg l : Forall (fun x => 0 <= x) l -> 0 <= Rsum l.
Proof. unfold Rsum. induction 1; cbn; lra. Qed.
Lemma Rsum_le {X} (g h : X -> R) l :
  (forall x, In x l -> g x <= h x) -> Rsum (map g l) <= Rsum (map h l).
Proof.
  unfold Rsum. induction l as [|x l IH]; cbn; intros H; [lra|].
  assert (g x <= h x) by (apply H; auto). assert (H2 := IH (fun y Hy => H y (or_intror Hy))). lra.
Qed.
Lemma Rsum_ext {X} (g h : X -> R) l :
  (forall x, In x l -> g x = h x) -> Rsum (map g l) = Rsum (map h l).
Proof.
  unfold Rsum. induction l as [|x l IH]; cbn; intros H; [reflexivity|].
  rewrite (H x) by auto. rewrite IH; auto.
Qed.
Lemma Rsum_repeat c n : Rsum (repeat c n) = INR n * c.
Proof. induction n as [|n IH]; [cbn; lra|]. rewrite S_INR. cbn [repeat Rsum fold_right]. fold (Rsum (repeat c n)). rewrite IH. lra. Qed.
Lemma Rsum_perm l l' : Permutation l l' -> Rsum l = Rsum l'.
Proof. unfold Rsum. induction 1; cbn; lra. Qed.
Lemma Rsum_const {X} c (l : list X) : Rsum (map (fun _ => c) l) = INR (length l) * c.
Proof.
  induction l as [|x l IH]; [cbn; lra|]. cbn [map length Rsum fold_right].
  rewrite S_INR. fold (Rsum (map (fun _ : X => c) l)). rewrite IH. lra.
Qed.
Lemma Rsum_in_le l x : Forall (fun y => 0 <= y) l -> In x l -> x <= Rsum l.
Proof.
  unfold Rsum. induction 1 as [|y l Hy Hl IH]; cbn; [tauto|].
  intros [->|Hin]; [assert (0 <= Rsum l) by (apply Rsum_nonneg; assumption); unfold Rsum in *; lra|].
  specialize (IH Hin). lra.
Qed.
Lemma Rsum_swap {X Y} (g : X -> Y -> R) l l' :
  Rsum (map (fun x => Rsum (map (fun y => g x y) l')) l)
  = Rsum (map (fun y => Rsum (map (fun x => g x y) l)) l').
Proof.
  induction l as [|x l IH].
  - cbn. induction l' as [|y l' IH']; cbn; [reflexivity|]. unfold Rsum in *. cbn. lra.
  - cbn [map Rsum fold_right]. fold (Rsum (map (fun x0 => Rsum (map (fun y => g x0 y) l')) l)).
    rewrite IH, <- Rsum_map_plus. reflexivity.
Qed.
Lemma Rsum_zero_all l : Forall (fun x => 0 <= x) l -> Rsum l = 0 -> Forall (fun x => x = 0) l.
Proof.
  induction 1 as [|y l Hy Hl IH]; cbn; intros H; constructor.
  - assert (0 <= Rsum l) by (apply Rsum_nonneg; assumption). unfold Rsum in *. lra.
  - apply IH. assert (0 <= Rsum l) by (apply Rsum_nonneg; assumption). unfold Rsum in *. lra.
Qed.
