(** What it means that points are drawn uniformly, or by a roulette wheel with weights. *)
From Coq Require Import Reals ZArith NArith List Bool Arith Permutation.
From Verif Require Import Arith SamplerSpec.
Import ListNotations.
Open Scope R_scope.
Open Scope list_scope.

(** The number [v] falls on the sector of the entry [i], on a wheel with sectors as wide as the
    weights (the left end belongs to the first entry). *)
Definition hit (ws : list R) (v : R) (i : nat) : Prop :=
  (i < length ws)%nat /\ (sum_first i ws < v <= sum_first (Datatypes.S i) ws \/ (i = 0%nat /\ v <= 0)).
(** [sel'] is the set [sel] with [i] *)
Definition added (i : nat) (sel sel' : list nat) : Prop := (In i sel /\ sel' = sel) \/ (~ In i sel /\ sel' = i :: sel).
(** Spinning the wheel until [num] different entries are chosen; every spin takes one number up
    to the sum of the weights from the engine. *)
Inductive spun {E} (draw : R -> E -> R * E) (ws : list R) (num : nat) : list nat -> E -> list nat -> E -> Prop :=
| spun_last sel g v g1 i sel' : draw (sum_first (length ws) ws) g = (v, g1) -> hit ws v i -> added i sel sel' ->
    (num <= length sel')%nat -> spun draw ws num sel g sel' g1
| spun_more sel g v g1 i sel' s g' : draw (sum_first (length ws) ws) g = (v, g1) -> hit ws v i -> added i sel sel' ->
    (length sel' < num)%nat -> spun draw ws num sel' g1 s g' -> spun draw ws num sel g s g'.
(** [num] points of [l] chosen by the wheel, the engine goes from [g] to [g'] *)
Definition roulette {E X} (draw : R -> E -> R * E) (ws : list R) (l : list X) (num : nat) (g : E) (out : list X) (g' : E) : Prop :=
  if (num =? 0)%nat then out = [] /\ g' = g
  else if (length l <=? num)%nat then out = l /\ g' = g
  else exists s ids, spun draw ws num [] g s g' /\ Permutation ids s /\ Forall2 (fun i x => nth_error l i = Some x) ids out.
(** [num] independent choices among the points of [l] *)
Definition uniform {E X} (draw : nat -> E -> nat * E) (l : list X) (num : nat) (g : E) (out : list X) (g' : E) : Prop :=
  match l with
  | [] => out = [] /\ g' = g
  | _ => length out = num /\ g' = draws draw (length l - 1)%nat num g
         /\ forall i, (i < num)%nat -> nth_error out i = nth_error l (fst (draw (length l - 1)%nat (draws draw (length l - 1)%nat i g)))
  end.
