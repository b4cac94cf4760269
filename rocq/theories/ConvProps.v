(** Property C74: conversion of point cloud messages. *)
From Coq Require Import String.
From Coq Require Import NArith PeanoNat List Bool Lia.
From Verif Require Import ConvModel.
Import ListNotations.
Open Scope string_scope.
Open Scope nat_scope.
Open Scope list_scope.

(** Vocabulary.  The message has a field of that name ... *)
Definition has_field (m : msg) (n : string) : Prop := exists f, In f (m_fields m) /\ f_name f = n.
(** ... field number [i] is the first scalar field with that name and datatype *)
Definition good (f : field) (n : string) (t : datatype) : Prop := f_name f = n /\ f_type f = t /\ (f_count f <= 1)%nat.
Definition first_field (m : msg) (n : string) (t : datatype) (i : nat) : Prop :=
  (exists f, nth_error (m_fields m) i = Some f /\ good f n t)
  /\ forall j f, j < i -> nth_error (m_fields m) j = Some f -> ~ good f n t.
(** ... there is none *)
Definition no_field (m : msg) (n : string) (t : datatype) : Prop := forall f, In f (m_fields m) -> ~ good f n t.

Lemma index_some q l : forall k i, index_of q l k = Some i ->
  (k <= i) /\ (exists f, nth_error l (i - k) = Some f /\ q f = true) /\ (forall j f, j < i - k -> nth_error l j = Some f -> q f = false).
Proof.
  induction l as [|f l IH]; cbn; intros k i H; [discriminate|]. destruct (q f) eqn:E.
  - injection H as <-. split; [lia|]. rewrite Nat.sub_diag. split; [exists f; auto|]. intros; lia.
  - apply IH in H. destruct H as (H1 & (g & H2 & H3) & H4). split; [lia|].
    replace (i - k) with (S (i - S k)) by lia. split; [exists g; auto|].
    intros [|j] h Hj Hh; cbn in Hh; [congruence|]. apply (H4 j); [lia|exact Hh].
Qed.
Lemma index_none q l k : index_of q l k = None <-> forall f, In f l -> q f = false.
Proof.
  revert k. induction l as [|f l IH]; cbn; intro k; [split; [contradiction|reflexivity]|].
  destruct (q f) eqn:E.
  - split; [discriminate|]. intro H. rewrite (H f (or_introl eq_refl)) in E. discriminate.
  - rewrite IH. split; [intros H g [<-|Hg]; auto|intros H g Hg; auto].
Qed.
Lemma field_index_some m n : (exists i, field_index m n = Some i) <-> has_field m n.
Proof.
  unfold field_index. destruct (index_of _ _ _) as [i|] eqn:E.
  - split; [intros _|eauto]. apply index_some in E. destruct E as (_ & (f & H1 & H2) & _).
    exists f. split; [eapply nth_error_In; eauto|now apply String.eqb_eq].
  - split; [intros [i H]; discriminate|]. intros (f & H1 & H2).
    apply (proj1 (index_none _ _ _)) with (f := f) in E; [|exact H1]. rewrite H2, String.eqb_refl in E. discriminate.
Qed.
Lemma good_bool f n t : (String.eqb (f_name f) n && datatype_eqb (f_type f) t && Nat.leb (f_count f) 1) = true <-> good f n t.
Proof.
  unfold good. rewrite !andb_true_iff, String.eqb_eq, Nat.leb_le.
  assert (H : datatype_eqb (f_type f) t = true <-> f_type f = t) by (destruct (f_type f), t; cbn; split; congruence).
  rewrite H. tauto.
Qed.
Lemma match_spec m n t i : first_field m n t i -> match_index m n t = Some i.
Proof.
  intros [(f & H1 & H2) H3]. unfold match_index. destruct (index_of _ _ _) as [k|] eqn:E.
  - apply index_some in E. rewrite Nat.sub_0_r in E. destruct E as (_ & (g & G1 & G2) & G3). apply good_bool in G2.
    destruct (Nat.lt_trichotomy i k) as [L|[->|L]]; [|reflexivity|].
    + apply (proj2 (good_bool _ _ _)) in H2. rewrite (G3 i f L H1) in H2. discriminate.
    + exfalso. exact (H3 k g L G1 G2).
  - apply (proj1 (index_none _ _ _)) with (f := f) in E; [|eapply nth_error_In; eauto].
    apply (proj2 (good_bool _ _ _)) in H2. rewrite H2 in E. discriminate.
Qed.
Lemma match_none m n t : no_field m n t -> match_index m n t = None.
Proof.
  intro H. unfold match_index. apply index_none. intros f Hf. apply not_true_is_false. intro E.
  apply good_bool in E. exact (H f Hf E).
Qed.

(** The result for the point type that is chosen *)
Lemma from_split m pc :
  (has_field m "x" /\ has_field m "y" /\ has_field m "z" /\
   exists t, fromROSMsg m pc = fromROSMsgImpl t m pc
     /\ (has_i t = true <-> has_field m "intensity") /\ (has_l t = true <-> has_field m "label"))
  \/ (~ (has_field m "x" /\ has_field m "y" /\ has_field m "z") /\ fromROSMsg m pc = (false, pc)).
Proof.
  assert (N : forall n, field_index m n = None -> ~ has_field m n).
  { intros n E H. apply field_index_some in H. destruct H. congruence. }
  assert (S : forall n i, field_index m n = Some i -> has_field m n) by (intros n i E; apply field_index_some; eauto).
  unfold fromROSMsg.
  destruct (field_index m "x") eqn:Ex; [|right; split; [intros (H & _); revert H; now apply N|reflexivity]].
  destruct (field_index m "y") eqn:Ey; [|right; split; [intros (_ & H & _); revert H; now apply N|reflexivity]].
  destruct (field_index m "z") eqn:Ez; [|right; split; [intros (_ & _ & H); revert H; now apply N|reflexivity]].
  left. split; [eauto|split; [eauto|split; [eauto|]]].
  assert (I : forall n i, field_index m n = Some i -> (true = true <-> has_field m n)) by (split; eauto).
  assert (J : forall n, field_index m n = None -> (false = true <-> has_field m n)).
  { intros nm E. split; [discriminate|]. intro H. exfalso. exact (N nm E H). }
  destruct (field_index m "intensity") eqn:Ei, (field_index m "label") eqn:El;
    [exists XYZIL|exists XYZI|exists XYZL|exists XYZ]; cbn; (split; [reflexivity|]); split; eauto.
Qed.
Lemma copy_length t raw out : length (copy_cloud t raw out) = length raw.
Proof. revert out. induction raw; intros [|]; cbn; auto. Qed.
Lemma copy_nth t raw : forall out i, nth_error (copy_cloud t raw out) i =
  option_map (fun a => copy_point t a (nth i out default_point)) (nth_error raw i).
Proof.
  induction raw as [|a raw IH]; intros [|b out] [|i]; cbn; try reflexivity; rewrite IH; [destruct i; reflexivity|reflexivity].
Qed.

(** C74. Success, and nothing changes on failure. *)
Theorem C74_success_iff m pc :
  fst (fromROSMsg m pc) = true <-> has_field m "x" /\ has_field m "y" /\ has_field m "z" /\ m_rows m <> [].
Proof.
  destruct (from_split m pc) as [(Hx & Hy & Hz & t & -> & _)|[H ->]].
  - unfold fromROSMsgImpl. rewrite map_length. destruct (m_rows m); cbn; split; try discriminate; auto.
    + intros (_ & _ & _ & H). contradiction.
    + intros _. repeat split; auto. discriminate.
  - cbn. split; [discriminate|]. intros (A & B & C & _). exfalso. auto.
Qed.
Theorem C74_failure_changes_nothing m pc : fst (fromROSMsg m pc) = false -> snd (fromROSMsg m pc) = pc.
Proof.
  destruct (from_split m pc) as [(Hx & Hy & Hz & t & -> & _)|[H ->]]; [|reflexivity].
  unfold fromROSMsgImpl. rewrite map_length. destruct (m_rows m); cbn; [reflexivity|discriminate].
Qed.

(** Success into a fresh cloud (as every caller in the node does): the points are those of
    the message, in order; each component is the word of the first field with the right name
    and type, and zero if there is none. *)
Definition value_of (m : msg) (n : string) (t : datatype) (r : row) (w : N) : Prop :=
  (exists i, first_field m n t i /\ w = r i) \/ (no_field m n t /\ w = 0%N).
Lemma get_value m n t r : value_of m n t r (get m n t r).
Proof.
  unfold get, match_index. destruct (index_of _ _ _) as [i|] eqn:E.
  - left. exists i. split; [|reflexivity]. apply index_some in E. rewrite Nat.sub_0_r in E.
    destruct E as (_ & (f & F1 & F2) & F3). split.
    + exists f. split; [exact F1|]. now apply good_bool.
    + intros j g Hj Hg Hgood. apply good_bool in Hgood. rewrite (F3 j g Hj Hg) in Hgood. discriminate.
  - right. split; [|reflexivity]. intros f Hf Hg. apply good_bool in Hg.
    apply (proj1 (index_none _ _ _)) with (f := f) in E; congruence.
Qed.
Theorem C74_points m out : fromROSMsg m [] = (true, out) ->
  length out = length (m_rows m)
  /\ forall i r, nth_error (m_rows m) i = Some r -> exists p, nth_error out i = Some p
      /\ value_of m "x" FLOAT32 r (p_x p) /\ value_of m "y" FLOAT32 r (p_y p) /\ value_of m "z" FLOAT32 r (p_z p)
      /\ value_of m "intensity" FLOAT32 r (p_i p) /\ value_of m "label" UINT32 r (p_l p).
Proof.
  intro E. destruct (from_split m []) as [(_ & _ & _ & t & Et & Hi & Hl)|[_ E2]]; [|rewrite E in E2; discriminate].
  rewrite Et in E. unfold fromROSMsgImpl in E. destruct (Nat.eqb _ _); [discriminate|]. injection E as <-.
  split; [now rewrite copy_length, map_length|].
  intros i r Hr. rewrite copy_nth, nth_error_map, Hr. cbn [option_map]. eexists. split; [reflexivity|].
  replace (nth i [] default_point) with default_point by (now destruct i).
  cbn [copy_point raw_point p_x p_y p_z p_i p_l default_point].
  assert (NF : forall n ty, ~ has_field m n -> value_of m n ty r 0%N).
  { intros n ty H. right. split; [|reflexivity]. intros f Hf Hg. apply H. exists f. split; [exact Hf|apply Hg]. }
  repeat split; try apply get_value.
  - destruct (has_i t); [apply get_value|]. apply NF. intro H. apply Hi in H. discriminate.
  - destruct (has_l t); [apply get_value|]. apply NF. intro H. apply Hl in H. discriminate.
Qed.
(** the relation is a function, so the previous theorem determines every component *)
Theorem C74_value_unique m n t r w w' : value_of m n t r w -> value_of m n t r w' -> w = w'.
Proof.
  intros [(i & H & ->)|[H ->]] [(i' & H' & ->)|[H' ->]]; [|exfalso|exfalso|reflexivity].
  - apply match_spec in H, H'. congruence.
  - destruct H as ((f & F1 & F2) & _). apply nth_error_In in F1. exact (H' f F1 F2).
  - destruct H' as ((f & F1 & F2) & _). apply nth_error_In in F1. exact (H f F1 F2).
Qed.

(** Refuted: the name check does not look at the type.  A message whose coordinates are
    FLOAT64 is accepted and all its points become the origin. *)
Theorem C74_double_coordinates_refuted m r rs :
  has_field m "x" -> has_field m "y" -> has_field m "z" ->
  no_field m "x" FLOAT32 -> no_field m "y" FLOAT32 -> no_field m "z" FLOAT32 -> m_rows m = r :: rs ->
  exists out, fromROSMsg m [] = (true, out) /\ length out = length (m_rows m)
    /\ Forall (fun p => p_x p = 0%N /\ p_y p = 0%N /\ p_z p = 0%N) out.
Proof.
  intros Hx Hy Hz Nx Ny Nz Hr. destruct (fromROSMsg m []) as [b out] eqn:E.
  assert (Hb : b = true).
  { change b with (fst (b, out)). rewrite <- E. apply C74_success_iff. repeat split; auto. rewrite Hr. discriminate. }
  subst b. exists out. split; [reflexivity|]. destruct (C74_points m out E) as [Hl Hp]. split; [exact Hl|].
  apply Forall_forall. intros p Hin. apply In_nth_error in Hin. destruct Hin as [i Hi].
  destruct (nth_error (m_rows m) i) as [rw|] eqn:Er.
  - destruct (Hp i rw Er) as (q & Q1 & Q2 & Q3 & Q4 & _). rewrite Hi in Q1. injection Q1 as <-.
    repeat split.
    + apply (C74_value_unique m "x" FLOAT32 rw); [exact Q2|right; auto].
    + apply (C74_value_unique m "y" FLOAT32 rw); [exact Q3|right; auto].
    + apply (C74_value_unique m "z" FLOAT32 rw); [exact Q4|right; auto].
  - apply nth_error_None in Er. assert (i < length out) by (apply nth_error_Some; congruence). lia.
Qed.
(** Converting into a cloud that already has points keeps old intensities and labels where
    the message has none: the output must be fresh. *)
Theorem C74_reused_output_keeps_stale_fields m pc out i p :
  ~ has_field m "intensity" -> ~ has_field m "label" -> fromROSMsg m pc = (true, out) ->
  nth_error pc i = Some p -> i < length out ->
  exists q, nth_error out i = Some q /\ p_i q = p_i p /\ p_l q = p_l p.
Proof.
  intros Hi Hl E Hp Hlt. destruct (from_split m pc) as [(_ & _ & _ & t & Et & Ti & Tl)|[_ E2]]; [|rewrite E in E2; discriminate].
  rewrite Et in E. unfold fromROSMsgImpl in E. destruct (Nat.eqb _ _); [discriminate|]. injection E as <-.
  rewrite copy_nth. rewrite copy_length in Hlt.
  destruct (nth_error (map (raw_point t m) (m_rows m)) i) as [a|] eqn:Ea.
  2:{ apply nth_error_None in Ea. lia. }
  cbn [option_map]. eexists. split; [reflexivity|]. cbn [copy_point p_i p_l].
  destruct (has_i t); [exfalso; apply Hi, Ti; reflexivity|]. destruct (has_l t); [exfalso; apply Hl, Tl; reflexivity|].
  rewrite (nth_error_nth pc i default_point Hp). auto.
Qed.

Definition fld n t := {| f_name := n; f_type := t; f_count := 1 |}.
Definition example_msg : msg :=
  {| m_fields := [fld "x" FLOAT32; fld "y" FLOAT32; fld "z" FLOAT32; fld "label" UINT32];
     m_rows := [fun i => N.of_nat (10 + i); fun i => N.of_nat (20 + i)] |}.
Example C74_nonvacuous : fromROSMsg example_msg [] =
  (true, [{| p_x := 10; p_y := 11; p_z := 12; p_i := 0; p_l := 13 |}; {| p_x := 20; p_y := 21; p_z := 22; p_i := 0; p_l := 23 |}]).
Proof. reflexivity. Qed.
Example C74_double_nonvacuous :
  fromROSMsg {| m_fields := [fld "x" FLOAT64; fld "y" FLOAT64; fld "z" FLOAT64]; m_rows := [fun _ => 7%N] |} [] = (true, [default_point]).
Proof. reflexivity. Qed.
Example C74_stale_nonvacuous :
  fromROSMsg {| m_fields := [fld "x" FLOAT32; fld "y" FLOAT32; fld "z" FLOAT32]; m_rows := [fun _ => 7%N] |}
    [{| p_x := 1; p_y := 1; p_z := 1; p_i := 5; p_l := 6 |}] = (true, [{| p_x := 7; p_y := 7; p_z := 7; p_i := 5; p_l := 6 |}]).
Proof. reflexivity. Qed.
