(** Histories of filter operations. *)
From Coq Require Import Reals ZArith List Arith Bool Permutation Lra Lia.
From Verif Require Import Arith PfModel PfSpec PfProofs RsumLemmas PfReal PfReal2.
Import ListNotations.

Section Hist.
Context (A : arith) {T : Type}.

(** One call on the filter object with everything the call depends on: callbacks,
    random outcomes and the outcome of std::sort. *)
Inductive op :=
| OInit (gen : nat -> T)
| OMeasure (likelihood : nat -> T -> A)
| OResample (plus : T -> T -> T) (normalize : T -> T) (offset : A) (noise : nat -> T)
            (sorted : list (A * T))
| OResize (dflt : T) (num : nat) (sorted : list (A * T))
| ONoise (plus : T -> T -> T) (noise : nat -> T)
| OPredict (model : nat -> T -> T)
| OBias (b : nat -> T -> A -> A)
| OAppend (dflt : T) (num : nat)
| OExpectPass (sorted : list (particle A T)).

(** the state after the call; [None] = undefined behaviour *)
Definition run (o : op) (f : filter A T) : option (filter A T) :=
  match o with
  | OInit g => Some (init A g f)
  | OMeasure L => Some (measure A L f)
  | OResample plus nm off nz d => resample A plus nm off nz d f
  | OResize dflt n d => resize A dflt d n f
  | ONoise plus nz => Some (add_noise A plus nz f)
  | OPredict m => Some (predict A m f)
  | OBias b => Some (do_bias A b f)
  | OAppend dflt n => Some (append A dflt n f)
  | OExpectPass qs => Some {| parts := qs; entropy := entropy A f |}
  end.
(** the recorded sort outcome is one std::sort may produce in state [f] *)
Definition possible (o : op) (f : filter A T) : Prop :=
  match o with
  | OResample _ _ _ _ d | OResize _ _ d => sorted_copy A (dup_of A f0 (parts A f)) d
  | OExpectPass qs => sorted_desc A (parts A f) qs
  | _ => True
  end.
(** [history ops f f']: running [ops] from [f], all outcomes possible, reaches [f'];
    [f' = None] if some call was undefined *)
Inductive history : list op -> filter A T -> option (filter A T) -> Prop :=
| h_nil f : history [] f (Some f)
| h_ub o ops f : possible o f -> run o f = None -> history (o :: ops) f None
| h_step o ops f f1 r :
    possible o f -> run o f = Some f1 -> history ops f1 r -> history (o :: ops) f r.
End Hist.
Arguments op : clear implicits.

Local Open Scope R_scope.
(** what the caller must respect: likelihoods are not negative and the filter is not
    resized to nothing *)
Definition well_called {T} (o : op RA T) : Prop :=
  match o with
  | OMeasure _ L => forall i s, 0 <= L i s
  | OResize _ _ n _ => (0 < n)%nat
  | _ => True
  end.
Definition distribution {T} (f : filter RA T) : Prop :=
  parts RA f <> [] /\ Forall (fun x => 0 <= x) (weights RA f) /\ Rsum (weights RA f) = 1.

Section R.
Context {T : Type}.
Implicit Type (f : filter RA T).

Lemma uniform_dist f n :
  (0 < n)%nat -> length (parts RA f) = n -> weights RA f = repeat (1 / INR n) n -> distribution f.
Proof.
  intros Hn Hl Hw. assert (Hp : 0 < INR n) by (apply lt_0_INR; assumption).
  split; [|rewrite Hw; split].
  - intros E. rewrite E in Hl. cbn in Hl. lia.
  - apply Forall_forall. intros x Hx. apply repeat_spec in Hx. subst x.
    apply Rlt_le. unfold Rdiv. rewrite Rmult_1_l. apply Rinv_0_lt_compat. assumption.
  - rewrite Rsum_repeat. field. lra.
Qed.

Lemma same_weights_dist f (g : filter RA T) : weights RA g = weights RA f -> distribution f -> distribution g.
Proof.
  intros E (H1 & H2 & H3). split; [|rewrite E; auto].
  intros Hg. apply H1. unfold weights in E. rewrite Hg in E. cbn in E.
  destruct (parts RA f); [reflexivity|discriminate].
Qed.

Lemma length_ne f : parts RA f <> [] -> (0 < length (parts RA f))%nat.
Proof. destruct (parts RA f); cbn; [congruence|lia]. Qed.

Lemma run_dist o f :
  well_called o -> possible RA o f -> distribution f ->
  exists f', run RA o f = Some f' /\ distribution f'.
Proof.
  intros Hw Hp Hd. assert (Hd' := Hd). destruct Hd' as (Hne & Hnn & Hs).
  destruct o as [g|L|plus nm off nz d|dflt n d|plus nz|m|b|dflt n|qs]; cbn in *.
  - eexists. split; [reflexivity|]. destruct (init_frame RA g f) as (_ & H & _).
    apply uniform_dist with (n := length (parts RA f)); [apply length_ne; assumption| |exact H].
    unfold init. cbn. apply mapi_length.
  - eexists. split; [reflexivity|].
    destruct (Rlt_dec 0 (Rsum (scores RA L f))) as [Hpos|Hno].
    + destruct (measure_real L f Hpos) as (_ & H2 & _).
      assert (H3 := measure_weights_range L f Hnn Hw Hpos).
      destruct (measure_shape RA L f) as (H4 & _). split; [|split].
      * intros E. rewrite E in H4. cbn in H4. apply Hne. destruct (parts RA f); [reflexivity|discriminate].
      * eapply Forall_impl; [|exact H3]. intros x [? _]. assumption.
      * exact H2.
    + rewrite measure_noop; [exact Hd|]. cbn. rewrite fold_left_Rplus. apply Rltb_false.
      change (Rsum (scores RA L f)) with (Rsum (scores RA L f)) in Hno. lra.
  - destruct (resample_shape RA plus nm off nz d f Hne Hp) as (f' & sel & H1 & H2 & H3 & _).
    exists f'. split; [exact H1|].
    apply uniform_dist with (n := length (parts RA f)); [apply length_ne; assumption|exact H2|exact H3].
  - destruct (resize_shape RA dflt d n f Hne Hp) as (f' & sel & H1 & H2 & H3 & _).
    exists f'. split; [exact H1|]. apply uniform_dist with (n := n); assumption.
  - eexists. split; [reflexivity|]. apply same_weights_dist with (f := f); [|assumption].
    apply noise_frame.
  - eexists. split; [reflexivity|]. apply same_weights_dist with (f := f); [|assumption].
    apply predict_frame.
  - eexists. split; [reflexivity|]. apply same_weights_dist with (f := f); [|assumption].
    apply bias_frame.
  - eexists. split; [reflexivity|]. destruct (append_spec RA dflt n f) as [H _].
    unfold distribution, weights. rewrite H, map_app.
    assert (E : map (w RA) (repeat (new_particle RA dflt) n) = repeat 0 n).
    { clear. induction n as [|n IH]; cbn; [reflexivity|]. f_equal; exact IH. }
    change (F RA) with R in *. setoid_rewrite E. split; [|split].
    + intros H0. apply app_eq_nil in H0. tauto.
    + apply Forall_app. split; [exact Hnn|]. apply Forall_forall. intros x Hx.
      apply repeat_spec in Hx. subst. apply Rle_refl.
    + rewrite Rsum_app, Rsum_repeat. unfold weights in Hs. change (F RA) with R in *. rewrite Hs. lra.
  - eexists. split; [reflexivity|]. destruct Hp as (HP & _). unfold distribution, weights. cbn.
    assert (HP' := Permutation_map (w RA) HP). split; [|split].
    + intros E. subst qs. apply Hne. apply Permutation_nil. apply Permutation_sym. exact HP.
    + eapply Permutation_Forall; [exact HP'|exact Hnn].
    + etransitivity; [symmetry; exact (Rsum_perm _ _ HP')|exact Hs].
Qed.

Lemma history_dist ops f r :
  Forall well_called ops -> distribution f -> history RA ops f r ->
  exists f', r = Some f' /\ distribution f'.
Proof.
  intros Hw Hd H. induction H as [f|o ops f Hp Hr|o ops f f1 r Hp Hr H IH].
  - eauto.
  - inversion_clear Hw as [|? ? H0 H1]. destruct (run_dist o f H0 Hp Hd) as (f' & E & _). congruence.
  - inversion_clear Hw as [|? ? H0 H1]. destruct (run_dist o f H0 Hp Hd) as (f' & E & Hd').
    rewrite Hr in E. injection E as <-. auto.
Qed.
End R.
