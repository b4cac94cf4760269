(** All particles at one pose: nothing but odometry moves them when no noise is configured. *)
From Coq Require Import String Reals ZArith List Bool Arith Lia Lra Permutation.
From Verif Require PfModel FilterModel AccumModel PfSpec PfProofs PfCov.
From Verif Require Import Arith KdModel QuatModel QuatSpec QuatProofs QuatProofs2 StateModel StateSpec StateProofs StateProps RayModel LidarModel NdModel ParamModel MatModel
  NodeModel NodeSpec NodeFrame NodeLocProofs NodeStepProofs NodeMotionProps NodePostSpec NodePostProofs NodeHistProps NodePostProps NodeOutProps NodeTrackSpec.
Import ListNotations.
Open Scope nat_scope.
Open Scope R_scope.
Open Scope list_scope.

Lemma Forall_zero_nth l k : Forall (fun v => v = 0) l -> nth k l 0 = 0.
Proof. intro H. revert k. induction H as [|x l Hx _ IH]; intros [|k]; cbn; auto. Qed.
Lemma sigma_zero l : Forall (fun v => v = 0) l -> sigma_of l = state_rpy v0 v0.
Proof. intro H. unfold sigma_of. cbv zeta. rewrite !Forall_zero_nth by exact H. reflexivity. Qed.
Lemma zero_diag l z : Forall (fun v => v = 0) l -> diag_noise state0 (sigma_of l) z = state0.
Proof. intro H. unfold diag_noise. rewrite (sigma_zero l H), zero_noise, noise_state0. reflexivity. Qed.

Section Track.
Context {S : Type} (caster : cloud -> (pt -> R -> search) -> raycaster S)
        (voxel : R * R * R -> list lpt -> list lpt) (p : params).
Notation node := (node (S := S)).
Implicit Types n : node.
Hypothesis Hz : no_noise p.

Lemma at_splus P s : at_pose P s -> at_pose P (splus s state0).
Proof.
  intros (A & _ & _). split; [|split; [repeat split|reflexivity]]. destruct (splus_0 s) as (B & C & _). unfold pose_of. rewrite B, C. exact A.
Qed.
Lemma at_normalize P s : unit_quat (snd P) -> at_pose P s -> at_pose P (normalize s).
Proof.
  intros U (A & B & C). split; [|split; [exact B|exact C]]. rewrite <- A. unfold pose_of, normalize. cbn [pos rot].
  rewrite normalized_unit; [reflexivity|]. rewrite <- A in U. exact U.
Qed.
Lemma at_resample P z k s : unit_quat (snd P) -> at_pose P s -> at_pose P (normalize (splus s (resample_noise p z k))).
Proof. intros U H. unfold resample_noise. rewrite zero_diag by apply Hz. apply at_normalize, at_splus; assumption. Qed.
Lemma at_expand P z k s : at_pose P s -> at_pose P (splus s (expansion_noise p z k)).
Proof. intro H. unfold expansion_noise. rewrite zero_diag by apply Hz. apply at_splus. exact H. Qed.
Lemma at_reset P s : at_pose P s -> at_pose P (reset_err s).
Proof. intro H. exact H. Qed.
Lemma at_update P z k s : at_pose P s -> at_pose P (update_noise p z k s).
Proof.
  intros (A & B & C). unfold update_noise. destruct (z k) as [[[ll la] aa] al]. split; [exact A|]. split; [|exact C].
  destruct Hz as (_ & _ & H1 & H2 & H3 & H4). unfold noise_free. cbn. rewrite H1, H2, H3, H4. repeat split; ring.
Qed.
(** particle-wise operations *)
Definition pall (P : pose) (f : PfModel.filter RA state) : Prop := forall s, In s (PfSpec.poses RA f) -> at_pose P s.
Lemma pall_mapi P P' (g : nat -> PfModel.particle RA state -> PfModel.particle RA state) l en :
  (forall i q, at_pose P (PfModel.st RA q) -> at_pose P' (PfModel.st RA (g i q))) -> pall P {| PfModel.parts := l; PfModel.entropy := en |} ->
  forall en', pall P' {| PfModel.parts := PfModel.mapi g l; PfModel.entropy := en' |}.
Proof.
  intros Hg H en' s Hs. unfold PfSpec.poses in Hs. cbn [PfModel.parts] in Hs. apply In_nth_error in Hs. destruct Hs as [i Hi].
  rewrite nth_error_map, PfProofs.mapi_nth in Hi. destruct (nth_error l i) as [q|] eqn:Eq; [|discriminate]. injection Hi as <-.
  apply Hg, H. unfold PfSpec.poses. apply in_map. eapply nth_error_In. exact Eq.
Qed.
Lemma pall_measure P L f : pall P f -> pall P (PfModel.measure RA L f).
Proof. intros H s Hs. apply H. destruct (PfProofs.measure_shape RA L f) as (_ & S2 & _). rewrite S2 in Hs. exact Hs. Qed.
Lemma pall_predict P P' g f : (forall i s, at_pose P s -> at_pose P' (g i s)) -> pall P f -> pall P' (PfModel.predict RA g f).
Proof. intros Hg H. unfold PfModel.predict. apply (pall_mapi P P') with (en := PfModel.entropy RA f); [intros i q; apply Hg|exact H]. Qed.
Lemma pall_bias P g f : pall P f -> pall P (PfModel.do_bias RA g f).
Proof. intro H. unfold PfModel.do_bias. apply (pall_mapi P P) with (en := PfModel.entropy RA f); [intros i q Hq; exact Hq|exact H]. Qed.
Lemma pall_noise P z f : pall P f -> pall P (PfModel.add_noise RA splus (expansion_noise p z) f).
Proof. intro H. unfold PfModel.add_noise. apply (pall_mapi P P) with (en := PfModel.entropy RA f); [intros i q Hq; apply at_expand, Hq|exact H]. Qed.
Lemma resample_pool' plus norm offset noise d (f f' : PfModel.filter RA state) (P : state -> Prop) :
  PfModel.resample RA plus norm (offset : RA) noise d f = Some f' -> (forall s, In s (map snd d) -> P s) -> (forall k s, P s -> P (norm (plus s (noise k)))) ->
  forall s, In s (PfSpec.poses RA f') -> P s.
Proof.
  intros H Hd Hn.
  assert (L : forall k i it itp j ss st, PfModel.resample_loop RA plus norm (st : RA) (offset : RA) noise d k i it itp j = Some ss -> forall s, In s ss -> P s).
  { induction k as [|k IH]; intros i it itp j ss st Hl; cbn [PfModel.resample_loop] in Hl; [injection Hl as <-; intros s []|].
    destruct (PfModel.lower_bound_from RA d it _) as [it'|]; [|discriminate].
    assert (Hin : forall m x, nth_error d m = Some x -> P (snd x)) by (intros m x Hx; apply Hd, in_map; eapply nth_error_In; exact Hx).
    destruct (nth_error d it') as [x|] eqn:Ex.
    - destruct (it' =? itp)%nat; (destruct (PfModel.resample_loop RA plus norm st offset noise d k _ _ _ _) as [r|] eqn:Er; [|discriminate]; cbn [option_map] in Hl; injection Hl as <-; intros s [<-|Hs];
        [|exact (IH _ _ _ _ _ _ Er s Hs)]); [apply Hn|]; exact (Hin _ _ Ex).
    - destruct (nth_error d itp) as [x|] eqn:Ey; [|discriminate]. destruct (PfModel.resample_loop RA plus norm st offset noise d k _ _ _ _) as [r|] eqn:Er; [|discriminate].
      cbn [option_map] in Hl. injection Hl as <-. intros s [<-|Hs]; [exact (Hin _ _ Ey)|exact (IH _ _ _ _ _ _ Er s Hs)]. }
  unfold PfModel.resample in H. destruct (PfModel.accumulate RA _ (PfModel.parts RA f)) as [ps total].
  destruct (PfModel.resample_loop RA plus norm _ offset noise d (length ps) 0 0 0 0) as [ss|] eqn:El; [|discriminate]. injection H as <-.
  unfold PfSpec.poses. cbn [PfModel.parts]. intros s Hs. apply (L _ _ _ _ _ _ _ El). clear El.
  exact (assigned _ _ _ _ Hs).
Qed.
Lemma pall_resample P offset z srt f f' : unit_quat (snd P) -> sorts srt ->
  PfModel.resample RA splus normalize (offset : RA) (resample_noise p z) (sorted_dup srt f) f = Some f' -> pall P f -> pall P f'.
Proof.
  intros U Hs H Hf s Hi. revert s Hi. eapply resample_pool'; [exact H| |intros k s; apply at_resample; exact U].
  intros s Hi. apply Hf. eapply sorted_dup_In; eassumption.
Qed.
Lemma pall_resize P srt num f f' : sorts srt -> PfModel.resize RA state0 (sorted_dup srt f) num f = Some f' -> pall P f -> pall P f'.
Proof. intros Hs H Hf s Hi. revert s Hi. eapply resize_pool; [exact H|]. intros s Hi. apply Hf. eapply sorted_dup_In; eassumption. Qed.

(** a localization step *)
Lemma localize_at P n e h os full bp lp n' out : unit_quat (snd P) -> sorts (e_sort e) -> sorts (e_sort2 e) ->
  localize caster p n e h os full bp lp = Ok (n', out) -> all_at n P -> all_at n' P /\ forall t l, In (OParticles t l) out -> Forall (fun x => x = P) l.
Proof.
  intros U S1 S2 H Hn. destruct (localize_parts _ _ _ _ _ _ _ _ _ _ _ H) as (cl & s1 & res & est0 & est' & c & o1 & o2 & f4 & k & A1 & A2 & A3 & (A4 & A5 & A6) & A7 & A8 & A9 & A10 & _).
  assert (F3 : pall P (jump_reset p n (normalize est0) (posterior p n res))).
  { unfold jump_reset, posterior. match goal with |- context [if ?b then _ else _] => destruct b end; [apply (pall_predict P); [intros i s Hs; exact Hs|]|]; apply pall_bias, pall_measure; exact Hn. }
  assert (F4 : pall P f4) by (eapply pall_resample; [exact U|exact S1|exact A6|exact F3]).
  split.
  - cbv zeta in A10.
    assert (F6 : pall P (if Rltb (match_max (map snd res)) (match_ratio_thresh p) then PfModel.add_noise RA splus (expansion_noise p (e_expand e)) (PfModel.predict RA (update_noise p (e_noise4 e)) f4)
                         else PfModel.predict RA (update_noise p (e_noise4 e)) f4)).
    { assert (F5 : pall P (PfModel.predict RA (update_noise p (e_noise4 e)) f4)) by (apply (pall_predict P); [intros i s; apply at_update|exact F4]).
      destruct (Rltb _ _); [apply pall_noise|]; exact F5. }
    destruct (too_many p n).
    + intros s Hs. revert s Hs. change (pall P (n_pf n')). eapply pall_resize; [exact S2|exact A10|exact F6].
    + intros s Hs. rewrite A10 in Hs. apply F6. exact Hs.
  - intros t l Hi. rewrite A5 in Hi. apply in_app_or in Hi. destruct Hi as [Hi|Hi]; [destruct A8 as [(? & ? & ? & ->)| -> ]; [destruct Hi as [Hi|[]]; discriminate|destruct Hi]|].
    cbn [app] in Hi. destruct Hi as [Hi|Hi]; [discriminate|]. apply in_app_or in Hi. destruct Hi as [Hi|[Hi|[Hi|[]]]]; try discriminate.
    + destruct (due p n e h); [destruct A9 as (? & ? & _ & -> & _); destruct Hi as [Hi|[]]; discriminate|destruct A9 as [-> _]; destruct Hi].
    + injection Hi as _ <-. apply Forall_map, Forall_forall. intros q Hq.
      destruct (F3 (PfModel.st RA q) (in_map _ _ _ Hq)) as (B1 & _). rewrite <- B1 in U |- *. unfold pose_of in *. cbn [snd] in U. rewrite normalized_unit by exact U. reflexivity.
Qed.

(** ** The mean of equal poses *)
Lemma fold_same P (ps : list (PfModel.particle RA state)) (wf : PfModel.particle RA state -> R) : (forall q, In q ps -> pose_of (PfModel.st RA q) = P) ->
  forall m, m_pos m = vscale (fst P) (m_sum m) -> m_front m = vscale (qrot (snd P) ex) (m_sum m) -> m_up m = vscale (qrot (snd P) ez) (m_sum m) ->
  let m' := fold_left (fun m q => qmean_add m (PfModel.st RA q) (wf q)) ps m in
  m_pos m' = vscale (fst P) (m_sum m') /\ m_front m' = vscale (qrot (snd P) ex) (m_sum m') /\ m_up m' = vscale (qrot (snd P) ez) (m_sum m').
Proof.
  induction ps as [|q ps IH]; intros Hq m H1 H2 H3; [repeat split; assumption|]. cbn [fold_left]. apply IH; [intros; apply Hq; right; assumption| | |].
  all: pose proof (Hq q (or_introl eq_refl)) as E; destruct P as [pp pr]; unfold pose_of in E; injection E as E1 E2; unfold qmean_add; cbn [m_sum m_pos m_front m_up fst snd] in *; fold ex; fold ez; rewrite ?E1, ?E2, ?H1, ?H2, ?H3.
  - destruct pp. unfold vscale, vadd. cbn. f_equal; ring.
  - destruct (qrot pr ex). unfold vscale, vadd. cbn. f_equal; ring.
  - destruct (qrot pr ez). unfold vscale, vadd. cbn. f_equal; ring.
Qed.
Definition near (P : pose) (e : state) : Prop := pos e = fst P /\ (unit_quat (snd P) -> qw (snd P) <> 0 -> rot e = snd P \/ rot e = qopp (snd P)) /\ diff e = false.
Lemma get_same P m : 0 < m_sum m -> m_pos m = vscale (fst P) (m_sum m) -> m_front m = vscale (qrot (snd P) ex) (m_sum m) -> m_up m = vscale (qrot (snd P) ez) (m_sum m) ->
  near P (qmean_get m).
Proof.
  intros H0 H1 H2 H3. unfold near, qmean_get, state_pr. cbn [pos rot diff]. rewrite H1, H2, H3. split; [|split; [|reflexivity]].
  - destruct (fst P). unfold vdiv, vscale. cbn. f_equal; field; lra.
  - intros U W. apply frontup_restore; auto.
Qed.
Lemma biased_same P (f : PfModel.filter RA state) e : pall P f -> PfModel.expectation_biased RA pose_mean f = Some e -> near P e.
Proof.
  intros Hf. unfold PfModel.expectation_biased. cbv zeta.
  destruct (fold_same P (PfModel.parts RA f) (fun q => PfModel.biased_weight RA q)) with (m := qmean0) as (A & B & C).
  - intros q Hq. destruct (Hf (PfModel.st RA q) (in_map _ _ _ Hq)) as (X & _). exact X.
  - cbn. destruct (fst P). unfold vscale, v0. cbn. f_equal; ring.
  - cbn [qmean0 m_front m_sum]. destruct (qrot (snd P) ex). unfold vscale, v0. cbn. f_equal; ring.
  - cbn [qmean0 m_up m_sum]. destruct (qrot (snd P) ez). unfold vscale, v0. cbn. f_equal; ring.
  - match goal with |- (if ?b then _ else _) = _ -> _ => destruct b eqn:Eb end; [|discriminate]. intro H. injection H as <-.
    apply get_same; [apply (Rltb_true 0 _); exact Eb|exact A|exact B|exact C].
Qed.
Lemma expect_same P (f : PfModel.filter RA state) e : pall P f -> PfModel.expectation RA pose_mean (1 : RA) f = Some e ->
  near P e /\ 0 < PfSpec.Rsum (map (PfModel.w RA) (firstn (PfModel.pass_count RA (1 : RA) (0 : RA) (PfModel.parts RA f)) (PfModel.parts RA f))).
Proof.
  intros Hf. unfold PfModel.expectation. cbv zeta.
  assert (G : forall ps m, (forall q, In q ps -> pose_of (PfModel.st RA q) = P) ->
     m_pos m = vscale (fst P) (m_sum m) -> m_front m = vscale (qrot (snd P) ex) (m_sum m) -> m_up m = vscale (qrot (snd P) ez) (m_sum m) ->
     let m' := PfModel.expect_loop RA pose_mean (1 : RA) m ps in
     m_pos m' = vscale (fst P) (m_sum m') /\ m_front m' = vscale (qrot (snd P) ex) (m_sum m') /\ m_up m' = vscale (qrot (snd P) ez) (m_sum m')
     /\ m_sum m' = m_sum m + PfSpec.Rsum (map (PfModel.w RA) (firstn (PfModel.pass_count RA (1 : RA) (m_sum m : RA) ps) ps))).
  { induction ps as [|q ps IH]; intros m Hq H1 H2 H3; [repeat split; try assumption; cbn; lra|]. cbn [PfModel.expect_loop PfModel.pass_count]. cbv zeta.
    destruct (fold_same P [q] (fun q => PfModel.w RA q)) with (m := m) as (A & B & C); [intros x [<-|[]]; apply Hq; left; reflexivity|exact H1|exact H2|exact H3|].
    cbn [fold_left] in A, B, C.
    change (@PfModel.mean_add RA state pose_mean m (PfModel.st RA q) (PfModel.w RA q)) with (qmean_add m (PfModel.st RA q) (PfModel.w RA q)).
    change (@fadd RA (m_sum m) (PfModel.w RA q)) with (m_sum (qmean_add m (PfModel.st RA q) (PfModel.w RA q))).
    change (PfModel.mean_total RA pose_mean (qmean_add m (PfModel.st RA q) (PfModel.w RA q))) with (m_sum (qmean_add m (PfModel.st RA q) (PfModel.w RA q))).
    destruct (@flt RA (1 : RA) (m_sum (qmean_add m (PfModel.st RA q) (PfModel.w RA q)))).
    - cbn [firstn map]. split; [exact A|]. split; [exact B|]. split; [exact C|]. cbn. lra.
    - destruct (IH (qmean_add m (PfModel.st RA q) (PfModel.w RA q))) as (D1 & D2 & D3 & D4); auto; [intros; apply Hq; right; assumption|].
      split; [exact D1|]. split; [exact D2|]. split; [exact D3|]. rewrite D4. cbn [firstn map PfSpec.Rsum fold_right]. unfold qmean_add at 1. cbn [m_sum]. unfold PfSpec.Rsum. cbn [fold_right]. lra. }
  destruct (G (PfModel.parts RA f) qmean0) as (A & B & C & D).
  - intros q Hq. destruct (Hf (PfModel.st RA q) (in_map _ _ _ Hq)) as (X & _). exact X.
  - cbn. destruct (fst P). unfold vscale, v0. cbn. f_equal; ring.
  - cbn [qmean0 m_front m_sum]. destruct (qrot (snd P) ex). unfold vscale, v0. cbn. f_equal; ring.
  - cbn [qmean0 m_up m_sum]. destruct (qrot (snd P) ez). unfold vscale, v0. cbn. f_equal; ring.
  - match goal with |- (if ?b then _ else _) = _ -> _ => destruct b eqn:Eb end; [|discriminate]. intro H. injection H as <-.
    assert (Hp : 0 < m_sum (PfModel.expect_loop RA pose_mean (1 : RA) qmean0 (PfModel.parts RA f))) by (apply (Rltb_true 0 _); exact Eb).
    split; [apply get_same; auto|]. rewrite D in Hp. cbn [qmean0 m_sum] in Hp. rewrite Rplus_0_l in Hp. exact Hp.
Qed.
End Track.
