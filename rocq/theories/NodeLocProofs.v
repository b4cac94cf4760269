(** One localization step in detail: everything later theorems need about [localize]. *)
From Coq Require Import String Reals ZArith List Bool Arith Lia Lra.
From Verif Require PfModel FilterModel AccumModel.
From Verif Require Import Arith KdModel QuatModel StateModel StateSpec RayModel LidarModel NdModel ParamModel NodeModel NodeSpec NodeFrame.
Import ListNotations.
Open Scope nat_scope.
Open Scope list_scope.

(** lengths of the particle vector *)
Lemma accumulate_len ps : forall a, length (fst (PfModel.accumulate (T := state) RA a ps)) = length ps.
Proof.
  induction ps as [|q ps IH]; intro a; cbn [PfModel.accumulate]; [reflexivity|]. specialize (IH (fadd a (PfModel.w RA q))).
  destruct (PfModel.accumulate RA (fadd a (PfModel.w RA q)) ps) as [qs t]. cbn in *. f_equal. exact IH.
Qed.
Lemma resample_loop_len plus norm pstep off noise d n : forall i it itp k ss,
  PfModel.resample_loop RA plus norm pstep off noise d n i it itp k = Some ss -> @length state ss = n.
Proof.
  induction n as [|n IH]; intros i it itp k ss H; cbn [PfModel.resample_loop] in H; [injection H as <-; reflexivity|].
  destruct (PfModel.lower_bound_from RA d it _) as [it'|]; [|discriminate].
  destruct (nth_error d it') as [x|].
  - destruct (it' =? itp); destruct (PfModel.resample_loop RA plus norm pstep off noise d n _ _ _ _) eqn:E; try discriminate; cbn [option_map] in H;
      injection H as <-; cbn; f_equal; eapply IH; exact E.
  - destruct (nth_error d itp); [|discriminate]. destruct (PfModel.resample_loop RA plus norm pstep off noise d n _ _ _ _) eqn:E; try discriminate. cbn [option_map] in H.
    injection H as <-; cbn; f_equal; eapply IH; exact E.
Qed.
Lemma resize_loop_len pstep d n : forall x it itp ss,
  PfModel.resize_loop RA pstep d n x it itp = Some ss -> @length state ss = n.
Proof.
  induction n as [|n IH]; intros x it itp ss H; cbn [PfModel.resize_loop] in H; [injection H as <-; reflexivity|].
  destruct (PfModel.lower_bound_from RA d it _) as [it'|]; [|discriminate].
  destruct (nth_error d it') as [y|].
  - destruct (PfModel.resize_loop RA pstep d n _ _ _) eqn:E; try discriminate; cbn [option_map] in H; injection H as <-; cbn; f_equal; eapply IH; exact E.
  - destruct (nth_error d itp); [|discriminate]. destruct (PfModel.resize_loop RA pstep d n _ _ _) eqn:E; try discriminate. cbn [option_map] in H.
    injection H as <-; cbn; f_equal; eapply IH; exact E.
Qed.
Lemma assign_len prob ps : forall ss : list state, length ss = length ps -> length (PfModel.assign_states RA prob ps ss) = length ps.
Proof. induction ps as [|q ps IH]; intros [|s ss] H; cbn in *; try discriminate; [reflexivity|]. f_equal. apply IH. lia. Qed.
Lemma vec_resize_len dflt n (ps : list (PfModel.particle RA state)) : length (PfModel.vec_resize RA dflt n ps) = n.
Proof. unfold PfModel.vec_resize. rewrite app_length, firstn_length, repeat_length. lia. Qed.
Lemma resample_ok plus norm off noise d (f f' : PfModel.filter RA state) : PfModel.resample RA plus norm off noise d f = Some f' ->
  length (PfModel.parts RA f') = length (PfModel.parts RA f) /\ PfModel.entropy RA f' = PfModel.entropy RA f.
Proof.
  unfold PfModel.resample. pose proof (accumulate_len (PfModel.parts RA f) (0%R : RA)) as A. cbn [f0 RA] in *.
  destruct (PfModel.accumulate RA (0%R : RA) (PfModel.parts RA f)) as [ps t]. cbn [fst] in A.
  destruct (PfModel.resample_loop _ _ _ _ _ _ _ _ _ _ _ _) as [ss|] eqn:E; [|discriminate]. intro H. injection H as <-. cbn. split; [|reflexivity].
  apply resample_loop_len in E. rewrite assign_len by lia. lia.
Qed.
Lemma resize_ok dflt d num (f f' : PfModel.filter RA state) : PfModel.resize RA dflt d num f = Some f' ->
  length (PfModel.parts RA f') = num /\ PfModel.entropy RA f' = PfModel.entropy RA f.
Proof.
  unfold PfModel.resize. destruct (PfModel.accumulate RA f0 (PfModel.parts RA f)) as [ps t].
  destruct (PfModel.resize_loop _ _ _ _ _ _ _) as [ss|] eqn:E; [|discriminate]. intro H. injection H as <-. cbn. split; [|reflexivity].
  apply resize_loop_len in E. rewrite assign_len; rewrite vec_resize_len; auto.
Qed.
Lemma measure_len lk (f : PfModel.filter RA state) : length (PfModel.parts RA (PfModel.measure RA lk f)) = length (PfModel.parts RA f).
Proof.
  unfold PfModel.measure. match goal with |- context [if ?b then _ else _] => destruct b end; [|reflexivity].
  cbn. rewrite map_length, mapi_len. reflexivity.
Qed.
Lemma measure_entropy lk (f : PfModel.filter RA state) : PfModel.entropy RA f <> None -> PfModel.entropy RA (PfModel.measure RA lk f) <> None.
Proof. unfold PfModel.measure. match goal with |- context [if ?b then _ else _] => destruct b end; [discriminate|auto]. Qed.

Section Loc.
Context {S : Type} (caster : cloud -> (pt -> R -> search) -> raycaster S)
        (voxel : R * R * R -> list lpt -> list lpt) (p : params).
Notation node := (node (S := S)).
Implicit Types n : node.

Lemma estimate_pf n e os bp lp n' est r : estimate caster p n e os bp lp = Ok (n', est, r) ->
  psize n' = psize n /\ (PfModel.entropy RA (n_pf n) <> None -> PfModel.entropy RA (n_pf n') <> None)
  /\ exists lk, n_pf n' = PfModel.do_bias RA (fun _ s _ => if too_many p n then 1%R else bias_of p (state_prev (n_out n)) s) (PfModel.measure RA lk (n_pf n))
     /\ exists est0, PfModel.expectation_biased RA pose_mean (n_pf n') = Some est0 /\ est = normalize est0.
Proof.
  unfold estimate. intro H. bok H. bok H. destruct x0 as [s1 res]. bok H. bok H. bok H. destruct x2 as [s2 z].
  injection H as <- <- _. apply of_option_ok in E1. unfold psize. cbn [n_pf set_lid set_pf].
  split; [|split].
  - match goal with |- context [if too_many p n then _ else _] => destruct (too_many p n) end; cbn [PfModel.do_bias PfModel.parts]; rewrite mapi_len; apply measure_len.
  - intro Hn. match goal with |- context [if too_many p n then _ else _] => destruct (too_many p n) end; cbn [PfModel.do_bias PfModel.entropy]; apply measure_entropy; exact Hn.
  - eexists. split; [destruct (too_many p n); reflexivity|]. eexists. split; [exact E1|reflexivity].
Qed.

Definition status_of n k := s_status (stat (n_out n)) = k.
(** the status kind after a localization step *)
Definition next_status n (ratio : R) : st_kind :=
  if too_many p n || negb (fix_cnt (n_out n) =? 0) then GLOBAL_LOCALIZATION
  else if Rltb ratio (match_ratio_thresh p) then EXPANSION_RESETTING else s_status (stat (n_out n)).

Record localized (n : node) (e : menv) (h : header) (n' : node) (out : list output) : Prop := {
  lz_ex : exists est ratio n1 n2 est' c o1 o2 parts,
    psize n1 = psize n /\ n_odom n1 = n_odom n /\ n_out n1 = n_out n
    /\ (PfModel.entropy RA (n_pf n) <> None -> PfModel.entropy RA (n_pf n1) <> None)
    /\ (exists est0 lk, n_pf n1 = PfModel.do_bias RA (fun _ s _ => if too_many p n then 1%R else bias_of p (state_prev (n_out n)) s) (PfModel.measure RA lk (n_pf n))
          /\ PfModel.expectation_biased RA pose_mean (n_pf n1) = Some est0 /\ est = normalize est0)
    /\ publish_tf_step p n1 e est = (n2, est', o1)
    /\ pf_cov p n2 (e_shuffle e) = Ok c
    /\ out = o1 ++ [OPose (h_stamp h) (pos est', rot est') c] ++ o2
             ++ [OParticles ((if has_odom (n_odom n) then odom_last (n_odom n) else e_now e) + tf_base (n_out n) + tf_tolerance p) parts;
                 OStatus (stat (n_out n')) (match s_error (stat (n_out n')), s_conv (stat (n_out n')) with ERROR_POINTS_NOT_FOUND, _ | _, LARGE_STD_VALUE => true | _, _ => false end)
                         (has_map (n_map n)) (has_odom (n_odom n)) (has_imu (n_imu n))]
    /\ (forall x, In x o2 -> exists a b, x = OMatched a b)
    /\ stat (n_out n') = {| s_status := next_status n ratio; s_error := s_error (stat (n_out n));
                            s_conv := conv_status p (fix_cnt (n_out n)) c (s_conv (stat (n_out n)));
                            s_match := ratio; s_size := psize n'; s_entropy := PfModel.entropy RA (n_pf n') |}
    /\ f_pos (n_out n') = f_pos (n_out n2) /\ f_ang (n_out n') = f_ang (n_out n2);
  lz_size : psize n' = if too_many p n then Z.to_nat (shrunk p (psize n)) else psize n;
  lz_entropy : PfModel.entropy RA (n_pf n) <> None -> PfModel.entropy RA (n_pf n') <> None;
  lz_fix : fix_cnt (n_out n') = pred (if too_many p n then fix_steps p else fix_cnt (n_out n));
  lz_last : localized_last (n_out n') = e_now e;
  lz_rate : rate (n_out n') = FilterModel.input (rate (n_out n))
              (let dt := (e_now e - localized_last (n_out n))%R in if Rltb 1 dt then 1%R else if Rltb dt 0 then 0%R else dt);
  lz_base : tf_base (n_out n') = FilterModel.out (rate (n_out n'));
  lz_cnt : cnt_measure (n_out n') = cnt_measure (n_out n);
  lz_odom : n_odom n' = n_odom n; lz_imu : n_imu n' = n_imu n; lz_acc : n_acc n' = n_acc n;
  lz_map : same_map (n_map n) (n_map n') }.

Lemma fix_steps_pos : (0 <= Rceil (lpf_step p))%Z -> fix_steps p = Datatypes.S (Z.to_nat (3 * Rceil (lpf_step p))).
Proof.
  intro H. unfold fix_steps.
  replace (1 + IZR (Rceil (lpf_step p)) * 3)%R with (IZR (1 + Rceil (lpf_step p) * 3)) by (rewrite plus_IZR, mult_IZR; reflexivity).
  set (k := (1 + Rceil (lpf_step p) * 3)%Z). unfold Rtrunc. replace (Rltb (IZR k) 0) with false by (symmetry; apply Rltb_false; apply IZR_le; unfold k; lia).
  replace (Rfloor (IZR k)) with k by (symmetry; apply Rfloor_unique; lra). unfold k. lia.
Qed.

Lemma shrink_step_spec n e n' : shrink_step p n e = Ok n' ->
  psize n' = (if too_many p n then Z.to_nat (shrunk p (psize n)) else psize n)
  /\ PfModel.entropy RA (n_pf n') = PfModel.entropy RA (n_pf n)
  /\ fix_cnt (n_out n') = pred (if too_many p n then fix_steps p else fix_cnt (n_out n))
  /\ stat (n_out n') = {| s_status := if (if too_many p n then fix_steps p else fix_cnt (n_out n)) =? 0 then s_status (stat (n_out n)) else GLOBAL_LOCALIZATION;
       s_error := s_error (stat (n_out n)); s_conv := s_conv (stat (n_out n)); s_match := s_match (stat (n_out n)); s_size := s_size (stat (n_out n));
       s_entropy := s_entropy (stat (n_out n)) |}
  /\ f_pos (n_out n') = f_pos (n_out n) /\ f_ang (n_out n') = f_ang (n_out n).
Proof.
  unfold shrink_step. intro H. bok H. rename x into n1.
  assert (A : psize n1 = (if too_many p n then Z.to_nat (shrunk p (psize n)) else psize n)
    /\ PfModel.entropy RA (n_pf n1) = PfModel.entropy RA (n_pf n)
    /\ fix_cnt (n_out n1) = (if too_many p n then fix_steps p else fix_cnt (n_out n)) /\ stat (n_out n1) = stat (n_out n)
    /\ f_pos (n_out n1) = f_pos (n_out n) /\ f_ang (n_out n1) = f_ang (n_out n)).
  { destruct (too_many p n); [bok E|]; injection E as <-; cbn; [|repeat split].
    apply of_option_ok, resize_ok in E0. unfold psize at 1. cbn. destruct E0 as [E1 E2]. rewrite E1, E2. repeat split. }
  clear E. destruct A as (A1 & A2 & A3 & A4 & A5 & A6). rewrite A3 in H.
  destruct (if too_many p n then fix_steps p else fix_cnt (n_out n)) as [|k]; injection H as <-.
  - rewrite A1, A2, A3, A4, A5, A6. cbn. repeat split. destruct (stat (n_out n)); reflexivity.
  - cbn. rewrite A2, A4, A5, A6. repeat split. exact A1.
Qed.
Lemma expansion_stat n e r : let n' := expansion p n e r in
  stat (n_out n') = {| s_status := if Rltb r (match_ratio_thresh p) then EXPANSION_RESETTING else s_status (stat (n_out n));
     s_error := s_error (stat (n_out n)); s_conv := s_conv (stat (n_out n)); s_match := s_match (stat (n_out n)); s_size := s_size (stat (n_out n));
     s_entropy := s_entropy (stat (n_out n)) |}
  /\ f_pos (n_out n') = f_pos (n_out n) /\ f_ang (n_out n') = f_ang (n_out n).
Proof. unfold expansion. destruct (Rltb r (match_ratio_thresh p)); cbn; repeat split. destruct (stat (n_out n)); reflexivity. Qed.

Lemma localize_spec n e h os full bp lp n' out : (0 <= Rceil (lpf_step p))%Z ->
  localize caster p n e h os full bp lp = Ok (n', out) -> localized n e h n' out.
Proof.
  intros Hlpf H. pose proof (localize_frame _ _ _ _ _ _ _ _ _ _ _ H) as (FR1 & FR2 & FR3 & FR4 & FR5 & _).
  unfold localize in H. bok H. destruct x as [[n1 est] ratio].
  destruct (publish_tf_step p n1 e est) as [[n2 est'] o1] eqn:E2. bok H. rename x into c.
  set (n3 := with_conv n2 _) in H. bok H. rename x into n4. bok H. destruct x as [n5 o2]. bok H. rename x into f. bok H. rename x into n8.
  unfold force_update in H. injection H as <- <-.
  pose proof (estimate_pf _ _ _ _ _ _ _ _ E) as (S1 & S2 & lk0 & S4 & est0 & S3 & S5). apply estimate_ok in E. destruct E as (A1 & A2 & A3 & A4 & A5 & _).
  pose proof (publish_tf_step_ok p n1 e est n2 est' o1 E2) as (B1 & B2 & B3 & B4 & _ & B5 & B6 & B7 & B8 & B9 & B10 & B11 & _).
  pose proof (after_jump_ok p n1 est) as J. cbv zeta in J. destruct J as (_ & _ & _ & _ & _ & J1 & J2 & _).
  apply collect_pcd_ok in E1. destruct E1 as (C1 & C2 & C3 & C4 & _ & C5 & C6).
  pose proof E3 as E3'. apply match_output_ok in E3. destruct E3 as (D1 & D2 & D3 & D4 & _ & D5 & D6 & D7 & D8 & D9 & D10 & D11 & D12 & D13 & _).
  apply of_option_ok, resample_ok in E4. destruct E4 as [R1 R2].
  match type of E5 with context [clock_step (expansion p ?a ?b ?c) _] => set (n6 := a) in * end.
  pose proof (expansion_ok p n6 e ratio) as X; pose proof (expansion_stat n6 e ratio) as Y; cbv zeta in X, Y. set (n7 := expansion p n6 e ratio) in *.
  pose proof (shrink_step_spec _ _ _ E5) as Q. apply shrink_step_ok in E5. destruct E5 as (F1 & F2 & F3 & F4 & _ & F5 & F6 & F7 & F8).
  destruct X as (_ & _ & _ & _ & _ & X1 & X2 & X3 & X4 & X5 & X6 & X7). destruct Y as (Y1 & Y2 & Y3).
  destruct Q as (Q1 & Q2 & Q3 & Q4 & Q5 & Q6). clearbody n7.
  change (n_out (clock_step n7 (e_now e))) with
    {| f_pos := f_pos (n_out n7); f_ang := f_ang (n_out n7);
       rate := FilterModel.input (rate (n_out n7)) (if Rltb 1 (e_now e - localized_last (n_out n7)) then 1%R else if Rltb (e_now e - localized_last (n_out n7)) 0 then 0%R else (e_now e - localized_last (n_out n7))%R);
       localized_last := e_now e;
       tf_base := FilterModel.out (FilterModel.input (rate (n_out n7)) (if Rltb 1 (e_now e - localized_last (n_out n7)) then 1%R else if Rltb (e_now e - localized_last (n_out n7)) 0 then 0%R else (e_now e - localized_last (n_out n7))%R));
       match_last := match_last (n_out n7); state_prev := state_prev (n_out n7); cnt_measure := cnt_measure (n_out n7); fix_cnt := fix_cnt (n_out n7);
       stat := stat (n_out n7) |} in *.
  cbn [f_pos f_ang rate localized_last tf_base cnt_measure fix_cnt stat] in *.
  change (too_many p (clock_step n7 (e_now e))) with (too_many p n7) in *. change (psize (clock_step n7 (e_now e))) with (psize n7) in *.
  change (n_pf (clock_step n7 (e_now e))) with (n_pf n7) in *.
  assert (Sz : psize n7 = psize n).
  { unfold psize in *. rewrite X1. unfold n6. cbn [n_pf set_pf PfModel.predict PfModel.parts]. rewrite mapi_len, R1, D5, C5. unfold n3. cbn [n_pf with_conv set_stat set_out].
    rewrite B5, J1. exact S1. }
  assert (Tm : too_many p n7 = too_many p n) by (unfold too_many; rewrite Sz; reflexivity).
  rewrite Tm in Q1, Q3, Q4. rewrite Sz in Q1.
  assert (On6 : n_out n6 = n_out n5) by reflexivity. rewrite On6 in *.
  assert (On4 : n_out n4 = n_out n3) by exact C6.
  assert (Fx : fix_cnt (n_out n7) = fix_cnt (n_out n)).
  { rewrite X6, D9, On4. unfold n3. cbn. rewrite B9, A5. reflexivity. }
  assert (Rt : rate (n_out n7) = rate (n_out n)) by (rewrite X3, D6, On4; unfold n3; cbn; rewrite B6, A5; reflexivity).
  assert (Ll : localized_last (n_out n7) = localized_last (n_out n)) by (rewrite X5, D8, On4; unfold n3; cbn; rewrite B8, A5; reflexivity).
  assert (St5 : stat (n_out n5) = stat (n_out n3)) by (rewrite D10, On4; reflexivity).
  assert (En : PfModel.entropy RA (n_pf n) <> None -> PfModel.entropy RA (n_pf n8) <> None).
  { intro Hn. rewrite Q2, X2. unfold n6. cbn [n_pf set_pf PfModel.predict PfModel.entropy]. rewrite R2, D5, C5. unfold n3. cbn [n_pf with_conv set_stat set_out].
    rewrite B5, J2. apply S2. exact Hn. }
  constructor; cbn [set_stat set_out n_out n_pf n_odom n_imu n_acc n_map final_status f_pos f_ang rate localized_last tf_base cnt_measure fix_cnt stat] in *.
  - exists est, ratio, n1, n2, est', c, o1, o2. eexists.
    split; [exact S1|]. split; [exact A3|]. split; [exact A5|]. split; [exact S2|]. split; [exists est0, lk0; auto|]. split; [exact E2|]. split; [exact E0|].
    cbn [stat s_error s_conv s_status s_match s_size].
    assert (Hst : stat (n_out n8) = {| s_status := next_status n ratio; s_error := s_error (stat (n_out n));
        s_conv := conv_status p (fix_cnt (n_out n)) c (s_conv (stat (n_out n))); s_match := s_match (stat (n_out n)); s_size := s_size (stat (n_out n));
        s_entropy := s_entropy (stat (n_out n)) |}).
    { rewrite Q4, Y1, St5. unfold n3. cbn [with_conv set_stat set_out n_out stat s_status s_error s_conv s_match s_size s_entropy].
      rewrite B10, B9, A5, Fx. f_equal. unfold next_status. destruct (too_many p n); cbn [orb].
      - rewrite fix_steps_pos by exact Hlpf. reflexivity.
      - destruct (fix_cnt (n_out n)); reflexivity. }
    rewrite Hst. cbn [s_error s_conv s_status s_match s_size s_entropy].
    split.
    { f_equal. cbn [app]. f_equal. f_equal. f_equal.
      - unfold publishParticles. f_equal. 
        + rewrite D3, C3. unfold n3. cbn [n_odom with_conv set_stat set_out]. rewrite B3, A3. rewrite D7, On4. unfold n3. cbn [n_out with_conv set_stat set_out tf_base]. rewrite B7, A5. reflexivity.
      - f_equal. f_equal; try congruence.
        destruct FR1 as (_ & _ & _ & _ & _ & _ & G & _). exact G. }
    split.
    { unfold match_output in E3'. match type of E3' with (if ?b then _ else _) = _ => destruct b end.
      - bok E3'. destruct x as [mm uu]. injection E3' as _ <-. intros z [<-|[]]. eauto.
      - injection E3' as _ <-. intros z []. }
    split; [reflexivity|].
    rewrite Q5, Q6, Y2, Y3, D12, D13, On4. unfold n3. cbn. split; reflexivity.
  - exact Q1.
  - exact En.
  - rewrite Q3, Fx. reflexivity.
  - exact F7.
  - rewrite F5, Rt, Ll. reflexivity.
  - rewrite F6, F5. reflexivity.
  - exact FR5.
  - exact FR3.
  - exact FR4.
  - exact FR2.
  - exact FR1.
Qed.
End Loc.
