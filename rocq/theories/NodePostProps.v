(** Property theorems C95-C99: what one localization step does to the particles and reports. *)
From Coq Require Import String Reals ZArith List Bool Arith Lia Lra Permutation.
From Verif Require StateProofs PfModel FilterModel AccumModel PfSpec PfProofs PfReal PfCov PfProps RsumLemmas.
From Verif Require Import Arith KdModel KdSpec KdProps QuatModel QuatProofs StateModel StateSpec RayModel LidarModel NdModel NdProps ParamModel
  NodeModel NodeSpec NodeFrame NodeMapProofs NodeMapProps NodeLocProofs NodeStepProofs NodePostSpec NodePostProofs NodeAliveSpec.
Import ListNotations.
Open Scope nat_scope.
Open Scope list_scope.

Section PostProps.
Context {S : Type} (caster : cloud -> (pt -> R -> search) -> raycaster S)
        (voxel : R * R * R -> list lpt -> list lpt) (p : params).
Notation node := (node (S := S)).
Implicit Types n : node.

Lemma lidar_all_each b l rc e os bp lp ss : forall (s s' : S) res, lidar_all b l rc e os bp lp ss s = Ok (s', res) ->
  length res = length ss /\ forall i x, nth_error ss i = Some x ->
    exists sa sb rb rl, beam_measure b rc (e_fuel e) sa (Some bp) os x = Done (sb, rb)
      /\ like_measure l (e_search e) (Some lp) x = Some rl /\ nth_error res i = Some ((fst rb * fst rl)%R, snd rl).
Proof.
  induction ss as [|y t IH]; intros s s' res H; cbn [lidar_all] in H.
  - injection H as _ <-. split; [reflexivity|]. intros [|i] x Hx; discriminate.
  - bok H. destruct x as [s1 rb]. bok H. rename x into rl. bok H. destruct x as [s2 rest]. injection H as _ <-.
    apply of_run_ok in E. apply of_option_ok in E0. destruct (IH _ _ _ E1) as [L A]. split; [cbn; rewrite L; reflexivity|].
    intros [|i] x Hx; cbn [nth_error] in *.
    + injection Hx as <-. exists s, s1, rb, rl. rewrite Rmult_1_l. auto.
    + exact (A i x Hx).
Qed.
Lemma gauss_eq sg x : nd_eval (nd_new sg) x = gauss sg x.
Proof. unfold nd_eval, nd_new, gauss. cbn. rewrite Rmult_comm. unfold Rdiv. rewrite Rmult_1_l. f_equal. f_equal. replace (sg * sg * 2)%R with (2 * sg * sg)%R by ring. ring. Qed.

Notation wt := (PfModel.w RA). Notation stt := (PfModel.st RA). Notation prts := (PfModel.parts RA).
Lemma scores_eq (L : nat -> state -> R) (f : PfModel.filter RA state) (lk : nat -> R) :
  (forall i q, nth_error (prts f) i = Some q -> L i (stt q) = lk i) ->
  PfSpec.scores RA L f = map (fun iq => (wt (snd iq) * lk (fst iq))%R) (combine (seq 0 (length (prts f))) (prts f)).
Proof.
  intro H. unfold PfSpec.scores. apply map_ext_in. intros [i q] Hi. cbn [fst snd].
  assert (K : forall l k a b, In (a, b) (combine (seq k (length l)) l) -> exists j, a = k + j /\ nth_error l j = Some (b : PfModel.particle RA state)).
  { clear. induction l as [|x l IH]; intros k a b Hi; cbn in Hi; [destruct Hi|]. destruct Hi as [Hi|Hi].
    - injection Hi as <- <-. exists 0. split; [lia|reflexivity].
    - destruct (IH _ _ _ Hi) as (j & -> & Hj). exists (Datatypes.S j). split; [lia|exact Hj]. }
  destruct (K _ _ _ _ Hi) as (j & -> & Hj). cbn [Nat.add]. apply H in Hj. change (fmul (wt q) (L j (stt q)) = (wt q * lk j)%R). rewrite Hj. reflexivity.
Qed.
Lemma nth_both (f : PfModel.filter RA state) i w0 s0 : nth_error (map wt (prts f)) i = Some w0 -> nth_error (map stt (prts f)) i = Some s0 ->
  exists q', nth_error (prts f) i = Some q' /\ wt q' = w0 /\ stt q' = s0.
Proof. rewrite !nth_error_map. destruct (nth_error (prts f) i) as [q|]; cbn; [|discriminate]. intros H1 H2. injection H1 as <-. injection H2 as <-. eauto. Qed.
Lemma measure_reweighted (f : PfModel.filter RA state) (L : nat -> state -> R) lk :
  (forall i q, nth_error (prts f) i = Some q -> L i (stt q) = lk i) -> reweighted f (PfModel.measure RA L f) lk.
Proof.
  intro H. pose proof (scores_eq L f lk H) as Es. unfold reweighted. rewrite <- Es. split; [apply measure_len|]. cbv zeta. intros i q Hq.
  destruct (PfProofs.measure_shape RA L f) as (_ & Hp & _).
  assert (Hs : nth_error (map stt (prts (PfModel.measure RA L f))) i = Some (stt q)) by (change (map stt (prts (PfModel.measure RA L f))) with (PfSpec.poses RA (PfModel.measure RA L f)); rewrite Hp; unfold PfSpec.poses; rewrite nth_error_map, Hq; reflexivity).
  destruct (Rlt_dec 0 (PfSpec.Rsum (PfSpec.scores RA L f))) as [Hpos|Hneg].
  - destruct (PfReal.measure_bayes L f Hpos) as (Hw & _). specialize (Hw i q Hq). destruct (nth_both _ _ _ _ Hw Hs) as (q' & H1 & H2 & H3).
    exists q'. rewrite H3, H2, (H i q Hq). repeat split; auto. intro Hx. exfalso. exact (Rlt_not_le _ _ Hpos Hx).
  - exists q. rewrite (PfProofs.measure_noop RA L f); [repeat split; auto; intro Hx; exfalso; exact (Hneg Hx)|].
    change (fold_left fadd (PfSpec.scores RA L f) (f0 : RA)) with (fold_left Rplus (PfSpec.scores RA L f) 0%R). rewrite RsumLemmas.fold_left_Rplus. apply Rltb_false. rewrite Rplus_0_l. apply Rnot_lt_le. exact Hneg.
Qed.
Lemma reweighted_map (f f' : PfModel.filter RA state) lk (g : nat -> PfModel.particle RA state -> PfModel.particle RA state) en :
  (forall i q, wt (g i q) = wt q /\ pos (stt (g i q)) = pos (stt q) /\ rot (stt (g i q)) = rot (stt q)) ->
  reweighted f f' lk -> reweighted f {| PfModel.parts := PfModel.mapi g (prts f'); PfModel.entropy := en |} lk.
Proof.
  intros Hg [Hl H]. split; [cbn; rewrite mapi_len; exact Hl|]. cbv zeta in *. intros i q Hq. destruct (H i q Hq) as (q' & A & B & C & D & E).
  exists (g i q'). cbn [PfModel.parts]. rewrite PfProofs.mapi_nth, A. cbn [option_map]. destruct (Hg i q') as (G1 & G2 & G3). rewrite G1, G2, G3. auto.
Qed.
Lemma posterior_reweighted n res est (lk : nat -> R) :
  (forall i q, nth_error (prts (n_pf n)) i = Some q -> score_of p res i (stt q) = lk i) ->
  reweighted (n_pf n) (jump_reset p n est (posterior p n res)) lk.
Proof.
  intro H. apply measure_reweighted in H. unfold posterior, jump_reset.
  assert (B : reweighted (n_pf n) (PfModel.do_bias RA (fun _ s _ => (bias_fun p n s : RA)) (PfModel.measure RA (score_of p res) (n_pf n))) lk).
  { unfold PfModel.do_bias. apply reweighted_map; [|exact H]. intros i q. repeat split. }
  destruct (negb (too_many p n) && far_off p (state_prev (n_out n)) est); [|exact B].
  unfold PfModel.predict. apply reweighted_map; [|exact B]. intros i q. repeat split.
Qed.

(** the noise the code draws *)
Lemma diagonal_draw sg : forall (z : stream) k, (k < length sg)%nat ->
  nth k (fst (diagonal next_normal (repeat 0%R (length sg)) sg z)) 0%R = draw sg z k.
Proof.
  induction sg as [|s sg IH]; intros z k Hk; [cbn in Hk; lia|]. cbn [length repeat diagonal].
  destruct (Req_EM_T s 0) as [->|Hs].
  - specialize (IH z). destruct (diagonal next_normal (repeat 0%R (length sg)) sg z) as [r z'] eqn:E. cbn [fst] in *. destruct k as [|k]; [unfold draw; cbn; ring|].
    cbn [nth]. rewrite IH by (cbn in Hk; lia). unfold draw. cbn [firstn filter nth]. destruct (Req_EM_T 0 0) as [_|Q]; [reflexivity|contradiction].
  - unfold next_normal at 1. cbn iota. specialize (IH (fun k => z (k + 1)%nat)).
    destruct (diagonal next_normal (repeat 0%R (length sg)) sg (fun k => z (k + 1)%nat)) as [r z'] eqn:E. cbn [fst] in *. destruct k as [|k]; [unfold draw; cbn; ring|].
    cbn [nth]. rewrite IH by (cbn in Hk; lia). unfold draw. cbn [firstn filter nth]. destruct (Req_EM_T s 0) as [Q|_]; [contradiction|].
    cbn [length]. rewrite Nat.add_1_r. reflexivity.
Qed.
Lemma draw_pad l z k : draw (map (fun k => nth k l 0%R) (seq 0 6)) z k = draw (firstn 6 l) z k.
Proof.
  assert (Z : forall (A : list R) (k n : nat), nth k (A ++ repeat 0%R n) 0%R = nth k A 0%R).
  { intros A; induction A as [|a A IA]; intros [|j] n; cbn; auto; [destruct n; reflexivity|]. apply nth_repeat. }
  assert (F : forall k n : nat, filter (fun s => if Req_EM_T s 0 then false else true) (firstn k (repeat 0%R n)) = []).
  { intros j; induction j as [|j IJ]; intros [|n]; cbn; auto. destruct (Req_EM_T 0 0) as [_|Q]; [apply IJ|contradiction]. }
  assert (E : map (fun k => nth k l 0%R) (seq 0 6) = firstn 6 l ++ repeat 0%R (6 - length (firstn 6 l))).
  { do 6 (destruct l as [|? l]; [reflexivity|]). reflexivity. }
  rewrite E. generalize (firstn 6 l) as A. intro A. unfold draw. rewrite Z. f_equal. f_equal. rewrite firstn_app, filter_app, F, app_nil_r. reflexivity.
Qed.
Lemma draw_6 l z k : (k < 6)%nat -> draw (firstn 6 l) z k = draw l z k.
Proof.
  intro Hk. unfold draw. rewrite firstn_firstn, Nat.min_l by lia. f_equal.
  do 6 (destruct k as [|k]; [do 6 (destruct l as [|? l]; [reflexivity|]); reflexivity|]). lia.
Qed.
Lemma diag_drawn (l : list R) (z : stream) : drawn_pose l z (diag_noise state0 (sigma_of l) z).
Proof.
  unfold diag_noise, generateNoise.
  assert (M : set_mean state0 = repeat 0%R 6) by (unfold set_mean; cbn [rot pos state0]; rewrite StateProofs.getRPY_q1; reflexivity). rewrite M.
  change (set_sigma (sigma_of l)) with (map (fun k => nth k l 0%R) (seq 0 6)).
  pose proof (diagonal_draw (map (fun k => nth k l 0%R) (seq 0 6)) z) as D. rewrite map_length, seq_length in D.
  destruct (diagonal next_normal (repeat 0%R 6) (map (fun k => nth k l 0%R) (seq 0 6)) z) as [r z']. cbn [fst] in *.
  assert (D' : forall k, (k < 6)%nat -> nth k r 0%R = draw l z k) by (intros k Hk; rewrite D, draw_pad, draw_6 by exact Hk; reflexivity).
  unfold drawn_pose, noise_state. cbn [pos rot err_lin err_ang]. rewrite !D' by lia. cbn [repeat nth]. rewrite !Rminus_0_r. repeat split.
Qed.

(** the map a measurement uses is the last published one *)
Lemma used_map evs gen rc0 n o0 cl : steps caster voxel p (configure p gen rc0) evs = Ok (n, o0) -> has_map (n_map n) = true ->
  map_cloud n = Ok cl -> last_map o0 None = Some cl.
Proof.
  intros H Hm Hc. destruct (C31_search_and_published_agree caster voxel p evs gen rc0 n o0 H Hm) as (c & A & B & _). congruence.
Qed.

(** C95: every localization step multiplies the weight of every particle, exactly once, by its
    beam likelihood, its likelihood field score and the density of its odometry error, with the
    points of this measurement and the last published map; the estimate and the published
    covariance are those of the weighted particles; the new particles are a resampling of
    them, each with freshly drawn odometry noise, and moved by the expansion noise if the match
    ratio is below the threshold; if there were too many, they are reduced *)
Theorem C95_localization_step evs gen rc0 n o0 m e n' o t x c :
  steps caster voxel p (configure p gen rc0) evs = Ok (n, o0) -> step caster voxel p n (ECloud m e) = Ok (n', o) -> In (OPose t x c) o ->
  exists n1 h pc os n2 bp lp cl lk (g f f4 f6 : PfModel.filter RA state) nr nx st k mp od im,
    (* the input of the measurement *)
    measures_with voxel p caster n m e n1 h pc os /\ filters p n1 e (voxel (ds_x p, ds_y p, ds_z p) pc) = (n2, bp, lp)
    /\ last_map o0 None = Some cl /\ t = h_stamp h
    (* the likelihoods *)
    /\ (forall i q, nth_error (prts (n_pf n)) i = Some q -> exists sa sb b l,
          beam_measure (l_beam (n_lid n2)) (caster cl (e_search e)) (e_fuel e) sa (Some bp) os (stt q) = Done (sb, b)
          /\ like_measure (l_like (n_lid n2)) (e_search e) (Some lp) (stt q) = Some l
          /\ lk i = (fst b * fst l * gauss (integ_lin_sigma p) (vnorm (err_lin (stt q))))%R)
    (* the estimate *)
    /\ reweighted (n_pf n) g lk
    /\ (forall i q, nth_error (prts g) i = Some q -> PfModel.bias RA q =
          if (num_particles p <? Z.of_nat (psize n))%Z then 1%R
          else (gauss (bias_var_dist p) (vnorm (vsub (pos (stt q)) (pos (state_prev (n_out n)))))
                * gauss (bias_var_ang p) (snd (getAxisAng (qmul (rot (stt q)) (QuatModel.inv (rot (state_prev (n_out n))))))) + 1 / 1000000)%R)
    /\ option_map normalize (PfModel.expectation_biased RA pose_mean g) = Some (state_prev (n_out n'))
    (* the covariance and the new particles *)
    /\ reweighted (n_pf n) f lk /\ PfModel.covariance RA pose_mean cov_el 6 (1%R : RA) (Rmax (1 / 10) (IZR (num_particles p) / INR (psize n)) : RA) (e_shuffle e) f = Some c
    /\ PfModel.resample RA splus normalize (e_offset e : RA) nr (sorted_dup (e_sort e) f) f = Some f4
    /\ (forall i, drawn_pose (resample_var p) (e_noise e i) (nr i)) /\ (forall i, drawn_pose (expansion_var p) (e_expand e i) (nx i))
    /\ In (OStatus st k mp od im) o
    /\ PfSpec.weights RA f6 = PfSpec.weights RA f4
    /\ (forall i s, nth_error (PfSpec.poses RA f4) i = Some s -> exists s', fresh_noise p (e_noise4 e i) s s'
          /\ nth_error (PfSpec.poses RA f6) i = Some (if Rlt_dec (s_match st) (match_ratio_thresh p) then splus s' (nx i) else s'))
    /\ (if (num_particles p <? Z.of_nat (psize n))%Z
        then PfModel.resize RA state0 (sorted_dup (e_sort2 e) f6) (Z.to_nat (shrunk p (psize n))) f6 = Some (n_pf n') else n_pf n' = f6).
Proof.
  intros H Hs Hi. destruct (pose_localizes _ _ _ _ _ _ _ _ _ _ _ Hs Hi) as (n1 & h & pc & os & n2 & bp & lp & n3 & M1 & M2 & M3 & M4 & P1 & P2 & P3 & P4 & P5 & P6 & P7 & P8 & P9 & P10 & P11 & P12).
  destruct (localize_parts _ _ _ _ _ _ _ _ _ _ _ M4) as (cl & s1 & res & est0 & est' & c0 & o1 & o2 & f4 & k & A1 & A2 & A3 & (A4 & A5 & A6) & A7 & A8 & A9 & A10 & A11 & A12).
  assert (Hm : has_map (n_map n) = true) by (destruct M1; assumption).
  assert (Hcl : last_map o0 None = Some cl). { eapply used_map; [exact H|exact Hm|]. unfold map_cloud in *. rewrite P8 in A1. exact A1. }
  assert (Hto : t = h_stamp h /\ c = c0).
  { rewrite A5 in Hi. apply in_app_or in Hi. destruct Hi as [Hi|Hi]; [destruct A8 as [(? & ? & ? & ->)| -> ]; [destruct Hi as [Hi|[]]; discriminate|destruct Hi]|].
    cbn [app] in Hi. destruct Hi as [Hi|Hi]; [injection Hi as <- _ <-; auto|]. apply in_app_or in Hi. destruct Hi as [Hi|[Hi|[Hi|[]]]]; try discriminate.
    destruct (due p n2 e h); [destruct A9 as (? & ? & _ & -> & _); destruct Hi as [Hi|[]]; discriminate|destruct A9 as [-> _]; destruct Hi]. }
  destruct Hto as [-> ->].
  destruct (lidar_all_each _ _ _ _ _ _ _ _ _ _ _ A2) as [Len Each].
  set (lk := fun i => match nth_error (prts (n_pf n)) i with Some q => score_of p res i (stt q) | None => 0%R end).
  assert (Hlk : forall i q, nth_error (prts (n_pf n2)) i = Some q -> score_of p res i (stt q) = lk i).
  { intros i q Hq. unfold lk. rewrite P5 in Hq. rewrite Hq. reflexivity. }
  set (g := posterior p n2 res) in *. set (f := jump_reset p n2 (normalize est0) g) in *.
  assert (Rf : reweighted (n_pf n) f lk) by (rewrite <- P5; apply posterior_reweighted; exact Hlk).
  assert (Rg : reweighted (n_pf n) g lk).
  { rewrite <- P5. unfold g, posterior, PfModel.do_bias. apply reweighted_map; [intros; repeat split|]. apply measure_reweighted. exact Hlk. }
  assert (Tm : too_many p n2 = (num_particles p <? Z.of_nat (psize n))%Z) by (unfold too_many, np, psize; rewrite P5; reflexivity).
  set (f5 := PfModel.predict RA (update_noise p (e_noise4 e)) f4) in *.
  set (f6 := if Rltb (match_max (map snd res)) (match_ratio_thresh p) then PfModel.add_noise RA splus (expansion_noise p (e_expand e)) f5 else f5) in *.
  exists n1, h, pc, os, n2, bp, lp, cl, lk, g, f, f4, f6, (resample_noise p (e_noise e)), (expansion_noise p (e_expand e)), (stat (n_out n3)), k, (has_map (n_map n2)), (has_odom (n_odom n2)), (has_imu (n_imu n2)).
  split; [exact M1|]. split; [exact M2|]. split; [exact Hcl|]. split; [reflexivity|]. split.
  { intros i q Hq. assert (Hx : nth_error (map stt (prts (n_pf n2))) i = Some (stt q)) by (rewrite P5, nth_error_map, Hq; reflexivity).
    destruct (Each i _ Hx) as (sa & sb & rb & rl & E1 & E2 & E3). exists sa, sb, rb, rl. split; [exact E1|]. split; [exact E2|].
    unfold lk. rewrite Hq. unfold score_of. rewrite (nth_error_nth _ _ _ E3). cbn [fst]. rewrite gauss_eq. reflexivity. }
  split; [exact Rg|]. split.
  { intros i q Hq. unfold g, posterior, PfModel.do_bias in Hq. cbn [PfModel.parts] in Hq. rewrite PfProofs.mapi_nth in Hq.
    destruct (nth_error (prts (PfModel.measure RA (score_of p res) (n_pf n2))) i) as [q0|]; [|discriminate]. cbn [option_map] in Hq. injection Hq as <-.
    cbn [PfModel.set_bias PfModel.bias PfModel.st]. unfold bias_fun. rewrite Tm, P11. destruct (num_particles p <? Z.of_nat (psize n))%Z; [reflexivity|].
    unfold bias_of. rewrite !gauss_eq. reflexivity. }
  split; [rewrite A3, P2, A12; reflexivity|]. split; [exact Rf|]. split; [unfold cov_ratio, np, psize in A4; rewrite P5 in A4; exact A4|]. split; [exact A6|].
  split; [intro i; apply diag_drawn|]. split; [intro i; apply diag_drawn|].
  split; [rewrite A5; apply in_or_app; right; apply in_or_app; right; apply in_or_app; right; right; left; reflexivity|].
  assert (W5 : PfSpec.weights RA f5 = PfSpec.weights RA f4) by exact (proj1 (PfProps.C14_predict RA (update_noise p (e_noise4 e)) f4)).
  split.
  { unfold f6. destruct (Rltb (match_max (map snd res)) (match_ratio_thresh p)); [|exact W5].
    rewrite <- W5. exact (proj1 (PfProps.C14_noise RA splus (expansion_noise p (e_expand e)) f5)). }
  split.
  { intros i s Hsi. exists (update_noise p (e_noise4 e) i s). split.
    - unfold fresh_noise, update_noise. destruct (e_noise4 e i) as [[[ll la] aa] al]. repeat split.
    - pose proof (PfProps.C14_predict RA (update_noise p (e_noise4 e)) f4) as (_ & _ & _ & Q & _). specialize (Q i s Hsi). fold f5 in Q.
      rewrite A7. unfold f6, Rltb. destruct (Rlt_dec (match_max (map snd res)) (match_ratio_thresh p)) as [Hr|Hr]; [|exact Q].
      pose proof (PfProps.C14_noise RA splus (expansion_noise p (e_expand e)) f5) as (_ & _ & _ & Q2 & _). exact (Q2 _ _ Q). }
  rewrite <- Tm, P1. unfold psize in *. rewrite P5 in A10. exact A10.
Qed.

(** the deviation of a pose from the mean in the i-th of x, y, z, roll, pitch, yaw, angles brought
    into one turn *)
Definition deviation (s mu : state) (i : nat) : R := match cov_diff 1 s mu i with Some d => d | None => 0%R end.
(** the published covariance is that of a random sample of the weighted particles: all of them
    if there are not more than configured, else as many as configured but at least a tenth *)
Theorem C95_covariance_sample evs gen rc0 n o0 m e n' o t x c :
  steps caster voxel p (configure p gen rc0) evs = Ok (n, o0) -> step caster voxel p n (ECloud m e) = Ok (n', o) -> In (OPose t x c) o ->
  (forall l, Permutation l (e_shuffle e l)) ->
  exists lk (f : PfModel.filter RA state) mu k qs,
    reweighted (n_pf n) f lk /\ PfModel.expectation RA pose_mean (1%R : RA) f = Some mu
    /\ PfSpec.passed 1 (PfSpec.weights RA f) k
    /\ PfSpec.sample_of (Rmax (1 / 10) (IZR (num_particles p) / INR (psize n))) (firstn k (prts f)) qs
    /\ forall a b, a < 6 -> b < 6 ->
       c a b = (PfSpec.Rsum (map (fun q => wt q * deviation (stt q) mu a * deviation (stt q) mu b) qs) / PfSpec.Rsum (map wt qs))%R.
Proof.
  intros H Hs Hi Hsh. destruct (C95_localization_step evs gen rc0 n o0 m e n' o t x c H Hs Hi) as
    (n1 & h & pc & os & n2 & bp & lp & cl & lk & g & f & f4 & f6 & nr & nx & st & k & mp & od & im & _ & _ & _ & _ & _ & _ & _ & _ & Rf & Hc & _).
  assert (Hr : (0 <= Rmax (1 / 10) (IZR (num_particles p) / INR (psize n)))%R).
  { apply Rle_trans with (1 / 10)%R; [lra|apply Rmax_l]. }
  destruct (PfCov.covariance_value cov_el deviation) with (M := pose_mean) (dim := 6) (pass := 1%R) (2 := Hr) (3 := Hsh) (4 := Hc) as (mu & k0 & qs & E1 & E2 & E3 & E4).
  { intros s mu j i. unfold cov_el, covElement, deviation. destruct (cov_diff 1 s mu j), (cov_diff 1 s mu i); lra. }
  exists lk, f, mu, k0, qs. auto.
Qed.

(** ** C96: the particle message and the match ratio *)
Definition shown (f : PfModel.filter RA state) : list (vec3 * quat) := map (fun s => (pos s, qnormalized (rot s))) (PfSpec.poses RA f).
Definition message_time n (now : R) : R := ((if has_odom (n_odom n) then odom_last (n_odom n) else now) + tf_base (n_out n) + tf_tolerance p)%R.
Lemma jump_reset_shown n est f : shown (jump_reset p n est f) = shown f.
Proof.
  unfold jump_reset. destruct (negb (too_many p n) && far_off p (state_prev (n_out n)) est); [|reflexivity].
  unfold shown, PfSpec.poses, PfModel.predict, PfModel.mapi. cbn [PfModel.parts]. generalize 0. induction (prts f) as [|q l IH]; intro j; [reflexivity|].
  cbn [PfModel.mapi_from map]. f_equal. apply IH.
Qed.
Lemma posterior_shown n res : shown (posterior p n res) = shown (n_pf n).
Proof.
  unfold shown, posterior. destruct (PfProofs.bias_frame RA (fun _ s _ => (bias_fun p n s : RA)) (PfModel.measure RA (score_of p res) (n_pf n))) as (_ & H & _). rewrite H.
  destruct (PfProofs.measure_shape RA (score_of p res) (n_pf n)) as (_ & H2 & _). rewrite H2. reflexivity.
Qed.
Lemma publish_shown n now : publishParticles p n now = OParticles (message_time n now) (shown (n_pf n)).
Proof. unfold publishParticles, message_time, shown, PfSpec.poses. rewrite map_map. reflexivity. Qed.
(** a localization step shows the particles it was given, in order, before the resampling *)
Theorem C96_localization_shows_prior_particles n m e n' o t x c ts l :
  step caster voxel p n (ECloud m e) = Ok (n', o) -> In (OPose t x c) o -> In (OParticles ts l) o ->
  l = shown (n_pf n) /\ ts = message_time n (e_now e).
Proof.
  intros Hs Hi Hl. destruct (pose_localizes _ _ _ _ _ _ _ _ _ _ _ Hs Hi) as (n1 & h & pc & os & n2 & bp & lp & n3 & M1 & M2 & M3 & M4 & P1 & P2 & P3 & P4 & P5 & P6 & P7 & P8 & P9 & P10 & P11 & P12).
  destruct (localize_parts _ _ _ _ _ _ _ _ _ _ _ M4) as (cl & s1 & res & est0 & est' & c0 & o1 & o2 & f4 & k & A1 & A2 & A3 & (A4 & A5 & A6) & A7 & A8 & A9 & _).
  rewrite A5 in Hl. apply in_app_or in Hl. destruct Hl as [Hl|Hl]; [destruct A8 as [(? & ? & ? & ->)| ->]; [destruct Hl as [Hl|[]]; discriminate|destruct Hl]|].
  cbn [app] in Hl. destruct Hl as [Hl|Hl]; [discriminate|]. apply in_app_or in Hl. destruct Hl as [Hl|[Hl|[Hl|[]]]]; try discriminate.
  - destruct (due p n2 e h); [destruct A9 as (? & ? & _ & -> & _); destruct Hl as [Hl|[]]; discriminate|destruct A9 as [-> _]; destruct Hl].
  - injection Hl as <- <-. unfold message_time. rewrite P6, P12. split; [|reflexivity].
    rewrite <- P5, <- (posterior_shown n2 res), <- (jump_reset_shown n2 (normalize est0)). unfold shown, PfSpec.poses. rewrite map_map. reflexivity.
Qed.
(** every other event that shows particles shows the new ones *)
Theorem C96_other_events_show_new_particles n ev n' o ts l :
  step caster voxel p n ev = Ok (n', o) -> (forall m e, ev <> ECloud m e) -> In (OParticles ts l) o ->
  l = shown (n_pf n')
  /\ ts = message_time n (match ev with EPosition _ _ _ _ now | EResize _ _ now | EExpansion _ now | ELandmark _ _ _ _ _ now => now | _ => 0%R end).
Proof.
  intros H Hne Hi. destruct ev; cbn [step] in H.
  - unfold cbMapcloud in H. destruct conv; [|injection H as _ <-; destruct Hi].
    unfold loadMapCloud, cbMapUpdateTimer in H. bok H. destruct x as [mm oo]. injection H as _ <-. exfalso. revert E Hi. unfold timer_map. cbn. intros E Hi. bok E. injection E as _ <-. destruct Hi as [Hi|[]]; discriminate.
  - unfold cbLoadPCD in H. destruct file; [|injection H as _ <-; destruct Hi as [Hi|[]]; discriminate].
    bok H. destruct x as [n0 oo]. injection H as _ <-. apply in_app_or in Hi. destruct Hi as [Hi|[Hi|[]]]; [|discriminate].
    unfold loadMapCloud, cbMapUpdateTimer in E. bok E. destruct x as [mm oo2]. injection E as _ <-. exfalso. revert E0 Hi. unfold timer_map. cbn. intros E0 Hi. bok E0. injection E0 as _ <-. destruct Hi as [Hi|[]]; discriminate.
  - unfold cbMapcloudUpdate in H. destruct conv; injection H as _ <-; destruct Hi.
  - unfold cbMapUpdateTimer in H. bok H. destruct x as [mm oo]. injection H as _ <-. exfalso. revert E Hi. unfold timer_map.
    destruct (has_map (n_map n)); [|intro E; injection E as _ <-; intros []].
    destruct (pc_update (n_map n)).
    + destruct (pc_map2 (n_map n)); intros E Hi; bok E; bok E; injection E as _ <-; destruct Hi as [Hi|[]]; discriminate.
    + destruct (pc_map2 (n_map n)); intros E Hi; [injection E as _ <-; destruct Hi|]. bok E. injection E as _ <-. destruct Hi as [Hi|[]]; discriminate.
  - unfold cbPosition in H. destruct (Rltb (1 / 10) _); [injection H as _ <-; destruct Hi|]. destruct (pose_in_map p lk m); [|injection H as _ <-; destruct Hi].
    rewrite publish_shown in H. injection H as <- <-. destruct Hi as [Hi|[]]. injection Hi as <- <-. split; reflexivity.
  - unfold cbOdom in H. destruct (odom_apply p n stamp pose) as [q1 go]. destruct (go && fake_imu p); [|injection H as _ <-; destruct Hi].
    destruct (imu_apply p q1 stamp _ (rot pose) (imu_tf p lk frame)) as [q2 go2]. destruct (go2 && fake_odom p); [discriminate|]. injection H as _ <-. destruct Hi.
  - unfold cbImu in H. destruct (imu_apply p n stamp acc orient (imu_tf p lk frame)) as [q1 go]. destruct (go && fake_odom p); [|injection H as _ <-; destruct Hi].
    destruct (odom_apply p q1 stamp _) as [q2 go2]. destruct (go2 && fake_imu p); [discriminate|]. injection H as _ <-. destruct Hi.
  - exfalso. eapply Hne. reflexivity.
  - unfold cbLandmark in H. bok H. rewrite publish_shown in H. injection H as <- <-. destruct Hi as [Hi|[]]. injection Hi as <- <-. split; reflexivity.
  - unfold cbResizeParticle in H. bok H. rewrite publish_shown in H. injection H as <- <-. destruct Hi as [Hi|[Hi|[]]]; [|discriminate]. injection Hi as <- <-. split; reflexivity.
  - unfold cbExpansionReset in H. rewrite publish_shown in H. injection H as <- <-. destruct Hi as [Hi|[Hi|[]]]; [|discriminate]. injection Hi as <- <-. split; reflexivity.
  - unfold cbGlobalLocalization in H. destruct (has_map (n_map n)); [|injection H as _ <-; destruct Hi as [Hi|[]]; discriminate].
    bok H. bok H. bok H. injection H as _ <-. destruct Hi as [Hi|[]]; discriminate.
Qed.

Lemma match_max_spec l : (forall y, In y l -> (0 <= y)%R) -> is_max l (match_max l).
Proof.
  intro H. unfold match_max.
  assert (G : forall l a, (a <= fold_left (fun m q => if Rltb m q then q else m) l a)%R /\ (forall y, In y l -> (y <= fold_left (fun m q => if Rltb m q then q else m) l a)%R)
     /\ (fold_left (fun m q => if Rltb m q then q else m) l a = a \/ In (fold_left (fun m q => if Rltb m q then q else m) l a) l)).
  { clear. induction l as [|x l IH]; intro a; cbn [fold_left]; [split; [lra|split; [intros y []|auto]]|].
    destruct (IH (if Rltb a x then x else a)) as (A & B & C). set (r := fold_left (fun m q => if Rltb m q then q else m) l (if Rltb a x then x else a)) in *.
    assert (Hx : (a <= (if Rltb a x then x else a))%R /\ (x <= (if Rltb a x then x else a))%R).
    { destruct (Rltb a x) eqn:E; [apply Rltb_true in E|apply Rltb_false in E]; lra. }
    split; [lra|]. split.
    - intros y [<-|Hy]; [lra|exact (B y Hy)].
    - destruct C as [C|C]; [|right; right; exact C]. rewrite C. destruct (Rltb a x); [right; left; reflexivity|left; reflexivity]. }
  destruct (G l 0%R) as (A & B & C). split; [exact B|]. intro Hne. destruct C as [C|C]; [|exact C].
  destruct l as [|y l]; [congruence|]. left. specialize (B y (or_introl eq_refl)). specialize (H y (or_introl eq_refl)). rewrite C in *. lra.
Qed.
Lemma quality_nonneg l f pts s r : like_measure l f pts s = Some r -> (0 <= snd r)%R.
Proof.
  unfold like_measure. destruct pts as [[|q pts]|]; try (intro H; injection H as <-; cbn; lra).
  assert (Hl : 0 < length (transform s (q :: pts))) by (unfold transform; rewrite map_length; cbn; lia). revert Hl. generalize (transform s (q :: pts)). intros L Hl.
  destruct (like_points (l_par l) f L 0 0) as [[sc num]|]; [|discriminate]. intro H. injection H as <-. cbn [snd].
  apply Rmult_le_pos; [apply pos_INR|]. apply Rlt_le, Rinv_0_lt_compat. apply lt_0_INR. exact Hl.
Qed.
(** the reported match ratio is that of the best particle: the largest fraction of likelihood
    points with a map point nearby *)
Theorem C96_match_ratio_is_the_best n m e n' o t x c st k mp od im :
  step caster voxel p n (ECloud m e) = Ok (n', o) -> In (OPose t x c) o -> In (OStatus st k mp od im) o ->
  exists n1 h pc os n2 bp lp qs,
    measures_with voxel p caster n m e n1 h pc os /\ filters p n1 e (voxel (ds_x p, ds_y p, ds_z p) pc) = (n2, bp, lp)
    /\ length qs = psize n
    /\ (forall i q, nth_error (prts (n_pf n)) i = Some q -> exists s, like_measure (l_like (n_lid n2)) (e_search e) (Some lp) (stt q) = Some (s, nth i qs 0%R))
    /\ is_max qs (s_match st).
Proof.
  intros Hs Hi Hl. destruct (pose_localizes _ _ _ _ _ _ _ _ _ _ _ Hs Hi) as (n1 & h & pc & os & n2 & bp & lp & n3 & M1 & M2 & M3 & M4 & P1 & P2 & P3 & P4 & P5 & P6 & P7 & P8 & P9 & P10 & P11 & P12).
  destruct (localize_parts _ _ _ _ _ _ _ _ _ _ _ M4) as (cl & s1 & res & est0 & est' & c0 & o1 & o2 & f4 & k' & A1 & A2 & A3 & (A4 & A5 & A6) & A7 & A8 & A9 & _).
  assert (Est : st = stat (n_out n3)).
  { rewrite A5 in Hl. apply in_app_or in Hl. destruct Hl as [Hl|Hl]; [destruct A8 as [(? & ? & ? & ->)| ->]; [destruct Hl as [Hl|[]]; discriminate|destruct Hl]|].
    cbn [app] in Hl. destruct Hl as [Hl|Hl]; [discriminate|]. apply in_app_or in Hl. destruct Hl as [Hl|[Hl|[Hl|[]]]]; try discriminate.
    - destruct (due p n2 e h); [destruct A9 as (? & ? & _ & -> & _); destruct Hl as [Hl|[]]; discriminate|destruct A9 as [-> _]; destruct Hl].
    - injection Hl as <- _ _ _ _. reflexivity. }
  destruct (lidar_all_each _ _ _ _ _ _ _ _ _ _ _ A2) as [Len Each].
  exists n1, h, pc, os, n2, bp, lp, (map snd res). split; [exact M1|]. split; [exact M2|]. split; [rewrite map_length, Len, map_length, P5; reflexivity|]. split.
  - intros i q Hq. assert (Hx : nth_error (map stt (prts (n_pf n2))) i = Some (stt q)) by (rewrite P5, nth_error_map, Hq; reflexivity).
    destruct (Each i _ Hx) as (sa & sb & rb & rl & E1 & E2 & E3). exists (fst rl). rewrite E2. f_equal.
    assert (E4 : nth_error (map snd res) i = Some (snd rl)) by (rewrite nth_error_map, E3; reflexivity). rewrite (nth_error_nth _ _ _ E4). destruct rl; reflexivity.
  - rewrite Est, A7. apply match_max_spec. intros y Hy. apply in_map_iff in Hy. destruct Hy as (r & <- & Hr). apply In_nth_error in Hr. destruct Hr as [i Hr].
    assert (Hlt : i < length (map stt (prts (n_pf n2)))) by (rewrite <- Len; apply nth_error_Some; congruence).
    destruct (nth_error (map stt (prts (n_pf n2))) i) as [y|] eqn:Ey; [|apply nth_error_None in Ey; lia].
    destruct (Each i _ Ey) as (sa & sb & rb & rl & E1 & E2 & E3). rewrite Hr in E3. injection E3 as ->. cbn [snd]. eapply quality_nonneg. exact E2.
Qed.

(** ** C97: matched and unmatched points *)
Lemma match_points_select f pts : forall ms us j, match_points p f pts = Ok (ms, us) ->
  exists Pm Pu : nat -> bool, ms = select Pm j (map p3 pts) /\ us = select Pu j (map p3 pts)
    /\ forall i v, nth_error (map p3 pts) i = Some v ->
       match f (to_pt v) (unmatch_output_dist p) with
       | Throws => False
       | NoChunk | Found [] => Pm (j + i) = false /\ Pu (j + i) = true
       | Found ((_, sq) :: _) => Pm (j + i) = Rltb sq (match_output_dist p * match_output_dist p) /\ Pu (j + i) = false
       end.
Proof.
  induction pts as [|q t IH]; intros ms us j H; cbn [match_points] in H.
  - injection H as <- <-. exists (fun _ => false), (fun _ => false). repeat split. intros [|i] v Hv; discriminate.
  - bok H. destruct x as [m u]. destruct (IH m u (j + 1) E) as (Pm & Pu & E1 & E2 & E3).
    set (a := match f (to_pt (p3 q)) (unmatch_output_dist p) with Found ((_, sq) :: _) => Rltb sq (match_output_dist p * match_output_dist p) | _ => false end).
    set (b := match f (to_pt (p3 q)) (unmatch_output_dist p) with NoChunk | Found [] => true | _ => false end).
    assert (Hsel : forall (P : nat -> bool) c, select (fun i => if i =? j then c else P i) (j + 1) (map p3 t) = select P (j + 1) (map p3 t)).
    { intros P c. assert (G : forall l k, j < k -> select (fun i => if i =? j then c else P i) k l = select P k (l : list vec3)).
      { clear. induction l as [|x l IH]; intros k Hk; [reflexivity|]. cbn [select]. replace (k =? j) with false by (symmetry; apply Nat.eqb_neq; lia). rewrite IH by lia. reflexivity. }
      apply G. lia. }
    exists (fun i => if i =? j then a else Pm i), (fun i => if i =? j then b else Pu i).
    cbn [map select]. rewrite Nat.eqb_refl, !Hsel, <- E1, <- E2. subst a b.
    assert (Hrest : forall i v, nth_error (map p3 t) i = Some v ->
       match f (to_pt v) (unmatch_output_dist p) with
       | Throws => False
       | NoChunk | Found [] => (if j + Datatypes.S i =? j then match f (to_pt (p3 q)) (unmatch_output_dist p) with Found ((_, sq) :: _) => Rltb sq (match_output_dist p * match_output_dist p) | _ => false end else Pm (j + Datatypes.S i)) = false
            /\ (if j + Datatypes.S i =? j then match f (to_pt (p3 q)) (unmatch_output_dist p) with NoChunk | Found [] => true | _ => false end else Pu (j + Datatypes.S i)) = true
       | Found ((_, sq) :: _) => (if j + Datatypes.S i =? j then match f (to_pt (p3 q)) (unmatch_output_dist p) with Found ((_, sq) :: _) => Rltb sq (match_output_dist p * match_output_dist p) | _ => false end else Pm (j + Datatypes.S i)) = Rltb sq (match_output_dist p * match_output_dist p)
            /\ (if j + Datatypes.S i =? j then match f (to_pt (p3 q)) (unmatch_output_dist p) with NoChunk | Found [] => true | _ => false end else Pu (j + Datatypes.S i)) = false
       end).
    { intros i v Hv. specialize (E3 i v Hv). replace (j + Datatypes.S i =? j) with false by (symmetry; apply Nat.eqb_neq; lia).
      replace (j + Datatypes.S i) with (j + 1 + i) by lia. exact E3. }
    clear E3. destruct (f (to_pt (p3 q)) (unmatch_output_dist p)) as [| |[|[k sq] l]] eqn:Ef; [discriminate| | |].
    + injection H as <- <-. split; [reflexivity|]. split; [reflexivity|]. intros [|i] v Hv; [|exact (Hrest i v Hv)].
      cbn in Hv. injection Hv as <-. rewrite Ef, Nat.add_0_r, Nat.eqb_refl. auto.
    + injection H as <- <-. split; [reflexivity|]. split; [reflexivity|]. intros [|i] v Hv; [|exact (Hrest i v Hv)].
      cbn in Hv. injection Hv as <-. rewrite Ef, Nat.add_0_r, Nat.eqb_refl. auto.
    + assert (Hm : ms = (if Rltb sq (match_output_dist p * match_output_dist p) then p3 q :: m else m) /\ us = u).
      { destruct (Rltb sq (match_output_dist p * match_output_dist p)); injection H as <- <-; auto. }
      destruct Hm as [-> ->]. split; [reflexivity|]. split; [reflexivity|]. intros [|i] v Hv; [|exact (Hrest i v Hv)].
      cbn in Hv. injection Hv as <-. rewrite Ef, Nat.add_0_r, Nat.eqb_refl. auto.
Qed.
Lemma search_nearest cl (f : pt -> R -> search) r v k mp :
  (forall q r, radiusSearch (setInputCloud (to_pts cl) (configured_kdtree p)) q r 1 (f q r)) -> covers p r ->
  nth_error cl k = Some mp -> ((1 + search_tol p) * map_dist_sq p mp v < r * r)%R ->
  exists j d, f (to_pt v) r = Found [(j, d)] /\ (d <= (1 + search_tol p) * map_dist_sq p mp v)%R.
Proof.
  intros H (C1 & C2 & C3 & C4 & C5) Hk Hd. specialize (H (to_pt v) r). unfold map_dist_sq, search_weights, search_tol, configured_kdtree in *. destruct (dist_weight p) as [[[wx wy] wz] ww].
  change (setInputCloud (to_pts cl) (setPointRepresentation (wx, wy, wz) (setEpsilon (map_grid_min p / 16) (new_kdt (map_chunk p) (configured_radius p) false))))
    with (kd_after [CEps (map_grid_min p / 16)%R; CRep (wx, wy, wz); CLoad (to_pts cl)] (map_chunk p) (configured_radius p) false) in H.
  refine (C24_nearest [CEps (map_grid_min p / 16)%R; CRep (wx, wy, wz); CLoad (to_pts cl)] (map_chunk p) (configured_radius p) false (to_pts cl) (to_pt v) r _ k (to_pt (p3 mp)) C1 C2 C3 _ _ eq_refl H _ _); cbn; auto.
  unfold to_pts. rewrite nth_error_map, Hk. reflexivity.
Qed.
(** C97: the matched and unmatched points of a localization step are two disjoint selections, in
    order, of the down-sampled points at the published pose: a matched point has a map point
    nearer than match_output_dist, an unmatched point has no map point within
    unmatch_output_dist (if the search structure is configured for that radius), and every other
    point has a map point within unmatch_output_dist but none within match_output_dist
    (up to the tolerance of the search) *)
Theorem C97_matched_and_unmatched evs gen rc0 n o0 m e n' o t pp pr c ms us :
  steps caster voxel p (configure p gen rc0) evs = Ok (n, o0) -> step caster voxel p n (ECloud m e) = Ok (n', o) ->
  (forall q r, radiusSearch (kd (n_map n)) q r 1 (e_search e q r)) ->
  In (OPose t (pp, pr) c) o -> In (OMatched ms us) o ->
  exists n1 h pc os cl Pm Pu, measures_with voxel p caster n m e n1 h pc os /\ last_map o0 None = Some cl
    /\ let pts := placed pp pr (voxel (ds_x p, ds_y p, ds_z p) pc) in
       ms = select Pm 0 pts /\ us = select Pu 0 pts /\ forall i v, nth_error pts i = Some v ->
         (Pm i = true -> Pu i = false /\ exists mp, In mp (cl_pts cl) /\ (map_dist_sq p mp v < match_output_dist p * match_output_dist p)%R)
         /\ (Pu i = true -> covers p (unmatch_output_dist p) ->
               forall mp, In mp (cl_pts cl) -> (unmatch_output_dist p * unmatch_output_dist p <= (1 + search_tol p) * map_dist_sq p mp v)%R)
         /\ (Pm i = false -> Pu i = false ->
               (exists mp, In mp (cl_pts cl) /\ (map_dist_sq p mp v < unmatch_output_dist p * unmatch_output_dist p)%R)
               /\ (covers p (unmatch_output_dist p) -> (0 <= match_output_dist p <= unmatch_output_dist p)%R ->
                     forall mp, In mp (cl_pts cl) -> (match_output_dist p * match_output_dist p <= (1 + search_tol p) * map_dist_sq p mp v)%R)).
Proof.
  intros H Hs Hsr Hi Hl. destruct (pose_localizes _ _ _ _ _ _ _ _ _ _ _ Hs Hi) as (n1 & h & pc & os & n2 & bp & lp & n3 & M1 & M2 & M3 & M4 & P1 & P2 & P3 & P4 & P5 & P6 & P7 & P8 & P9 & P10 & P11 & P12).
  destruct (localize_parts _ _ _ _ _ _ _ _ _ _ _ M4) as (cl & s1 & res & est0 & est' & c0 & o1 & o2 & f4 & k' & A1 & A2 & A3 & (A4 & A5 & A6) & A7 & A8 & A9 & _).
  assert (Hm : has_map (n_map n) = true) by (destruct M1; assumption).
  assert (Hmc : map_cloud n = Ok cl) by (unfold map_cloud in *; rewrite P8 in A1; exact A1).
  pose proof (used_map _ _ _ _ _ _ H Hm Hmc) as Hcl.
  assert (Hpose : pp = pos est' /\ pr = rot est').
  { rewrite A5 in Hi. apply in_app_or in Hi. destruct Hi as [Hi|Hi]; [destruct A8 as [(? & ? & ? & ->)| ->]; [destruct Hi as [Hi|[]]; discriminate|destruct Hi]|].
    cbn [app] in Hi. destruct Hi as [Hi|Hi]; [injection Hi as _ <- <- _; auto|]. apply in_app_or in Hi. destruct Hi as [Hi|[Hi|[Hi|[]]]]; try discriminate.
    destruct (due p n2 e h); [destruct A9 as (? & ? & _ & -> & _); destruct Hi as [Hi|[]]; discriminate|destruct A9 as [-> _]; destruct Hi]. }
  destruct Hpose as [-> ->].
  assert (Hmp : match_points p (e_search e) (transform est' (voxel (ds_x p, ds_y p, ds_z p) pc)) = Ok (ms, us)).
  { rewrite A5 in Hl. apply in_app_or in Hl. destruct Hl as [Hl|Hl]; [destruct A8 as [(? & ? & ? & ->)| ->]; [destruct Hl as [Hl|[]]; discriminate|destruct Hl]|].
    cbn [app] in Hl. destruct Hl as [Hl|Hl]; [discriminate|]. apply in_app_or in Hl. destruct Hl as [Hl|[Hl|[Hl|[]]]]; try discriminate.
    destruct (due p n2 e h); [destruct A9 as (? & ? & E & -> & _); destruct Hl as [Hl|[]]; injection Hl as -> ->; exact E|destruct A9 as [-> _]; destruct Hl]. }
  pose proof (inv_reach caster voxel p _ _ _ _ _ H) as [I1 I2 I3 I4]. rewrite Hm in I1. symmetry in I1.
  destruct (I4 I1) as (l & c1 & B1 & B2 & B3 & B4 & B5 & B6 & B7 & B8 & B9 & B10).
  assert (c1 = cl) by (unfold map_cloud in Hmc; rewrite B3 in Hmc; cbn in Hmc; rewrite B4 in Hmc; cbn in Hmc; congruence). subst c1.
  assert (Hsr' : forall q r, radiusSearch (setInputCloud (to_pts (cl_pts cl)) (configured_kdtree p)) q r 1 (e_search e q r)) by (intros q r; rewrite B6, <- B7; apply Hsr).
  assert (Found_in : forall v r i d l0, e_search e (to_pt v) r = Found ((i, d) :: l0) -> exists mp, In mp (cl_pts cl) /\ d = map_dist_sq p mp v /\ (d < r * r)%R).
  { intros v r i d l0 Ef. destruct (C31_search_and_published_agree caster voxel p evs gen rc0 n o0 H Hm) as (c2 & D1 & D2 & _ & _ & D5).
    assert (c2 = cl) by congruence. subst c2. specialize (Hsr (to_pt v) r). rewrite Ef in Hsr. destruct (D5 _ _ _ _ i d Hsr (or_introl eq_refl)) as (mp & G1 & G2 & G3).
    exists mp. split; [eapply nth_error_In; exact G1|]. split; [exact G2|exact G3]. }
  destruct (match_points_select _ _ _ _ 0 Hmp) as (Pm & Pu & E1 & E2 & E3).
  exists n1, h, pc, os, cl, Pm, Pu. split; [exact M1|]. split; [exact Hcl|]. cbv zeta.
  assert (Hpts : map p3 (transform est' (voxel (ds_x p, ds_y p, ds_z p) pc)) = placed (pos est') (rot est') (voxel (ds_x p, ds_y p, ds_z p) pc)).
  { unfold transform, placed. rewrite map_map. reflexivity. }
  rewrite Hpts in *. split; [exact E1|]. split; [exact E2|]. intros i v Hv. specialize (E3 i v Hv). cbn [Nat.add] in E3.
  destruct (e_search e (to_pt v) (unmatch_output_dist p)) as [| |[|[k sq] l0]] eqn:Ef; [destruct E3| | |]; destruct E3 as [E4 E5]; rewrite E4, E5.
  1, 2: split; [discriminate|]; split; [|intros _ Hx; discriminate]; intros _ Hc mp Hmp'; apply Rnot_lt_le; intro Hlt;
      apply In_nth_error in Hmp'; destruct Hmp' as [kk Hk]; destruct (search_nearest _ _ _ _ _ _ Hsr' Hc Hk Hlt) as (j & d & Ej & _); congruence.
  destruct (Found_in _ _ _ _ _ Ef) as (mp & G1 & G2 & G3). split; [|split].
  - intro Hb. apply Rltb_true in Hb. split; [reflexivity|]. exists mp. split; [exact G1|]. rewrite <- G2. exact Hb.
  - discriminate.
  - intros Hb _. apply Rltb_false in Hb. split; [exists mp; split; [exact G1|rewrite <- G2; exact G3]|].
    intros Hc Hd mp2 Hmp2. apply Rnot_lt_le. intro Hlt. apply In_nth_error in Hmp2. destruct Hmp2 as [kk Hk].
    assert (Hlt2 : ((1 + search_tol p) * map_dist_sq p mp2 v < unmatch_output_dist p * unmatch_output_dist p)%R) by (eapply Rlt_le_trans; [exact Hlt|apply Rmult_le_compat; tauto]).
    destruct (search_nearest _ _ _ _ _ _ Hsr' Hc Hk Hlt2) as (j & d & Ej & Hle). rewrite Ef in Ej. injection Ej as <- <- ->. lra.
Qed.
End PostProps.
