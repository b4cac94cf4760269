(** The two ray casters as casters of the beam model; the power law; the likelihood model. *)
From Coq Require Import Reals ZArith NArith List Bool Arith Lra Lia.
From Verif Require Import Arith QuatModel StateModel KdModel RayModel RaySpec RayProofs KRayProofs NnSpec NnProofs LidarModel LidarSpec LidarProofs.
Import ListNotations.
Open Scope R_scope.

(** ** DDA *)
Definition dda_results (c : dda_cfg) (g : grid) (b e : vec3) : list cast_result :=
  let r := setRay exact exact c g (start_ray exact exact c g b e) b e in
  match calls (dda_next c g) (S (Z.to_nat (max_movement r))) r with Some ans => reported ans | None => [] end.
Definition dda_inv (c : dda_cfg) (cl : cloud) (g : grid) (s : option (Z * grid) * ray) : Prop :=
  match fst s with None => True | Some (z, g') => z = cl_stamp cl -> g' = g end.

Lemma exact_rounding' : rounding exact.
Proof. split; auto. Qed.
Lemma calls_lift c cl z g : forall n r, calls (rc_next (dda_caster c cl)) n (Some (z, g), r) = calls (dda_next c g) n r.
Proof.
  induction n as [|n IH]; intros r; [reflexivity|]. cbn [calls]. cbn [dda_caster rc_next fst snd].
  destruct (dda_next c g r) as [[r' a]|]; [|reflexivity]. rewrite IH. reflexivity.
Qed.
Lemma dda_reported c g cl old b e : 0 < d_grid c -> build_grid exact exact c cl = Some g ->
  let r := setRay exact exact c g old b e in
  exists n ans, calls (dda_next c g) n r = Some ans /\ In None ans /\ reported ans = dda_results c g b e.
Proof.
  intros Hg Hb r. unfold dda_results.
  assert (D : forall old', exists ans, calls (dda_next c g) (S (Z.to_nat (max_movement (setRay exact exact c g old' b e))))
     (setRay exact exact c g old' b e) = Some ans /\ In None ans).
  { intros old'. destruct (calls_shape c g (S (Z.to_nat (max_movement (setRay exact exact c g old' b e)))) (setRay exact exact c g old' b e)
       (setRay_ok exact exact c g cl old' b e exact_rounding' exact_rounding' Hg Hb)) as (rs & k & E & Hl & Hn & _).
    exists (map Some rs ++ repeat None k). split; [exact E|].
    assert (P : posn (setRay exact exact c g old' b e) = 0%Z) by (unfold setRay; destruct (within_map g b); reflexivity).
    rewrite P in Hn. destruct k as [|k]; [lia|]. apply in_or_app. right. left. reflexivity. }
  unfold r. unfold setRay in *. destruct (within_map g b) eqn:Ew.
  - destruct (D old) as (ans & E & Hn). eexists _, ans. split; [exact E|]. split; [exact Hn|]. rewrite E. reflexivity.
  - destruct (D old) as (ans & E & Hn). eexists _, ans. split; [exact E|]. split; [exact Hn|].
    rewrite finished in E by (cbn; lia). injection E as <-. rewrite finished by (cbn; lia). reflexivity.
Qed.
Lemma hit_point c g r r' y : dda_next c g r = Some (r', Some y) -> c_coll y = true -> c_point y <> None.
Proof.
  unfold dda_next. cbn zeta. destruct (_ <=? _)%Z; [discriminate|]. destruct (increment _ _ _) as [r2 ok]. destruct ok; [|discriminate].
  destruct (hasIntersection _ _ _ _) as [[p|]|]; [| |discriminate]; intros [= <- <-]; cbn; congruence.
Qed.
Lemma reported_inv {S} (next : S -> option (S * option cast_result)) (P : cast_result -> Prop) :
  (forall s s' y, next s = Some (s', Some y) -> P y) -> forall n s ans, calls next n s = Some ans -> forall y, In y (reported ans) -> P y.
Proof.
  intros H. induction n as [|n IH]; intros s ans Hc y Hy; cbn [calls] in Hc.
  - injection Hc as <-. destruct Hy.
  - destruct (next s) as [[s' a]|] eqn:E; [|discriminate]. destruct (calls next n s') as [l|] eqn:El; [|discriminate].
    cbn in Hc. injection Hc as <-. destruct a as [z|]; [|destruct Hy]. destruct Hy as [<-|Hy]; [eapply H; eauto|eapply IH; eauto].
Qed.
Lemma dda_caster_ok c cl g : 0 < d_grid c -> build_grid exact exact c cl = Some g ->
  caster_ok (dda_inv c cl g) (dda_caster c cl) (dda_results c g).
Proof.
  intros Hg Hb. split; [|split].
  - intros [st r] b e Hs. cbn [dda_caster rc_set fst snd].
    assert (U : exists g', updatePointCloud (fun x => x) (fun x => x) c st cl = Some (cl_stamp cl, g') /\ g' = g).
    { unfold updatePointCloud. change (build_grid (fun x => x) (fun x => x) c cl) with (build_grid exact exact c cl). rewrite Hb.
      destruct st as [[z g']|]; [|cbn; eauto]. cbn in Hs.
      destruct ((cl_stamp cl =? z)%Z && _) eqn:Et; [|cbn; eauto].
      apply andb_true_iff in Et. destruct Et as [Et _]. apply Z.eqb_eq in Et. rewrite <- Et. eexists. split; [reflexivity|]. auto. }
    destruct U as (g' & -> & ->). eexists. split; [reflexivity|]. split; [cbn; auto|].
    destruct (dda_reported c g cl r b e Hg Hb) as (n & ans & E & Hn & Hr).
    exists n, ans. split; [rewrite calls_lift; exact E|]. auto.
  - intros [st r] s' a Hs Hn. cbn in Hn. destruct st as [[z g']|]; [|discriminate].
    destruct (dda_next c g' r) as [[r' a']|]; [|discriminate]. injection Hn as <- <-. exact Hs.
  - intros b e y Hy. destruct (dda_reported c g cl (start_ray exact exact c g b e) b e Hg Hb) as (n & ans & E & _ & Hr). rewrite <- Hr in Hy.
    revert y Hy. eapply (reported_inv (dda_next c g) (fun y => c_coll y = true -> c_point y <> None)); [|exact E].
    intros s s' y. apply hit_point.
Qed.

(** ** k-d tree *)
Definition k_results_of (c : kray_cfg) f pts (b e : vec3) : list cast_result :=
  let r := k_setRay c b e in
  match calls (k_next c f pts) (S (Z.to_nat (k_length r - k_count r))) r with Some ans => reported ans | None => [] end.
Lemma kd_caster_ok gx gy gz tol (f : pt -> R -> search) pts s eps rmax :
  0 < gx -> 0 < gy -> 0 < gz -> 4 * Rmax gx (Rmax gy gz) <= rmax ->
  nn_spec s eps (map (fun p => to_pt (p3 p)) pts) rmax f ->
  let c := new_kray gx gy gz tol in
  caster_ok (fun _ => True) (kd_caster c f pts) (k_results_of c f pts).
Proof.
  intros Hx Hy Hz Hr Hnn c.
  destruct (radius1_le gx gy gz tol Hx Hy Hz) as (R1 & R2 & R3). fold c in R1, R2, R3. change (k_gmax c) with (Rmax gx (Rmax gy gz)) in *.
  assert (Hres : forall n r, exists l, calls (k_next c f pts) n r = Some l /\
     forall y, In y (reported l) -> c_coll y = true -> c_point y <> None).
  { intros n r. destruct (k_results c f pts s eps rmax Hnn ltac:(lra) ltac:(lra) n r) as (l & E & F). exists l. split; [exact E|].
    intros y Hy' Hc. rewrite Forall_forall in F. destruct (F y Hy') as [F1 _]. destruct (F1 Hc) as (p & -> & _). discriminate. }
  split; [|split].
  - intros st b e _. cbn [kd_caster rc_set]. eexists. split; [reflexivity|]. split; [exact I|].
    unfold k_results_of. destruct (Hres (S (Z.to_nat (k_length (k_setRay c b e) - k_count (k_setRay c b e)))) (k_setRay c b e)) as (l & E & _).
    eexists _, l. split; [exact E|]. rewrite E. split; [|reflexivity].
    destruct (k_calls c f pts _ _ _ E) as (rs & k & -> & L1 & L2 & _). destruct k as [|k]; [lia|]. apply in_or_app. right. left. reflexivity.
  - auto.
  - intros b e y Hy'. unfold k_results_of in Hy'.
    destruct (Hres (S (Z.to_nat (k_length (k_setRay c b e) - k_count (k_setRay c b e)))) (k_setRay c b e)) as (l & E & F).
    rewrite E in Hy'. apply F, Hy'.
Qed.

(** ** the power law *)
Lemma rpow_pos x y : 0 < x -> 0 < rpow x y.
Proof. intros H. unfold rpow. destruct (Req_EM_T x 0); [lra|]. unfold Rpower. apply exp_pos. Qed.
Lemma rpow_power x y : rpow x y = power x y. Proof. reflexivity. Qed.
Lemma rpow_pow alpha n k : 0 <= alpha -> (0 < n)%nat -> rpow alpha (1 / INR n) ^ k = rpow alpha (INR k / INR n).
Proof.
  intros Ha Hn. assert (Hn' : 0 < INR n) by (apply lt_0_INR; lia). unfold rpow. destruct (Req_EM_T alpha 0) as [->|H0].
  - assert (0 < 1 / INR n) by (apply Rdiv_lt_0_compat; lra). destruct (Req_EM_T (1 / INR n) 0); [lra|]. destruct k as [|k].
    + cbn [pow INR]. unfold Rdiv. rewrite Rmult_0_l. destruct (Req_EM_T 0 0); [reflexivity|lra].
    + assert (0 < INR (S k) / INR n) by (apply Rdiv_lt_0_compat; [apply lt_0_INR; lia|lra]). destruct (Req_EM_T (INR (S k) / INR n) 0); [lra|]. rewrite pow_i by lia. reflexivity.
  - rewrite <- Rpower_pow by (unfold Rpower; apply exp_pos). rewrite Rpower_mult. f_equal. field. lra.
Qed.
Lemma rpow_mono alpha x y : 0 < alpha <= 1 -> x <= y -> rpow alpha y <= rpow alpha x.
Proof.
  intros [H0 H1] H. unfold rpow. destruct (Req_EM_T alpha 0); [lra|]. unfold Rpower.
  assert (ln alpha <= 0). { rewrite <- ln_1. destruct H1 as [H1| ->]; [left; apply ln_increasing; lra|lra]. }
  assert (y * ln alpha <= x * ln alpha) by nra.
  destruct H3 as [H3| ->]; [left; apply exp_increasing; exact H3|lra].
Qed.
Lemma rpow_0 alpha : 0 < alpha -> rpow alpha 0 = 1.
Proof. intros H. unfold rpow. destruct (Req_EM_T alpha 0); [lra|]. apply Rpower_O. exact H. Qed.
Lemma rpow_1 alpha : 0 < alpha -> rpow alpha 1 = alpha.
Proof. intros H. unfold rpow. destruct (Req_EM_T alpha 0); [lra|]. apply Rpower_1. exact H. Qed.
Lemma IZR_of_N n : IZR (Z.of_N n) = INR (N.to_nat n).
Proof. rewrite INR_IZR_INZ. f_equal. lia. Qed.

(** ** likelihood *)
Lemma nearest_unique s m q d d' : nearest_dist s m q d -> nearest_dist s m q d' -> d = d'.
Proof.
  intros (H0 & (p & Hp & E) & Hm) (H0' & (p' & Hp' & E') & Hm'). pose proof (Hm p' Hp'). pose proof (Hm' p Hp).
  apply Rsqr_inj; auto. unfold Rsqr. lra.
Qed.
Lemma nearest_exists s m q : m <> [] -> exists d, nearest_dist s m q d.
Proof.
  intros H. assert (G : exists p, In p m /\ forall p', In p' m -> dist_sq s p q <= dist_sq s p' q).
  { destruct m as [|a m]; [congruence|]. clear H. revert a. induction m as [|b m IH]; intros a.
    - exists a. split; [left; auto|]. intros p' [<-|[]]. lra.
    - destruct (IH b) as (p & Hp & Hmin). destruct (Rle_lt_dec (dist_sq s a q) (dist_sq s p q)) as [L|L].
      + exists a. split; [left; auto|]. intros p' [<-|Hp']; [lra|]. specialize (Hmin p' Hp'). lra.
      + exists p. split; [right; auto|]. intros p' [<-|Hp']; [lra|]. apply Hmin, Hp'. }
  destruct G as (p & Hp & Hmin). exists (sqrt (dist_sq s p q)). split; [apply sqrt_pos|].
  rewrite sqrt_sqrt by apply dist_sq_nonneg. split; [exists p; auto|exact Hmin].
Qed.
Lemma contribution_nonneg lp d : 0 <= lp_weight lp -> 0 <= contribution lp d.
Proof. intros H. unfold contribution. apply Rmult_le_pos; [exact H|apply Rmax_l]. Qed.
Lemma contribution_mono lp d d' : 0 <= lp_weight lp -> d <= d' -> contribution lp d' <= contribution lp d.
Proof.
  intros H Hd. unfold contribution. apply Rmult_le_compat_l; [exact H|]. apply Rle_max_compat_l.
  assert (Rmax d (lp_dist_flat lp) <= Rmax d' (lp_dist_flat lp)) by (apply Rle_max_compat_r; exact Hd). lra.
Qed.
Lemma contribution_far lp d : lp_dist_min lp <= d -> contribution lp d = 0.
Proof.
  intros H. unfold contribution. rewrite Rmax_left; [ring|]. pose proof (Rmax_l d (lp_dist_flat lp)). lra.
Qed.
(** one point: found distance [sqrt sq] lies between the true one and its (1+eps) multiple *)
Lemma like_points_spec lp s eps m f rmax :
  0 <= eps -> 0 <= lp_weight lp -> 0 <= lp_dist_min lp <= rmax -> nn_spec s eps m rmax f ->
  forall pts ds score num, Forall2 (fun p d => nearest_dist s m (to_pt (p3 p)) d) pts ds ->
  exists cs k, like_points lp f pts score num = Some (score + sumR cs, (num + k)%nat) /\
    Forall2 (fun d c => contribution lp (sqrt (1 + eps) * d) <= c <= contribution lp d) ds cs /\
    (count_if (fun d => Rltb (sqrt (1 + eps) * d) (lp_dist_min lp) && Rleb (lp_dist_flat lp) (lp_dist_min lp)) ds <= k)%nat /\
    (k <= count_if (fun d => Rltb d (lp_dist_min lp) && Rleb (lp_dist_flat lp) (lp_dist_min lp)) ds)%nat.
Proof.
  intros He Hw Hr Hnn.
  assert (He1 : 0 < 1 + eps) by lra.
  assert (S1 : 1 <= sqrt (1 + eps)) by (rewrite <- sqrt_1 at 1; apply sqrt_le_1; lra).
  assert (S2 : sqrt (1 + eps) * sqrt (1 + eps) = 1 + eps) by (apply sqrt_sqrt; lra).
  induction pts as [|p pts IH]; intros ds score num F; inversion F as [|? d ? ds' Hd F' E1 E2]; subst; clear F.
  - exists [], O. cbn. rewrite Rplus_0_r, Nat.add_0_r. repeat split; auto.
  - destruct Hd as (Hd0 & (pn & Hpn & Ed) & Hmin). set (q := to_pt (p3 p)) in *.
    pose proof (Hnn q (lp_dist_min lp) Hr) as Hq. cbn [like_points]. fold q.
    assert (Miss : (forall p', In p' m -> lp_dist_min lp * lp_dist_min lp <= (1 + eps) * dist_sq s p' q) ->
       exists cs k, like_points lp f pts score num = Some (score + sumR cs, (num + k)%nat) /\
         Forall2 (fun d c => contribution lp (sqrt (1 + eps) * d) <= c <= contribution lp d) (d :: ds') cs /\
         (count_if (fun d => Rltb (sqrt (1 + eps) * d) (lp_dist_min lp) && Rleb (lp_dist_flat lp) (lp_dist_min lp)) (d :: ds') <= k)%nat /\
         (k <= count_if (fun d => Rltb d (lp_dist_min lp) && Rleb (lp_dist_flat lp) (lp_dist_min lp)) (d :: ds'))%nat).
    { intros H. specialize (H pn Hpn). rewrite <- Ed in H.
      assert (Hfar : lp_dist_min lp <= sqrt (1 + eps) * d).
      { apply Rsqr_incr_0; unfold Rsqr; [|lra|apply Rmult_le_pos; lra].
        replace (sqrt (1 + eps) * d * (sqrt (1 + eps) * d)) with (sqrt (1 + eps) * sqrt (1 + eps) * (d * d)) by ring. rewrite S2. exact H. }
      destruct (IH ds' score num F') as (cs & k & A & B & C1 & C2). exists (0 :: cs), k.
      cbn [sumR fold_right]. rewrite Rplus_0_l. split; [exact A|]. split.
      { constructor; [|exact B]. rewrite (contribution_far lp _ Hfar). split; [lra|apply contribution_nonneg, Hw]. }
      unfold count_if in *. cbn [filter]. apply Rltb_false in Hfar. rewrite Hfar. cbn [andb]. split; [exact C1|].
      destruct (Rltb d (lp_dist_min lp) && Rleb (lp_dist_flat lp) (lp_dist_min lp)); cbn [length]; lia. }
    destruct (f q (lp_dist_min lp)) as [| |[|[i sq] rest]]; [contradiction|apply Miss, Hq|apply Miss, Hq|]. clear Miss.
    destruct Hq as (pf & Ei & -> & Hlt & Hbest). specialize (Hbest pn Hpn). rewrite <- Ed in Hbest.
    pose proof (Hmin pf (nth_error_In _ _ Ei)) as Hlow. set (D := sqrt (dist_sq s pf q)).
    assert (ED : D * D = dist_sq s pf q) by (apply sqrt_sqrt, dist_sq_nonneg).
    assert (HD0 : 0 <= D) by apply sqrt_pos.
    assert (L1 : d <= D) by (apply Rsqr_incr_0; unfold Rsqr; lra).
    assert (L2 : D <= sqrt (1 + eps) * d).
    { apply Rsqr_incr_0; unfold Rsqr; [|lra|apply Rmult_le_pos; lra].
      replace (sqrt (1 + eps) * d * (sqrt (1 + eps) * d)) with (sqrt (1 + eps) * sqrt (1 + eps) * (d * d)) by ring. rewrite S2. lra. }
    assert (L3 : D < lp_dist_min lp) by (apply Rsqr_incrst_0; unfold Rsqr; lra).
    destruct (Rltb (lp_dist_min lp - Rmax D (lp_dist_flat lp)) 0) eqn:Et.
    + apply Rltb_true in Et.
      assert (Hflat : lp_dist_min lp < lp_dist_flat lp).
      { unfold Rmax in Et. destruct (Rle_dec D (lp_dist_flat lp)); lra. }
      destruct (IH ds' score num F') as (cs & k & A & B & C1 & C2). exists (0 :: cs), k.
      cbn [sumR fold_right]. rewrite Rplus_0_l. split; [exact A|].
      assert (Hz : forall x, contribution lp x = 0).
      { intros x. unfold contribution. rewrite Rmax_left; [ring|]. pose proof (Rmax_r x (lp_dist_flat lp)). lra. }
      split; [constructor; [rewrite !Hz; lra|exact B]|].
      unfold count_if in *. cbn [filter]. apply Rleb_false in Hflat. rewrite Hflat in *. rewrite !andb_false_r. auto.
    + apply Rltb_false in Et.
      assert (Hflat : lp_dist_flat lp <= lp_dist_min lp) by (pose proof (Rmax_r D (lp_dist_flat lp)); lra).
      destruct (IH ds' (score + (lp_dist_min lp - Rmax D (lp_dist_flat lp)) * lp_weight lp) (num + 1)%nat F') as (cs & k & A & B & C1 & C2).
      assert (Ec : (lp_dist_min lp - Rmax D (lp_dist_flat lp)) * lp_weight lp = contribution lp D).
      { unfold contribution. rewrite (Rmax_right 0) by lra. ring. }
      exists (contribution lp D :: cs), (S k). rewrite Ec in A. rewrite Ec.
      split; [rewrite A; cbn [sumR fold_right]; apply f_equal, f_equal2; [unfold sumR; ring|lia]|].
      split; [constructor; [split; apply contribution_mono; auto|exact B]|].
      unfold count_if in *. cbn [filter]. apply Rleb_true in Hflat. rewrite Hflat in *.
      assert (Hdl : Rltb d (lp_dist_min lp) = true) by (apply Rltb_true; lra). rewrite Hdl. cbn [andb length].
      split; [|lia]. destruct (Rltb (sqrt (1 + eps) * d) (lp_dist_min lp)); cbn [andb length]; lia.
Qed.
