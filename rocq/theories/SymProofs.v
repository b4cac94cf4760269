(** Proofs for C127. *)
From Coq Require Import Reals ZArith List Bool Arith Lra Lia Psatz.
From Verif Require Import Arith QuatModel QuatSpec QuatProofs QuatProofs2 StateModel StateSpec StateProofs KdModel RayModel SymSpec.
From Verif Require PfModel PfHist PfSpec.
Import ListNotations.

(** ** the filter does not look into poses *)
Notation Rsum := PfSpec.Rsum.
Section Nat.
Context {A : arith} {T U : Type} (phi : T -> U).
Notation cp := (carry_particle phi). Notation cx := (carry_pair phi).
Lemma mapi_from_carry {X Y Z W} (h : X -> Y) (k : Z -> W) (F : nat -> X -> Z) (G : nat -> Y -> W) l : (forall i x, G i (h x) = k (F i x)) ->
  forall i, PfModel.mapi_from i G (map h l) = map k (PfModel.mapi_from i F l).
Proof. intro H. induction l as [|x l IH]; intro i; [reflexivity|]. cbn [map PfModel.mapi_from]. rewrite H, IH. reflexivity. Qed.
Lemma mapi_carry {X Y Z W} (h : X -> Y) (k : Z -> W) (F : nat -> X -> Z) (G : nat -> Y -> W) l : (forall i x, G i (h x) = k (F i x)) ->
  PfModel.mapi G (map h l) = map k (PfModel.mapi F l).
Proof. intro H. apply mapi_from_carry, H. Qed.
Lemma accumulate_carry l : forall a, PfModel.accumulate A a (map cp l) = (map cp (fst (PfModel.accumulate A a l)), snd (PfModel.accumulate A a l)).
Proof.
  induction l as [|p l IH]; intro a; [reflexivity|]. cbn [map PfModel.accumulate]. change (PfModel.w A (cp p)) with (PfModel.w A p). rewrite IH.
  destruct (PfModel.accumulate A (fadd a (PfModel.w A p)) l) as [q t]. reflexivity.
Qed.
Lemma lower_bound_carry fuel d : forall first len v, PfModel.lower_bound A fuel (map cx d) first len v = PfModel.lower_bound A fuel d first len v.
Proof.
  induction fuel as [|n IH]; intros first len v; destruct len; try reflexivity. cbn [PfModel.lower_bound]. rewrite nth_error_map.
  destruct (nth_error d (first + Nat.div2 (S len))) as [x|]; [|reflexivity]. cbn [option_map]. change (fst (cx x)) with (fst x). rewrite !IH. reflexivity.
Qed.
Lemma lbf_carry d it v : PfModel.lower_bound_from A (map cx d) it v = PfModel.lower_bound_from A d it v.
Proof. unfold PfModel.lower_bound_from. rewrite map_length. apply lower_bound_carry. Qed.
Lemma resample_loop_carry pl nm pstep off nz d pl' nm' nz' n : (forall s k, nm' (pl' (phi s) (nz' k)) = phi (nm (pl s (nz k)))) ->
  forall i it itp k, PfModel.resample_loop A pl' nm' pstep off nz' (map cx d) n i it itp k = option_map (map phi) (PfModel.resample_loop A pl nm pstep off nz d n i it itp k).
Proof.
  intro H. induction n as [|n IH]; intros i it itp k; [reflexivity|]. cbn [PfModel.resample_loop]. rewrite lbf_carry.
  destruct (PfModel.lower_bound_from A d it _) as [it'|]; [|reflexivity]. rewrite !nth_error_map.
  destruct (nth_error d it') as [x|]; cbn [option_map].
  - change (snd (cx x)) with (phi (snd x)). destruct (it' =? itp); rewrite IH, ?H; destruct (PfModel.resample_loop A pl nm pstep off nz d n _ _ _ _); reflexivity.
  - destruct (nth_error d itp) as [x|]; cbn [option_map]; [|reflexivity]. rewrite IH. destruct (PfModel.resample_loop A pl nm pstep off nz d n _ _ _ _); reflexivity.
Qed.
Lemma resize_loop_carry pstep d n : forall v it itp, PfModel.resize_loop A pstep (map cx d) n v it itp = option_map (map phi) (PfModel.resize_loop A pstep d n v it itp).
Proof.
  induction n as [|n IH]; intros v it itp; [reflexivity|]. cbn [PfModel.resize_loop]. rewrite lbf_carry.
  destruct (PfModel.lower_bound_from A d it _) as [it'|]; [|reflexivity]. rewrite !nth_error_map.
  destruct (nth_error d it') as [x|]; cbn [option_map].
  - rewrite IH. destruct (PfModel.resize_loop A pstep d n _ _ _); reflexivity.
  - destruct (nth_error d itp) as [x|]; cbn [option_map]; [|reflexivity]. rewrite IH. destruct (PfModel.resize_loop A pstep d n _ _ _); reflexivity.
Qed.
Lemma assign_carry pr : forall ps ss, PfModel.assign_states A pr (map cp ps) (map phi ss) = map cp (PfModel.assign_states A pr ps ss).
Proof. induction ps as [|p ps IH]; intros [|s ss]; try reflexivity. cbn [map PfModel.assign_states]. rewrite IH. reflexivity. Qed.
Lemma map_repeat' {X Y} (h : X -> Y) x n : map h (repeat x n) = repeat (h x) n.
Proof. induction n as [|n IH]; [reflexivity|]. cbn [repeat map]. rewrite IH. reflexivity. Qed.
Lemma vec_resize_carry x n ps : PfModel.vec_resize A (phi x) n (map cp ps) = map cp (PfModel.vec_resize A x n ps).
Proof. unfold PfModel.vec_resize. rewrite map_app, firstn_map, map_length, map_repeat'. reflexivity. Qed.
Lemma sum_w_carry ps : PfModel.sum_w A (map cp ps) = PfModel.sum_w A ps.
Proof. unfold PfModel.sum_w. generalize (@f0 A). induction ps as [|p ps IH]; intro a; [reflexivity|]. cbn [map fold_left]. apply IH. Qed.
Lemma entropy_carry ps : PfModel.entropy_sum A (map cp ps) = PfModel.entropy_sum A ps.
Proof. unfold PfModel.entropy_sum. generalize (@f0 A) at 2 4. induction ps as [|p ps IH]; intro a; [reflexivity|]. cbn [map fold_left]. apply IH. Qed.
Lemma filter_eq (a b : PfModel.filter A U) : PfModel.parts A a = PfModel.parts A b -> PfModel.entropy A a = PfModel.entropy A b -> a = b.
Proof. destruct a, b. cbn. intros -> ->. reflexivity. Qed.
Lemma measure_carry l l' f : (forall i s, l' i (phi s) = l i s) -> PfModel.measure A l' (carry phi f) = carry phi (PfModel.measure A l f).
Proof.
  intro H. unfold PfModel.measure. cbn [carry PfModel.parts].
  rewrite (mapi_carry cp cp (fun i p => PfModel.set_w A p (fmul (PfModel.w A p) (l i (PfModel.st A p))))) by (intros i p; unfold PfModel.set_w, carry_particle; cbn [PfModel.st PfModel.w PfModel.bias PfModel.acc]; rewrite H; reflexivity).
  cbv zeta. rewrite sum_w_carry. destruct (flt f0 _).
  - unfold carry. cbn [PfModel.parts PfModel.entropy]. apply filter_eq; cbn [PfModel.parts PfModel.entropy].
    + rewrite !map_map. apply map_ext. intro p. reflexivity.
    + f_equal. f_equal. rewrite map_map. rewrite <- entropy_carry. f_equal. rewrite map_map. apply map_ext. reflexivity.
  - unfold carry. reflexivity.
Qed.
Lemma run_carry (o : PfHist.op A T) o' (f : PfModel.filter A T) : same_op phi o o' -> PfHist.run A o' (carry phi f) = option_map (carry phi) (PfHist.run A o f).
Proof.
  intro H. destruct H as [g g' H|l l' H|pl nm off nz d pl' nm' nz' H|x n d|pl nz pl' nz' H|m m' H|b b' H|x n|qs]; cbn [PfHist.run option_map].
  - f_equal. unfold PfModel.init. cbn [carry PfModel.parts PfModel.entropy]. apply filter_eq; [|reflexivity]. cbn [PfModel.parts carry]. rewrite map_length.
    apply mapi_carry. intros i p. rewrite H. reflexivity.
  - f_equal. apply measure_carry, H.
  - unfold PfModel.resample. cbn [carry PfModel.parts]. rewrite accumulate_carry. destruct (PfModel.accumulate A f0 (PfModel.parts A f)) as [ps t]. cbn [fst snd]. cbv zeta. rewrite map_length.
    rewrite (resample_loop_carry pl nm _ off nz d pl' nm' nz' _ H). destruct (PfModel.resample_loop A pl nm _ off nz d _ _ _ _ _) as [ss|]; cbn [option_map]; [|reflexivity].
    f_equal. apply filter_eq; [|reflexivity]. cbn [PfModel.parts carry]. apply assign_carry.
  - unfold PfModel.resize. cbn [carry PfModel.parts]. rewrite accumulate_carry. destruct (PfModel.accumulate A f0 (PfModel.parts A f)) as [ps t]. cbn [fst snd]. cbv zeta.
    rewrite resize_loop_carry. destruct (PfModel.resize_loop A _ d n _ _ _) as [ss|]; cbn [option_map]; [|reflexivity].
    f_equal. apply filter_eq; [|reflexivity]. cbn [PfModel.parts carry]. rewrite vec_resize_carry. apply assign_carry.
  - f_equal. apply filter_eq; [|reflexivity]. cbn [PfModel.parts carry PfModel.add_noise]. apply mapi_carry. intros i p. unfold PfModel.set_st, carry_particle. cbn [PfModel.st PfModel.w PfModel.bias PfModel.acc]. rewrite H. reflexivity.
  - f_equal. apply filter_eq; [|reflexivity]. cbn [PfModel.parts carry PfModel.predict]. apply mapi_carry. intros i p. unfold PfModel.set_st, carry_particle. cbn [PfModel.st PfModel.w PfModel.bias PfModel.acc]. rewrite H. reflexivity.
  - f_equal. apply filter_eq; [|reflexivity]. cbn [PfModel.parts carry PfModel.do_bias]. apply mapi_carry. intros i p. unfold PfModel.set_bias, carry_particle. cbn [PfModel.st PfModel.w PfModel.bias PfModel.acc]. rewrite H. reflexivity.
  - f_equal. apply filter_eq; [|reflexivity]. cbn [PfModel.parts carry PfModel.append]. rewrite map_length. apply vec_resize_carry.
  - reflexivity.
Qed.
Lemma run_all_carry (ops : list (PfHist.op A T)) ops' : Forall2 (same_op phi) ops ops' -> forall f : PfModel.filter A T, run_all ops' (carry phi f) = option_map (carry phi) (run_all ops f).
Proof.
  induction 1 as [|o o' l l' H F IH]; intro f; [reflexivity|]. cbn [run_all]. rewrite (run_carry o o' f H). destruct (PfHist.run A o f) as [f1|]; cbn [option_map]; [apply IH|reflexivity].
Qed.
(** a legal outcome of the sort stays legal *)
Lemma dup_carry l : forall a, PfModel.dup_of A a (map cp l) = map cx (PfModel.dup_of A a l).
Proof. induction l as [|p l IH]; intro a; [reflexivity|]. cbn [map PfModel.dup_of]. rewrite IH. reflexivity. Qed.
Lemma sorted_carry orig d : PfModel.sorted_copy A orig d -> PfModel.sorted_copy A (map cx orig) (map cx d).
Proof.
  intros [P S]. split; [apply Permutation.Permutation_map, P|]. intros i j x y L Hx Hy. rewrite nth_error_map in Hx, Hy.
  destruct (nth_error d i) as [x0|] eqn:E1; [|discriminate]. destruct (nth_error d j) as [y0|] eqn:E2; [|discriminate]. injection Hx as <-. injection Hy as <-. exact (S i j x0 y0 L E1 E2).
Qed.
Lemma possible_carry (o : PfHist.op A T) o' (f : PfModel.filter A T) : same_op phi o o' -> PfHist.possible A o f -> PfHist.possible A o' (carry phi f).
Proof.
  intros H P. destruct H; cbn [PfHist.possible carry PfModel.parts] in *; auto.
  - rewrite dup_carry. apply sorted_carry, P.
  - rewrite dup_carry. apply sorted_carry, P.
  - destruct P as (P1 & P2 & P3). split; [apply Permutation.Permutation_map, P1|]. split.
    + intros p Hp. apply in_map_iff in Hp. destruct Hp as (q & <- & Hq). exact (P2 q Hq).
    + intros i j p q a b L Hp Hq. rewrite nth_error_map in Hp, Hq. destruct (nth_error qs i) as [x0|] eqn:E1; [|discriminate]. destruct (nth_error qs j) as [y0|] eqn:E2; [|discriminate].
      injection Hp as <-. injection Hq as <-. intros Ha Hb. exact (P3 i j x0 y0 a b L E1 E2 Ha Hb).
Qed.
End Nat.
Local Open Scope R_scope.
(** ** frames *)
Lemma qdot_yaw a q : qdot (qmul (yaw a) q) (qmul (yaw a) q) = qdot q q.
Proof. rewrite qdot_mul, (unit_dot1 _ (unit_yaw a)). ring. Qed.
Lemma normalized_yaw a q : qnormalized (qmul (yaw a) q) = qmul (yaw a) (qnormalized q).
Proof.
  unfold qnormalized, qdiv, QuatModel.qnorm. rewrite qdot_yaw. generalize (1 / sqrt (qdot q q)). intro t. generalize (yaw a). intro y. qdes. unfold qmul, qscale. cbn [QuatModel.qx QuatModel.qy QuatModel.qz QuatModel.qw]. f_equal; ring.
Qed.
Lemma yaw_comm a b : qmul (yaw a) (yaw b) = qmul (yaw b) (yaw a).
Proof. unfold yaw, qmul. cbn [QuatModel.qx QuatModel.qy QuatModel.qz QuatModel.qw]. f_equal; ring. Qed.
Lemma move_vec_add g u v : vadd (move_vec g u) (qrot (yaw (fc_ang g)) v) = move_vec g (vadd u v).
Proof. unfold move_vec. rewrite qrot_add. generalize (qrot (yaw (fc_ang g)) u), (qrot (yaw (fc_ang g)) v), (fc_tr g). intros x y z. qdes. unfold vadd. cbn [vx vy vz]. f_equal; ring. Qed.
Lemma state_eq (a b : state) : pos a = pos b -> rot a = rot b -> diff a = diff b -> noise_ll a = noise_ll b -> noise_la a = noise_la b -> noise_al a = noise_al b ->
  noise_aa a = noise_aa b -> err_lin a = err_lin b -> err_ang a = err_ang b -> rpy a = rpy b -> a = b.
Proof. destruct a, b. cbn. intros -> -> -> -> -> -> -> -> -> ->. reflexivity. Qed.
Lemma predict_moved g m s : motion_predict m (move_pose g s) = move_pose g (motion_predict m s).
Proof.
  apply state_eq; try reflexivity; unfold motion_predict, move_pose; cbv zeta; cbn [pos rot noise_ll noise_la noise_al noise_aa].
  - rewrite qrot_mul. apply move_vec_add.
  - rewrite setAxisAng_ez. rewrite <- normalized_yaw. f_equal. rewrite <- !qmul_assoc. rewrite (yaw_comm _ (fc_ang g)). rewrite !qmul_assoc. reflexivity.
Qed.
Lemma normalize_moved g s : normalize (move_pose g s) = move_pose g (normalize s).
Proof. apply state_eq; try reflexivity. unfold normalize, move_pose. cbn [rot]. apply normalized_yaw. Qed.
Lemma splus_moved g s n : splus (move_pose g s) (move_noise g n) = move_pose g (splus s n).
Proof.
  apply state_eq; try reflexivity; unfold splus, move_pose, move_noise; cbn [pos rot].
  - apply move_vec_add.
  - rewrite !qmul_assoc. rewrite <- (qmul_assoc (inv _) (yaw _)), inv_l by (apply unit_nonzero, unit_yaw). rewrite qmul_1_l. reflexivity.
Qed.
Lemma vadd_move_sub g u v : vsub (move_vec g u) (move_vec g v) = qrot (yaw (fc_ang g)) (vsub u v).
Proof. unfold move_vec. rewrite qrot_sub. generalize (qrot (yaw (fc_ang g)) u), (qrot (yaw (fc_ang g)) v), (fc_tr g). intros x y z. qdes. unfold vadd, vsub. cbn [vx vy vz]. f_equal; ring. Qed.
(** ** the mean *)
Lemma qrot_v0 q : qrot q v0 = v0.
Proof. unfold v0. destruct q. qunf2. f_equal; ring. Qed.
Lemma vnormalized_rot a v : unit_quat a -> vnormalized (qrot a v) = qrot a (vnormalized v).
Proof.
  intro U. unfold vnormalized. rewrite qrot_norm by exact U. unfold vdiv. generalize (vnorm v). intro n.
  replace (V3 (vx (qrot a v) / n) (vy (qrot a v) / n) (vz (qrot a v) / n)) with (vscale (qrot a v) (/ n)) by (unfold vscale; reflexivity).
  replace (V3 (vx v / n) (vy v / n) (vz v / n)) with (vscale v (/ n)) by (unfold vscale; reflexivity). symmetry. apply qrot_scale.
Qed.
Lemma nonzero_rot a v : unit_quat a -> nonzero_vec v -> nonzero_vec (qrot a v).
Proof. intros U H E. apply H. assert (qrot a v = v0) as Z by (unfold v0; destruct (qrot a v) as [x y z]; cbn [vx vy vz] in E; destruct E as (-> & -> & ->); reflexivity). rewrite <- (qrot_inv_l a v U), Z, qrot_v0. cbn. auto. Qed.
Lemma frontup_turned a f u : unit_quat a -> tidy f u -> tidy (qrot a f) (qrot a u) ->
  same_rotation (fromFrontUp (qrot a f) (qrot a u)) (qmul a (fromFrontUp f u)).
Proof.
  intros U (N1 & N2 & T) (M1 & M2 & T'). cbv zeta in T, T'.
  destruct (frontup_frame f u N1 N2 T) as (Uq & _ & Fx & _ & Fz). destruct (frontup_frame _ _ M1 M2 T') as (Uq' & _ & Fx' & _ & Fz').
  apply up_to_sign_same, (two_images (qmul a (fromFrontUp f u)) (fromFrontUp (qrot a f) (qrot a u)) ez); auto.
  - apply unit_mul; assumption.
  - rewrite qrot_mul, Fx, Fx'. symmetry. apply vnormalized_rot, U.
  - rewrite qrot_mul, Fz, Fz'. rewrite !vnormalized_rot, !qrot_cross, !vnormalized_rot, !qrot_cross, !vnormalized_rot by exact U. reflexivity.
  - cbn. intros [_ X]; lra.
Qed.

Definition moved_mean (g : frame_change) (m m' : qmean) : Prop :=
  m_sum m' = m_sum m /\ m_pos m' = vadd (qrot (yaw (fc_ang g)) (m_pos m)) (vscale (fc_tr g) (m_sum m)) /\
  m_front m' = qrot (yaw (fc_ang g)) (m_front m) /\ m_up m' = qrot (yaw (fc_ang g)) (m_up m).
Lemma mean_add_moved g m m' s x : moved_mean g m m' -> moved_mean g (qmean_add m s x) (qmean_add m' (move_pose g s) x).
Proof.
  intros (A & B & C & D). unfold moved_mean, qmean_add. cbn [m_sum m_pos m_front m_up move_pose pos rot]. rewrite A, B, C, D, !qrot_mul, !qrot_add, !qrot_scale. split; [reflexivity|]. split; [|auto].
  unfold move_vec. generalize (qrot (yaw (fc_ang g)) (m_pos m)), (qrot (yaw (fc_ang g)) (pos s)), (fc_tr g), (m_sum m). intros u v t y. destruct u as [u1 u2 u3], v as [v1 v2 v3], t as [t1 t2 t3]. unfold vadd, vscale. cbn [vx vy vz]. f_equal; ring.
Qed.
Lemma mean0_moved g : moved_mean g qmean0 qmean0.
Proof. unfold moved_mean, qmean0. cbn [m_sum m_pos m_front m_up]. rewrite qrot_v0. repeat split. unfold v0, vadd, vscale. destruct (fc_tr g) as [t1 t2 t3]. cbn [vx vy vz]. f_equal; ring. Qed.
Notation mfold ps m := (fold_left (fun acc p => PfModel.mean_add RA pose_mean acc (PfModel.st RA p) (PfModel.w RA p)) ps m).
Lemma mean_fold_moved g ps : forall m m' : qmean, moved_mean g m m' -> moved_mean g (mfold ps m) (mfold (map (carry_particle (move_pose g)) ps) m').
Proof.
  induction ps as [|p ps IH]; intros m m' H; [exact H|]. cbn [map fold_left]. apply IH. exact (mean_add_moved g m m' _ _ H).
Qed.
Lemma mean_front ps : forall m : qmean, m_front (mfold ps m) = fold_left (fun v p => vadd v (vscale (qrot (rot (PfModel.st RA p)) ex) (PfModel.w RA p))) ps (m_front m)
  /\ m_up (mfold ps m) = fold_left (fun v p => vadd v (vscale (qrot (rot (PfModel.st RA p)) ez) (PfModel.w RA p))) ps (m_up m)
  /\ m_sum (mfold ps m) = m_sum m + Rsum (map (PfModel.w RA) ps).
Proof.
  induction ps as [|p ps IH]; intros m.
  - split; [reflexivity|]. split; [reflexivity|]. unfold PfSpec.Rsum. cbn. symmetry. apply Rplus_0_r.
  - cbn [fold_left map]. destruct (IH (qmean_add m (PfModel.st RA p) (PfModel.w RA p))) as (A & B & C). split; [exact A|]. split; [exact B|].
    refine (eq_trans C _). cbn [qmean_add m_sum]. unfold PfSpec.Rsum. cbn [fold_right map]. apply Rplus_assoc.
Qed.
Lemma carry_weights g ps : map (PfModel.w RA) (map (carry_particle (move_pose g)) ps) = map (PfModel.w RA) ps.
Proof. rewrite map_map. reflexivity. Qed.
Lemma direction_moved g d f : direction d (carry (move_pose g) f) = qrot (yaw (fc_ang g)) (direction d f).
Proof.
  unfold direction, carry. cbn [PfModel.parts].
  cut (forall ps v, fold_left (fun v p => vadd v (vscale (qrot (rot (PfModel.st RA p)) d) (PfModel.w RA p))) (map (carry_particle (move_pose g)) ps) (qrot (yaw (fc_ang g)) v)
    = qrot (yaw (fc_ang g)) (fold_left (fun v p => vadd v (vscale (qrot (rot (PfModel.st RA p)) d) (PfModel.w RA p))) ps v)).
  { intro H. rewrite <- H, qrot_v0. reflexivity. }
  induction ps as [|p ps IH]; intro v; [reflexivity|]. cbn [map fold_left]. rewrite <- IH. f_equal. rewrite qrot_add. f_equal. cbn [carry_particle PfModel.st PfModel.w move_pose rot]. rewrite qrot_mul, qrot_scale. reflexivity.
Qed.
Lemma mean_moved g (f : PfModel.filter RA state) : Forall (fun x => 0 <= x) (PfSpec.weights RA f) -> 0 < Rsum (PfSpec.weights RA f) <= 1 ->
  tidy (direction ex f) (direction ez f) -> tidy (direction ex (carry (move_pose g) f)) (direction ez (carry (move_pose g) f)) ->
  exists e e', PfModel.expectation RA pose_mean (1 : RA) f = Some e /\ PfModel.expectation RA pose_mean (1 : RA) (carry (move_pose g) f) = Some e' /\
    pos e' = move_vec g (pos e) /\ same_rotation (rot e') (qmul (yaw (fc_ang g)) (rot e)).
Proof.
  intros Hw Hs T T'. unfold PfModel.expectation.
  assert (Hs1 : m_sum qmean0 + Rsum (map (PfModel.w RA) (PfModel.parts RA f)) <= 1) by (cbn [qmean0 m_sum]; rewrite Rplus_0_l; exact (proj2 Hs)).
  change (PfModel.mean_new RA pose_mean) with qmean0.
  rewrite (StateProofs.expect_all pose_mean m_sum (fun _ _ _ => eq_refl) (fun _ => eq_refl) (PfModel.parts RA f) qmean0 Hw Hs1).
  rewrite (StateProofs.expect_all pose_mean m_sum (fun _ _ _ => eq_refl) (fun _ => eq_refl) (PfModel.parts RA (carry (move_pose g) f)) qmean0) by (cbn [carry PfModel.parts]; rewrite carry_weights; assumption).
  cbn [carry PfModel.parts].
  pose proof (mean_fold_moved g (PfModel.parts RA f) qmean0 qmean0 (mean0_moved g)) as MM.
  destruct (mean_front (PfModel.parts RA f) qmean0) as (F1 & F2 & F3).
  set (m := mfold (PfModel.parts RA f) qmean0) in *. set (m' := mfold (map (carry_particle (move_pose g)) (PfModel.parts RA f)) qmean0) in *. clearbody m m'. cbn [qmean0 m_sum m_front m_up] in F1, F2, F3.
  destruct MM as (A & B & C & D). fold (direction ex f) in F1. fold (direction ez f) in F2. rewrite !direction_moved in T'. rewrite <- F1, <- F2 in T, T'.
  assert (P : 0 < m_sum m) by (rewrite F3; unfold PfSpec.weights in Hs; cbn in Hs |- *; lra).
  change (PfModel.mean_total RA pose_mean m) with (m_sum m). change (PfModel.mean_total RA pose_mean m') with (m_sum m'). rewrite A.
  assert (L : @flt RA f0 (m_sum m) = true) by (apply Rltb_true; exact P). rewrite L.
  eexists. eexists. split; [reflexivity|]. split; [reflexivity|]. cbn [PfModel.mean_get pose_mean]. unfold qmean_get. rewrite B, C, D, A. unfold state_pr. cbn [pos rot]. split.
  - unfold move_vec. replace (vdiv (m_pos m) (m_sum m)) with (vscale (m_pos m) (/ m_sum m)) by (unfold vscale, vdiv; reflexivity). rewrite qrot_scale.
    generalize (qrot (yaw (fc_ang g)) (m_pos m)), (fc_tr g). intros u t. destruct u as [u1 u2 u3], t as [t1 t2 t3]. unfold vadd, vscale, vdiv. cbn [vx vy vz]. f_equal; field; lra.
  - apply frontup_turned; [apply unit_yaw|exact T|exact T'].
Qed.
