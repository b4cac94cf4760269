(** Finite sums, inverses, determinants of diagonal matrices. *)
From Coq Require Import Reals List Arith Lra Lia Bool.
From Verif Require Import Arith NdModel NdSpec MatModel MatSpec.
Import ListNotations.
Open Scope R_scope.

Lemma rsum_ext n f g : (forall i, (i < n)%nat -> f i = g i) -> rsum n f = rsum n g.
Proof. induction n as [|n IH]; intros H; [reflexivity|]. cbn [rsum]. rewrite IH by (intros; apply H; lia). rewrite H by lia. reflexivity. Qed.
Lemma rsum_0 n f : (forall i, (i < n)%nat -> f i = 0) -> rsum n f = 0.
Proof. induction n as [|n IH]; intros H; [reflexivity|]. cbn [rsum]. rewrite IH, H by (intros; try apply H; lia). lra. Qed.
Lemma rsum_plus n f g : rsum n (fun i => f i + g i) = rsum n f + rsum n g.
Proof. induction n as [|n IH]; cbn [rsum]; [lra|]. rewrite IH. lra. Qed.
Lemma rsum_scale n c f : rsum n (fun i => c * f i) = c * rsum n f.
Proof. induction n as [|n IH]; cbn [rsum]; [lra|]. rewrite IH. lra. Qed.
Lemma rsum_scale_r n c f : rsum n (fun i => f i * c) = rsum n f * c.
Proof. rewrite (Rmult_comm (rsum n f)), <- rsum_scale. apply rsum_ext. intros. ring. Qed.
Lemma rsum_swap n m f : rsum n (fun i => rsum m (fun j => f i j)) = rsum m (fun j => rsum n (fun i => f i j)).
Proof.
  induction n as [|n IH]; cbn [rsum]; [symmetry; apply rsum_0; reflexivity|].
  rewrite IH, <- rsum_plus. reflexivity.
Qed.
Lemma rsum_delta n k f : (k < n)%nat -> rsum n (fun i => delta k i * f i) = f k.
Proof.
  induction n as [|n IH]; intros H; [lia|]. cbn [rsum]. unfold delta at 2. destruct (Nat.eqb_spec k n) as [->|Hn].
  - rewrite rsum_0; [lra|]. intros i Hi. unfold delta. destruct (Nat.eqb_spec n i); [lia|lra].
  - rewrite IH by lia. lra.
Qed.
Lemma rsum_delta_r n k f : (k < n)%nat -> rsum n (fun i => f i * delta i k) = f k.
Proof. intro H. rewrite <- (rsum_delta n k f H). apply rsum_ext. intros i _. unfold delta. rewrite (Nat.eqb_sym i k). ring. Qed.
Lemma rsum_le n f g : (forall i, (i < n)%nat -> f i <= g i) -> rsum n f <= rsum n g.
Proof. induction n as [|n IH]; intros H; cbn [rsum]; [lra|]. apply Rplus_le_compat; [apply IH; intros; apply H|apply H]; lia. Qed.
Lemma rsum_S n f : rsum (S n) f = f 0%nat + rsum n (fun i => f (S i)).
Proof. induction n as [|n IH]; cbn [rsum] in *; [lra|]. rewrite IH. lra. Qed.

(** the exponent is minus half the quadratic form of the inverse *)
Lemma eval_form n d x : ndn_eval n d x = ndn_a d * exp (- (form n (ndn_inv d) x / 2)).
Proof.
  unfold ndn_eval, form. f_equal. f_equal.
  transitivity (rsum n (fun j => rsum n (fun i => (- / 2) * (x i * ndn_inv d i j * x j)))).
  - apply rsum_ext. intros j _. rewrite <- rsum_scale_r. apply rsum_ext. intros i _. ring.
  - rewrite rsum_swap. rewrite (rsum_ext n _ (fun i => - / 2 * rsum n (fun j => x i * ndn_inv d i j * x j))) by (intros; rewrite <- rsum_scale; reflexivity).
    rewrite rsum_scale. lra.
Qed.
Lemma form_neg n m x : form n m (fun i => - x i) = form n m x.
Proof. unfold form. apply rsum_ext. intros. apply rsum_ext. intros. ring. Qed.
Lemma form_scale n m t x : form n m (fun i => t * x i) = t * t * form n m x.
Proof. unfold form. rewrite <- rsum_scale. apply rsum_ext. intros. rewrite <- rsum_scale. apply rsum_ext. intros. ring. Qed.
Lemma form_zero n m x : (forall i, (i < n)%nat -> x i = 0) -> form n m x = 0.
Proof. intro H. unfold form. apply rsum_0. intros i Hi. apply rsum_0. intros j Hj. rewrite (H i Hi). ring. Qed.
Lemma form_ext n m x y : (forall i, (i < n)%nat -> x i = y i) -> form n m x = form n m y.
Proof. intro H. unfold form. apply rsum_ext. intros i Hi. apply rsum_ext. intros j Hj. rewrite (H i Hi), (H j Hj). reflexivity. Qed.
Lemma form_transpose n m x : form n (fun i j => m j i) x = form n m x.
Proof. unfold form. rewrite rsum_swap. apply rsum_ext. intros. apply rsum_ext. intros. ring. Qed.
(** the inverse of a positive definite matrix is positive definite *)
Lemma inverse_form n m b x : is_inverse n m b -> form n b x = form n m (fun j => rsum n (fun k => b j k * x k)).
Proof.
  intro H. set (y := fun j => rsum n (fun k => b j k * x k)).
  assert (Hx : forall i, (i < n)%nat -> rsum n (fun j => m i j * y j) = x i).
  { intros i Hi. unfold y. rewrite (rsum_ext n _ (fun j => rsum n (fun k => m i j * b j k * x k))) by (intros; rewrite <- rsum_scale; apply rsum_ext; intros; ring).
    rewrite rsum_swap. rewrite (rsum_ext n _ (fun k => delta i k * x k)) by (intros; rewrite rsum_scale_r, H by assumption; reflexivity).
    apply rsum_delta. exact Hi. }
  unfold form. transitivity (rsum n (fun i => x i * y i)).
  - apply rsum_ext. intros i Hi. unfold y. rewrite <- rsum_scale. apply rsum_ext. intros. ring.
  - apply rsum_ext. intros i Hi. rewrite <- (Hx i Hi), <- rsum_scale_r. apply rsum_ext. intros. ring.
Qed.
Lemma inverse_pos_def n m b : is_inverse n m b -> pos_def n m -> pos_def n b.
Proof.
  intros H P x (i & Hi & Hx). rewrite (inverse_form n m b x H). apply P.
  destruct (Classical_Prop.classic (nonzero n (fun j => rsum n (fun k => b j k * x k)))) as [N|N]; [exact N|exfalso].
  assert (Z : forall j, (j < n)%nat -> rsum n (fun k => b j k * x k) = 0).
  { intros j Hj. destruct (Req_dec (rsum n (fun k => b j k * x k)) 0) as [E|E]; [exact E|]. exfalso. apply N. exists j. auto. }
  apply Hx. rewrite <- (rsum_delta n i x Hi).
  rewrite (rsum_ext n _ (fun k => rsum n (fun j => m i j * b j k * x k))) by (intros; rewrite rsum_scale_r, H by assumption; reflexivity).
  rewrite rsum_swap. apply rsum_0. intros j Hj. rewrite (rsum_ext n _ (fun k => m i j * (b j k * x k))) by (intros; ring). rewrite rsum_scale, (Z j Hj). ring.
Qed.
(** determinants *)
Lemma det_ext n : forall m m', (forall i j, (i < n)%nat -> (j < n)%nat -> m i j = m' i j) -> det n m = det n m'.
Proof.
  induction n as [|n IH]; intros m m' H; [reflexivity|]. cbn [det]. apply rsum_ext. intros j Hj. rewrite (H 0%nat j) by lia. f_equal.
  apply IH. intros a b Ha Hb. unfold minor. destruct (Nat.ltb_spec b j); apply H; lia.
Qed.
Lemma rprod_S n f : rprod (S n) f = f 0%nat * rprod n (fun i => f (S i)).
Proof. induction n as [|n IH]; cbn [rprod] in *; [lra|]. rewrite IH. ring. Qed.
Lemma det_diagonal n : forall m v, diagonal_of n m v -> det n m = rprod n v.
Proof.
  induction n as [|n IH]; intros m v H; [reflexivity|]. cbn [det]. rewrite rsum_S, rprod_S. rewrite rsum_0.
  - rewrite (H 0%nat 0%nat) by lia. cbn [Nat.eqb pow]. rewrite (IH (minor 0 m) (fun i => v (S i))); [ring|].
    intros i j Hi Hj. unfold minor. cbn [Nat.ltb Nat.leb]. rewrite (H (S i) (S j)) by lia. reflexivity.
  - intros i Hi. rewrite (H 0%nat (S i)) by lia. cbn [Nat.eqb]. ring.
Qed.
Lemma rprod_pos n f : (forall i, (i < n)%nat -> 0 < f i) -> 0 < rprod n f.
Proof. induction n as [|n IH]; intros H; cbn [rprod]; [lra|]. apply Rmult_lt_0_compat; [apply IH; intros; apply H|apply H]; lia. Qed.
Lemma rprod_ext n f g : (forall i, (i < n)%nat -> f i = g i) -> rprod n f = rprod n g.
Proof. induction n as [|n IH]; intros H; [reflexivity|]. cbn [rprod]. rewrite IH by (intros; apply H; lia). rewrite H by lia. reflexivity. Qed.
Lemma diagonal_inverse n m b v : diagonal_of n m v -> is_inverse n m b -> (forall i, (i < n)%nat -> v i <> 0) ->
  diagonal_of n b (fun i => / v i).
Proof.
  intros D H V i j Hi Hj. pose proof (H i j Hi Hj) as E.
  rewrite (rsum_ext n _ (fun k => delta i k * (v i * b k j))) in E.
  - rewrite rsum_delta in E by exact Hi. unfold delta in E. destruct (Nat.eqb_spec i j) as [->|Hn].
    + apply Rmult_eq_reg_l with (v j); [|apply V; assumption]. rewrite E. field. apply V. assumption.
    + apply Rmult_integral in E. destruct E as [E|E]; [destruct (V i Hi E)|exact E].
  - intros k Hk. rewrite (D i k Hi Hk). unfold delta. destruct (Nat.eqb_spec i k); [subst|]; ring.
Qed.
Lemma form_diagonal n m v x : diagonal_of n m v -> form n m x = rsum n (fun i => v i * (x i * x i)).
Proof.
  intro D. unfold form. apply rsum_ext. intros i Hi. rewrite (rsum_ext n _ (fun j => delta i j * (v i * x i * x j))).
  - rewrite rsum_delta by exact Hi. ring.
  - intros j Hj. rewrite (D i j Hi Hj). unfold delta. destruct (Nat.eqb_spec i j); [subst|]; ring.
Qed.
(** the density of independent components *)
Lemma gauss_product n v x : (forall i, (i < n)%nat -> 0 < v i) ->
  rprod n (fun i => gauss (sqrt (v i)) (x i)) = 1 / (Rpower (2 * PI) (/ 2 * INR n) * sqrt (rprod n v)) * exp (- (rsum n (fun i => / v i * (x i * x i)) / 2)).
Proof.
  assert (HP : 0 < 2 * PI) by (pose proof PI_RGT_0; lra).
  induction n as [|n IH]; intros V.
  - cbn [rprod rsum INR]. rewrite Rmult_0_r, Rpower_O by exact HP. rewrite sqrt_1. replace (- (0 / 2)) with 0 by lra. rewrite exp_0. lra.
  - cbn [rprod]. rewrite IH by (intros; apply V; lia).
    assert (Vn : 0 < v n) by (apply V; lia). assert (Vp : 0 < rprod n v) by (apply rprod_pos; intros; apply V; lia).
    assert (Sn : 0 < sqrt (v n)) by (apply sqrt_lt_R0; exact Vn). assert (Sp : 0 < sqrt (rprod n v)) by (apply sqrt_lt_R0; exact Vp).
    assert (S2 : 0 < sqrt (2 * PI)) by (apply sqrt_lt_R0; exact HP).
    rewrite sqrt_mult by lra. rewrite S_INR. replace (/ 2 * (INR n + 1)) with (/ 2 * INR n + / 2) by lra. rewrite Rpower_plus, Rpower_sqrt by exact HP.
    assert (Pp : 0 < Rpower (2 * PI) (/ 2 * INR n)) by apply exp_pos.
    cbn [rsum]. replace (- ((rsum n (fun i => / v i * (x i * x i)) + / v n * (x n * x n)) / 2)) with (- (rsum n (fun i => / v i * (x i * x i)) / 2) + (- (x n / sqrt (v n)) ^ 2 / 2)).
    + rewrite exp_plus. unfold gauss. rewrite Rabs_pos_eq by lra. field. lra.
    + replace ((x n / sqrt (v n)) ^ 2) with (/ v n * (x n * x n)); [lra|].
      replace (/ v n) with (/ (sqrt (v n) * sqrt (v n))) by (rewrite sqrt_sqrt by lra; reflexivity). field. lra.
Qed.
(** ** eigenvectors *)
Lemma rsum_const_swap n f g : rsum n (fun i => rsum n (fun j => f i * g j)) = rsum n f * rsum n g.
Proof. rewrite (rsum_ext n _ (fun i => f i * rsum n g)) by (intros; apply rsum_scale). apply rsum_scale_r. Qed.
Lemma eigenvalue_form n m V l a : eigen_of n m V l -> (a < n)%nat -> form n (lower m) (fun i => V i a) = l a.
Proof.
  intros [O E] Ha. unfold form.
  rewrite (rsum_ext n _ (fun i => rsum n (fun j => rsum n (fun k => l k * ((V i a * V i k) * (V j a * V j k)))))).
  2: { intros i Hi. apply rsum_ext. intros j Hj. rewrite <- (E i j Hi Hj), <- rsum_scale, <- rsum_scale_r. apply rsum_ext. intros. ring. }
  rewrite (rsum_ext n _ (fun i => rsum n (fun k => rsum n (fun j => l k * ((V i a * V i k) * (V j a * V j k)))))) by (intros; apply rsum_swap).
  rewrite rsum_swap. rewrite (rsum_ext n _ (fun k => delta a k * (delta a k * l k))).
  - rewrite rsum_delta by exact Ha. unfold delta. rewrite Nat.eqb_refl. ring.
  - intros k Hk. rewrite (rsum_ext n _ (fun i => l k * rsum n (fun j => (V i a * V i k) * (V j a * V j k)))) by (intros; apply rsum_scale).
    rewrite rsum_scale, (rsum_const_swap n (fun i => V i a * V i k) (fun j => V j a * V j k)), !O by assumption. ring.
Qed.
Lemma eigen_nonneg n m V l : eigen_of n m V l -> pos_semidef n (lower m) -> forall k, (k < n)%nat -> 0 <= l k.
Proof. intros E P k Hk. rewrite <- (eigenvalue_form n m V l k E Hk). apply P. Qed.
Lemma transform_square n m V l i j : eigen_of n m V l -> (forall k, (k < n)%nat -> 0 <= l k) -> (i < n)%nat -> (j < n)%nat ->
  rsum n (fun k => norm_transform V l i k * norm_transform V l j k) = lower m i j.
Proof.
  intros [_ E] P Hi Hj. rewrite <- (E i j Hi Hj). apply rsum_ext. intros k Hk. unfold norm_transform.
  transitivity (V i k * (sqrt (l k) * sqrt (l k)) * V j k); [ring|]. rewrite sqrt_sqrt by (apply P; exact Hk). reflexivity.
Qed.
(** averages *)
Lemma average_ext l f g : (forall x, f x = g x) -> average l f = average l g.
Proof. intro H. unfold average. induction l as [|a l IH]; cbn [fold_right]; [reflexivity|]. rewrite IH, H. reflexivity. Qed.
Lemma average_plus l f g : average l (fun x => f x + g x) = average l f + average l g.
Proof. unfold average. induction l as [|a l IH]; cbn [fold_right]; [lra|]. rewrite IH. ring. Qed.
Lemma average_scale l c f : average l (fun x => c * f x) = c * average l f.
Proof. unfold average. induction l as [|a l IH]; cbn [fold_right]; [lra|]. rewrite IH. ring. Qed.
Lemma average_rsum l n f : average l (fun x => rsum n (fun i => f i x)) = rsum n (fun i => average l (f i)).
Proof.
  induction n as [|n IH]; cbn [rsum].
  - unfold average. induction l as [|a l IH]; cbn [fold_right]; [reflexivity|]. rewrite IH. ring.
  - rewrite average_plus, IH. reflexivity.
Qed.
Lemma average_map l g f : average (map (fun pz => (fst pz, g (snd pz))) l) f = average l (fun x => f (g x)).
Proof. unfold average. induction l as [|a l IH]; cbn [map fold_right fst snd]; [reflexivity|]. rewrite IH. reflexivity. Qed.
Lemma multi_nth dim mean t z i : (i < dim)%nat -> nth i (multi_noise dim mean t z) 0 = mean i + rsum dim (fun j => t i j * z j).
Proof.
  intro H. unfold multi_noise. rewrite (nth_indep _ 0 (mean 0%nat + rsum dim (fun j => t 0%nat j * z j))) by (rewrite map_length, seq_length; exact H).
  rewrite (map_nth (fun i => mean i + rsum dim (fun j => t i j * z j)) (seq 0 dim) 0%nat i), seq_nth by exact H. reflexivity.
Qed.
Lemma samples_mean n mean t l : total l = 1 -> has_mean n l (fun _ => 0) ->
  has_mean n (samples n mean t l) mean.
Proof.
  intros T M i Hi. unfold samples. rewrite (average_map l (fun z => (fun i => nth i (multi_noise n mean t z) 0) : vec) (fun x => x i)).
  rewrite (average_ext l _ (fun z => mean i * 1 + rsum n (fun j => t i j * z j))) by (intro; rewrite multi_nth by exact Hi; ring).
  rewrite average_plus, average_scale, average_rsum. change (average l (fun _ => 1)) with (total l). rewrite T.
  rewrite rsum_0; [ring|]. intros j Hj. rewrite average_scale, (M j Hj). ring.
Qed.
Lemma samples_cov n mean t l : has_cov n l (fun _ => 0) delta ->
  has_cov n (samples n mean t l) mean (fun i j => rsum n (fun k => t i k * t j k)).
Proof.
  intros C i j Hi Hj. unfold samples. rewrite (average_map l (fun z => (fun i => nth i (multi_noise n mean t z) 0) : vec) (fun x => (x i - mean i) * (x j - mean j))).
  rewrite (average_ext l _ (fun z => rsum n (fun a => rsum n (fun b => (t i a * t j b) * ((z a - 0) * (z b - 0)))))).
  - rewrite average_rsum. apply rsum_ext. intros a Ha. rewrite average_rsum.
    rewrite (rsum_ext n _ (fun b => delta a b * (t i a * t j b))) by (intros b Hb; rewrite average_scale, (C a b Ha Hb); ring).
    apply (rsum_delta n a (fun b => t i a * t j b) Ha).
  - intro z. rewrite !multi_nth by assumption. transitivity (rsum n (fun a => t i a * z a) * rsum n (fun b => t j b * z b)); [ring|].
    rewrite <- rsum_const_swap. apply rsum_ext. intros a _. apply rsum_ext. intros b _. ring.
Qed.
