From Coq Require Import Reals ZArith List Arith Bool Permutation Lra Lia Sorted.
From Verif Require Import Arith PfModel PfSpec.
Import ListNotations.

(** * Generic facts (any arithmetic) *)
Section Mapi.
Context {X Y : Type}.
Lemma mapi_from_nth (f : nat -> X -> Y) l k i :
  nth_error (mapi_from k f l) i = option_map (f (k + i)) (nth_error l i).
Proof.
  revert k i. induction l as [|x l IH]; intros k [|i]; cbn; try reflexivity.
  - rewrite Nat.add_0_r. reflexivity.
  - rewrite IH. f_equal. f_equal. lia.
Qed.
Lemma mapi_nth (f : nat -> X -> Y) l i :
  nth_error (mapi f l) i = option_map (f i) (nth_error l i).
Proof. apply mapi_from_nth. Qed.
Lemma mapi_from_length (f : nat -> X -> Y) l k : length (mapi_from k f l) = length l.
Proof. revert k. induction l as [|x l IH]; intros k; cbn; auto. Qed.
Lemma mapi_length (f : nat -> X -> Y) l : length (mapi f l) = length l.
Proof. apply mapi_from_length. Qed.
Lemma mapi_from_combine (f : nat -> X -> Y) l k :
  mapi_from k f l = map (fun ip => f (fst ip) (snd ip)) (combine (seq k (length l)) l).
Proof. revert k. induction l as [|x l IH]; intros k; cbn; [reflexivity|]. rewrite IH. reflexivity. Qed.
Lemma map_mapi_from {Z} (g : Y -> Z) (f : nat -> X -> Y) l k :
  map g (mapi_from k f l) = mapi_from k (fun i x => g (f i x)) l.
Proof. revert k. induction l as [|x l IH]; intros k; cbn; [reflexivity|]. rewrite IH. reflexivity. Qed.
Lemma mapi_from_const (g : X -> Y) l k : mapi_from k (fun _ x => g x) l = map g l.
Proof. revert k. induction l as [|x l IH]; intros k; cbn; [reflexivity|]. rewrite IH. reflexivity. Qed.
End Mapi.

Section Generic.
Context (A : arith) {T : Type}.
Implicit Types (f : filter A T) (p : particle A T) (d : list (A * T)).

Lemma measure_scores L f :
  map (w A) (mapi (fun i p => set_w A p (fmul (w A p) (L i (st A p)))) (parts A f)) = scores A L f.
Proof.
  unfold mapi, scores. rewrite map_mapi_from, mapi_from_combine. reflexivity.
Qed.
Lemma fold_sum_map ps (a : A) :
  fold_left (fun a p => fadd a (w A p)) ps a = fold_left fadd (map (@w A T) ps) a.
Proof. revert a. induction ps as [|p ps IH]; intros a; cbn; auto. Qed.
Lemma measure_sum L f :
  sum_w A (mapi (fun i p => set_w A p (fmul (w A p) (L i (st A p)))) (parts A f))
  = fold_left fadd (scores A L f) f0.
Proof. unfold sum_w. rewrite fold_sum_map, measure_scores. reflexivity. Qed.

Lemma measure_noop L f :
  flt f0 (fold_left fadd (scores A L f) f0) = false -> measure A L f = f.
Proof.
  intros H. unfold measure. rewrite measure_sum, H. destruct f; reflexivity.
Qed.

Lemma measure_shape L f :
  length (parts A (measure A L f)) = length (parts A f)
  /\ poses A (measure A L f) = poses A f /\ biases A (measure A L f) = biases A f
  /\ map (acc A) (parts A (measure A L f)) = map (acc A) (parts A f).
Proof.
  unfold measure, poses, biases.
  destruct (flt f0 _); cbn [parts]; [|auto].
  rewrite !map_map, map_length, mapi_length. cbn.
  unfold mapi. rewrite !map_mapi_from. cbn. rewrite !mapi_from_const. auto.
Qed.

(** ** accumulate *)
Lemma accumulate_spec ps (a : A) :
  length (fst (accumulate A a ps)) = length ps
  /\ map (st A) (fst (accumulate A a ps)) = map (st A) ps
  /\ map (w A) (fst (accumulate A a ps)) = map (w A) ps
  /\ map (bias A) (fst (accumulate A a ps)) = map (bias A) ps
  /\ snd (accumulate A a ps) = fold_left fadd (map (@w A T) ps) a
  /\ map (fun p => match acc A p with Some x => [(x, st A p)] | None => [] end)
         (fst (accumulate A a ps)) = map (fun x => [x]) (dup_of A a ps).
Proof.
  revert a. induction ps as [|p ps IH]; intros a; cbn; [repeat split|].
  specialize (IH (fadd a (w A p))).
  destruct (accumulate A (fadd a (w A p)) ps) as [qs t]. cbn in *.
  destruct IH as (H1 & H2 & H3 & H4 & H5 & H6).
  rewrite H1, H2, H3, H4, H5, H6. repeat split.
Qed.
Lemma dup_length ps (a : A) : length (dup_of A a ps) = length (ps : list (particle A T)).
Proof. revert a. induction ps as [|p ps IH]; intros a; cbn; auto. Qed.
Lemma dup_states ps (a : A) : map snd (dup_of A a ps) = map (@st A T) ps.
Proof. revert a. induction ps as [|p ps IH]; intros a; cbn; [reflexivity|]. f_equal. apply IH. Qed.

Lemma assign_spec prob ps ss :
  length ss = length ps ->
  map (@st A T) (assign_states A prob ps ss) = ss
  /\ map (w A) (assign_states A prob ps ss) = repeat prob (length ps)
  /\ map (bias A) (assign_states A prob ps ss) = map (bias A) ps
  /\ map (acc A) (assign_states A prob ps ss) = map (acc A) ps.
Proof.
  revert ss. induction ps as [|p ps IH]; intros [|s ss] H; try discriminate; [repeat split|].
  injection H as H. cbn. destruct (IH ss H) as (H1 & H2 & H3 & H4). rewrite H1, H2, H3, H4.
  repeat split.
Qed.

(** ** lower_bound stays in range *)
Lemma lower_bound_range fuel d first len (v : A) :
  len <= fuel -> first + len <= length d ->
  exists r, lower_bound A fuel d first len v = Some r /\ first <= r <= first + len.
Proof.
  revert first len. induction fuel as [|fuel IH]; intros first len Hf Hl.
  - assert (len = 0) by lia. subst. cbn. exists first. split; [reflexivity|lia].
  - destruct len as [|len]; [exists first; split; [reflexivity|lia]|].
    cbn [lower_bound].
    assert (Hh : Nat.div2 (S len) < S len) by (apply Nat.lt_div2; lia).
    destruct (nth_error d (first + Nat.div2 (S len))) as [x|] eqn:Hx.
    2:{ apply nth_error_None in Hx. lia. }
    destruct (flt (fst x) v).
    + destruct (IH (first + Nat.div2 (S len) + 1) (S len - Nat.div2 (S len) - 1)) as (r & H1 & H2); [lia|lia|].
      exists r. split; [exact H1|lia].
    + destruct (IH first (Nat.div2 (S len))) as (r & H1 & H2); [lia|lia|].
      exists r. split; [exact H1|lia].
Qed.
Lemma lower_bound_from_range d it (v : A) :
  it <= length d -> exists r, lower_bound_from A d it v = Some r /\ it <= r <= length d.
Proof.
  intros H. destruct (lower_bound_range (length d) d it (length d - it) v) as (r & H1 & H2); [lia|lia|].
  exists r. split; [exact H1|lia].
Qed.

(** ** the scan loops *)
Lemma resample_loop_pool plus normalize pstep offset noise d n :
  forall i it itp k, itp < length d -> itp <= it <= length d ->
  exists ss sel, resample_loop A plus normalize pstep offset noise d n i it itp k = Some ss
    /\ length ss = n /\ length sel = n
    /\ from_pool plus normalize noise (map snd d) itp k ss sel.
Proof.
  induction n as [|n IH]; intros i it itp k Hitp Hit.
  - exists [], []. cbn. repeat split; constructor.
  - cbn [resample_loop].
    destruct (lower_bound_from_range d it (fadd (fmul pstep (fofnat i)) offset)) as (r & Hr & Hr2); [lia|].
    rewrite Hr. destruct (nth_error d r) as [x|] eqn:Hx.
    + assert (Hlt : r < length d) by (apply nth_error_Some; congruence).
      assert (Hxs : nth_error (map snd d) r = Some (snd x)) by (rewrite nth_error_map, Hx; reflexivity).
      destruct (Nat.eqb_spec r itp) as [->|Hne].
      * destruct (IH (S i) itp itp (S k)) as (ss & sel & H1 & H2 & H3 & H4); [lia|lia|].
        rewrite H1. exists (normalize (plus (snd x) (noise k)) :: ss), (itp :: sel).
        cbn. repeat split; try congruence. apply fp_noisy; assumption.
      * destruct (IH (S i) r r k) as (ss & sel & H1 & H2 & H3 & H4); [lia|lia|].
        rewrite H1. exists (snd x :: ss), (r :: sel).
        cbn. repeat split; try congruence. apply fp_copy; [lia|assumption|assumption].
    + destruct (nth_error d itp) as [y|] eqn:Hy.
      2:{ apply nth_error_None in Hy. lia. }
      destruct (IH (S i) r itp k) as (ss & sel & H1 & H2 & H3 & H4); [lia|lia|].
      rewrite H1. exists (snd y :: ss), (itp :: sel).
      cbn. repeat split; try congruence.
      apply fp_copy; [lia|rewrite nth_error_map, Hy; reflexivity|assumption].
Qed.

Lemma resize_loop_pool pstep d n :
  forall pscan it itp, itp < length d -> itp <= it <= length d ->
  exists ss sel, resize_loop A pstep d n pscan it itp = Some ss
    /\ length ss = n /\ picks (map snd d) ss sel /\ nondecreasing itp sel.
Proof.
  induction n as [|n IH]; intros pscan it itp Hitp Hit.
  - exists [], []. cbn. repeat split; constructor.
  - cbn [resize_loop].
    destruct (lower_bound_from_range d it (fadd pscan pstep)) as (r & Hr & Hr2); [lia|].
    rewrite Hr. destruct (nth_error d r) as [x|] eqn:Hx.
    + assert (Hlt : r < length d) by (apply nth_error_Some; congruence).
      destruct (IH (fadd pscan pstep) r r) as (ss & sel & H1 & H2 & H3 & H4); [lia|lia|].
      rewrite H1. exists (snd x :: ss), (r :: sel). cbn. repeat split; try congruence; try lia; try assumption.
      constructor; [rewrite nth_error_map, Hx; reflexivity|assumption].
    + destruct (nth_error d itp) as [y|] eqn:Hy.
      2:{ apply nth_error_None in Hy. lia. }
      destruct (IH (fadd pscan pstep) r itp) as (ss & sel & H1 & H2 & H3 & H4); [lia|lia|].
      rewrite H1. exists (snd y :: ss), (itp :: sel). cbn. repeat split; try congruence; try lia; try assumption.
      constructor; [rewrite nth_error_map, Hy; reflexivity|assumption].
Qed.

Lemma sorted_copy_pool f d :
  sorted_copy A (dup_of A f0 (parts A f)) d ->
  Permutation (poses A f) (map snd d) /\ length d = length (parts A f).
Proof.
  intros [HP _]. split.
  - unfold poses. rewrite <- (dup_states (parts A f) f0). apply Permutation_map. exact HP.
  - rewrite <- (Permutation_length HP). apply dup_length.
Qed.

Lemma resample_shape plus normalize offset noise d f :
  parts A f <> [] -> sorted_copy A (dup_of A f0 (parts A f)) d ->
  exists f' sel, resample A plus normalize offset noise d f = Some f'
    /\ length (parts A f') = length (parts A f)
    /\ weights A f' = repeat (frecip (length (parts A f))) (length (parts A f))
    /\ biases A f' = biases A f /\ entropy A f' = entropy A f
    /\ length sel = length (parts A f)
    /\ from_pool plus normalize noise (map snd d) 0 0 (poses A f') sel.
Proof.
  intros Hne Hs. destruct (sorted_copy_pool f d Hs) as [HP Hlen].
  unfold resample.
  destruct (accumulate_spec (parts A f) f0) as (H1 & H2 & H3 & H4 & H5 & _).
  destruct (accumulate A f0 (parts A f)) as [ps t]. cbn in H1, H2, H3, H4, H5.
  destruct (resample_loop_pool plus normalize (fdiv t (fofnat (length ps))) offset noise d
              (length ps) 0 0 0 0) as (ss & sel & E1 & E2 & E3 & E4).
  { rewrite Hlen. destruct (parts A f); [congruence|cbn; lia]. }
  { lia. }
  rewrite E1. eexists _, sel. split; [reflexivity|].
  unfold weights, biases, poses. cbn [parts entropy].
  destruct (assign_spec (frecip (length ps)) ps ss E2) as (G1 & G2 & G3 & G4).
  repeat split.
  - rewrite <- (map_length (st A)), G1. congruence.
  - rewrite G2. rewrite H1. reflexivity.
  - rewrite G3. exact H4.
  - congruence.
  - rewrite G1. exact E4.
Qed.

(* the weak reading: every new pose is an old one or an old one plus noise *)
Lemma from_pool_in plus normalize noise (pool : list T) prev k out sel :
  from_pool plus normalize noise pool prev k out sel ->
  forall s, In s out -> In s pool \/ exists x m, In x pool /\ s = normalize (plus x (noise m)).
Proof.
  induction 1 as [prev k|prev k s j out sel Hle Hn H IH|prev k s out sel Hn H IH];
    intros y Hy; cbn in Hy; [contradiction| |].
  - destruct Hy as [->|Hy]; [left; eapply nth_error_In; eauto|auto].
  - destruct Hy as [<-|Hy]; [right; exists s, k; split; [eapply nth_error_In; eauto|reflexivity]|auto].
Qed.

Lemma resample_poses plus normalize offset noise d f f' :
  parts A f <> [] -> sorted_copy A (dup_of A f0 (parts A f)) d ->
  resample A plus normalize offset noise d f = Some f' ->
  forall s, In s (poses A f') ->
    In s (poses A f) \/ exists x m, In x (poses A f) /\ s = normalize (plus x (noise m)).
Proof.
  intros Hne Hs Hr s Hin.
  destruct (resample_shape plus normalize offset noise d f Hne Hs) as (f2 & sel & H1 & _ & _ & _ & _ & _ & H7).
  rewrite Hr in H1. injection H1 as <-.
  destruct (sorted_copy_pool f d Hs) as [HP _].
  destruct (from_pool_in _ _ _ _ _ _ _ _ H7 s Hin) as [H|(x & m & Hx & He)].
  - left. eapply Permutation_in; [apply Permutation_sym; exact HP|exact H].
  - right. exists x, m. split; [|exact He]. eapply Permutation_in; [apply Permutation_sym; exact HP|exact Hx].
Qed.

Lemma vec_resize_length dflt n (ps : list (particle A T)) : length (vec_resize A dflt n ps) = n.
Proof. unfold vec_resize. rewrite app_length, firstn_length, repeat_length. lia. Qed.

Lemma resize_shape dflt d num f :
  parts A f <> [] -> sorted_copy A (dup_of A f0 (parts A f)) d ->
  exists f' sel, resize A dflt d num f = Some f'
    /\ length (parts A f') = num
    /\ weights A f' = repeat (frecip num) num
    /\ entropy A f' = entropy A f
    /\ picks (map snd d) (poses A f') sel /\ nondecreasing 0 sel.
Proof.
  intros Hne Hs. destruct (sorted_copy_pool f d Hs) as [HP Hlen].
  unfold resize.
  destruct (accumulate_spec (parts A f) f0) as (H1 & H2 & H3 & H4 & H5 & _).
  destruct (accumulate A f0 (parts A f)) as [ps t]. cbn in H1, H2, H3, H4, H5.
  destruct (resize_loop_pool (fdiv t (fofnat num)) d num f0 0 0) as (ss & sel & E1 & E2 & E3 & E4).
  { rewrite Hlen. destruct (parts A f); [congruence|cbn; lia]. }
  { lia. }
  rewrite E1. eexists _, sel. split; [reflexivity|].
  unfold weights, poses. cbn [parts entropy].
  assert (Hl := vec_resize_length dflt num ps).
  destruct (assign_spec (frecip num) (vec_resize A dflt num ps) ss) as (G1 & G2 & G3 & G4); [congruence|].
  repeat split.
  - rewrite <- (map_length (st A)), G1. congruence.
  - rewrite G2, Hl. reflexivity.
  - rewrite G1. exact E3.
  - exact E4.
Qed.
Lemma resize_poses_old dflt d num f f' :
  parts A f <> [] -> sorted_copy A (dup_of A f0 (parts A f)) d ->
  resize A dflt d num f = Some f' -> forall s, In s (poses A f') -> In s (poses A f).
Proof.
  intros Hne Hs Hr s Hin.
  destruct (resize_shape dflt d num f Hne Hs) as (f2 & sel & H1 & _ & _ & _ & H5 & _).
  rewrite Hr in H1. injection H1 as <-.
  destruct (sorted_copy_pool f d Hs) as [HP _].
  eapply Permutation_in; [apply Permutation_sym; exact HP|].
  unfold picks in H5. revert Hin. induction H5 as [|x j l l' Hx Hl IH]; cbn; [tauto|].
  intros [<-|Hin]; [eapply nth_error_In; eauto|auto].
Qed.
Lemma resize_empty dflt d num f :
  parts A f = [] -> 0 < num -> sorted_copy A (dup_of A f0 (parts A f)) d ->
  resize A dflt d num f = None.
Proof.
  intros He Hn [HP _]. rewrite He in HP. cbn in HP. apply Permutation_nil in HP. subst d.
  unfold resize. rewrite He. cbn. destruct num as [|n]; [lia|]. reflexivity.
Qed.

(** ** max *)
Lemma max_empty f : parts A f = [] -> max A f = None /\ max_biased A f = None.
Proof. intros H. unfold max, max_biased. rewrite H. auto. Qed.

(** ** frames *)
Lemma predict_frame m f :
  weights A (predict A m f) = weights A f /\ biases A (predict A m f) = biases A f
  /\ map (acc A) (parts A (predict A m f)) = map (acc A) (parts A f)
  /\ entropy A (predict A m f) = entropy A f
  /\ poses A (predict A m f) = mapi m (poses A f).
Proof.
  unfold weights, biases, poses, predict, mapi. cbn. rewrite !map_mapi_from. cbn.
  rewrite !mapi_from_const. repeat split.
  generalize 0. induction (parts A f) as [|p ps IH]; intros k; cbn; [reflexivity|]. rewrite IH. reflexivity.
Qed.
Lemma bias_frame b f :
  weights A (do_bias A b f) = weights A f /\ poses A (do_bias A b f) = poses A f
  /\ map (acc A) (parts A (do_bias A b f)) = map (acc A) (parts A f)
  /\ entropy A (do_bias A b f) = entropy A f
  /\ forall i p, nth_error (parts A f) i = Some p ->
       nth_error (biases A (do_bias A b f)) i = Some (b i (st A p) (bias A p)).
Proof.
  unfold weights, biases, poses, do_bias, mapi. cbn. rewrite !map_mapi_from. cbn.
  rewrite !mapi_from_const. repeat split.
  intros i p Hp. rewrite mapi_from_nth, Hp. reflexivity.
Qed.
Lemma noise_frame plus nz f :
  weights A (add_noise A plus nz f) = weights A f /\ biases A (add_noise A plus nz f) = biases A f
  /\ map (acc A) (parts A (add_noise A plus nz f)) = map (acc A) (parts A f)
  /\ entropy A (add_noise A plus nz f) = entropy A f
  /\ poses A (add_noise A plus nz f) = mapi (fun i s => plus s (nz i)) (poses A f).
Proof.
  unfold weights, biases, poses, add_noise, mapi. cbn. rewrite !map_mapi_from. cbn.
  rewrite !mapi_from_const. repeat split.
  generalize 0. induction (parts A f) as [|p ps IH]; intros k; cbn; [reflexivity|]. rewrite IH. reflexivity.
Qed.
Lemma append_spec dflt n f :
  parts A (append A dflt n f) = parts A f ++ repeat (new_particle A dflt) n
  /\ entropy A (append A dflt n f) = entropy A f.
Proof.
  unfold append, vec_resize. cbn. split; [|reflexivity].
  rewrite firstn_all2 by lia. f_equal. f_equal. lia.
Qed.
Lemma init_frame g f :
  biases A (init A g f) = biases A f
  /\ weights A (init A g f) = repeat (frecip (length (parts A f))) (length (parts A f))
  /\ poses A (init A g f) = map g (seq 0 (length (parts A f)))
  /\ entropy A (init A g f) = entropy A f.
Proof.
  unfold weights, biases, poses, init, mapi. cbn. rewrite !map_mapi_from. cbn.
  rewrite !mapi_from_const. repeat split.
  - generalize (frecip (length (parts A f)) : A) as c.
    intros c. induction (parts A f) as [|p ps IH]; cbn; [reflexivity|]. rewrite IH. reflexivity.
  - generalize 0. induction (parts A f) as [|p ps IH]; intros k; cbn; [reflexivity|]. rewrite IH. reflexivity.
Qed.

(** ** covariance is symmetric in any arithmetic *)
Definition symm (m : mat A) : Prop := forall i j, m i j = m j i.
Lemma cov_upd_symm elem j k m : symm m -> symm (cov_upd A elem j k m).
Proof.
  intros Hm a b. unfold cov_upd, mat_set.
  destruct (Nat.eqb_spec a k), (Nat.eqb_spec b j), (Nat.eqb_spec a j), (Nat.eqb_spec b k);
    cbn [andb]; subst; try reflexivity; apply Hm || congruence.
Qed.
Lemma cov_row_symm elem j ks m : symm m -> symm (cov_row A elem j ks m).
Proof. revert m. induction ks as [|k ks IH]; intros m Hm; cbn; auto using cov_upd_symm. Qed.
Lemma cov_rows_symm elem dim js m : symm m -> symm (cov_rows A elem dim js m).
Proof. revert m. induction js as [|k ks IH]; intros m Hm; cbn; auto using cov_row_symm. Qed.
Lemma cov_loop_symm ce (e : T) dim ps idx m s m' s' :
  symm m -> cov_loop A ce e dim ps idx m s = Some (m', s') -> symm m'.
Proof.
  revert m s. induction idx as [|i idx IH]; intros m s Hm H; cbn in H.
  - injection H as <- <-. exact Hm.
  - destruct (nth_error ps i) as [p|]; [|discriminate].
    eapply IH; [|exact H]. apply cov_rows_symm. exact Hm.
Qed.
Lemma covariance_symm M ce dim pass ratio shuffle f m :
  covariance A M ce dim pass ratio shuffle f = Some m -> forall i j, m i j = m j i.
Proof.
  unfold covariance. destruct (expectation A M pass f) as [e|]; [|discriminate].
  destruct (cov_loop _ _ _ _ _ _ _ _) as [[m0 s0]|] eqn:E; [|discriminate].
  intros H; injection H as <-. intros i j.
  assert (Hs : symm m0) by (eapply cov_loop_symm; [|exact E]; intros a b; reflexivity).
  unfold cov_div. rewrite andb_comm, (Hs i j). reflexivity.
Qed.

(** ** the sampled particles, in any arithmetic *)
Lemma pass_count_le pass a (ps : list (particle A T)) : pass_count A pass a ps <= length ps.
Proof.
  revert a. induction ps as [|p ps IH]; intros a; cbn [pass_count length]; [lia|].
  destruct (flt pass _); [lia|]. specialize (IH (fadd a (w A p))). lia.
Qed.
Lemma sample_split n ratio shuffle : (forall l, Permutation l (shuffle l)) ->
  exists rest, Permutation (seq 0 n) (sample_indices A n ratio shuffle ++ rest)
    /\ (flt ratio f1 = false -> rest = [])
    /\ (flt ratio f1 = true -> length (sample_indices A n ratio shuffle) = Nat.min n (ftrunc (fmul (fofnat n) ratio))).
Proof.
  intros Hs. unfold sample_indices. destruct (flt ratio f1).
  - set (k := Nat.min n _). exists (skipn k (shuffle (seq 0 n))). rewrite firstn_skipn.
    split; [apply Hs|]. split; [discriminate|]. intros _. rewrite firstn_length_le; [reflexivity|].
    rewrite <- (Permutation_length (Hs (seq 0 n))), seq_length. unfold k. lia.
  - exists []. rewrite app_nil_r. split; [reflexivity|]. split; [reflexivity|discriminate].
Qed.
Lemma cov_loop_total ce (e : T) dim ps idx m s : Forall (fun i => i < length ps) idx ->
  exists r, cov_loop A ce e dim ps idx m s = Some r.
Proof.
  intros H. revert m s. induction H as [|i idx Hi H IH]; intros m s; cbn [cov_loop]; [eauto|].
  destruct (nth_error ps i) eqn:E; [apply IH|]. apply nth_error_None in E. lia.
Qed.
Lemma sample_in_range pass ratio shuffle (ps : list (particle A T)) : (forall l, Permutation l (shuffle l)) ->
  Forall (fun i => i < length ps) (sample_indices A (pass_count A pass f0 ps) ratio shuffle).
Proof.
  intros Hs. destruct (sample_split (pass_count A pass f0 ps) ratio shuffle Hs) as (rest & Hp & _).
  apply Forall_forall. intros i Hi.
  assert (Hin : In i (seq 0 (pass_count A pass f0 ps))).
  { apply (Permutation_in _ (Permutation_sym Hp)). apply in_or_app. left. exact Hi. }
  apply in_seq in Hin. pose proof (pass_count_le pass f0 ps). lia.
Qed.
Lemma covariance_total M ce dim pass ratio shuffle f e : (forall l, Permutation l (shuffle l)) ->
  expectation A M pass f = Some e -> exists c, covariance A M ce dim pass ratio shuffle f = Some c.
Proof.
  intros Hs He. unfold covariance. rewrite He. cbv zeta.
  destruct (cov_loop_total ce e dim (parts A f) _ (fun _ _ => f0) f0 (sample_in_range pass ratio shuffle (parts A f) Hs)) as ([m s] & ->).
  eauto.
Qed.

(** ** expectation with a ratio on never accumulated particles is undefined *)
Lemma sorted_desc_uninit (ps qs : list (particle A T)) p :
  In p ps -> acc A p = None -> ~ sorted_desc A ps qs.
Proof. intros Hin Hn (_ & H & _). exact (H p Hin Hn). Qed.

End Generic.
