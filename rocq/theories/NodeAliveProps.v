(** Properties C93 and C94: the node never fails and its particles stay usable. *)
From Coq Require Import String Reals ZArith NArith List Bool Arith Lra Lia.
From Verif Require PfModel FilterModel AccumModel.
From Verif Require Import Arith KdModel KdSpec KdProofs KdProps QuatModel StateModel StateSpec RayModel RaySpec RayProofs KRayProofs LidarModel LidarSpec LidarProofs LidarProofs2
  NdModel ParamModel NodeModel NodeSpec NodeFrame NodeMapProofs NodeAliveSpec NodeAliveProofs NodeAliveProofs2.
Import ListNotations.
Open Scope R_scope.
Open Scope list_scope.

(** ** C93: no legal history makes the node fail *)
Theorem C93_node_never_fails : forall S (caster : cloud -> (pt -> R -> search) -> raycaster S) voxel p Inv gen rc0 evs,
  settings_ok p -> keeps_labels (voxel (ds_x p, ds_y p, ds_z p)) -> survives_newer Inv -> (forall c, Inv c rc0) ->
  legal_run caster voxel p Inv (configure p gen rc0) evs ->
  exists n o K,
    (forall k, (K <= k)%nat -> steps caster voxel p (configure p gen rc0) (map (with_fuel_ev k) evs) = Ok (n, o))
    /\ forall k, steps caster voxel p (configure p gen rc0) (map (with_fuel_ev k) evs) = Ok (n, o)
                 \/ steps caster voxel p (configure p gen rc0) (map (with_fuel_ev k) evs) = Fuel.
Proof.
  intros S caster voxel p Inv gen rc0 evs Hp Hv Hnew H0 Hleg.
  destruct (steps_settle caster voxel p Hp Inv Hnew Hv evs _ (alive_init p Hp Inv gen rc0 H0) Hleg) as ([n o] & K & _ & Q1 & Q2).
  exists n, o, K. split; [exact Q2|]. intro k. destruct (Q1 k); auto.
Qed.

(** The states of a ray caster that only has to answer [rc_set] and [rc_next] *)
Lemma ok_finish {S} (Inv : S -> Prop) rc L : caster_ok Inv rc L -> casts_finish Inv rc.
Proof.
  intros (Hset & Hnext & Hpt) bm s b e Hs. destruct (Hset s b e Hs) as (s1 & E1 & I1 & n & ans & Ec & Hn & Hr).
  assert (H : exists s' st, Inv s' /\ beam_loop bm rc e n s1 = Done (s', st)).
  { assert (Hp : forall y, In y (reported ans) -> c_coll y = true -> c_point y <> None) by (rewrite Hr; apply Hpt).
    clear Hr E1 Hs s. revert s1 ans I1 Ec Hn Hp. induction n as [|n IH]; intros s1 ans I1 Ec Hn Hp; cbn [calls] in Ec.
    { injection Ec as <-. destruct Hn. }
    cbn [beam_loop]. destruct (rc_next rc s1) as [[s2 a]|] eqn:En; [|discriminate]. pose proof (Hnext _ _ _ I1 En) as I2.
    destruct (calls (rc_next rc) n s2) as [l|] eqn:El; [|discriminate]. cbn [option_map] in Ec. injection Ec as <-.
    destruct a as [y|]; [|eauto]. assert (Hn' : In None l) by (destruct Hn as [X|X]; [discriminate|exact X]).
    cbn [reported] in Hp. assert (K := IH s2 l I2 El Hn' (fun z Hz => Hp z (or_intror Hz))).
    destruct (c_coll y) eqn:Ey; cbn [negb]; [|exact K]. destruct (c_point y) as [q|] eqn:Eq.
    2:{ destruct (Hp y (or_introl eq_refl) Ey Eq). }
    destruct (_ <? _)%nat; [exact K|]. destruct (Rltb _ _); eauto. }
  destruct H as (s' & st & I' & E2). exists s', st, n. split; [exact I'|]. intros k Hk. unfold getBeamStatus. rewrite E1.
  apply (beam_loop_mono bm rc e _ n s1 E2 k Hk).
Qed.

(** The k-d tree ray caster that the node configures can be used with every map. *)
Definition node_kd_caster (p : params) (cl : cloud) (f : pt -> R -> search) : raycaster kray :=
  kd_caster (new_kray (bp_gx (p_beam p)) (bp_gy (p_beam p)) (bp_gz (p_beam p)) (bp_hit_range (p_beam p))) f (cl_pts cl).
Lemma kd_any_ok c f pts : (forall q, f q (k_radius1 c) <> Throws) -> (forall q, f q (k_radius2 c) <> Throws) ->
  (forall q r i d l, f q r = Found ((i, d) :: l) -> (i < length pts)%nat) ->
  caster_ok (fun _ => True) (kd_caster c f pts) (k_results_of c f pts).
Proof.
  intros H1 H2 H3.
  assert (Hstep : forall r, exists r' a, k_next c f pts r = Some (r', a) /\ forall y, a = Some y -> c_coll y = true -> c_point y <> None).
  { intro r. unfold k_next. destruct (k_length r <=? k_count r)%Z; [eexists _, _; split; [reflexivity|]; discriminate|].
    destruct (f (to_pt (k_pos r)) (k_radius1 c)) as [| |[|[i d] l]] eqn:E.
    - destruct (H1 _ E).
    - eexists _, _; split; [reflexivity|]. intros y [= <-]. discriminate.
    - eexists _, _; split; [reflexivity|]. intros y [= <-]. discriminate.
    - apply H3 in E. destruct (nth_error pts i) eqn:En; [|apply nth_error_None in En; lia].
      destruct (f _ (k_radius2 c)) as [| |[|[j d'] l']] eqn:E2; [destruct (H2 _ E2)| | |]; (eexists _, _; split; [reflexivity|]); intros y [= <-] _; discriminate. }
  assert (Hres : forall n r, exists l, calls (k_next c f pts) n r = Some l /\ forall y, In y (reported l) -> c_coll y = true -> c_point y <> None).
  { induction n as [|n IH]; intro r; cbn [calls]; [exists []; split; [reflexivity|intros y []]|].
    destruct (Hstep r) as (r' & a & -> & Ha). destruct (IH r') as (l & -> & Hl). eexists. split; [reflexivity|]. destruct a as [y|]; cbn [reported].
    - intros z [<-|Hz]; [apply Ha; reflexivity|apply Hl, Hz].
    - intros z []. }
  split; [|split].
  - intros st b e _. cbn [kd_caster rc_set]. eexists. split; [reflexivity|]. split; [exact I|].
    unfold k_results_of. destruct (Hres (S (Z.to_nat (k_length (k_setRay c b e) - k_count (k_setRay c b e)))) (k_setRay c b e)) as (l & E & _).
    eexists _, l. split; [exact E|]. rewrite E. split; [|reflexivity].
    destruct (k_calls c f pts _ _ _ E) as (rs & k & -> & L1 & L2 & _). destruct k as [|k]; [lia|]. apply in_or_app. right. left. reflexivity.
  - auto.
  - intros b e y Hy'. unfold k_results_of in Hy'.
    destruct (Hres (S (Z.to_nat (k_length (k_setRay c b e) - k_count (k_setRay c b e)))) (k_setRay c b e)) as (l & E & F).
    rewrite E in Hy'. apply F, Hy'.
Qed.
(** grid sizes and chunk length that make sense: four times the coarsest map grid fits into a chunk *)
Theorem C93_kdtree_casts_with_every_map : forall p cl,
  0 < bp_gx (p_beam p) -> 0 < bp_gy (p_beam p) -> 0 < bp_gz (p_beam p) ->
  4 * Rmax (bp_gx (p_beam p)) (Rmax (bp_gy (p_beam p)) (bp_gz (p_beam p))) <= map_chunk p ->
  castable (node_kd_caster p) p (fun _ _ => True) cl.
Proof.
  intros p cl Hx Hy Hz Hc f Hf. eapply ok_finish. unfold node_kd_caster. set (c := new_kray _ _ _ _).
  destruct (radius1_le (bp_gx (p_beam p)) (bp_gy (p_beam p)) (bp_gz (p_beam p)) (bp_hit_range (p_beam p)) Hx Hy Hz) as (R1 & R2 & R3). fold c in R1, R2, R3.
  change (k_gmax c) with (Rmax (bp_gx (p_beam p)) (Rmax (bp_gy (p_beam p)) (bp_gz (p_beam p)))) in *.
  apply kd_any_ok.
  - intro q. apply (search_no_throw p _ _ Hf). lra.
  - intro q. apply (search_no_throw p _ _ Hf). lra.
  - intros q r i d l E. apply (search_ids p _ _ Hf) in E. unfold to_pts in E. rewrite map_length in E. exact E.
Qed.

(** The DDA ray caster that the node configures: the state may hold the grid of an earlier map,
    or of the current one. *)
Definition node_dda_cfg (p : params) : dda_cfg :=
  new_dda (bp_gx (p_beam p)) (bp_gy (p_beam p)) (bp_gz (p_beam p)) (dda_grid p) (ray_angle_half p) (bp_hit_range (p_beam p)).
Definition node_dda_caster (p : params) (cl : cloud) (_ : pt -> R -> search) : raycaster (option (Z * grid) * ray) := dda_caster (node_dda_cfg p) cl.
Definition dda_state (p : params) (cl : cloud) (s : option (Z * grid) * ray) : Prop :=
  match fst s with
  | None => True
  | Some (z, g) => (z <= cl_stamp cl)%Z /\ (z = cl_stamp cl -> build_grid exact exact (node_dda_cfg p) cl = Some g)
  end.
Theorem C93_dda_state_survives_newer_maps : forall p, survives_newer (dda_state p).
Proof.
  intros p c c' [[[z g]|] r] Hs H; unfold dda_state in *; cbn [fst] in *; [|exact I]. destruct H as [H _]. split; [lia|]. intro E. lia.
Qed.
(** The DDA ray caster can be used with every map whose grid can be built. *)
Theorem C93_dda_casts_with_every_representable_map : forall p cl,
  0 < dda_grid p -> build_grid exact exact (node_dda_cfg p) cl <> None ->
  castable (node_dda_caster p) p (dda_state p) cl.
Proof.
  intros p cl HG Hb f _. destruct (build_grid exact exact (node_dda_cfg p) cl) as [g|] eqn:Eg; [|congruence]. clear Hb.
  destruct (dda_caster_ok (node_dda_cfg p) cl g HG Eg) as (H1 & H2 & H3).
  apply (ok_finish _ _ (dda_results (node_dda_cfg p) g)). unfold node_dda_caster. split; [|split; [|exact H3]].
  - intros s b e Hs. destruct (H1 s b e) as (s1 & E & I1 & A).
    { unfold dda_state in Hs. unfold dda_inv. destruct (fst s) as [[z g']|]; [|exact I]. intros ->. destruct Hs as [_ Hs]. specialize (Hs eq_refl). congruence. }
    exists s1. split; [exact E|]. split; [|exact A]. unfold dda_state. cbn [dda_caster rc_set] in E. unfold dda_inv in I1.
    destruct (updatePointCloud _ _ _ _ _) as [[z' g']|] eqn:Eu; [|discriminate]. injection E as <-. cbn [fst] in *.
    assert (z' = cl_stamp cl) as ->.
    { unfold updatePointCloud in Eu. destruct (fst s) as [[z g0]|].
      - destruct ((cl_stamp cl =? z)%Z && _) eqn:Ez; [injection Eu as <- <-; apply andb_true_iff in Ez; destruct Ez as [Ez _]; apply Z.eqb_eq in Ez; auto|].
        destruct (build_grid _ _ _ _); [injection Eu; auto|discriminate].
      - destruct (build_grid _ _ _ _); [injection Eu; auto|discriminate]. }
    split; [lia|]. intros _. rewrite (I1 eq_refl). exact Eg.
  - intros [st r] s' a Hs E. cbn in E. destruct st as [[z g']|]; [|discriminate]. destruct (dda_next _ g' r) as [[r' a']|]; [|discriminate]. injection E as <- <-. exact Hs.
Qed.

(** ** C94: after every legal history the particles are usable *)
Theorem C94_particles_stay_usable : forall S (caster : cloud -> (pt -> R -> search) -> raycaster S) voxel p Inv gen rc0 evs k n o,
  settings_ok p -> keeps_labels (voxel (ds_x p, ds_y p, ds_z p)) -> survives_newer Inv -> (forall c, Inv c rc0) ->
  legal_run caster voxel p Inv (configure p gen rc0) evs ->
  steps caster voxel p (configure p gen rc0) (map (with_fuel_ev k) evs) = Ok (n, o) ->
  usable_particles (n_pf n).
Proof.
  intros S caster voxel p Inv gen rc0 evs k n o Hp Hv Hnew H0 Hleg E.
  destruct (steps_settle caster voxel p Hp Inv Hnew Hv evs _ (alive_init p Hp Inv gen rc0 H0) Hleg) as (x & K & Q0 & Q1 & _).
  destruct (Q1 k) as [Q|Q]; rewrite Q in E; [discriminate|]. injection E as ->. apply (al_pf _ _ _ Q0).
Qed.
