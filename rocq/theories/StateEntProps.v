(** C88: which component of the two poses enters which entry of the covariance. *)
From Coq Require Import Reals ZArith List Bool Arith Lra Lia.
From Verif Require Import QuatModel QuatSpec QuatProofs QuatProps StateModel StateSpec StateProofs StateProps.
Open Scope R_scope.

(** The six deviations of a pose from the mean, written out: metres along x, y, z, then the differences of
    roll, pitch and yaw, brought into [-PI, PI].  Entry (j, k) is their product. *)
Theorem C88_deviations : forall s e, StateModel.diff s = false -> StateModel.diff e = false ->
  exists dr dp dy,
    (- PI <= dr <= PI /\ same_angle dr (vx (getRPY (rot s)) - vx (getRPY (rot e)))) /\
    (- PI <= dp <= PI /\ same_angle dp (vy (getRPY (rot s)) - vy (getRPY (rot e)))) /\
    (- PI <= dy <= PI /\ same_angle dy (vz (getRPY (rot s)) - vz (getRPY (rot e)))) /\
    let d := fun i => match i with
      | 0%nat => vx (pos s) - vx (pos e) | 1%nat => vy (pos s) - vy (pos e) | 2%nat => vz (pos s) - vz (pos e)
      | 3%nat => dr | 4%nat => dp | _ => dy end in
    forall j k, (j < 6)%nat -> (k < 6)%nat -> covElement 1 s e j k = Some (d j * d k).
Proof.
  intros s e Hs He.
  destruct (C88_wrap_terminates s e 3 Hs He) as (dr & R1 & _ & R2). destruct (C88_wrap_terminates s e 4 Hs He) as (dp & P1 & _ & P2).
  destruct (C88_wrap_terminates s e 5 Hs He) as (dy & Y1 & _ & Y2).
  specialize (R2 ltac:(lia)). specialize (P2 ltac:(lia)). specialize (Y2 ltac:(lia)). cbn [Nat.sub v_get] in R2, P2, Y2.
  exists dr, dp, dy. split; [exact R2|]. split; [exact P2|]. split; [exact Y2|]. cbv zeta.
  assert (D : forall i, (i < 6)%nat -> cov_diff 1 s e i = Some (match i with
      | 0%nat => vx (pos s) - vx (pos e) | 1%nat => vy (pos s) - vy (pos e) | 2%nat => vz (pos s) - vz (pos e)
      | 3%nat => dr | 4%nat => dp | _ => dy end)).
  { intros i Hi. destruct i as [|[|[|[|[|[|i]]]]]]; try lia; try assumption; reflexivity. }
  intros j k Hj Hk. unfold covElement. rewrite (D j Hj), (D k Hk). f_equal. ring.
Qed.
Example C88_deviations_nonvacuous :
  let s := state_pr (V3 1 2 3) q1 in let e := state_pr (V3 0 0 1) q1 in
  StateModel.diff s = false /\ StateModel.diff e = false /\ covElement 1 s e 0 1 = Some (1 * 2) /\ covElement 1 s e 1 2 = Some (2 * 2).
Proof.
  cbv zeta. split; [reflexivity|]. split; [reflexivity|].
  destruct (C88_deviations (state_pr (V3 1 2 3) q1) (state_pr (V3 0 0 1) q1) eq_refl eq_refl) as (dr & dp & dy & _ & _ & _ & D). cbv zeta in D.
  rewrite !D by lia. cbn. split; f_equal; ring.
Qed.
