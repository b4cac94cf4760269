(** The history of NodeDemo meets the hypotheses of C103. *)
From Coq Require Import Reals List.
From Verif Require PfModel.
From Verif Require Import Arith KdModel QuatModel StateModel StateProps RayModel LidarModel ParamModel NodeModel NodeSpec NodeDemo NodeDemo2 MatProps.
Import ListNotations.
Open Scope R_scope.
Open Scope list_scope.

Example C103_nonvacuous : exists evs n o0 m e n' o t x c,
  let n0 := configure demo (fun _ _ => 0) demo_rc in
  steps demo_caster demo_voxel demo n0 evs = Ok (n, o0) /\ n_pf n = n_pf n0 /\ step demo_caster demo_voxel demo n (ECloud m e) = Ok (n', o) /\ In (OPose t x c) o.
Proof.
  fold demo_init.
  destruct demo_entries as (k & n & o & y & z & x & t & ps & c & ms & us & ts & mo & fz & st & k0 & mp & od & im & tp & l & H1 & H2 & (o2 & H3) & H4 & H5 & H6 & H7 & H8 & H9 & H10 & H11 & _).
  do 10 eexists. cbv zeta. split; [exact H3|]. split; [exact H7|]. split; [exact H5|]. exact H11.
Qed.
