(** The hypotheses of C122 can be met: an empty parameter server, the demonstration history. *)
From Coq Require Import String.
From Coq Require Import Reals ZArith NArith List Bool Arith Lra Lia.
From Verif Require Import Arith KdModel QuatModel StateModel RayModel LidarModel ParamModel NodeModel NodeSpec NodeAliveSpec NodeDemo NodeStartProps.
Import ListNotations.
Open Scope R_scope.
Open Scope list_scope.
Example C122_nonvacuous : load (fun x => x) 0 (0, 0, 0) (fun _ => None) = Some (demo, fun _ => None) /\ runs_with (fun x => x) (fun _ => None)
  /\ keeps_labels (demo_voxel (ds_x demo, ds_y demo, ds_z demo)) /\ survives_newer (fun (_ : cloud) (_ : kray) => True)
  /\ legal_run demo_caster demo_voxel demo (fun _ _ => True) demo_init demo_events /\ length demo_events = 3%nat.
Proof.
  split; [reflexivity|]. split; [apply C122_defaults_run; auto|]. destruct C93_C94_nonvacuous as (_ & H1 & H2 & H3 & _). split; [exact H1|]. split; [exact H2|]. split; [exact H3|reflexivity].
Qed.
