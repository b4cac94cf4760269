(** Vocabulary for the rotation properties. *)
From Coq Require Import Reals.
From Verif Require Import QuatModel.
Open Scope R_scope.

Definition unit_quat (q : quat) : Prop := qx q * qx q + qy q * qy q + qz q * qz q + qw q * qw q = 1.
Definition nonzero_quat (q : quat) : Prop := ~ (qx q = 0 /\ qy q = 0 /\ qz q = 0 /\ qw q = 0).
Definition nonzero_vec (v : vec3) : Prop := ~ (vx v = 0 /\ vy v = 0 /\ vz v = 0).
(** Two quaternions describe the same rotation. *)
Definition same_rotation (a b : quat) : Prop := forall v, qrot a v = qrot b v.
Definition up_to_sign (a b : quat) : Prop := a = b \/ a = qopp b.
Definition ex : vec3 := V3 1 0 0.
Definition ey : vec3 := V3 0 1 0.
Definition ez : vec3 := V3 0 0 1.
(** Elementary rotations about the coordinate axes. *)
Definition roll (a : R) : quat := Q4 (sin (a / 2)) 0 0 (cos (a / 2)).
Definition pitch (a : R) : quat := Q4 0 (sin (a / 2)) 0 (cos (a / 2)).
Definition yaw (a : R) : quat := Q4 0 0 (sin (a / 2)) (cos (a / 2)).
(** Rodrigues' formula: rotating v by ang about the unit axis u. *)
Definition rodrigues (u : vec3) (ang : R) (v : vec3) : vec3 :=
  vadd (vadd (vscale v (cos ang)) (vscale (vcross u v) (sin ang)))
       (vscale u (vdot u v * (1 - cos ang))).
