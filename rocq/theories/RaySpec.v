(** Vocabulary for the ray casting properties. *)
From Coq Require Import Reals ZArith List Bool.
From Verif Require Import Arith QuatModel StateModel KdModel RayModel.
Import ListNotations.
Open Scope R_scope.

(** The answers of [n] consecutive calls of getNextCastResult: [None] in the list is
    "returned false"; the whole is [None] if one of the calls is undefined behaviour. *)
Fixpoint calls {S} (next : S -> option (S * option cast_result)) (n : nat) (s : S)
  : option (list (option cast_result)) :=
  match n with
  | O => Some []
  | Datatypes.S n' =>
      match next s with
      | None => None
      | Some (s', a) => option_map (cons a) (calls next n' s')
      end
  end.
(** The results before the first "false". *)
Fixpoint reported (l : list (option cast_result)) : list cast_result :=
  match l with Some r :: l' => r :: reported l' | _ => [] end.

(** What is assumed of a rounding function: monotone and exact at 0. *)
Definition rounding (f : R -> R) : Prop := (forall x y, x <= y -> f x <= f y) /\ f 0 = 0.
Definition exact (x : R) : R := x.

Definition in_grid (sz c : i3) : Prop := forall a, (0 <= iget c a < iget sz a)%Z.
(** The closed cube of side [g] around [p]. *)
Definition cube (g : R) (p q : vec3) : Prop := forall a, Rabs (vget3 q a - vget3 p a) <= g / 2.
(** Its interior. *)
Definition cube_interior (g : R) (p q : vec3) : Prop := forall a, Rabs (vget3 q a - vget3 p a) < g / 2.
Definition on_segment (b e q : vec3) : Prop :=
  exists s, 0 <= s <= 1 /\ q = vadd b (vscale (vsub e b) s).
(** [q] is [p] moved by [g] along one axis, towards the side of [d] on that axis. *)
Definition one_step (g : R) (d p q : vec3) : Prop :=
  exists a, (forall a', a' <> a -> vget3 q a' = vget3 p a') /\
    ((0 < vget3 d a /\ vget3 q a = vget3 p a + g) \/ (vget3 d a < 0 /\ vget3 q a = vget3 p a - g)).
Fixpoint chain {X} (r : X -> X -> Prop) (x : X) (l : list X) : Prop :=
  match l with [] => True | y :: l' => r x y /\ chain r y l' end.
(** The centre of the voxel of a point: voxels are the half open cubes of side [g] with
    corners at [mn] plus multiples of [g]. *)
Definition voxel_centre (g : R) (mn p : vec3) : vec3 :=
  let f m x := (IZR (Rfloor ((x - m) / g)) + / 2) * g + m in
  V3 (f (vx mn) (vx p)) (f (vy mn) (vy p)) (f (vz mn) (vz p)).
(** The squared distance of [p] from the line through [b] with unit direction [d]. *)
Definition line_dist_sq (b d p : vec3) : R :=
  let r := vsub p b in
  let foot := vscale d (vdot r d) in
  vdot (vsub r foot) (vsub r foot).
(** The smallest box that contains all points of a cloud. *)
Definition bounding (pts : list lpt) (mn mx : vec3) : Prop :=
  forall a, (forall q, In q pts -> vget3 mn a <= vget3 (p3 q) a <= vget3 mx a) /\
    (exists q, In q pts /\ vget3 (p3 q) a = vget3 mn a) /\ (exists q, In q pts /\ vget3 (p3 q) a = vget3 mx a).
Definition all_ge (p q : vec3) : Prop := forall a, vget3 q a <= vget3 p a.
(** The coordinate of [p] is on a voxel face of that axis. *)
Definition on_face (g : R) (mn p : vec3) (a : axis) : Prop := exists k : Z, vget3 p a = vget3 mn a + IZR k * g.
(** The number of voxel faces between the voxels of two points. *)
Definition faces_between (g : R) (mn p q : vec3) : Z :=
  let n a := Z.abs (Rfloor ((vget3 q a - vget3 mn a) / g) - Rfloor ((vget3 p a - vget3 mn a) / g)) in
  (n AX + n AY + n AZ)%Z.
(** The DDA criterion for a map point: closer to the ray line than the larger of the beam
    cone and the fixed threshold [thr] (squares). *)
Definition near_line (angle thr : R) (b e : vec3) (q : lpt) : Prop :=
  let d := vnormalized (vsub e b) in
  line_dist_sq b d (p3 q) < Rmax ((angle * Rabs (vdot (vsub (p3 q) b) d)) ^ 2) thr.
(** The first element of a list with a property. *)
Definition first_with {X} (P : X -> Prop) (l : list X) (o : option X) : Prop :=
  match o with
  | None => forall x, In x l -> ~ P x
  | Some x => exists l1 l2, l = l1 ++ x :: l2 /\ P x /\ forall y, In y l1 -> ~ P y
  end.
(** The ray caster's map state after setRay calls with these map clouds; [None] =
    undefined behaviour on the way. *)
Fixpoint grid_after (c : dda_cfg) (st : option (Z * grid)) (h : list cloud) : option (option (Z * grid)) :=
  match h with
  | [] => Some st
  | cl :: h' => match updatePointCloud exact exact c st cl with
                | None => None
                | Some s => grid_after c (Some s) h'
                end
  end.

(** The end of the ray: the scan point moved away from the sensor by the tolerance. *)
Definition extended_end (tol : R) (b e : vec3) : vec3 :=
  let d := vsub e b in V3 (vx e + vx d / vnorm d * tol) (vy e + vy d / vnorm d * tol) (vz e + vz d / vnorm d * tol).
