(** Model of the two ray casters: /repo/include/mcl_3dl/raycasts/raycast_using_dda.h,
    /repo/include/mcl_3dl/raycasts/raycast_using_kdtree.h, /repo/include/mcl_3dl/raycast.h.

    Simplifications: real arithmetic, except that voxel indices are computed with two
    arbitrary rounding functions ([rf] for the float subtraction, [rd] for the double
    division), so that statements about them can cover IEEE arithmetic; indices are
    unbounded integers with an explicit overflow check where the code multiplies ints
    (the int casts of the ray end, which overflow for rays longer than 2^31 voxels, are
    not modelled).
    [None] is undefined behaviour. *)
From Coq Require Import Reals ZArith List Bool Arith.
From Verif Require Import Arith QuatModel StateModel KdModel.
Import ListNotations.
Open Scope R_scope.

(** raycast.h:45-68; a pointer to a map point is the point itself, nullptr is [None] *)
Record cast_result := { c_pos : vec3; c_coll : bool; c_sin : R; c_point : option lpt }.

(** Eigen::Vector3i *)
Record i3 := I3 { ix : Z; iy : Z; iz : Z }.
Inductive axis := AX | AY | AZ.
Definition iget (c : i3) (a : axis) : Z := match a with AX => ix c | AY => iy c | AZ => iz c end.
Definition vget3 (v : vec3) (a : axis) : R := match a with AX => vx v | AY => vy v | AZ => vz v end.
Definition iset (c : i3) (a : axis) (x : Z) : i3 :=
  match a with AX => I3 x (iy c) (iz c) | AY => I3 (ix c) x (iz c) | AZ => I3 (ix c) (iy c) x end.
(** conversion to an integer type: truncation *)
Definition Rtrunc (x : R) : Z := if Rltb x 0 then Rceil x else Rfloor x.
Definition int_max : Z := 2147483647.

(** A point cloud object: identity (address), header stamp and points. *)
Record cloud := { cl_id : nat; cl_stamp : Z; cl_pts : list lpt }.

(** pcl::getMinMax3D: componentwise minimum and maximum of a non-empty cloud *)
Definition vmin (a b : vec3) : vec3 := V3 (Rmin (vx a) (vx b)) (Rmin (vy a) (vy b)) (Rmin (vz a) (vz b)).
Definition vmax (a b : vec3) : vec3 := V3 (Rmax (vx a) (vx b)) (Rmax (vy a) (vy b)) (Rmax (vz a) (vz b)).
Definition cloud_min (p : lpt) (ps : list lpt) : vec3 := fold_left (fun m q => vmin m (p3 q)) ps (p3 p).
Definition cloud_max (p : lpt) (ps : list lpt) : vec3 := fold_left (fun m q => vmax m (p3 q)) ps (p3 p).

Section Dda.
Context (rf rd : R -> R).

(** raycast_using_dda.h:272-276 and 56-64 (the third term really is the y size again) *)
Record dda_cfg := { d_thr_sq : R; d_grid : R; d_angle : R; d_tol : R }.
Definition new_dda (gx gy gz grid angle tol : R) : dda_cfg :=
  {| d_thr_sq := gx ^ 2 + gy ^ 2 + gy ^ 2; d_grid := grid; d_angle := angle; d_tol := tol |}.

(** raycast_using_dda.h:278-284.  [g_src] is the cloud object the stored pointers point
    into; [g_points] is the unordered_map from array index to points, in insertion order. *)
Record grid := { g_src : nat; g_min : vec3; g_max : vec3; g_size : i3; g_points : list (Z * lpt) }.

(** raycast_using_dda.h:205-217, one axis *)
Definition index1 (c : dda_cfg) (mn x : R) : Z := Rtrunc (rd (rf (x - mn) / d_grid c)).
Definition toIndex (c : dda_cfg) (mn p : vec3) : i3 :=
  I3 (index1 c (vx mn) (vx p)) (index1 c (vy mn) (vy p)) (index1 c (vz mn) (vz p)).
(** raycast_using_dda.h:219-223 *)
Definition fromIndex (c : dda_cfg) (mn : vec3) (i : i3) : vec3 :=
  V3 ((IZR (ix i) + / 2) * d_grid c + vx mn) ((IZR (iy i) + / 2) * d_grid c + vy mn)
     ((IZR (iz i) + / 2) * d_grid c + vz mn).
(** raycast_using_dda.h:225-228 *)
Definition array_index (sz c : i3) : Z := (ix c + iy c * ix sz + iz c * (ix sz * iy sz))%Z.
(** raycast_using_dda.h:176-181 *)
Definition map_size (c : dda_cfg) (mn mx : vec3) : i3 :=
  I3 (index1 c (vx mn) (vx mx) + 1) (index1 c (vy mn) (vy mx) + 1) (index1 c (vz mn) (vz mx) + 1).
Definition point_total (sz : i3) : Z := (ix sz * iy sz * iz sz)%Z.
(** raycast_using_dda.h:172-189 and 230-235: undefined if the cloud is empty, the int
    product overflows or a write is outside point_exists_ *)
Definition build_grid (c : dda_cfg) (cl : cloud) : option grid :=
  match cl_pts cl with
  | [] => None
  | p :: ps =>
      let mn := cloud_min p ps in let mx := cloud_max p ps in
      let sz := map_size c mn mx in
      let total := point_total sz in
      if (total <=? int_max)%Z then
        let entries := map (fun q => (array_index sz (toIndex c mn (p3 q)), q)) (p :: ps) in
        if forallb (fun e => (0 <=? fst e) && (fst e <? total))%Z entries
        then Some {| g_src := cl_id cl; g_min := mn; g_max := mx; g_size := sz; g_points := entries |}
        else None
      else None
  end.
(** raycast_using_dda.h:162-190: rebuild unless the stamp is the remembered one.
    The remembered state is [None] until the first cloud (points_ empty). *)
Definition updatePointCloud (c : dda_cfg) (st : option (Z * grid)) (cl : cloud) : option (Z * grid) :=
  match st with
  | Some (stamp, g) =>
      if (cl_stamp cl =? stamp)%Z && negb (match g_points g with [] => true | _ => false end)
      then Some (stamp, g)
      else option_map (fun g' => (cl_stamp cl, g')) (build_grid c cl)
  | None => option_map (fun g' => (cl_stamp cl, g')) (build_grid c cl)
  end.
(** raycast_using_dda.h:260-270 *)
Definition within_map (g : grid) (p : vec3) : bool :=
  negb (Rltb (vx p) (vx (g_min g)) || Rltb (vx (g_max g)) (vx p) ||
        Rltb (vy p) (vy (g_min g)) || Rltb (vy (g_max g)) (vy p) ||
        Rltb (vz p) (vz (g_min g)) || Rltb (vz (g_max g)) (vz p)).

(** raycast_using_dda.h:286-296; [None] as a time is infinity *)
Record ray := {
  r_begin : vec3; r_dir : vec3; b_idx : i3; cur_idx : i3; step : i3;
  edges : axis -> option R; delta : axis -> option R; t_max : axis -> option R;
  max_movement : Z; posn : Z }.
(** raycast_using_dda.h:88-102, one axis *)
Definition sgn (d : Z) : Z := if (d <? 0)%Z then (-1)%Z else 1%Z.
Definition edge1 (c : dda_cfg) (mn : R) (dist b : Z) (dir x : R) : option R :=
  if (dist =? 0)%Z then None
  else let nearest := if Rltb dir 0 then IZR b * d_grid c + mn else (IZR b + 1) * d_grid c + mn in
       Some (Rabs ((nearest - x) / dir)).
Definition delta1 (c : dda_cfg) (dist : Z) (dir : R) : option R :=
  if (dist =? 0)%Z then None else Some (Rabs (d_grid c / dir)).
(** raycast_using_dda.h:66-104 after updatePointCloud *)
Definition ray_end_of (c : dda_cfg) (b e : vec3) : vec3 :=
  vadd e (vscale (vnormalized (vsub e b)) (d_tol c)).
Definition start_ray (c : dda_cfg) (g : grid) (b e : vec3) : ray :=
  let dir := vnormalized (vsub e b) in
  let bi := toIndex c (g_min g) b in
  let ei := toIndex c (g_min g) (ray_end_of c b e) in
  let dist a := (iget ei a - iget bi a)%Z in
  let ed a := edge1 c (vget3 (g_min g) a) (dist a) (iget bi a) (vget3 dir a) (vget3 b a) in
  {| r_begin := b; r_dir := dir; b_idx := bi; cur_idx := bi;
     step := I3 (sgn (dist AX)) (sgn (dist AY)) (sgn (dist AZ));
     edges := ed; delta := fun a => delta1 c (dist a) (vget3 dir a); t_max := ed;
     max_movement := (Z.abs (dist AX) + Z.abs (dist AY) + Z.abs (dist AZ))%Z; posn := 0 |}.
(** a ray that starts outside the map keeps the old members but reports nothing *)
Definition no_ray (r : ray) : ray :=
  {| r_begin := r_begin r; r_dir := r_dir r; b_idx := b_idx r; cur_idx := cur_idx r; step := step r;
     edges := edges r; delta := delta r; t_max := t_max r; max_movement := 0; posn := 0 |}.
Definition setRay (c : dda_cfg) (g : grid) (old : ray) (b e : vec3) : ray :=
  if within_map g b then start_ray c g b e else no_ray old.

(** comparison of times that may be infinite *)
Definition tlt (a b : option R) : bool :=
  match a, b with Some x, Some y => Rltb x y | Some _, None => true | None, _ => false end.
(** raycast_using_dda.h:114-147 *)
Definition choose (t : axis -> option R) : axis :=
  if tlt (t AX) (t AY) then if tlt (t AX) (t AZ) then AX else AZ
  else if tlt (t AY) (t AZ) then AY else AZ.
(** raycast_using_dda.h:192-203 (inf + inf * n is inf for n > 0) *)
Definition axis_eqb (a b : axis) : bool := match a, b with AX, AX | AY, AY | AZ, AZ => true | _, _ => false end.
Definition increment (g : grid) (r : ray) (a : axis) : ray * bool :=
  let cur := iset (cur_idx r) a (iget (cur_idx r) a + iget (step r) a)%Z in
  let n := Z.abs (iget cur a - iget (b_idx r) a) in
  let t := match edges r a, delta r a with
           | Some e, Some d => Some (e + d * IZR n) | _, _ => None end in
  let r' := {| r_begin := r_begin r; r_dir := r_dir r; b_idx := b_idx r; cur_idx := cur; step := step r;
     edges := edges r; delta := delta r;
     t_max := fun a' => if axis_eqb a' a then t else t_max r a';
     max_movement := max_movement r; posn := posn r |} in
  if ((iget cur a <? 0) || (iget (g_size g) a <=? iget cur a))%Z then
    ({| r_begin := r_begin r'; r_dir := r_dir r'; b_idx := b_idx r'; cur_idx := cur; step := step r';
        edges := edges r'; delta := delta r'; t_max := t_max r'; max_movement := max_movement r';
        posn := max_movement r |}, false)
  else (r', true).
(** raycast_using_dda.h:244-256 *)
Definition near_ray (c : dda_cfg) (r : ray) (p : lpt) : bool :=
  let rel := vsub (p3 p) (r_begin r) in
  let foot := Rabs (vdot rel (r_dir r)) in
  let thr := Rmax ((d_angle c * foot) ^ 2) (d_thr_sq c) in
  let dist_sq := vdot rel rel - foot * foot in
  Rltb dist_sq thr.
(** raycast_using_dda.h:237-258; [None] = read outside point_exists_ *)
Definition hasIntersection (c : dda_cfg) (g : grid) (r : ray) (cell : i3) : option (option lpt) :=
  let i := array_index (g_size g) cell in
  if ((0 <=? i) && (i <? point_total (g_size g)))%Z
  then Some (find (near_ray c r) (map snd (filter (fun e => (fst e =? i)%Z) (g_points g))))
  else None.
(** raycast_using_dda.h:106-159.  Outer [None] = undefined behaviour; inner [None] =
    getNextCastResult returned false. *)
Definition bump (r : ray) : ray :=
  {| r_begin := r_begin r; r_dir := r_dir r; b_idx := b_idx r; cur_idx := cur_idx r; step := step r;
     edges := edges r; delta := delta r; t_max := t_max r; max_movement := max_movement r; posn := (posn r + 1)%Z |}.
Definition dda_next (c : dda_cfg) (g : grid) (r : ray) : option (ray * option cast_result) :=
  let r1 := bump r in
  if (max_movement r1 <=? posn r1)%Z then Some (r1, None)
  else
    let '(r2, ok) := increment g r1 (choose (t_max r1)) in
    if ok then
      match hasIntersection c g r2 (cur_idx r2) with
      | None => None
      | Some hit =>
          Some (r2, Some {| c_pos := fromIndex c (g_min g) (cur_idx r2);
                            c_coll := match hit with Some _ => true | None => false end;
                            c_sin := 1; c_point := hit |})
      end
    else Some (r2, None).
End Dda.

(** RaycastUsingKDTree: raycast_using_kdtree.h:49-119.  [search q r] is the outcome of
    radiusSearch(q, r, id, sqdist, 1). *)
Record kray_cfg := { k_gmin : R; k_gmax : R; k_tol : R }.
(** raycast_using_kdtree.h:49-56 *)
Definition new_kray (gx gy gz tol : R) : kray_cfg :=
  {| k_gmin := Rmin gx (Rmin gy gz); k_gmax := Rmax gx (Rmax gy gz); k_tol := tol |}.
Record kray := { k_pos : vec3; k_inc : vec3; k_length : Z; k_count : Z }.
(** raycast_using_kdtree.h:58-65 *)
Definition k_setRay (c : kray_cfg) (b e : vec3) : kray :=
  let inc := vscale (vnormalized (vsub e b)) (k_gmin c) in
  {| k_length := Rfloor ((vnorm (vsub e b) + k_tol c) / k_gmin c); k_inc := inc; k_count := 1;
     k_pos := vadd b inc |}.
Definition to_pt (v : vec3) : pt := {| px := vx v; py := vy v; pz := vz v |}.
(** the two radii: lines 83 and 94 *)
Definition k_radius1 (c : kray_cfg) : R := sqrt 2 * k_gmax c / 2.
Definition k_radius2 (c : kray_cfg) : R := k_gmin c * 2 + sqrt 2 * k_gmax c / 2.
(** raycast_using_kdtree.h:67-109.  Outer [None]: the search threw or a point id was out
    of range; inner [None]: returned false. *)
Definition k_next (c : kray_cfg) (search : pt -> R -> search) (pts : list lpt) (r : kray)
  : option (kray * option cast_result) :=
  if (k_length r <=? k_count r)%Z then Some (r, None)
  else
    let r' := {| k_pos := vadd (k_pos r) (k_inc r); k_inc := k_inc r; k_length := k_length r;
                 k_count := (k_count r + 1)%Z |} in
    let done res := Some (r', Some res) in
    match search (to_pt (k_pos r)) (k_radius1 c) with
    | Throws => None
    | NoChunk | Found [] => done {| c_pos := k_pos r; c_coll := false; c_sin := 0; c_point := None |}
    | Found ((id, sq) :: _) =>
        match nth_error pts id with
        | None => None
        | Some p =>
            let d0 := sqrt sq in
            match search (to_pt (vsub (k_pos r) (vscale (k_inc r) 2))) (k_radius2 c) with
            | Throws => None
            | NoChunk | Found [] => done {| c_pos := k_pos r; c_coll := true; c_sin := 1; c_point := Some p |}
            | Found ((_, sq1) :: _) =>
                done {| c_pos := k_pos r; c_coll := true;
                        c_sin := Rabs (sqrt sq1 - d0) / (k_gmin c * 2); c_point := Some p |}
            end
        end
    end.
