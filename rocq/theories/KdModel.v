(** Model of the chunked kd-tree: /repo/include/mcl_3dl/chunked_kdtree.h.

    Simplifications: real coordinates instead of float; chunk ids are unbounded
    integers (the code casts to int); std::unordered_map is an association list (the
    code never depends on its iteration order: every key is processed separately). *)
From Coq Require Import Reals ZArith List Bool Arith.
From Verif Require Import Arith.
Import ListNotations.

Record pt := { px : R; py : R; pz : R }.
(** chunked_kdtree.h:51-88 *)
Definition cid : Type := (Z * Z * Z)%type.
Definition cid_eqb (a b : cid) : bool :=
  let '(x, y, z) := a in let '(x', y', z') := b in ((x =? x') && (y =? y') && (z =? z'))%Z.
Definition cid_add (a b : cid) : cid :=
  let '(x, y, z) := a in let '(x', y', z') := b in ((x + x')%Z, (y + y')%Z, (z + z')%Z).

(** maps from chunk ids to vectors with the [m[id].push_back(x)] idiom *)
Definition vmap (X : Type) := list (cid * list X).
Fixpoint push {X} (m : vmap X) (k : cid) (x : X) : vmap X :=
  match m with
  | [] => [(k, [x])]
  | (k', l) :: m' => if cid_eqb k k' then (k', l ++ [x]) :: m' else (k', l) :: push m' k x
  end.
Fixpoint vfind {X} (m : list (cid * X)) (k : cid) : option X :=
  match m with
  | [] => None
  | (k', l) :: m' => if cid_eqb k k' then Some l else vfind m' k
  end.
(** [ids[k]] default-constructs a missing entry *)
Definition vget {X} (m : vmap X) (k : cid) : list X :=
  match vfind m k with Some l => l | None => [] end.

Section Place.
Context {P : Type} (getChunkId : P -> cid) (bounds : P -> Z * Z * Z).

(** chunked_kdtree.h:160-201: the chunks a point is copied to, in code order *)
Definition copies (c : cid) (b : Z * Z * Z) : list cid :=
  let '(bx, by_, bz) := b in
  let nz := fun v => negb (v =? 0)%Z in
  (if nz bx && nz by_ && nz bz then [cid_add c (bx, by_, bz)] else []) ++
  (if nz bx && nz by_ then [cid_add c (bx, by_, 0%Z)] else []) ++
  (if nz by_ && nz bz then [cid_add c (0%Z, by_, bz)] else []) ++
  (if nz bz && nz bx then [cid_add c (bx, 0%Z, bz)] else []) ++
  (if nz bx then [cid_add c (bx, 0%Z, 0%Z)] else []) ++
  (if nz by_ then [cid_add c (0%Z, by_, 0%Z)] else []) ++
  (if nz bz then [cid_add c (0%Z, 0%Z, bz)] else []).
(** chunked_kdtree.h:135-137 and 160-201 *)
Definition targets (p : P) : list cid := getChunkId p :: copies (getChunkId p) (bounds p).
Definition push_all {X} (ks : list cid) (x : X) (m : vmap X) : vmap X :=
  fold_left (fun m k => push m k x) ks m.
(** chunked_kdtree.h:130-203: [clouds] and [ids] are filled in lock step *)
Fixpoint place (i : nat) (ps : list P) (clouds : vmap P) (ids : vmap nat) : vmap P * vmap nat :=
  match ps with
  | [] => (clouds, ids)
  | p :: ps' => place (S i) ps' (push_all (targets p) p clouds) (push_all (targets p) i ids)
  end.

(** chunked_kdtree.h:266-278; the kd-tree is its input cloud with its point
    representation and epsilon *)
Record chunk (Rep Eps : Type) := {
  tree : list P; rep : option Rep; eps : option Eps; original_ids : list nat; kept : list P
}.
(** chunked_kdtree.h:204-215 *)
Definition build_chunks {Rep Eps} (keep : bool) (r : option Rep) (e : option Eps)
    (clouds : vmap P) (ids : vmap nat) : list (cid * chunk Rep Eps) :=
  map (fun kc => (fst kc, {| tree := snd kc; rep := r; eps := e;
                             original_ids := vget ids (fst kc);
                             kept := if keep then snd kc else [] |})) clouds.
End Place.
Arguments tree {P Rep Eps}. Arguments rep {P Rep Eps}. Arguments eps {P Rep Eps}.
Arguments original_ids {P Rep Eps}. Arguments kept {P Rep Eps}.

(** chunked_kdtree.h:258-263 with pos_to_chunk_ = 1/chunk_length (line 94) *)
Definition getChunkId (L : R) (p : pt) : cid :=
  (Rfloor (px p * (1 / L)), Rfloor (py p * (1 / L)), Rfloor (pz p * (1 / L))).
(** chunked_kdtree.h:139-158, one axis *)
Definition bound1 (L rmax x : R) (c : Z) : Z :=
  let in_chunk := (x - IZR c * L)%R in
  if Rltb in_chunk rmax then (-1)%Z
  else if Rltb (L - rmax) in_chunk then 1%Z else 0%Z.
Definition bounds (L rmax : R) (p : pt) : Z * Z * Z :=
  let '(cx, cy, cz) := getChunkId L p in
  (bound1 L rmax (px p) cx, bound1 L rmax (py p) cy, bound1 L rmax (pz p) cz).

(** point representation: rescale values (1,1,1 by default) *)
Definition scale : Type := (R * R * R)%type.
Definition scale_of (s : option scale) : scale := match s with Some v => v | None => (1, 1, 1)%R end.
Definition dist_sq (s : scale) (p q : pt) : R :=
  let '(a, b, c) := s in
  ((a * px p - a * px q) * (a * px p - a * px q)
   + (b * py p - b * py q) * (b * py p - b * py q)
   + (c * pz p - c * pz q) * (c * pz p - c * pz q))%R.

(** pcl::KdTreeFLANN::radiusSearch(p, radius, id, dist_sq, num) with sorted results:
    the library is specified, not modelled.  [out] pairs tree indices with squared
    distances.  With a tolerance e > 0 a point may be missed if (1+e) times its squared
    distance is not below the bound (FLANN prunes with that factor). *)
Definition flann_result (s : scale) (e : R) (pts : list pt) (q : pt) (radius : R) (num : nat)
    (out : list (nat * R)) : Prop :=
  NoDup (map fst out)
  /\ (forall i d, In (i, d) out -> exists p, nth_error pts i = Some p /\ d = dist_sq s p q
                                             /\ (d < radius * radius)%R)
  /\ (forall a b x y, a < b -> nth_error out a = Some x -> nth_error out b = Some y -> (snd x <= snd y)%R)
  /\ (0 < num -> length out <= num)
  /\ (num = 0 \/ length out < num ->
        forall i p, nth_error pts i = Some p -> ((1 + e) * dist_sq s p q < radius * radius)%R ->
          In i (map fst out))
  /\ (forall last, nth_error out (length out - 1) = Some last -> length out = num ->
        forall i p, nth_error pts i = Some p -> ((1 + e) * dist_sq s p q < snd last)%R ->
          In i (map fst out)).

(** chunked_kdtree.h:280-292 *)
Record kdt := {
  chunk_length : R; max_search_radius : R; keep_clouds : bool;
  epsilon : option R;              (* set_epsilon_ / epsilon_ *)
  point_rep : option scale;
  chunks : list (cid * chunk (P := pt) scale R);
  input_cloud : option (list pt)
}.
(** chunked_kdtree.h:90-101 *)
Definition new_kdt (L rmax : R) (keep : bool) : kdt :=
  {| chunk_length := L; max_search_radius := rmax; keep_clouds := keep; epsilon := None;
     point_rep := None; chunks := []; input_cloud := None |}.
Definition chunk_set_eps (e : R) (c : chunk (P := pt) scale R) :=
  {| tree := tree c; rep := rep c; eps := Some e; original_ids := original_ids c; kept := kept c |}.
Definition chunk_set_rep (r : scale) (c : chunk (P := pt) scale R) :=
  {| tree := tree c; rep := Some r; eps := eps c; original_ids := original_ids c; kept := kept c |}.
(** chunked_kdtree.h:102-110 *)
Definition setEpsilon (e : R) (k : kdt) : kdt :=
  {| chunk_length := chunk_length k; max_search_radius := max_search_radius k;
     keep_clouds := keep_clouds k; epsilon := Some e; point_rep := point_rep k;
     chunks := map (fun kc => (fst kc, chunk_set_eps e (snd kc))) (chunks k);
     input_cloud := input_cloud k |}.
(** chunked_kdtree.h:111-119 *)
Definition setPointRepresentation (r : scale) (k : kdt) : kdt :=
  {| chunk_length := chunk_length k; max_search_radius := max_search_radius k;
     keep_clouds := keep_clouds k; epsilon := epsilon k; point_rep := Some r;
     chunks := map (fun kc => (fst kc, chunk_set_rep r (snd kc))) (chunks k);
     input_cloud := input_cloud k |}.
(** chunked_kdtree.h:124-216 *)
Definition setInputCloud (cloud : list pt) (k : kdt) : kdt :=
  let L := chunk_length k in
  let '(clouds, ids) := place (getChunkId L) (bounds L (max_search_radius k)) 0 cloud [] [] in
  {| chunk_length := L; max_search_radius := max_search_radius k;
     keep_clouds := keep_clouds k; epsilon := epsilon k; point_rep := point_rep k;
     chunks := build_chunks (keep_clouds k) (point_rep k) (epsilon k) clouds ids;
     input_cloud := Some cloud |}.

(** chunked_kdtree.h:217-237: what a call does *)
Inductive search :=
| Throws                                    (* std::runtime_error *)
| NoChunk                                   (* returns 0, id and dist_sq are not touched *)
| Found (out : list (nat * R)).             (* id / dist_sq after the call *)
Definition remap (ids : list nat) (out : list (nat * R)) : list (option nat * R) :=
  map (fun x => (nth_error ids (fst x), snd x)) out.
(** [None] id = reading original_ids_ out of range (undefined) *)
Definition radiusSearch (k : kdt) (q : pt) (radius : R) (num : nat) (r : search) : Prop :=
  if Rltb (chunk_length k) radius then r = Throws
  else match vfind (chunks k) (getChunkId (chunk_length k) q) with
       | None => r = NoChunk
       | Some c =>
           exists inner out,
             flann_result (scale_of (rep c)) (match eps c with Some e => e | None => 0%R end)
               (tree c) q radius num inner
             /\ remap (original_ids c) inner = map (fun x => (Some (fst x), snd x)) out
             /\ r = Found out
       end.
(** chunked_kdtree.h:248-257; a null pointer is [None] *)
Definition getChunkCloud (k : kdt) (c : cid) : option (list pt) :=
  if keep_clouds k then option_map kept (vfind (chunks k) c) else None.
