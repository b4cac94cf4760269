(** Specification of the node with its samplers: what the samplers may do to the world that
    NodeModel.v sees, and what the library functions they use have to satisfy. *)
From Coq Require Import String.
From Coq Require Import Reals ZArith NArith List Bool Arith Permutation.
From Verif Require PfModel FilterModel AccumModel.
From Verif Require Import Arith KdModel QuatModel StateModel StateSpec RayModel LidarModel LidarSpec NdModel SamplerModel SamplerSpec ParamModel MatModel NodeModel NodeSpec NodeAliveSpec NodeSampModel.
Import ListNotations.
Open Scope R_scope.
Open Scope list_scope.

(** the same world, in which the samplers return other points *)
Definition with_samples (e : menv) (fb fl : list lpt -> N -> list lpt) : menv :=
  {| e_lookup := e_lookup e; e_lookup5 := e_lookup5 e; e_stat_shuffle := e_stat_shuffle e; e_beam := fb; e_like := fl; e_search := e_search e;
     e_fuel := e_fuel e; e_now := e_now e; e_shuffle := e_shuffle e; e_subs := e_subs e; e_sort := e_sort e; e_offset := e_offset e; e_noise := e_noise e;
     e_noise4 := e_noise4 e; e_expand := e_expand e; e_sort2 := e_sort2 e |}.
(** two events that differ at most in the points that the samplers pick from what they are given *)
Inductive same_world : event -> event -> Prop :=
| sw_cloud m e fb fl : picks_members fb -> picks_members fl -> same_world (ECloud m e) (ECloud m (with_samples e fb fl))
| sw_other ev : (forall m e, ev <> ECloud m e) -> same_world ev ev.

(** uniform_int_distribution(0, n) answers at most n; uniform_real_distribution(0, b) answers
    nothing above b; the unordered set is listed in some order; one normal per point *)
Record draws_ok {E} (draw_int : nat -> E -> nat * E) (draw_real : R -> E -> R * E) (normals : R -> list lpt -> list (option (R * R * R)))
  (order : list nat -> list nat) : Prop := {
  do_int : forall n g, (fst (draw_int n g) <= n)%nat;
  do_real : forall b g, fst (draw_real b g) <= b;
  do_order : forall s, Permutation (order s) s;
  do_normals : forall r l, length (normals r l) = length l }.

(** What a sampler returns when it is asked for [k] points of the cloud [l]: [k] points of the
    cloud, some of them perhaps several times (uniform), or [k] different ones as long as there
    are so many (weighted by the normals). *)
Definition sampled (weighted : bool) (l : list lpt) (k : nat) (out : list lpt) : Prop :=
  if weighted then length out = Nat.min k (length l) /\ distinct_places out l
  else (forall q, In q out -> In q l) /\ length out = match l with [] => 0%nat | _ => k end.

Section Run.
Context {S E : Type} (caster : cloud -> (pt -> R -> search) -> raycaster S) (voxel : R * R * R -> list lpt -> list lpt) (p : params)
        (draw_int : nat -> E -> nat * E) (draw_real : R -> E -> R * E) (normals : R -> list lpt -> list (option (R * R * R)))
        (eigen : mat3 -> vec3 * (vec3 * vec3 * vec3)) (order : list nat -> list nat).
(** A history of legal events for the node with its samplers. *)
Fixpoint legal_run_s (Inv : cloud -> S -> Prop) (n : @node S) (g : E) (evs : list event) : Prop :=
  match evs with
  | [] => True
  | ev :: t => legal caster voxel p Inv n ev
               /\ forall k n' o g', step_s caster voxel p draw_int draw_real normals eigen order n g (with_fuel_ev k ev) = Ok (n', o, g') -> legal_run_s Inv n' g' t
  end.
End Run.
(** the settings and the engine with which the weighted sampler comes to an end (see C67) *)
Definition weighting_ok {E} (p : params) (draw_real : R -> E -> R * E) : Prop :=
  use_sampler_normal p = true ->
  (let '(ratio, max_ratio, max_w, _) := sampler_normal p in ratio < max_ratio /\ 1 <= max_w) /\ fair draw_real /\ in_unit_range draw_real.
(** the number of points that a lidar model asks for when the node has [k] particles *)
Definition asked (p : params) (dflt glob : N) (k : nat) : nat := N.to_nat (budget dflt glob (Z.to_N (num_particles p mod 2 ^ 64)) (N.of_nat k)).
