(** Vocabulary for C127: moving the whole world. *)
From Coq Require Import Reals ZArith List Bool Arith.
From Verif Require Import Arith QuatModel QuatSpec StateModel KdModel RayModel.
From Verif Require PfModel PfHist.
Import ListNotations.
Open Scope R_scope.

(** Another choice of the map frame: a turn about the vertical axis followed by a translation. *)
Record frame_change := { fc_ang : R; fc_tr : vec3 }.
Definition move_vec (g : frame_change) (v : vec3) : vec3 := vadd (qrot (yaw (fc_ang g)) v) (fc_tr g).
(** the same pose described in the other frame; noise factors and odometry errors belong to the robot and stay *)
Definition move_pose (g : frame_change) (s : state) : state :=
  {| pos := move_vec g (pos s); rot := qmul (yaw (fc_ang g)) (rot s); diff := diff s;
     noise_ll := noise_ll s; noise_la := noise_la s; noise_al := noise_al s; noise_aa := noise_aa s;
     err_lin := err_lin s; err_ang := err_ang s; rpy := rpy s |}.
(** the same displacement (added in the map frame) described in the other frame *)
Definition move_noise (g : frame_change) (n : state) : state :=
  {| pos := qrot (yaw (fc_ang g)) (pos n); rot := qmul (qmul (yaw (fc_ang g)) (rot n)) (inv (yaw (fc_ang g))); diff := diff n;
     noise_ll := noise_ll n; noise_la := noise_la n; noise_al := noise_al n; noise_aa := noise_aa n;
     err_lin := err_lin n; err_ang := err_ang n; rpy := rpy n |}.
(** the same map in the other frame *)
Definition of_pt (p : pt) : vec3 := V3 (px p) (py p) (pz p).
Definition move_map (g : frame_change) (m : list pt) : list pt := map (fun p => to_pt (move_vec g (of_pt p))) m.
(** a filter whose particles have been carried over by [phi]; weights, biases and everything else as before *)
Definition carry_particle {A : arith} {T U} (phi : T -> U) (p : PfModel.particle A T) : PfModel.particle A U :=
  {| PfModel.st := phi (PfModel.st A p); PfModel.w := PfModel.w A p; PfModel.bias := PfModel.bias A p; PfModel.acc := PfModel.acc A p |}.
Definition carry {A : arith} {T U} (phi : T -> U) (f : PfModel.filter A T) : PfModel.filter A U :=
  {| PfModel.parts := map (carry_particle phi) (PfModel.parts A f); PfModel.entropy := PfModel.entropy A f |}.
Definition carry_pair {A : arith} {T U} (phi : T -> U) (x : A * T) : A * U := (fst x, phi (snd x)).

(** The same operation in two descriptions of the world, [phi] translating poses. *)
Inductive same_op {A : arith} {T U} (phi : T -> U) : PfHist.op A T -> PfHist.op A U -> Prop :=
| so_init g g' : (forall i, g' i = phi (g i)) -> same_op phi (PfHist.OInit A g) (PfHist.OInit A g')
| so_measure l l' : (forall i s, l' i (phi s) = l i s) -> same_op phi (PfHist.OMeasure A l) (PfHist.OMeasure A l')
| so_resample pl nm off nz d pl' nm' nz' : (forall s k, nm' (pl' (phi s) (nz' k)) = phi (nm (pl s (nz k)))) ->
    same_op phi (PfHist.OResample A pl nm off nz d) (PfHist.OResample A pl' nm' off nz' (map (carry_pair phi) d))
| so_resize x n d : same_op phi (PfHist.OResize A x n d) (PfHist.OResize A (phi x) n (map (carry_pair phi) d))
| so_noise pl nz pl' nz' : (forall s i, pl' (phi s) (nz' i) = phi (pl s (nz i))) -> same_op phi (PfHist.ONoise A pl nz) (PfHist.ONoise A pl' nz')
| so_predict m m' : (forall i s, m' i (phi s) = phi (m i s)) -> same_op phi (PfHist.OPredict A m) (PfHist.OPredict A m')
| so_bias b b' : (forall i s x, b' i (phi s) x = b i s x) -> same_op phi (PfHist.OBias A b) (PfHist.OBias A b')
| so_append x n : same_op phi (PfHist.OAppend A x n) (PfHist.OAppend A (phi x) n)
| so_expect qs : same_op phi (PfHist.OExpectPass A qs) (PfHist.OExpectPass A (map (carry_particle phi) qs)).
(** running a list of operations; [None] = undefined behaviour *)
Fixpoint run_all {A : arith} {T} (ops : list (PfHist.op A T)) (f : PfModel.filter A T) : option (PfModel.filter A T) :=
  match ops with
  | [] => Some f
  | o :: r => match PfHist.run A o f with Some f1 => run_all r f1 | None => None end
  end.
(** A front and an up direction that determine an orientation which is not a half turn. *)
Definition tidy (front up : vec3) : Prop :=
  nonzero_vec front /\ nonzero_vec (vcross up front) /\
  let x := vnormalized front in let y := vnormalized (vcross up x) in let z := vnormalized (vcross x y) in
  0 < 1 + vx x + vy y + vz z.
(** the weighted sum of a body direction over the particles *)
Definition direction (d : vec3) (f : PfModel.filter RA state) : vec3 :=
  fold_left (fun v p => vadd v (vscale (qrot (rot (PfModel.st RA p)) d) (PfModel.w RA p))) (PfModel.parts RA f) v0.
