(** Model of the particle state, its noise, its mean and the motion model:
    /repo/include/mcl_3dl/state_6dof.h:49-355,
    /repo/include/mcl_3dl/noise_generator_base.h:37-65,
    /repo/include/mcl_3dl/noise_generators/diagonal_noise_generator.h:41-82,
    /repo/include/mcl_3dl/motion_prediction_models/motion_prediction_model_differential_drive.h:37-77.
    Simplifications: real arithmetic; the random engine is an arbitrary state type [E]
    with an arbitrary function for one draw of normal_distribution(mean, sigma). *)
From Coq Require Import Reals List Bool.
From Verif Require Import Arith QuatModel.
Import ListNotations.
Open Scope R_scope.

(** state_6dof.h:52-79 *)
Record state := {
  pos : vec3; rot : quat; diff : bool;
  noise_ll : R; noise_la : R; noise_al : R; noise_aa : R;
  err_lin : vec3; err_ang : vec3;
  rpy : vec3
}.
(** state_6dof.h:185-191 *)
Definition state0 : state :=
  {| pos := v0; rot := q1; diff := false; noise_ll := 0; noise_la := 0; noise_al := 0;
     noise_aa := 0; err_lin := v0; err_ang := v0; rpy := v0 |}.
(** state_6dof.h:192-200 *)
Definition state_pr (p : vec3) (r : quat) : state :=
  {| pos := p; rot := r; diff := false; noise_ll := 0; noise_la := 0; noise_al := 0;
     noise_aa := 0; err_lin := v0; err_ang := v0; rpy := v0 |}.
(** state_6dof.h:201-209 *)
Definition state_rpy (p rpyv : vec3) : state :=
  {| pos := p; rot := q1; diff := true; noise_ll := 0; noise_la := 0; noise_al := 0;
     noise_aa := 0; err_lin := v0; err_ang := v0; rpy := rpyv |}.
(** state_6dof.h:154-157 *)
Definition normalize (s : state) : state :=
  {| pos := pos s; rot := qnormalized (rot s); diff := diff s; noise_ll := noise_ll s;
     noise_la := noise_la s; noise_al := noise_al s; noise_aa := noise_aa s;
     err_lin := err_lin s; err_ang := err_ang s; rpy := rpy s |}.
(** state_6dof.h:249-261: the result is a fresh State6DOF() *)
Definition splus (t a : state) : state :=
  {| pos := vadd (pos t) (pos a); rot := qmul (rot a) (rot t); diff := false;
     noise_ll := 0; noise_la := 0; noise_al := 0; noise_aa := 0;
     err_lin := vadd (err_lin t) (err_lin a); err_ang := vadd (err_ang t) (err_ang a);
     rpy := v0 |}.
(** state_6dof.h:262-274 *)
Definition sminus (t a : state) : state :=
  {| pos := vsub (pos t) (pos a); rot := qmul (inv (rot a)) (rot t); diff := false;
     noise_ll := 0; noise_la := 0; noise_al := 0; noise_aa := 0;
     err_lin := vsub (err_lin t) (err_lin a); err_ang := vsub (err_ang t) (err_ang a);
     rpy := v0 |}.

(** A point of a cloud; [lab] stands for every other field *)
Record lpt := { p3 : vec3; lab : nat }.
(** state_6dof.h:214-225 *)
Definition transform (s : state) (pc : list lpt) : list lpt :=
  let r := qnormalized (rot s) in
  map (fun p => {| p3 := vadd (qrot r (p3 p)) (pos s); lab := lab p |}) pc.

(** state_6dof.h:176-179: while (diff > pi) diff -= 2 pi; while (diff < -pi) diff += 2 pi.
    [n] bounds the number of iterations of each loop; [None] = bound reached. *)
Fixpoint wrap_down (n : nat) (x : R) : option R :=
  if Rltb PI x then match n with O => None | S n' => wrap_down n' (x - 2 * PI) end else Some x.
Fixpoint wrap_up (n : nat) (x : R) : option R :=
  if Rltb x (- PI) then match n with O => None | S n' => wrap_up n' (x + 2 * PI) end else Some x.
Definition wrap (n : nat) (x : R) : option R :=
  match wrap_down n x with Some y => wrap_up n y | None => None end.
(** state_6dof.h:164-180 *)
Definition angles (s : state) : vec3 := if diff s then rpy s else getRPY (rot s).
Definition cov_diff (n : nat) (s e : state) (i : nat) : option R :=
  if (i <? 3)%nat then Some (v_get (pos s) i - v_get (pos e) i)
  else wrap n (v_get (angles s) (i - 3) - v_get (angles e) (i - 3)).
(** state_6dof.h:162-184; val starts as 1 *)
Definition covElement (n : nat) (s e : state) (j k : nat) : option R :=
  match cov_diff n s e j, cov_diff n s e k with
  | Some a, Some b => Some (1 * a * b)
  | _, _ => None
  end.

Section Noise.
(** one draw of std::normal_distribution<float>(mean, sigma) *)
Context {E : Type} (normal : R -> R -> E -> R * E).
(** diagonal_noise_generator.h:63-78 *)
Fixpoint diagonal (mean sigma : list R) (e : E) : list R * E :=
  match mean, sigma with
  | m :: mean', s :: sigma' =>
      if Req_EM_T s 0 then
        let '(r, e') := diagonal mean' sigma' e in (m :: r, e')
      else
        let '(x, e1) := normal m s e in
        let '(r, e') := diagonal mean' sigma' e1 in (x :: r, e')
  | _, _ => ([], e)
  end.
(** state_6dof.h:277-295 *)
Definition set_mean (mean : state) : list R :=
  let v := getRPY (rot mean) in [vx (pos mean); vy (pos mean); vz (pos mean); vx v; vy v; vz v].
(** state_6dof.h:297-314 *)
Definition set_sigma (sigma : state) : list R :=
  [vx (pos sigma); vy (pos sigma); vz (pos sigma); vx (rpy sigma); vy (rpy sigma); vz (rpy sigma)].
(** state_6dof.h:226-248: from the generated vector and the mean *)
Definition noise_state (org mean : list R) : state :=
  let g i := nth i org 0 in let m i := nth i mean 0 in
  {| pos := V3 (g 0%nat) (g 1%nat) (g 2%nat);
     rot := setRPY (V3 (g 3%nat) (g 4%nat) (g 5%nat)); diff := false;
     noise_ll := 0; noise_la := 0; noise_al := 0; noise_aa := 0;
     err_lin := V3 (g 0%nat) (g 1%nat) (g 2%nat);
     err_ang := V3 (g 3%nat - m 3%nat) (g 4%nat - m 4%nat) (g 5%nat - m 5%nat);
     rpy := v0 |}.
Definition generateNoise (mean sigma : state) (e : E) : state * E :=
  let m := set_mean mean in
  let '(org, e') := diagonal m (set_sigma sigma) e in
  (noise_state org m, e').
End Noise.

(** Motion model.  Members computed by setOdoms: lines 71-76 *)
Record motion := { m_lin_tc : R; m_ang_tc : R;
  rel_tr : vec3; rel_quat : quat; rel_norm : R; rel_ang : R; time_diff : R }.
(** motion_prediction_model_differential_drive.h:46-54 *)
Definition setOdoms (lin_tc ang_tc : R) (prev cur : state) (dt : R) : motion :=
  let tr := qrot (inv (rot prev)) (vsub (pos cur) (pos prev)) in
  let q := qmul (inv (rot prev)) (rot cur) in
  {| m_lin_tc := lin_tc; m_ang_tc := ang_tc; rel_tr := tr; rel_quat := q;
     rel_norm := vnorm tr; rel_ang := snd (getAxisAng q); time_diff := dt |}.
(** motion_prediction_model_differential_drive.h:56-67 *)
Definition motion_predict (m : motion) (s : state) : state :=
  let d := vadd (vscale (rel_tr m) (1 + noise_ll s)) (V3 (noise_al s * rel_ang m) 0 0) in
  let lin := vadd (err_lin s) (vsub d (rel_tr m)) in
  let p := vadd (pos s) (qrot (rot s) d) in
  let yaw_diff := noise_la s * rel_norm m + noise_aa s * rel_ang m in
  let r := qnormalized (qmul (qmul (setAxisAng (V3 0 0 1) yaw_diff) (rot s)) (rel_quat m)) in
  let ang := vadd (err_ang s) (V3 0 0 yaw_diff) in
  {| pos := p; rot := r; diff := diff s; noise_ll := noise_ll s; noise_la := noise_la s;
     noise_al := noise_al s; noise_aa := noise_aa s;
     err_lin := vscale lin (1 - time_diff m / m_lin_tc m);
     err_ang := vscale ang (1 - time_diff m / m_ang_tc m);
     rpy := rpy s |}.

(** ParticleWeightedMeanQuat: state_6dof.h:316-355 (e_.pos_, p_sum_, front_sum_, up_sum_) *)
Record qmean := { m_pos : vec3; m_sum : R; m_front : vec3; m_up : vec3 }.
Definition qmean0 : qmean := {| m_pos := v0; m_sum := 0; m_front := v0; m_up := v0 |}.
(** state_6dof.h:330-342 *)
Definition qmean_add (m : qmean) (s : state) (prob : R) : qmean :=
  {| m_sum := m_sum m + prob;
     m_pos := vadd (m_pos m) (vscale (pos s) prob);
     m_front := vadd (m_front m) (vscale (qrot (rot s) (V3 1 0 0)) prob);
     m_up := vadd (m_up m) (vscale (qrot (rot s) (V3 0 0 1)) prob) |}.
(** state_6dof.h:344-349 *)
Definition qmean_get (m : qmean) : state :=
  state_pr (vdiv (m_pos m) (m_sum m)) (fromFrontUp (m_front m) (m_up m)).
