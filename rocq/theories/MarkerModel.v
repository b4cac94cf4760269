(** Model of the debug markers of one localization step: /repo/src/mcl_3dl.cpp:464-627,
    /repo/src/lidar_measurement_model_beam.cpp:157-192 (with the cast result it returns).
    Constant fields (frame, stamp, sizes, lifetime, orientation) are left out. *)
From Coq Require Import Reals ZArith NArith List Bool Arith.
From Verif Require Import Arith QuatModel StateModel KdModel RayModel LidarModel.
Import ListNotations.
Open Scope R_scope.

(** r, g, b, a (std_msgs/ColorRGBA) *)
Record color := RGBA { c_r : R; c_g : R; c_b : R; c_a : R }.
Definition no_color : color := RGBA 0 0 0 0.
(** marker.ns: "Ray collisions" (a cube), "Rays" (a line strip), "Sample points" (a sphere) *)
Inductive marker_ns := Collision | Ray | Sample.
Record marker := { m_ns : marker_ns; m_id : nat; m_at : list vec3; m_col : list color }.

(** lidar_measurement_model_beam.cpp:164-191, with the out parameter [result]: the last
    cast result that was written ([cur] before the loop; nothing is written by the call
    that returns false) *)
Fixpoint beam_loop_r {S} (bm : beam) (rc : raycaster S) (scan : vec3) (n : nat) (s : S) (cur : cast_result)
  : run (S * beam_status * cast_result) :=
  match n with
  | O => Running
  | Datatypes.S n' =>
      match rc_next rc s with
      | None => Undefined
      | Some (s', None) => Done (s', LONG, cur)
      | Some (s', Some y) =>
          if negb (c_coll y) then beam_loop_r bm rc scan n' s' y
          else match c_point y with
               | None => Undefined
               | Some p =>
                   if (bp_label_max (b_par bm) <? lab p)%nat then beam_loop_r bm rc scan n' s' y
                   else if Rltb (b_sin_ref bm) (c_sin y)
                        then Done (s', if Rltb (dist3_sq scan (p3 p)) (b_hit_sq bm) then HIT else SHORT, y)
                        else Done (s', TOTAL_REFLECTION, y)
               end
      end
  end.
(** raycast.h:53-59: the default cast result of mcl_3dl.cpp:477 *)
Definition cast_result0 : cast_result := {| c_pos := V3 0 0 0; c_coll := false; c_sin := 0; c_point := None |}.
(** lidar_measurement_model_beam.cpp:157-163, mcl_3dl.cpp:477-478 *)
Definition getBeamStatus_r {S} (bm : beam) (rc : raycaster S) (n : nat) (s : S) (lidar scan : vec3) : run (S * beam_status * cast_result) :=
  match rc_set rc s lidar scan with
  | None => Undefined
  | Some s1 => beam_loop_r bm rc scan n s1 cast_result0
  end.

(** mcl_3dl.cpp:499-521: colour of the cube (LONG is not drawn, [default] leaves zeros) *)
Definition cube_color (st : beam_status) : color :=
  match st with
  | HIT => RGBA 0 1 0 (8 / 10)
  | SHORT => RGBA 1 0 0 (8 / 10)
  | TOTAL_REFLECTION => RGBA 0 1 0 (2 / 10)
  | LONG => no_color
  end.
(** mcl_3dl.cpp:550-592: colours of the two ends of the line *)
Definition line_colors (st : beam_status) : list color :=
  match st with
  | HIT => [RGBA 0 1 0 (5 / 10); RGBA 0 1 0 (8 / 10)]
  | SHORT => [RGBA 1 0 0 (5 / 10); RGBA 1 0 0 (8 / 10)]
  | LONG => [RGBA 0 0 1 (5 / 10); RGBA 0 0 1 (8 / 10)]
  | TOTAL_REFLECTION => [RGBA 0 1 0 (2 / 10); RGBA 0 1 0 (2 / 10)]
  end.
(** mcl_3dl.cpp:480-523: the collision marker, unless LONG; id = markers.size() *)
Definition add_collision (st : beam_status) (y : cast_result) (ms : list marker) : list marker :=
  match st with
  | LONG => ms
  | _ => ms ++ [{| m_ns := Collision; m_id := length ms; m_at := [c_pos y]; m_col := [cube_color st] |}]
  end.
(** mcl_3dl.cpp:525-593 *)
Definition add_ray (st : beam_status) (b e : vec3) (ms : list marker) : list marker :=
  ms ++ [{| m_ns := Ray; m_id := length ms; m_at := [b; e]; m_col := line_colors st |}].
(** mcl_3dl.cpp:471-594: the beams; [pts] already transformed *)
Fixpoint beam_markers {S} (bm : beam) (rc : raycaster S) (origins : list vec3) (e : state) (n : nat) (pts : list lpt) (s : S)
  (ms : list marker) : run (S * list marker) :=
  match pts with
  | [] => Done (s, ms)
  | p :: pts' =>
      match nth_error origins (lab p) with
      | None => Undefined
      | Some o =>
          let b := vadd (pos e) (qrot (rot e) o) in
          match getBeamStatus_r bm rc n s b (p3 p) with
          | Done (s', st, y) => beam_markers bm rc origins e n pts' s' (add_ray st b (p3 p) (add_collision st y ms))
          | Undefined => Undefined
          | Running => Running
          end
      end
  end.
(** mcl_3dl.cpp:599-624: the sample points *)
Definition add_sample (ms : list marker) (p : lpt) : list marker :=
  ms ++ [{| m_ns := Sample; m_id := length ms; m_at := [p3 p]; m_col := [RGBA 1 0 1 1] |}].
(** mcl_3dl.cpp:464-627 *)
Definition debug_markers {S} (bm : beam) (rc : raycaster S) (origins : list vec3) (e : state) (n : nat) (bp lp : list lpt) (s : S)
  : run (S * list marker) :=
  match beam_markers bm rc origins e n (transform e bp) s [] with
  | Done (s', ms) => Done (s', fold_left add_sample (transform e lp) ms)
  | Undefined => Undefined
  | Running => Running
  end.
