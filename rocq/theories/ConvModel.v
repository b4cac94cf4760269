(** Model of the conversion of sensor_msgs/PointCloud2 to a cloud of PointXYZIL:
    /repo/include/mcl_3dl/point_conversion.h:46-92, /repo/include/mcl_3dl/point_types.h:40-64.
    Values are the 32-bit words that PCL copies (a FLOAT32 word is a float, a UINT32 word a
    label).  External libraries, specified here from their documented behaviour:
    sensor_msgs::getPointCloud2FieldIndex (the first field with that name, any type),
    pcl::fromROSMsg (each field of the point type is filled from the first message field
    with the same name, datatype and count; without such a field it keeps its default) and
    pcl::copyPointCloud (resizes the output, then overwrites the fields that both types
    have).  Not modelled: offsets and the length of the data buffer (a message whose data is
    shorter than width * height points), cloud headers. *)
From Coq Require Import String.
From Coq Require Import NArith List Bool.
Import ListNotations.
Open Scope string_scope.
Open Scope list_scope.

(** sensor_msgs/PointField *)
Inductive datatype := INT8 | UINT8 | INT16 | UINT16 | INT32 | UINT32 | FLOAT32 | FLOAT64.
Record field := { f_name : string; f_type : datatype; f_count : nat }.
(** one point of the message: the words of its fields *)
Definition row := nat -> N.
Record msg := { m_fields : list field; m_rows : list row }.
Definition datatype_eqb (a b : datatype) : bool :=
  match a, b with INT8, INT8 | UINT8, UINT8 | INT16, INT16 | UINT16, UINT16 | INT32, INT32
  | UINT32, UINT32 | FLOAT32, FLOAT32 | FLOAT64, FLOAT64 => true | _, _ => false end.

(** point_types.h:40-55 with its default constructor *)
Record xyzil := { p_x : N; p_y : N; p_z : N; p_i : N; p_l : N }.
Definition default_point : xyzil := {| p_x := 0; p_y := 0; p_z := 0; p_i := 0; p_l := 0 |}.

Fixpoint index_of (q : field -> bool) (l : list field) (i : nat) : option nat :=
  match l with [] => None | f :: t => if q f then Some i else index_of q t (S i) end.
(** getPointCloud2FieldIndex; [None] is -1 *)
Definition field_index (m : msg) (n : string) : option nat := index_of (fun f => String.eqb (f_name f) n) (m_fields m) 0.
(** pcl::FieldMatches for a scalar field *)
Definition match_index (m : msg) (n : string) (t : datatype) : option nat :=
  index_of (fun f => String.eqb (f_name f) n && datatype_eqb (f_type f) t && Nat.leb (f_count f) 1) (m_fields m) 0.
(** pcl::fromROSMsg: the word of the named field, or the default value *)
Definition get (m : msg) (n : string) (t : datatype) (r : row) : N :=
  match match_index m n t with Some i => r i | None => 0%N end.

(** The point types: PointXYZ, PointXYZI, PointXYZL and PointXYZIL *)
Inductive ptype := XYZ | XYZI | XYZL | XYZIL.
Definition has_i (t : ptype) : bool := match t with XYZI | XYZIL => true | _ => false end.
Definition has_l (t : ptype) : bool := match t with XYZL | XYZIL => true | _ => false end.
Definition raw_point (t : ptype) (m : msg) (r : row) : xyzil :=
  {| p_x := get m "x" FLOAT32 r; p_y := get m "y" FLOAT32 r; p_z := get m "z" FLOAT32 r;
     p_i := if has_i t then get m "intensity" FLOAT32 r else 0%N;
     p_l := if has_l t then get m "label" UINT32 r else 0%N |}.
(** pcl::copyPoint to PointXYZIL: only the common fields are written *)
Definition copy_point (t : ptype) (a b : xyzil) : xyzil :=
  {| p_x := p_x a; p_y := p_y a; p_z := p_z a;
     p_i := if has_i t then p_i a else p_i b; p_l := if has_l t then p_l a else p_l b |}.
Fixpoint copy_cloud (t : ptype) (raw out : list xyzil) : list xyzil :=
  match raw, out with
  | [], _ => []
  | a :: raw', [] => copy_point t a default_point :: copy_cloud t raw' []
  | a :: raw', b :: out' => copy_point t a b :: copy_cloud t raw' out'
  end.
(** point_conversion.h:48-61: the returned flag and the output cloud afterwards *)
Definition fromROSMsgImpl (t : ptype) (m : msg) (pc : list xyzil) : bool * list xyzil :=
  let raw := map (raw_point t m) (m_rows m) in
  if Nat.eqb (length raw) 0 then (false, pc) else (true, copy_cloud t raw pc).
(** point_conversion.h:64-92 *)
Definition fromROSMsg (m : msg) (pc : list xyzil) : bool * list xyzil :=
  match field_index m "x", field_index m "y", field_index m "z" with
  | Some _, Some _, Some _ =>
      match field_index m "intensity" with
      | Some _ => match field_index m "label" with
                  | Some _ => fromROSMsgImpl XYZIL m pc
                  | None => fromROSMsgImpl XYZI m pc
                  end
      | None => match field_index m "label" with
                | Some _ => fromROSMsgImpl XYZL m pc
                | None => fromROSMsgImpl XYZ m pc
                end
      end
  | _, _, _ => (false, pc)
  end.
