(** * Types: the objects of the package as records.

    Mutable Python objects are records of their fields; a mutating method is a
    function returning the new record.  Object identity is modelled separately
    (M_Heap.v) where it is observable. *)
From Coq Require Import ZArith List Bool String.
From Verif Require Import Base.
Import ListNotations.
Set Implicit Arguments.

(** angle_deg.py:10 class AngleDeg, field _degree *)
Record angle (T : Type) := mkAngle { a_degree : T }.
Arguments mkAngle {T} _.

(** vector_2d.py:13 class Vector2D, fields _x, _y, _is_valid; the getters
    vector_2d.py:75-81 x, 83-89 y, 91-97 get_x, 99-105 get_y are the projections *)
Record vec (T : Type) := mkVec { vx : T; vy : T; v_valid : bool }.
Arguments mkVec {T} _ _ _.

(** line_2d.py:13 class Line2D, fields _a, _b, _c (a x + b y + c = 0); the getters
    line_2d.py:106-112 a, 114-120 b, 122-128 c are the projections *)
Record line (T : Type) := mkLine { l_a : T; l_b : T; l_c : T }.
Arguments mkLine {T} _ _ _.

(** segment_2d.py:18 class Segment2D, fields _origin, _terminal; segment_2d.py:142-148
    origin_ and 159-165 terminal_ are the projections (their sharing: M_Obj.v) *)
Record seg (T : Type) := mkSeg { s_origin : vec T; s_terminal : vec T }.
Arguments mkSeg {T} _ _.

(** ray_2d.py:15 class Ray2D, fields _origin, _direction *)
Record ray (T : Type) := mkRay { ray_origin : vec T; ray_dir : angle T }.
Arguments mkRay {T} _ _.

(** circle_2d.py:19 class Circle2D, fields _center, _radius; circle_2d.py:92-98 radius
    is the projection *)
Record circle (T : Type) := mkCircle { c_center : vec T; c_radius : T }.
Arguments mkCircle {T} _ _.

(** size_2d.py:11 class Size2D, fields _length, _width; size_2d.py:57-63 length and
    65-71 width are the projections *)
Record size (T : Type) := mkSize { sz_length : T; sz_width : T }.
Arguments mkSize {T} _ _.

(** rect_2d.py:28 class Rect2D, fields _top_left, _size, _is_valid; rect_2d.py:613-619
    size_ is the projection (its sharing: M_Obj.v) *)
Record rect (T : Type) :=
  mkRect { r_top_left : vec T; r_size : size T; r_is_valid : bool }.
Arguments mkRect {T} _ _ _.

(** sector_2d.py:16 class Sector2D *)
Record sector (T : Type) := mkSector {
  sec_center : vec T; sec_min_r : T; sec_max_r : T;
  sec_start : angle T; sec_end : angle T }.
Arguments mkSector {T} _ _ _ _ _.

(** triangle_2d.py:21 class Triangle2D, fields _a, _b, _c *)
Record triangle (T : Type) := mkTri { t_a : vec T; t_b : vec T; t_c : vec T }.
Arguments mkTri {T} _ _ _.

(** matrix_2d.py:14 class Matrix2D; matrix_2d.py:85-91 m11, 93-99 m12, 101-107 m21,
    109-115 m22, 117-123 dxtf, 125-131 dytf are the projections *)
Record matrix (T : Type) := mkMat {
  m11 : T; m12 : T; m21 : T; m22 : T; mdx : T; mdy : T }.
Arguments mkMat {T} _ _ _ _ _ _.

(** A Python value, as far as the dispatch on [isinstance] in the constructors
    can tell values apart.  A Python bool is an int: where the code takes a
    number, True and False are the numbers [VNum 1] and [VNum 0]; [VBool] is
    only what a predicate returns (e.g. segment_2d.py:336-378) and is not accepted
    as a number by the model. *)
(** the values told apart by isinstance in the constructors, e.g. rect_2d.py:36-109, segment_2d.py:26-72 *)
Inductive val (T : Type) :=
| VNum (x : T)
| VAng (a : angle T)
| VVec (v : vec T)
| VLine (l : line T)
| VSeg (s : seg T)
| VRay (r : ray T)
| VCirc (c : circle T)
| VSize (s : size T)
| VRect (r : rect T)
| VTri (t : triangle T)
| VPoly (vs : list (vec T))
| VMat (m : matrix T)
| VList (l : list (val T))
| VBool (b : bool)
| VNone.
Arguments VNone {T}.
Arguments VNum {T} _.
Arguments VAng {T} _.
Arguments VVec {T} _.
Arguments VLine {T} _.
Arguments VSeg {T} _.
Arguments VRay {T} _.
Arguments VCirc {T} _.
Arguments VSize {T} _.
Arguments VRect {T} _.
Arguments VTri {T} _.
Arguments VPoly {T} _.
Arguments VMat {T} _.
Arguments VList {T} _.
Arguments VBool {T} _.

(** Keyword arguments: association list. *)
(** **kwargs of the constructors, e.g. angle_deg.py:15-42 *)
Fixpoint kw_get {T} (k : string) (kw : list (string * val T)) : option (val T) :=
  match kw with
  | [] => None
  | (k', v) :: kw' => if String.eqb k k' then Some v else kw_get k kw'
  end.

(** [k in kwargs] *)
(** `k in kwargs` in the constructors, e.g. angle_deg.py:15-42 *)
Definition kw_in {T} (k : string) (kw : list (string * val T)) : bool :=
  match kw_get k kw with Some _ => true | None => false end.

(** An argument annotated [Union[AngleDeg, float, int]]. *)
(** the parameters annotated Union[AngleDeg, float, int], e.g. angle_deg.py:95-109, 168-222 *)
Inductive ang_arg (T : Type) := AA (a : angle T) | AN (x : T).
Arguments AA {T} _.
Arguments AN {T} _.
