(** * M_Obj: the mutable classes as objects with identity.

    The other M_*.v files model an object as the record of its field values.
    Here an object is a cell of a heap, its fields that hold other objects are
    references to cells, and a method reads and writes cells: which object a
    method changes in place, which it replaces and which it returns without
    copying follows the Python statements.  The arithmetic is that of the
    value-level model.

    Objects that a method allocates and drops before it returns (for example
    the Vector2D() of rect_2d.py:71 that line 75 replaces) are not
    allocated. *)
From Coq Require Import ZArith List Bool.
From Verif Require Import Base Types M_Angle M_Vector M_Line M_Ray M_Triangle
  M_Segment M_Circle M_Sector M_Rect M_Polygon M_Hull M_Heap.
Import ListNotations.
Set Implicit Arguments.
Local Open Scope py_scope.
Local Open Scope num_scope.

Section Obj.
  Context {T : Type} `{Num T}.

  (** One cell.  vector_2d.py:13, angle_deg.py:10, size_2d.py:11,
      segment_2d.py:21 (_origin, _terminal), rect_2d.py:21 (_top_left, _size,
      _is_valid), triangle_2d.py:21 (_a, _b, _c), circle_2d.py:18 (_center,
      _radius), ray_2d.py:14 (_origin, _direction), sector_2d.py:16,
      a Python list of objects, polygon_2d.py:120 (_vertices),
      convex_hull.py:121 (_input_points, _vertices, _edges). *)
  Inductive obj :=
  | OVec (v : vec T)
  | OAng (a : angle T)
  | OSize (s : size T)
  | OSeg (o t : ref)
  | ORect (tl sz : ref) (valid : bool)
  | OTri (a b c : ref)
  | OCirc (center : ref) (radius : T)
  | ORay (o d : ref)
  | OSector (center : ref) (min_r max_r : T) (start end_ : ref)
  | OList (l : list ref)
  | OPoly (l : ref)
  | OHull (inp vs es : ref).

  (** Modelling device (no counterpart in /repo): all objects, by reference *)
  Definition heap := list obj.

  (** Computations on the heap that can raise. *)
  (** Modelling device (no counterpart in /repo): computations that read and write objects and may raise *)
  Definition M (A : Type) := heap -> res (A * heap).
  (** Modelling device (no counterpart in /repo): `return x` *)
  Definition ret {A} (a : A) : M A := fun h => Ok (a, h).
  (** Modelling device (no counterpart in /repo): one statement after another *)
  Definition mbind {A B} (m : M A) (f : A -> M B) : M B :=
    fun h => match m h with Ok (a, h') => f a h' | Raise e => Raise e end.
  (** Modelling device (no counterpart in /repo): a call of a value-level function of the other M_ files *)
  Definition lift {A} (x : res A) : M A :=
    fun h => match x with Ok a => Ok (a, h) | Raise e => Raise e end.
  (** Modelling device (no counterpart in /repo): creation of an object *)
  Definition new (o : obj) : M ref := fun h => Ok (List.length h, h ++ [o]).
  (** Modelling device (no counterpart in /repo): reading an object *)
  Definition rd (r : ref) : M obj :=
    fun h => match nth_error h r with Some o => Ok (o, h) | None => Raise AttributeError end.
  (** Modelling device (no counterpart in /repo): overwriting an object's fields *)
  Definition wr (r : ref) (o : obj) : M unit := fun h => Ok (tt, list_set h r o).
End Obj.
Arguments obj T : clear implicits.
Arguments heap T : clear implicits.

Declare Scope obj_scope.
Notation "x <-- m ;;; k" := (mbind m (fun x => k))
  (at level 100, m at next level, right associativity) : obj_scope.
Notation "' p <-- m ;;; k" := (mbind m (fun p => k))
  (at level 100, p pattern, m at next level, right associativity) : obj_scope.
Notation "m ;;; k" := (mbind m (fun _ => k))
  (at level 100, right associativity) : obj_scope.
Local Open Scope obj_scope.

Section Methods.
  Context {T : Type} `{Num T}.
  Local Notation MT A := (heap T -> res (A * heap T)).

  (** Attribute access: a reference to an object of another class has no such
      attribute. *)
  (** Modelling device (no counterpart in /repo): access to an object of class Vector2D; AttributeError on an object of another class *)
  Definition get_vec (r : ref) : MT (vec T) :=
    o <-- rd r ;;; match o with OVec v => ret v | _ => lift (Raise AttributeError) end.
  (** Modelling device (no counterpart in /repo): access to an object of class AngleDeg; AttributeError on an object of another class *)
  Definition get_ang (r : ref) : MT (angle T) :=
    o <-- rd r ;;; match o with OAng a => ret a | _ => lift (Raise AttributeError) end.
  (** Modelling device (no counterpart in /repo): access to an object of class Size2D; AttributeError on an object of another class *)
  Definition get_size (r : ref) : MT (size T) :=
    o <-- rd r ;;; match o with OSize s => ret s | _ => lift (Raise AttributeError) end.
  (** Modelling device (no counterpart in /repo): access to an object of class Segment2D; AttributeError on an object of another class *)
  Definition get_seg (r : ref) : MT (ref * ref) :=
    o <-- rd r ;;; match o with OSeg a b => ret (a, b) | _ => lift (Raise AttributeError) end.
  (** Modelling device (no counterpart in /repo): access to an object of class Rect2D; AttributeError on an object of another class *)
  Definition get_rect (r : ref) : MT (ref * ref * bool) :=
    o <-- rd r ;;; match o with ORect a b v => ret (a, b, v) | _ => lift (Raise AttributeError) end.
  (** Modelling device (no counterpart in /repo): access to an object of class Triangle2D; AttributeError on an object of another class *)
  Definition get_tri (r : ref) : MT (ref * ref * ref) :=
    o <-- rd r ;;; match o with OTri a b c => ret (a, b, c) | _ => lift (Raise AttributeError) end.
  (** Modelling device (no counterpart in /repo): access to an object of class Circle2D; AttributeError on an object of another class *)
  Definition get_circ (r : ref) : MT (ref * T) :=
    o <-- rd r ;;; match o with OCirc c x => ret (c, x) | _ => lift (Raise AttributeError) end.
  (** Modelling device (no counterpart in /repo): access to an object of class Ray2D; AttributeError on an object of another class *)
  Definition get_ray (r : ref) : MT (ref * ref) :=
    o <-- rd r ;;; match o with ORay a b => ret (a, b) | _ => lift (Raise AttributeError) end.
  (** Modelling device (no counterpart in /repo): access to an object of class Sector2D; AttributeError on an object of another class *)
  Definition get_sector (r : ref) : MT (ref * T * T * ref * ref) :=
    o <-- rd r ;;; match o with OSector c x y a b => ret (c, x, y, a, b) | _ => lift (Raise AttributeError) end.
  (** Modelling device (no counterpart in /repo): access to a Python list object; AttributeError on an object of another class *)
  Definition get_list (r : ref) : MT (list ref) :=
    o <-- rd r ;;; match o with OList l => ret l | _ => lift (Raise AttributeError) end.
  (** Modelling device (no counterpart in /repo): access to an object of class Polygon2D; AttributeError on an object of another class *)
  Definition get_poly (r : ref) : MT ref :=
    o <-- rd r ;;; match o with OPoly l => ret l | _ => lift (Raise AttributeError) end.
  (** Modelling device (no counterpart in /repo): access to an object of class ConvexHull; AttributeError on an object of another class *)
  Definition get_hull (r : ref) : MT (ref * ref * ref) :=
    o <-- rd r ;;; match o with OHull a b c => ret (a, b, c) | _ => lift (Raise AttributeError) end.

  (** ** Vector2D *)

  (** vector_2d.py:55-57 Vector2D(v), 107-113 copy *)
  Definition obj_vec_copy (r : ref) : MT ref :=
    v <-- get_vec r ;;; new (OVec (Vector2D_of_vec v)).

  (** In-place methods of Vector2D without object arguments:
      vector_2d.py:123-135 assign, 137-143 set_x, 145-151 set_y, 173-183
      set_polar (number), 185-197 validate / invalidate, 302-304 add(x, y),
      364-371 scale, 395-403 reverse, 413-421 set_length, 436-441 normalize,
      504-518 rotate (number), 531-541 set_dir (number), 573-576 *=  *)
  Inductive vec_mut :=
  | VAssign (x y : T) | VSetX (x : T) | VSetY (y : T) | VSetPolar (r a : T)
  | VValidate | VInvalidate | VAddXY (x y : T) | VScale (k : T) | VReverse
  | VSetLength (l : T) | VNormalize | VRotate (d : T) | VSetDir (d : T) | VIMul (k : T).
  (** vector_2d.py:107-535, the value-level functions of M_Vector.v *)
  Definition vec_mut_fun (u : vec_mut) (v : vec T) : res (vec T) :=
    match u with
    | VAssign x y => Ok (Vector2D_assign v x y)
    | VSetX x => Ok (Vector2D_set_x v x)
    | VSetY y => Ok (Vector2D_set_y v y)
    | VSetPolar r a => Vector2D_set_polar v r (AN a)
    | VValidate => Ok (Vector2D_validate v)
    | VInvalidate => Ok (Vector2D_invalidate v)
    | VAddXY x y => Ok (Vector2D_add_xy v x y)
    | VScale k => Ok (Vector2D_scale v k)
    | VReverse => Ok (Vector2D_reverse v)
    | VSetLength l => Vector2D_set_length v l
    | VNormalize => Vector2D_normalize v
    | VRotate d => Vector2D_rotate v (AN d)
    | VSetDir d => Vector2D_set_dir v (AN d)
    | VIMul k => Ok (Vector2D_imul v k)
    end.
  (** vector_2d.py:107-535, in place on the object *)
  Definition obj_vec_mut (u : vec_mut) (r : ref) : MT unit :=
    v <-- get_vec r ;;; v' <-- lift (vec_mut_fun u v) ;;; wr r (OVec v').

  (** In-place methods with another vector: 163-171 set_vector, 299-301 add(v),
      339-341 sub(v), 563-566 +=, 568-571 -=.  The code updates _x before it
      reads other.y(); if other is self this still reads the old _y, so
      reading both first is the same. *)
  (** vector_2d.py:163-171 set_vector, 563-566 __iadd__, 568-571 __isub__ *)
  Inductive vec_mut2 := VSetVector | VAddV | VSubV | VIAdd | VISub.
  (** vector_2d.py:163-171 set_vector, 563-566 __iadd__, 568-571 __isub__ *)
  Definition vec_mut2_fun (u : vec_mut2) (v o : vec T) : vec T :=
    match u with
    | VSetVector => Vector2D_set_vector v o
    | VAddV => Vector2D_add_inplace v o
    | VSubV => Vector2D_sub_inplace v o
    | VIAdd => Vector2D_iadd v o
    | VISub => Vector2D_isub v o
    end.
  (** vector_2d.py:163-171 set_vector, 563-566 __iadd__, 568-571 __isub__ *)
  Definition obj_vec_mut2 (u : vec_mut2) (r o : ref) : MT unit :=
    v <-- get_vec r ;;; w <-- get_vec o ;;; wr r (OVec (vec_mut2_fun u v w)).

  (** vector_2d.py:551-555 +, - : a new vector *)
  Inductive vec_op2 := VAdd | VSub.
  (** vector_2d.py:551-552 __add__, 554-555 __sub__ *)
  Definition vec_op2_fun (u : vec_op2) (v o : vec T) : vec T :=
    match u with VAdd => Vector2D_add v o | VSub => Vector2D_sub v o end.
  (** vector_2d.py:551-552 __add__, 554-555 __sub__ *)
  Definition obj_vec_op2 (u : vec_op2) (r o : ref) : MT ref :=
    v <-- get_vec r ;;; w <-- get_vec o ;;; new (OVec (vec_op2_fun u v w)).
  (** vector_2d.py:260-266 abs, 405-411 reverse_vector, 443-450 normalize_vector, 520-529
      rotated_vector, 557-561 / and *: a new vector *)
  Inductive vec_op1 :=
  | VAbs | VReverseVector | VNormalizeVector | VRotatedVector (d : T) | VMul (k : T) | VDiv (k : T).
  (** vector_2d.py:260-266, 405-411, 443-450 and the other methods returning a new vector *)
  Definition vec_op1_fun (u : vec_op1) (v : vec T) : res (vec T) :=
    match u with
    | VAbs => Ok (Vector2D_abs v)
    | VReverseVector => Ok (Vector2D_reverse_vector v)
    | VNormalizeVector => Vector2D_normalize_vector v
    | VRotatedVector d => Vector2D_rotated_vector v (AN d)
    | VMul k => Ok (Vector2D_mul v k)
    | VDiv k => Vector2D_truediv v k
    end.
  (** vector_2d.py:260-266, 405-411, 443-450 and the other methods returning a new vector *)
  Definition obj_vec_op1 (u : vec_op1) (r : ref) : MT ref :=
    v <-- get_vec r ;;; w <-- lift (vec_op1_fun u v) ;;; new (OVec w).
  (** vector_2d.py:242-248 th: a new AngleDeg *)
  Definition obj_vec_th (r : ref) : MT ref :=
    v <-- get_vec r ;;; a <-- lift (Vector2D_th v) ;;; new (OAng a).

  (** ** AngleDeg *)

  (** angle_deg.py:33-38 AngleDeg(a), AngleDeg(x) *)
  Definition obj_ang_copy (r : ref) : MT ref :=
    a <-- get_ang r ;;; b <-- lift (AngleDeg_of_angle a) ;;; new (OAng b).
  (** angle_deg.py:15-42 __init__ *)
  Definition obj_ang_new (x : T) : MT ref :=
    a <-- lift (AngleDeg_of_num x) ;;; new (OAng a).
  (** angle_deg.py:61-68 set_degree, 132-143 reverse, 225-265 += -= *= with a number *)
  Inductive ang_mut :=
  | ASetDegree (x : T) | AReverse | AIAdd (x : T) | AISub (x : T) | AIMul (x : T).
  (** angle_deg.py:61-68, 132-143, 225-265 *)
  Definition ang_mut_fun (u : ang_mut) (a : angle T) : res (angle T) :=
    match u with
    | ASetDegree x => AngleDeg_set_degree a x
    | AReverse => Ok (AngleDeg_reverse a)
    | AIAdd x => AngleDeg_iadd a (AN x)
    | AISub x => AngleDeg_isub a (AN x)
    | AIMul x => AngleDeg_imul a x
    end.
  (** angle_deg.py:61-68, 132-143, 225-265, in place *)
  Definition obj_ang_mut (u : ang_mut) (r : ref) : MT unit :=
    a <-- get_ang r ;;; a' <-- lift (ang_mut_fun u a) ;;; wr r (OAng a').
  (** angle_deg.py:70-76 set_angle, 225-252 += -= with an AngleDeg *)
  Inductive ang_mut2 := ASetAngle | AIAddA | AISubA.
  (** angle_deg.py:70-76, 225-252 *)
  Definition ang_mut2_fun (u : ang_mut2) (a b : angle T) : res (angle T) :=
    match u with
    | ASetAngle => AngleDeg_set_angle a b
    | AIAddA => AngleDeg_iadd a (AA b)
    | AISubA => AngleDeg_isub a (AA b)
    end.
  (** angle_deg.py:70-76, 225-252, in place *)
  Definition obj_ang_mut2 (u : ang_mut2) (r o : ref) : MT unit :=
    a <-- get_ang r ;;; b <-- get_ang o ;;; a' <-- lift (ang_mut2_fun u a b) ;;; wr r (OAng a').

  (** ** Size2D *)

  (** size_2d.py:31-55 assign, set_length, set_width *)
  Inductive size_mut := SzAssign (l w : T) | SzSetLength (l : T) | SzSetWidth (w : T).
  (** size_2d.py:31-39 assign, 41-47 set_length, 49-55 set_width *)
  Definition size_mut_fun (u : size_mut) (s : size T) : size T :=
    match u with
    | SzAssign l w => Size2D_assign s l w
    | SzSetLength l => Size2D_set_length s l
    | SzSetWidth w => Size2D_set_width s w
    end.
  (** size_2d.py:31-39 assign, 41-47 set_length, 49-55 set_width *)
  Definition obj_size_mut (u : size_mut) (r : ref) : MT unit :=
    s <-- get_size r ;;; wr r (OSize (size_mut_fun u s)).

  (** ** Segment2D *)

  (** segment_2d.py:58-66 Segment2D(p, q), Segment2D(x1, y1, x2, y2) *)
  Definition obj_seg_new (p q : ref) : MT ref :=
    a <-- obj_vec_copy p ;;; b <-- obj_vec_copy q ;;; new (OSeg a b).
  (** segment_2d.py:26-72 __init__ *)
  Definition obj_seg_new4 (x1 y1 x2 y2 : T) : MT ref :=
    a <-- new (OVec (V x1 y1)) ;;; b <-- new (OVec (V x2 y2)) ;;; new (OSeg a b).
  (** segment_2d.py:74-121 assign: both end points are replaced by new objects *)
  Definition obj_seg_assign (s p q : ref) : MT unit :=
    _ <-- get_seg s ;;;
    a <-- obj_vec_copy p ;;; b <-- obj_vec_copy q ;;; wr s (OSeg a b).
  (** segment_2d.py:74-121 assign *)
  Definition obj_seg_assign4 (s : ref) (x1 y1 x2 y2 : T) : MT unit :=
    _ <-- get_seg s ;;;
    a <-- new (OVec (V x1 y1)) ;;; b <-- new (OVec (V x2 y2)) ;;; wr s (OSeg a b).
  (** segment_2d.py:191-201 swap: the two references change places *)
  Definition obj_seg_swap (s : ref) : MT unit :=
    '(a, b) <-- get_seg s ;;; wr s (OSeg b a).
  (** segment_2d.py:133-140 origin, 150-157 terminal: copies *)
  Definition obj_seg_origin (s : ref) : MT ref :=
    '(a, _) <-- get_seg s ;;; obj_vec_copy a.
  (** segment_2d.py:150-157 terminal *)
  Definition obj_seg_terminal (s : ref) : MT ref :=
    '(_, b) <-- get_seg s ;;; obj_vec_copy b.
  (** segment_2d.py:142-148 origin_, 159-165 terminal_: the field itself *)
  Definition obj_seg_origin_ (s : ref) : MT ref := '(a, _) <-- get_seg s ;;; ret a.
  (** segment_2d.py:159-165 terminal_ *)
  Definition obj_seg_terminal_ (s : ref) : MT ref := '(_, b) <-- get_seg s ;;; ret b.
  (** 203-209 copy; 221-227 reversed_segment *)
  Definition obj_seg_copy (s : ref) : MT ref :=
    a <-- obj_seg_origin s ;;; b <-- obj_seg_terminal s ;;; obj_seg_new a b.
  (** segment_2d.py:211-219 reverse *)
  Definition obj_seg_reversed (s : ref) : MT ref :=
    '(a, b) <-- get_seg s ;;; r <-- obj_seg_new a b ;;; obj_seg_swap r ;;; ret r.
  (** segment_2d.py:438-463 nearest_point: returns the end point objects themselves, or a new
      vector *)
  Definition obj_seg_nearest_point (s p : ref) : MT ref :=
    '(a, b) <-- get_seg s ;;;
    vo <-- get_vec a ;;; vt <-- get_vec b ;;; vp <-- get_vec p ;;;
    let vec_tmp := Vector2D_sub vt vo in
    let len_square := Vector2D_r2 vec_tmp in
    if len_square =? num 0 then ret a
    else
      let ip := Vector2D_inner_product vec_tmp (Vector2D_sub vp vo) in
      if ip <=? num 0 then ret a
      else if ip >=? len_square then ret b
      else
        q <-- lift (Vector2D_truediv (Vector2D_mul vec_tmp ip) len_square) ;;;
        new (OVec (Vector2D_add vo q)).
  (** segment_2d.py:272-298 projection: a degenerate segment returns its origin object *)
  Definition obj_seg_projection (s p : ref) : MT ref :=
    '(a, b) <-- get_seg s ;;;
    vo <-- get_vec a ;;; vt <-- get_vec b ;;; vp <-- get_vec p ;;;
    length <-- lift (Vector2D_r (Vector2D_sub vt vo)) ;;;
    if length <? EPSILON then ret a
    else q <-- lift (Segment2D_projection (mkSeg vo vt) vp) ;;; new (OVec q).

  (** ** Rect2D *)

  (** rect_2d.py:74-77, 78-81 *)
  Definition obj_rect_new4 (x y l w : T) : MT ref :=
    t <-- new (OVec (V x y)) ;;; s <-- new (OSize (Size2D_init l w)) ;;; new (ORect t s true).
  (** rect_2d.py:36-109 __init__ *)
  Definition obj_rect_new3 (p : ref) (l w : T) : MT ref :=
    t <-- obj_vec_copy p ;;; s <-- new (OSize (Size2D_init l w)) ;;; new (ORect t s true).
  (** rect_2d.py:82-98 two corners *)
  Definition obj_rect_new_corners (p q : ref) : MT ref :=
    v <-- get_vec p ;;; w <-- get_vec q ;;;
    let '(a, b) := two_corner_fields v w in
    t <-- new (OVec a) ;;; s <-- new (OSize b) ;;; new (ORect t s true).
  (** rect_2d.py:99-102 Rect2D(top_left, size): the Size2D object itself is stored *)
  Definition obj_rect_new_size (p sz : ref) : MT ref :=
    t <-- obj_vec_copy p ;;; new (ORect t sz true).

  (** rect_2d.py:605-619 size, size_; 630-644 top_left, top_left_ *)
  Definition obj_rect_size (r : ref) : MT ref :=
    '(_, s, _) <-- get_rect r ;;; z <-- get_size s ;;;
    new (OSize (Size2D_init (sz_length z) (sz_width z))).
  (** rect_2d.py:613-619 size_ *)
  Definition obj_rect_size_ (r : ref) : MT ref := '(_, s, _) <-- get_rect r ;;; ret s.
  (** rect_2d.py:630-636 top_left *)
  Definition obj_rect_top_left (r : ref) : MT ref :=
    '(t, _, _) <-- get_rect r ;;; obj_vec_copy t.
  (** rect_2d.py:638-644 top_left_ *)
  Definition obj_rect_top_left_ (r : ref) : MT ref := '(t, _, _) <-- get_rect r ;;; ret t.

  (** the field values of a rectangle, as read through its references *)
  (** Modelling device (no counterpart in /repo): the fields of a Rect2D read through its references *)
  Definition rect_value (r : ref) : MT (rect T) :=
    '(t, s, b) <-- get_rect r ;;; v <-- get_vec t ;;; z <-- get_size s ;;; ret (mkRect v z b).
  (** rect_2d.py:621-628 center, 646-668 top_right, bottom_left, bottom_right *)
  Inductive rect_point := RCenter | RTopRight | RBottomLeft | RBottomRight.
  (** rect_2d.py:621-668 *)
  Definition rect_point_fun (u : rect_point) (r : rect T) : vec T :=
    match u with
    | RCenter => Rect2D_center r
    | RTopRight => Rect2D_top_right r
    | RBottomLeft => Rect2D_bottom_left r
    | RBottomRight => Rect2D_bottom_right r
    end.
  (** rect_2d.py:621-668 *)
  Definition obj_rect_point (u : rect_point) (r : ref) : MT ref :=
    x <-- rect_value r ;;; new (OVec (rect_point_fun u x)).

  (** rect_2d.py:500-507 is_valid: writes the field _is_valid and returns it *)
  Definition obj_rect_is_valid (r : ref) : MT bool :=
    '(t, s, _) <-- get_rect r ;;; z <-- get_size s ;;;
    wr r (ORect t s (Size2D_is_valid z)) ;;; ret (Size2D_is_valid z).
  (** rect_2d.py:103-106 Rect2D(rect) *)
  Definition obj_rect_copy (r : ref) : MT ref :=
    t <-- obj_rect_top_left r ;;; s <-- obj_rect_size r ;;; b <-- obj_rect_is_valid r ;;;
    new (ORect t s b).

  (** Methods that write the fields of the _top_left and _size objects in
      place: 144-146 assign(x, y, l, w), 199-209 move_bottom_right, 176-186
      move_center, 211-301 move_left ... move_max_y, 303-361 set_top_left and
      set_bottom_right (two numbers), 363-460 set_left ... set_max_y, 462-476
      set_length, set_width, 493-494 set_size(l, w).  A field that the method
      does not touch is written back unchanged. *)
  (** rect_2d.py:151-498, the methods that write the components in place *)
  Inductive rect_mut :=
  | RAssign4 (x y l w : T)
  | RMoveLeft (x : T) | RMoveRight (x : T) | RMoveTop (y : T) | RMoveBottom (y : T)
  | RSetTopLeft (x y : T) | RSetBottomRight (x y : T)
  | RSetLeft (x : T) | RSetRight (x : T) | RSetTop (y : T) | RSetBottom (y : T)
  | RSetLength (l : T) | RSetWidth (w : T) | RSetSize (l w : T).
  (** rect_2d.py:151-498, the value-level functions of M_Rect.v *)
  Definition rect_mut_fun (u : rect_mut) (r : rect T) : rect T :=
    match u with
    | RAssign4 x y l w => Rect2D_assign4 r x y l w
    | RMoveLeft x => Rect2D_move_left r x
    | RMoveRight x => Rect2D_move_right r x
    | RMoveTop y => Rect2D_move_top r y
    | RMoveBottom y => Rect2D_move_bottom r y
    | RSetTopLeft x y => Rect2D_set_top_left r x y
    | RSetBottomRight x y => Rect2D_set_bottom_right r x y
    | RSetLeft x => Rect2D_set_left r x
    | RSetRight x => Rect2D_set_right r x
    | RSetTop y => Rect2D_set_top r y
    | RSetBottom y => Rect2D_set_bottom r y
    | RSetLength l => Rect2D_set_length r l
    | RSetWidth w => Rect2D_set_width r w
    | RSetSize l w => Rect2D_set_size r l w
    end.
  (** rect_2d.py:151-498: the components are written in place *)
  Definition rect_write_back (r : ref) (x : rect T) : MT unit :=
    '(t, s, _) <-- get_rect r ;;; wr t (OVec (r_top_left x)) ;;; wr s (OSize (r_size x)).
  (** rect_2d.py:151-498, in place *)
  Definition obj_rect_mut (u : rect_mut) (r : ref) : MT unit :=
    x <-- rect_value r ;;; rect_write_back r (rect_mut_fun u x).
  (** rect_2d.py:176-186 move_center(p), 199-209 move_bottom_right(p) *)
  Inductive rect_mutp := RMoveCenter | RMoveBottomRight.
  (** rect_2d.py:176-186 move_center, 199-209 move_bottom_right *)
  Definition rect_mutp_fun (u : rect_mutp) (r : rect T) (p : vec T) : rect T :=
    match u with
    | RMoveCenter => Rect2D_move_center r p
    | RMoveBottomRight => Rect2D_move_bottom_right r p
    end.
  (** rect_2d.py:176-186 move_center, 199-209 move_bottom_right *)
  Definition obj_rect_mutp (u : rect_mutp) (r p : ref) : MT unit :=
    x <-- rect_value r ;;; v <-- get_vec p ;;; rect_write_back r (rect_mutp_fun u x v).

  (** Methods that replace a component: 147-149 assign(p, l, w), 150-164
      assign(p, q), 165-167 assign(p, size) (stores the Size2D itself),
      168-170 assign(rect), 188-197 move_top_left, 495-496 set_size(size)
      (copies it) *)
  (** rect_2d.py:111-174 assign *)
  Definition obj_rect_assign3 (r p : ref) (l w : T) : MT unit :=
    '(_, s, b) <-- get_rect r ;;;
    t' <-- obj_vec_copy p ;;; wr r (ORect t' s b) ;;;
    z <-- get_size s ;;; wr s (OSize (Size2D_assign z l w)).
  (** rect_2d.py:111-174 assign *)
  Definition obj_rect_assign_corners (r p q : ref) : MT unit :=
    '(_, _, b) <-- get_rect r ;;;
    v <-- get_vec p ;;; w <-- get_vec q ;;;
    let '(a, c) := two_corner_fields v w in
    t' <-- new (OVec a) ;;; s' <-- new (OSize c) ;;; wr r (ORect t' s' b).
  (** rect_2d.py:111-174 assign *)
  Definition obj_rect_assign_size (r p sz : ref) : MT unit :=
    '(_, _, b) <-- get_rect r ;;; t' <-- obj_vec_copy p ;;; wr r (ORect t' sz b).
  (** rect_2d.py:111-174 assign *)
  Definition obj_rect_assign_rect (r o : ref) : MT unit :=
    '(_, _, b) <-- get_rect r ;;;
    t' <-- obj_rect_top_left o ;;; s' <-- obj_rect_size o ;;; wr r (ORect t' s' b).
  (** rect_2d.py:188-197 move_top_left *)
  Definition obj_rect_move_top_left (r p : ref) : MT unit :=
    '(_, s, b) <-- get_rect r ;;; t' <-- obj_vec_copy p ;;; wr r (ORect t' s b).
  (** rect_2d.py:478-498 set_size *)
  Definition obj_rect_set_size_of (r sz : ref) : MT unit :=
    '(t, _, b) <-- get_rect r ;;; z <-- get_size sz ;;;
    s' <-- new (OSize (Size2D_init (sz_length z) (sz_width z))) ;;; wr r (ORect t s' b).

  (** rect_2d.py:541-571 left, right, top, bottom *)
  Definition obj_rect_left (r : ref) : MT T := x <-- rect_value r ;;; ret (Rect2D_left x).
  (** rect_2d.py:549-555 right *)
  Definition obj_rect_right (r : ref) : MT T := x <-- rect_value r ;;; ret (Rect2D_right x).
  (** rect_2d.py:557-563 top *)
  Definition obj_rect_top (r : ref) : MT T := x <-- rect_value r ;;; ret (Rect2D_top x).
  (** rect_2d.py:565-571 bottom *)
  Definition obj_rect_bottom (r : ref) : MT T := x <-- rect_value r ;;; ret (Rect2D_bottom x).
  (** self._top_left.assign(x, y) and self._size.assign(l, w) *)
  (** rect_2d.py:765-819: self._top_left.assign(x, y) *)
  Definition assign_tl (r : ref) (x y : T) : MT unit :=
    '(t, _, _) <-- get_rect r ;;; v <-- get_vec t ;;; wr t (OVec (Vector2D_assign v x y)).
  (** rect_2d.py:765-819: self._size.assign(l, w) *)
  Definition assign_sz (r : ref) (l w : T) : MT unit :=
    '(_, s, _) <-- get_rect r ;;; z <-- get_size s ;;; wr s (OSize (Size2D_assign z l w)).
  (** rect_2d.py:780-790, the common tail of intersected and united, statement by
      statement *)
  Definition obj_intersect_tail (r o : ref) : MT unit :=
    l1 <-- obj_rect_left r ;;; l2 <-- obj_rect_left o ;;; let left := nmax l1 l2 in
    t1 <-- obj_rect_top r ;;; t2 <-- obj_rect_top o ;;; let top := nmax t1 t2 in
    r1 <-- obj_rect_right r ;;; r2 <-- obj_rect_right o ;;; let width := nmin r1 r2 - left in
    b1 <-- obj_rect_bottom r ;;; b2 <-- obj_rect_bottom o ;;; let length := nmin b1 b2 - top in
    (if (width <=? num 0) || (length <=? num 0)
     then assign_tl r (num 0) (num 0) ;;; assign_sz r (num 0) (num 0)
     else ret tt) ;;;
    assign_tl r left top ;;; assign_sz r width length.
  (** rect_2d.py:765-792 intersected and 794-819 united: both change self and return it
      ([self.is_valid] without a call is truthy) *)
  Definition obj_rect_intersected (r o : ref) : MT unit :=
    _ <-- get_rect r ;;;
    v <-- obj_rect_is_valid o ;;;
    (if negb v then assign_tl r (num 0) (num 0) ;;; assign_sz r (num 0) (num 0)
     else ret tt) ;;;
    obj_intersect_tail r o.
  (** rect_2d.py:794-819 united *)
  Definition obj_rect_united (r o : ref) : MT unit :=
    _ <-- get_rect r ;;;
    v <-- obj_rect_is_valid o ;;;
    (if negb v then assign_tl r (num 0) (num 0) else ret tt) ;;;
    assign_sz r (num 0) (num 0) ;;;
    obj_intersect_tail r o.

  (** ** Triangle2D, Circle2D, Ray2D, Sector2D *)

  (** triangle_2d.py:54-57, 88-91 (assign replaces the vertices), 110-132
      a, b, c (copies), 134-156 a_, b_, c_ (the objects) *)
  Definition obj_tri_new (p q s : ref) : MT ref :=
    a <-- obj_vec_copy p ;;; b <-- obj_vec_copy q ;;; c <-- obj_vec_copy s ;;; new (OTri a b c).
  (** triangle_2d.py:66-99 assign *)
  Definition obj_tri_assign (t p q s : ref) : MT unit :=
    _ <-- get_tri t ;;;
    a <-- obj_vec_copy p ;;; b <-- obj_vec_copy q ;;; c <-- obj_vec_copy s ;;; wr t (OTri a b c).
  (** triangle_2d.py:110-116 a, 118-124 b, 126-132 c *)
  Inductive tri_corner := CornerA | CornerB | CornerC.
  (** triangle_2d.py:134-140 a_, 142-148 b_, 150-156 c_ *)
  Definition obj_tri_corner_ (u : tri_corner) (t : ref) : MT ref :=
    '(a, b, c) <-- get_tri t ;;;
    ret (match u with CornerA => a | CornerB => b | CornerC => c end).
  (** triangle_2d.py:110-116 a, 118-124 b, 126-132 c *)
  Definition obj_tri_corner (u : tri_corner) (t : ref) : MT ref :=
    r <-- obj_tri_corner_ u t ;;; obj_vec_copy r.

  (** circle_2d.py:27-42 __init__, 44-55 assign, 76-90 center, center_ *)
  Definition circ_radius (x : T) : T := if x <? num 0 then num 0 else x.
  (** circle_2d.py:27-42 __init__ *)
  Definition obj_circ_new (p : ref) (x : T) : MT ref :=
    a <-- obj_vec_copy p ;;; new (OCirc a (circ_radius x)).
  (** circle_2d.py:44-55 assign *)
  Definition obj_circ_assign (c p : ref) (x : T) : MT unit :=
    _ <-- get_circ c ;;; a <-- obj_vec_copy p ;;; wr c (OCirc a (circ_radius x)).
  (** circle_2d.py:84-90 center_ *)
  Definition obj_circ_center_ (c : ref) : MT ref := '(a, _) <-- get_circ c ;;; ret a.
  (** circle_2d.py:76-82 center *)
  Definition obj_circ_center (c : ref) : MT ref := a <-- obj_circ_center_ c ;;; obj_vec_copy a.

  (** ray_2d.py:36-44 __init__ (point, angle or number), 49-79 accessors *)
  Definition obj_ray_new_point (p q : ref) : MT ref :=
    a <-- obj_vec_copy p ;;; v <-- get_vec p ;;; w <-- get_vec q ;;;
    d <-- lift (Vector2D_th (Vector2D_sub w v)) ;;; b <-- new (OAng d) ;;; new (ORay a b).
  (** ray_2d.py:23-47 __init__ *)
  Definition obj_ray_new_ang (p d : ref) : MT ref :=
    a <-- obj_vec_copy p ;;; b <-- obj_ang_copy d ;;; new (ORay a b).
  (** ray_2d.py:23-47 __init__ *)
  Definition obj_ray_new_num (p : ref) (x : T) : MT ref :=
    a <-- obj_vec_copy p ;;; b <-- obj_ang_new x ;;; new (ORay a b).
  (** ray_2d.py:65-71 origin_ *)
  Definition obj_ray_origin_ (r : ref) : MT ref := '(a, _) <-- get_ray r ;;; ret a.
  (** ray_2d.py:73-79 dir_ *)
  Definition obj_ray_dir_ (r : ref) : MT ref := '(_, b) <-- get_ray r ;;; ret b.
  (** ray_2d.py:49-55 origin *)
  Definition obj_ray_origin (r : ref) : MT ref := a <-- obj_ray_origin_ r ;;; obj_vec_copy a.
  (** ray_2d.py:57-63 dir *)
  Definition obj_ray_dir (r : ref) : MT ref := b <-- obj_ray_dir_ r ;;; obj_ang_copy b.

  (** sector_2d.py:31-68 __init__ and assign (angles given as AngleDeg),
      70-132 accessors *)
  Definition obj_sector_new (p : ref) (x y : T) (s e : ref) : MT ref :=
    a <-- obj_vec_copy p ;;; b <-- obj_ang_copy s ;;; c <-- obj_ang_copy e ;;;
    new (OSector a (nmin (num 0) x) (nmax x y) b c).
  (** sector_2d.py:53-68 assign *)
  Definition obj_sector_assign (k p : ref) (x y : T) (s e : ref) : MT unit :=
    _ <-- get_sector k ;;;
    a <-- obj_vec_copy p ;;; b <-- obj_ang_copy s ;;; c <-- obj_ang_copy e ;;;
    wr k (OSector a (nmin (num 0) x) (nmax x y) b c).
  (** sector_2d.py:78-84 center_ *)
  Definition obj_sector_center_ (k : ref) : MT ref :=
    '(a, _, _, _, _) <-- get_sector k ;;; ret a.
  (** sector_2d.py:110-116 angle_left_start_ *)
  Definition obj_sector_start_ (k : ref) : MT ref :=
    '(_, _, _, b, _) <-- get_sector k ;;; ret b.
  (** sector_2d.py:126-132 angle_right_end_ *)
  Definition obj_sector_end_ (k : ref) : MT ref :=
    '(_, _, _, _, c) <-- get_sector k ;;; ret c.
  (** sector_2d.py:70-76 center *)
  Definition obj_sector_center (k : ref) : MT ref := a <-- obj_sector_center_ k ;;; obj_vec_copy a.
  (** sector_2d.py:102-108 angle_left_start *)
  Definition obj_sector_start (k : ref) : MT ref := b <-- obj_sector_start_ k ;;; obj_ang_copy b.
  (** sector_2d.py:118-124 angle_right_end *)
  Definition obj_sector_end (k : ref) : MT ref := c <-- obj_sector_end_ k ;;; obj_ang_copy c.

  (** ** Lists, Polygon2D and ConvexHull *)

  (** [l] literal of existing objects; l.append(x) *)
  (** the caller's list literal, later passed to polygon_2d.py:130-170 or convex_hull.py:129-142 *)
  Definition obj_list_new (l : list ref) : MT ref := new (OList l).
  (** the caller's l.append(x) on a list shared with polygon_2d.py:130-170 or convex_hull.py:129-142 *)
  Definition obj_list_append (l x : ref) : MT unit :=
    xs <-- get_list l ;;; wr l (OList (xs ++ [x])).
  (** polygon_2d.py:149-150 Polygon2D(list): list.copy() is shallow *)
  Definition obj_poly_new_list (l : ref) : MT ref :=
    xs <-- get_list l ;;; c <-- new (OList xs) ;;; new (OPoly c).
  (** polygon_2d.py:152-154 Polygon2D(p, q, ...): the vertices are copied; 147-148
      Polygon2D(): one fresh point *)
  Fixpoint copy_all (l : list ref) : MT (list ref) :=
    match l with
    | [] => ret []
    | x :: l' => c <-- obj_vec_copy x ;;; cs <-- copy_all l' ;;; ret (c :: cs)
    end.
  (** polygon_2d.py:130-154 __init__ *)
  Definition obj_poly_new (l : list ref) : MT ref :=
    xs <-- match l with
           | [] => v <-- new (OVec (V (num 0) (num 0))) ;;; ret [v]
           | _ => copy_all l
           end ;;;
    c <-- new (OList xs) ;;; new (OPoly c).
  (** polygon_2d.py:161-170 assign: shallow; 172-178 add_vertex: stores the object; 156-159
      clear *)
  Definition obj_poly_assign (p l : ref) : MT unit :=
    _ <-- get_poly p ;;; xs <-- get_list l ;;;
    match xs with
    | [] => ret tt
    | _ => c <-- new (OList xs) ;;; wr p (OPoly c)
    end.
  (** polygon_2d.py:172-178 add_vertex *)
  Definition obj_poly_add_vertex (p v : ref) : MT unit :=
    l <-- get_poly p ;;; obj_list_append l v.
  (** polygon_2d.py:156-159 clear *)
  Definition obj_poly_clear (p : ref) : MT unit :=
    _ <-- get_poly p ;;; v <-- new (OVec (V (num 0) (num 0))) ;;;
    c <-- new (OList [v]) ;;; wr p (OPoly c).
  (** polygon_2d.py:180-187 vertices: a new list of the same objects; 189-195 vertices_ *)
  Definition obj_poly_vertices (p : ref) : MT ref :=
    l <-- get_poly p ;;; xs <-- get_list l ;;; new (OList xs).
  (** polygon_2d.py:189-195 vertices_ *)
  Definition obj_poly_vertices_ (p : ref) : MT ref := get_poly p.

  (** convex_hull.py:129-142 __init__: the list itself; 144-171 clear,
      clear_results, add_point; 189-221 the list accessors *)
  Definition obj_hull_new (l : ref) : MT ref :=
    v <-- new (OList []) ;;; e <-- new (OList []) ;;; new (OHull l v e).
  (** convex_hull.py:150-154 clear_results *)
  Definition obj_hull_clear_results (h : ref) : MT unit :=
    '(_, v, e) <-- get_hull h ;;; wr v (OList []) ;;; wr e (OList []).
  (** convex_hull.py:144-148 clear *)
  Definition obj_hull_clear (h : ref) : MT unit :=
    obj_hull_clear_results h ;;; '(i, _, _) <-- get_hull h ;;; wr i (OList []).
  (** convex_hull.py:156-162 add_point *)
  Definition obj_hull_add_point (h p : ref) : MT unit :=
    '(i, _, _) <-- get_hull h ;;; obj_list_append i p.
  (** convex_hull.py:189-196 input_points *)
  Definition obj_hull_input_points (h : ref) : MT ref :=
    '(i, _, _) <-- get_hull h ;;; xs <-- get_list i ;;; new (OList xs).
  (** convex_hull.py:198-204 input_points_ *)
  Definition obj_hull_input_points_ (h : ref) : MT ref := '(i, _, _) <-- get_hull h ;;; ret i.
  (** convex_hull.py:206-213 vertices *)
  Definition obj_hull_vertices (h : ref) : MT ref :=
    '(_, v, _) <-- get_hull h ;;; xs <-- get_list v ;;; new (OList xs).
  (** convex_hull.py:223-230 edges *)
  Definition obj_hull_edges (h : ref) : MT ref :=
    '(_, _, e) <-- get_hull h ;;; xs <-- get_list e ;;; new (OList xs).
  (** convex_hull.py:215-221 vertices_ *)
  Definition obj_hull_vertices_ (h : ref) : MT ref := '(_, v, _) <-- get_hull h ;;; ret v.
  (** convex_hull.py:232-238 edges_ *)
  Definition obj_hull_edges_ (h : ref) : MT ref := '(_, _, e) <-- get_hull h ;;; ret e.
  (** convex_hull.py:436-442 to_polygon *)
  Definition obj_hull_to_polygon (h : ref) : MT ref :=
    '(_, v, _) <-- get_hull h ;;; obj_poly_new_list v.

  (** 308-361 compute_wrapping_method on objects: the loop of 325-355 works on
      indices into the input list (it is M_Hull.wrap_loop, which keeps the
      points, with the indices kept instead); the vertex list gets the input
      objects themselves, an edge gets copies (segment_2d.py:58-60).  The
      points are read before the loop: the loop changes none of them. *)
  Fixpoint read_all (l : list ref) : MT (list (vec T)) :=
    match l with
    | [] => ret []
    | x :: l' => v <-- get_vec x ;;; vs <-- read_all l' ;;; ret (v :: vs)
    end.
  (** convex_hull.py:325-355, on the indices of the points *)
  Fixpoint wrap_index_loop (fuel : nat) (pts : list (vec T)) (min_index cur : nat)
    (used : list nat) (out : list nat) : res (list nat) :=
    match fuel with
    | O => Ok out
    | S fuel' =>
        bind (py_get pts (Z.of_nat cur)) (fun cur_pt =>
        let n := List.length pts in
        let c0 := first_candidate n cur used in
        bind (wrap_scan pts cur_pt cur used (seq (S c0) (n - S c0)) c0) (fun c =>
        bind (py_get pts (Z.of_nat c)) (fun _ =>
        if Nat.eqb c min_index then Ok (out ++ [c])
        else wrap_index_loop fuel' pts min_index c (used ++ [c]) (out ++ [c]))))
    end.
  (** convex_hull.py:356-359: the edges of the vertex objects [rs], skipping those that start
      at a point equal to the last vertex [lst] *)
  Fixpoint obj_edges_from (lst : vec T) (rs : list ref) : MT (list ref) :=
    match rs with
    | [] => ret []
    | a :: rs' =>
        va <-- get_vec a ;;;
        if Vector2D_eq va lst then obj_edges_from lst rs'
        else match rs' with
             | [] => lift (Raise IndexError)
             | b :: _ => s <-- obj_seg_new a b ;;; ss <-- obj_edges_from lst rs' ;;; ret (s :: ss)
             end
    end.
  (** convex_hull.py:308-361 compute_wrapping_method *)
  Definition obj_hull_compute_wrapping (c : ref) : MT unit :=
    obj_hull_clear_results c ;;;
    '(i, v, e) <-- get_hull c ;;;
    xs <-- get_list i ;;;
    vs <-- read_all xs ;;;
    match get_min_point_index vs with
    | None => ret tt
    | Some m =>
        if Nat.ltb (List.length vs) 3 then ret tt
        else
          idx <-- lift (wrap_index_loop (S (List.length vs)) vs m m [] [m]) ;;;
          rs <-- lift (mapM (fun k => py_get xs (Z.of_nat k)) idx) ;;;
          lst <-- lift (py_get rs (-1)%Z) ;;;
          vl <-- get_vec lst ;;;
          es <-- obj_edges_from vl rs ;;;
          wr v (OList (removelast rs)) ;;;
          wr e (OList es)
    end.
End Methods.

(** ** Programs: sequences of calls on variables.

    A program state is the heap and the list of the user's variables (each
    holds a reference).  [NewX]-like calls bind a new variable; variables are
    named by their position.  The calls after the line are those that store or
    return an existing object instead of a copy. *)
Section Programs.
  Context {T : Type} `{Num T}.

  (** Modelling device (no counterpart in /repo): the statements of a caller; each constructor names the method it calls *)
  Inductive call :=
  | NewVec (x y : T) | CopyVec (i : nat)
  | MutVec (u : vec_mut (T:=T)) (i : nat) | MutVec2 (u : vec_mut2) (i j : nat)
  | OpVec1 (u : vec_op1 (T:=T)) (i : nat) | OpVec2 (u : vec_op2) (i j : nat) | ThVec (i : nat)
  | NewAng (x : T) | CopyAng (i : nat)
  | MutAng (u : ang_mut (T:=T)) (i : nat) | MutAng2 (u : ang_mut2) (i j : nat)
  | NewSize (l w : T) | MutSize (u : size_mut (T:=T)) (i : nat)
  | NewSeg (i j : nat) | NewSeg4 (x1 y1 x2 y2 : T)
  | AssignSeg (s i j : nat) | AssignSeg4 (s : nat) (x1 y1 x2 y2 : T) | SwapSeg (s : nat)
  | OriginSeg (s : nat) | TerminalSeg (s : nat) | CopySeg (s : nat) | ReversedSeg (s : nat)
  | NewRect4 (x y l w : T) | NewRect3 (i : nat) (l w : T) | NewRectCorners (i j : nat)
  | CopyRect (r : nat) | SizeRect (r : nat) | TopLeftRect (r : nat)
  | PointRect (u : rect_point) (r : nat) | IsValidRect (r : nat)
  | MutRect (u : rect_mut (T:=T)) (r : nat) | MutRectP (u : rect_mutp) (r i : nat)
  | AssignRect3 (r i : nat) (l w : T) | AssignRectCorners (r i j : nat)
  | AssignRectRect (r o : nat) | MoveTopLeftRect (r i : nat) | SetSizeOfRect (r z : nat)
  | IntersectedRect (r o : nat) | UnitedRect (r o : nat)
  | NewTri (i j k : nat) | AssignTri (t i j k : nat) | CornerTri (u : tri_corner) (t : nat)
  | NewCirc (i : nat) (x : T) | AssignCirc (c i : nat) (x : T) | CenterCirc (c : nat)
  | NewRayPoint (i j : nat) | NewRayAng (i j : nat) | NewRayNum (i : nat) (x : T)
  | OriginRay (r : nat) | DirRay (r : nat)
  | NewSector (i : nat) (x y : T) (j k : nat) | AssignSector (c i : nat) (x y : T) (j k : nat)
  | CenterSector (c : nat) | StartSector (c : nat) | EndSector (c : nat)
  | NewPoly (is : list nat) | ClearPoly (p : nat)
  (* ---- sharing calls ---- *)
  | NewRectSize (i z : nat) | AssignRectSize (r i z : nat)
  | SizeRect_ (r : nat) | TopLeftRect_ (r : nat)
  | OriginSeg_ (s : nat) | TerminalSeg_ (s : nat)
  | NearestPointSeg (s i : nat) | ProjectionSeg (s i : nat)
  | CornerTri_ (u : tri_corner) (t : nat) | CenterCirc_ (c : nat)
  | OriginRay_ (r : nat) | DirRay_ (r : nat)
  | CenterSector_ (c : nat) | StartSector_ (c : nat) | EndSector_ (c : nat)
  | NewList (is : list nat) | AppendList (l i : nat)
  | NewPolyList (l : nat) | AssignPoly (p l : nat) | AddVertexPoly (p i : nat)
  | VerticesPoly (p : nat) | VerticesPoly_ (p : nat).

  (** Modelling device (no counterpart in /repo): heap and variables of a caller *)
  Definition state := (heap T * list ref)%type.
  (** Modelling device (no counterpart in /repo): variable lookup *)
  Definition var (st : state) (i : nat) : res ref :=
    match nth_error (snd st) i with Some r => Ok r | None => Raise UnboundLocalError end.
  (** [x = <expression>]: a new variable *)
  (** Modelling device (no counterpart in /repo): `x = <expression>` *)
  Definition bind_new (st : state) (m : heap T -> res (ref * heap T)) : res state :=
    '(r, h') <- m (fst st) ;; Ok (h', snd st ++ [r]).
  (** a call statement *)
  (** Modelling device (no counterpart in /repo): a call statement *)
  Definition run_stmt {A} (st : state) (m : heap T -> res (A * heap T)) : res state :=
    '(_, h') <- m (fst st) ;; Ok (h', snd st).

  (** Modelling device (no counterpart in /repo): one statement; each arm is the obj_ function of that call, which carries the citation *)
  Definition exec (st : state) (c : call) : res state :=
    match c with
    | NewVec x y => bind_new st (new (OVec (V x y)))
    | CopyVec i => a <- var st i ;; bind_new st (obj_vec_copy a)
    | MutVec u i => a <- var st i ;; run_stmt st (obj_vec_mut u a)
    | MutVec2 u i j => a <- var st i ;; b <- var st j ;; run_stmt st (obj_vec_mut2 u a b)
    | OpVec1 u i => a <- var st i ;; bind_new st (obj_vec_op1 u a)
    | OpVec2 u i j => a <- var st i ;; b <- var st j ;; bind_new st (obj_vec_op2 u a b)
    | ThVec i => a <- var st i ;; bind_new st (obj_vec_th a)
    | NewAng x => bind_new st (obj_ang_new x)
    | CopyAng i => a <- var st i ;; bind_new st (obj_ang_copy a)
    | MutAng u i => a <- var st i ;; run_stmt st (obj_ang_mut u a)
    | MutAng2 u i j => a <- var st i ;; b <- var st j ;; run_stmt st (obj_ang_mut2 u a b)
    | NewSize l w => bind_new st (new (OSize (Size2D_init l w)))
    | MutSize u i => a <- var st i ;; run_stmt st (obj_size_mut u a)
    | NewSeg i j => a <- var st i ;; b <- var st j ;; bind_new st (obj_seg_new a b)
    | NewSeg4 x1 y1 x2 y2 => bind_new st (obj_seg_new4 x1 y1 x2 y2)
    | AssignSeg s i j =>
        c <- var st s ;; a <- var st i ;; b <- var st j ;; run_stmt st (obj_seg_assign c a b)
    | AssignSeg4 s x1 y1 x2 y2 => c <- var st s ;; run_stmt st (obj_seg_assign4 c x1 y1 x2 y2)
    | SwapSeg s => c <- var st s ;; run_stmt st (obj_seg_swap c)
    | OriginSeg s => c <- var st s ;; bind_new st (obj_seg_origin c)
    | TerminalSeg s => c <- var st s ;; bind_new st (obj_seg_terminal c)
    | CopySeg s => c <- var st s ;; bind_new st (obj_seg_copy c)
    | ReversedSeg s => c <- var st s ;; bind_new st (obj_seg_reversed c)
    | NewRect4 x y l w => bind_new st (obj_rect_new4 x y l w)
    | NewRect3 i l w => a <- var st i ;; bind_new st (obj_rect_new3 a l w)
    | NewRectCorners i j =>
        a <- var st i ;; b <- var st j ;; bind_new st (obj_rect_new_corners a b)
    | CopyRect r => c <- var st r ;; bind_new st (obj_rect_copy c)
    | SizeRect r => c <- var st r ;; bind_new st (obj_rect_size c)
    | TopLeftRect r => c <- var st r ;; bind_new st (obj_rect_top_left c)
    | PointRect u r => c <- var st r ;; bind_new st (obj_rect_point u c)
    | IsValidRect r => c <- var st r ;; run_stmt st (obj_rect_is_valid c)
    | MutRect u r => c <- var st r ;; run_stmt st (obj_rect_mut u c)
    | MutRectP u r i => c <- var st r ;; a <- var st i ;; run_stmt st (obj_rect_mutp u c a)
    | AssignRect3 r i l w =>
        c <- var st r ;; a <- var st i ;; run_stmt st (obj_rect_assign3 c a l w)
    | AssignRectCorners r i j =>
        c <- var st r ;; a <- var st i ;; b <- var st j ;; run_stmt st (obj_rect_assign_corners c a b)
    | AssignRectRect r o =>
        c <- var st r ;; a <- var st o ;; run_stmt st (obj_rect_assign_rect c a)
    | MoveTopLeftRect r i =>
        c <- var st r ;; a <- var st i ;; run_stmt st (obj_rect_move_top_left c a)
    | SetSizeOfRect r z =>
        c <- var st r ;; a <- var st z ;; run_stmt st (obj_rect_set_size_of c a)
    | IntersectedRect r o =>
        c <- var st r ;; a <- var st o ;; run_stmt st (obj_rect_intersected c a)
    | UnitedRect r o =>
        c <- var st r ;; a <- var st o ;; run_stmt st (obj_rect_united c a)
    | NewTri i j k =>
        a <- var st i ;; b <- var st j ;; c <- var st k ;; bind_new st (obj_tri_new a b c)
    | AssignTri t i j k =>
        d <- var st t ;; a <- var st i ;; b <- var st j ;; c <- var st k ;;
        run_stmt st (obj_tri_assign d a b c)
    | CornerTri u t => d <- var st t ;; bind_new st (obj_tri_corner u d)
    | NewCirc i x => a <- var st i ;; bind_new st (obj_circ_new a x)
    | AssignCirc c i x => d <- var st c ;; a <- var st i ;; run_stmt st (obj_circ_assign d a x)
    | CenterCirc c => d <- var st c ;; bind_new st (obj_circ_center d)
    | NewRayPoint i j => a <- var st i ;; b <- var st j ;; bind_new st (obj_ray_new_point a b)
    | NewRayAng i j => a <- var st i ;; b <- var st j ;; bind_new st (obj_ray_new_ang a b)
    | NewRayNum i x => a <- var st i ;; bind_new st (obj_ray_new_num a x)
    | OriginRay r => d <- var st r ;; bind_new st (obj_ray_origin d)
    | DirRay r => d <- var st r ;; bind_new st (obj_ray_dir d)
    | NewSector i x y j k =>
        a <- var st i ;; b <- var st j ;; c <- var st k ;; bind_new st (obj_sector_new a x y b c)
    | AssignSector e i x y j k =>
        d <- var st e ;; a <- var st i ;; b <- var st j ;; c <- var st k ;;
        run_stmt st (obj_sector_assign d a x y b c)
    | CenterSector c => d <- var st c ;; bind_new st (obj_sector_center d)
    | StartSector c => d <- var st c ;; bind_new st (obj_sector_start d)
    | EndSector c => d <- var st c ;; bind_new st (obj_sector_end d)
    | NewPoly is => rs <- mapM (var st) is ;; bind_new st (obj_poly_new rs)
    | ClearPoly p => d <- var st p ;; run_stmt st (obj_poly_clear d)
    | NewRectSize i z => a <- var st i ;; b <- var st z ;; bind_new st (obj_rect_new_size a b)
    | AssignRectSize r i z =>
        c <- var st r ;; a <- var st i ;; b <- var st z ;; run_stmt st (obj_rect_assign_size c a b)
    | SizeRect_ r => c <- var st r ;; bind_new st (obj_rect_size_ c)
    | TopLeftRect_ r => c <- var st r ;; bind_new st (obj_rect_top_left_ c)
    | OriginSeg_ s => c <- var st s ;; bind_new st (obj_seg_origin_ c)
    | TerminalSeg_ s => c <- var st s ;; bind_new st (obj_seg_terminal_ c)
    | NearestPointSeg s i =>
        c <- var st s ;; a <- var st i ;; bind_new st (obj_seg_nearest_point c a)
    | ProjectionSeg s i =>
        c <- var st s ;; a <- var st i ;; bind_new st (obj_seg_projection c a)
    | CornerTri_ u t => d <- var st t ;; bind_new st (obj_tri_corner_ u d)
    | CenterCirc_ c => d <- var st c ;; bind_new st (obj_circ_center_ d)
    | OriginRay_ r => d <- var st r ;; bind_new st (obj_ray_origin_ d)
    | DirRay_ r => d <- var st r ;; bind_new st (obj_ray_dir_ d)
    | CenterSector_ c => d <- var st c ;; bind_new st (obj_sector_center_ d)
    | StartSector_ c => d <- var st c ;; bind_new st (obj_sector_start_ d)
    | EndSector_ c => d <- var st c ;; bind_new st (obj_sector_end_ d)
    | NewList is => rs <- mapM (var st) is ;; bind_new st (obj_list_new rs)
    | AppendList l i => c <- var st l ;; a <- var st i ;; run_stmt st (obj_list_append c a)
    | NewPolyList l => c <- var st l ;; bind_new st (obj_poly_new_list c)
    | AssignPoly p l => d <- var st p ;; c <- var st l ;; run_stmt st (obj_poly_assign d c)
    | AddVertexPoly p i => d <- var st p ;; a <- var st i ;; run_stmt st (obj_poly_add_vertex d a)
    | VerticesPoly p => d <- var st p ;; bind_new st (obj_poly_vertices d)
    | VerticesPoly_ p => d <- var st p ;; bind_new st (obj_poly_vertices_ d)
    end.

  (** Modelling device (no counterpart in /repo): a program, statement by statement *)
  Fixpoint run (st : state) (cs : list call) : res state :=
    match cs with
    | [] => Ok st
    | c :: cs' => st' <- exec st c ;; run st' cs'
    end.
End Programs.
Arguments call T : clear implicits.
Arguments state T : clear implicits.
