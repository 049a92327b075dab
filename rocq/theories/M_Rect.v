(** * M_Rect: model of src/pyrusgeom/rect_2d.py

    Value-level model: a rectangle is (top_left, size, _is_valid flag).
    Sharing of a Size2D object between rectangles (rect_2d.py:101, 167) is
    modelled in M_Heap.v. *)
From Coq Require Import ZArith List Bool String.
From Verif Require Import Base Types M_Angle M_Vector M_Line M_Ray M_Triangle
  M_Segment M_Circle M_Sector.
Import ListNotations.
Set Implicit Arguments.
Local Open Scope py_scope.
Local Open Scope num_scope.

Section Rect.
  Context {T : Type} `{Num T}.

  (** size_2d.py:17-29 __init__ *)
  Definition size0 : size T := Size2D_init (num 0) (num 0).
  (** vector_2d.py:21-72 __init__ *)
  Definition vec0 : vec T := V (num 0) (num 0).

  (** rect_2d.py:74-77 Rect2D(left, top, length, width) *)
  Definition Rect2D_of_nums (x y l w : T) : rect T :=
    mkRect (V x y) (Size2D_init l w) true.
  (** rect_2d.py:78-81 Rect2D(top_left, length, width) *)
  Definition Rect2D_of_vec_nums (tl : vec T) (l w : T) : rect T :=
    mkRect (Vector2D_of_vec tl) (Size2D_init l w) true.
  (** rect_2d.py:82-98 Rect2D(top_left, bottom_right): statement by
      statement; also the body of assign, 150-164. *)
  Definition two_corner_fields (tl br : vec T) : vec T * size T :=
    let self_tl0 := Vector2D_of_vec tl in
    let bottom_right := Vector2D_of_vec br in
    let top_left := Vector2D_of_vec tl in
    (* 86-87: a size that is always overwritten below *)
    let self_size0 := Size2D_init (vx bottom_right - vx top_left)
                                  (vy bottom_right - vy top_left) in
    let self_tl1 := if vx bottom_right - vx top_left <? num 0
                    then Vector2D_set_x self_tl0 (vx bottom_right)
                    else self_tl0 in
    if vy bottom_right - vy top_left <? num 0
    then (Vector2D_set_y self_tl1 (vy bottom_right), size0)
    else (vec0, size0).
  (** rect_2d.py:36-109 __init__ *)
  Definition Rect2D_of_corners (tl br : vec T) : rect T :=
    let '(p, s) := two_corner_fields tl br in mkRect p s true.
  (** rect_2d.py:99-102 Rect2D(top_left, size) *)
  Definition Rect2D_of_vec_size (tl : vec T) (s : size T) : rect T :=
    mkRect (Vector2D_of_vec tl) s true.

  (** rect_2d.py:541-603 left, right, top, bottom, min_x, ... *)
  Definition Rect2D_left (r : rect T) : T := vx (r_top_left r).
  (** rect_2d.py:549-555 right *)
  Definition Rect2D_right (r : rect T) : T := Rect2D_left r + sz_length (r_size r).
  (** rect_2d.py:557-563 top *)
  Definition Rect2D_top (r : rect T) : T := vy (r_top_left r).
  (** rect_2d.py:565-571 bottom *)
  Definition Rect2D_bottom (r : rect T) : T := Rect2D_top r + sz_width (r_size r).

  (** rect_2d.py:605-611 size (copy) *)
  Definition Rect2D_size (r : rect T) : size T :=
    Size2D_init (sz_length (r_size r)) (sz_width (r_size r)).
  (** rect_2d.py:630-668 corners *)
  Definition Rect2D_top_left (r : rect T) : vec T := Vector2D_of_vec (r_top_left r).
  (** rect_2d.py:646-652 top_right *)
  Definition Rect2D_top_right (r : rect T) : vec T := V (Rect2D_right r) (Rect2D_top r).
  (** rect_2d.py:654-660 bottom_left *)
  Definition Rect2D_bottom_left (r : rect T) : vec T := V (Rect2D_left r) (Rect2D_bottom r).
  (** rect_2d.py:662-668 bottom_right *)
  Definition Rect2D_bottom_right (r : rect T) : vec T := V (Rect2D_right r) (Rect2D_bottom r).
  (** rect_2d.py:621-628 center *)
  Definition Rect2D_center (r : rect T) : vec T :=
    V ((Rect2D_left r + Rect2D_right r) * nlit 1 2)
      ((Rect2D_top r + Rect2D_bottom r) * nlit 1 2).

  (** rect_2d.py:500-507 is_valid: the answer, and the flag it stores *)
  Definition Rect2D_is_valid (r : rect T) : bool := Size2D_is_valid (r_size r).
  (** rect_2d.py:500-507 is_valid *)
  Definition Rect2D_is_valid_upd (r : rect T) : rect T :=
    mkRect (r_top_left r) (r_size r) (Size2D_is_valid (r_size r)).

  (** rect_2d.py:103-106 Rect2D(rect) *)
  Definition Rect2D_of_rect (r : rect T) : rect T :=
    mkRect (Rect2D_top_left r) (Rect2D_size r) (Rect2D_is_valid r).

  (** size_2d.py:17-29 Size2D(length, width) on arbitrary values: math.fabs takes a number, or an
      AngleDeg through its __float__ (angle_deg.py:344-350) *)
  Definition fabs_arg (v : val T) : res T :=
    match v with
    | VNum x => Ok (nabs x)
    | VAng a => d <- AngleDeg_float a ;; Ok (nabs d)
    | _ => Raise TypeError
    end.
  (** size_2d.py:17-29 *)
  Definition Size2D_of_args (l w : val T) : res (size T) :=
    l' <- fabs_arg l ;; w' <- fabs_arg w ;; Ok (mkSize l' w').

  (** rect_2d.py:36-109 the constructor.  With two arguments whose second is
      not a vector the code stores it as the size without a check; we answer
      TypeError unless it is a Size2D. *)
  Definition Rect2D_init (args : list (val T)) : res (rect T) :=
    match args with
    | [VNum x; VNum y; l; w] => s <- Size2D_of_args l w ;; Ok (mkRect (V x y) s true)
    | [_; _; _; _] => Raise GenericException
    | [VVec tl; l; w] => s <- Size2D_of_args l w ;; Ok (mkRect (Vector2D_of_vec tl) s true)
    | [_; _; _] => Raise GenericException
    | [VVec tl; VVec br] => Ok (Rect2D_of_corners tl br)
    | [VVec tl; VSize s] => Ok (Rect2D_of_vec_size tl s)
    | [VVec tl; _] => Raise TypeError
    | [_; _] => Raise GenericException
    | [VRect r] => Ok (Rect2D_of_rect r)
    | _ => Raise GenericException
    end.

  (** rect_2d.py:144-146 assign with four numbers: the size gets args[0] (the
      x coordinate) as its length *)
  Definition Rect2D_assign4 (r : rect T) (x y l w : T) : rect T :=
    mkRect (Vector2D_assign (r_top_left r) x y)
           (Size2D_assign (r_size r) x w) (r_is_valid r).
  (** rect_2d.py:147-149 *)
  Definition Rect2D_assign3 (r : rect T) (tl : vec T) (l w : T) : rect T :=
    mkRect (Vector2D_of_vec tl) (Size2D_assign (r_size r) l w) (r_is_valid r).
  (** rect_2d.py:150-164 *)
  Definition Rect2D_assign_corners (r : rect T) (tl br : vec T) : rect T :=
    let '(p, s) := two_corner_fields tl br in mkRect p s (r_is_valid r).
  (** rect_2d.py:165-167 *)
  Definition Rect2D_assign_vec_size (r : rect T) (tl : vec T) (s : size T) : rect T :=
    mkRect (Vector2D_of_vec tl) s (r_is_valid r).
  (** rect_2d.py:168-170 *)
  Definition Rect2D_assign_rect (r o : rect T) : rect T :=
    mkRect (Rect2D_top_left o) (Rect2D_size o) (r_is_valid r).

  (** rect_2d.py:176-301 move_* *)
  Definition Rect2D_move_center (r : rect T) (p : vec T) : rect T :=
    mkRect (Vector2D_assign (r_top_left r)
              (vx p - sz_length (r_size r) * nlit 1 2)
              (vy p - sz_width (r_size r) * nlit 1 2))
           (r_size r) (r_is_valid r).
  (** rect_2d.py:188-197 move_top_left *)
  Definition Rect2D_move_top_left (r : rect T) (p : vec T) : rect T :=
    mkRect (Vector2D_of_vec p) (r_size r) (r_is_valid r).
  (** rect_2d.py:199-209 move_bottom_right *)
  Definition Rect2D_move_bottom_right (r : rect T) (p : vec T) : rect T :=
    mkRect (Vector2D_assign (r_top_left r)
              (vx p - sz_length (r_size r)) (vy p - sz_width (r_size r)))
           (r_size r) (r_is_valid r).
  (** rect_2d.py:211-220 move_left *)
  Definition Rect2D_move_left (r : rect T) (x : T) : rect T :=
    mkRect (Vector2D_set_x (r_top_left r) x) (r_size r) (r_is_valid r).
  (** rect_2d.py:234-243 move_right *)
  Definition Rect2D_move_right (r : rect T) (x : T) : rect T :=
    mkRect (Vector2D_set_x (r_top_left r) (x - sz_length (r_size r)))
           (r_size r) (r_is_valid r).
  (** rect_2d.py:257-266 move_top *)
  Definition Rect2D_move_top (r : rect T) (y : T) : rect T :=
    mkRect (Vector2D_set_y (r_top_left r) y) (r_size r) (r_is_valid r).
  (** rect_2d.py:280-289 move_bottom *)
  Definition Rect2D_move_bottom (r : rect T) (y : T) : rect T :=
    mkRect (Vector2D_set_y (r_top_left r) (y - sz_width (r_size r)))
           (r_size r) (r_is_valid r).

  (** rect_2d.py:303-331 set_top_left *)
  Definition Rect2D_set_top_left (r : rect T) (px py : T) : rect T :=
    let new_left := nmin (Rect2D_right r) px in
    let new_right := nmax (Rect2D_right r) px in
    let new_top := nmin (Rect2D_bottom r) py in
    let new_bottom := nmax (Rect2D_bottom r) py in
    Rect2D_assign4 r new_left new_top (new_right - new_left) (new_bottom - new_top).
  (** rect_2d.py:333-361 set_bottom_right *)
  Definition Rect2D_set_bottom_right (r : rect T) (px py : T) : rect T :=
    let new_left := nmin (Rect2D_left r) px in
    let new_right := nmax (Rect2D_left r) px in
    let new_top := nmin (Rect2D_top r) py in
    let new_bottom := nmax (Rect2D_top r) py in
    Rect2D_assign4 r new_left new_top (new_right - new_left) (new_bottom - new_top).
  (** rect_2d.py:363-385 set_left, set_min_x *)
  Definition Rect2D_set_left (r : rect T) (x : T) : rect T :=
    let new_left := nmin (Rect2D_right r) x in
    let new_right := nmax (Rect2D_right r) x in
    mkRect (Vector2D_set_x (r_top_left r) new_left)
           (Size2D_set_length (r_size r) (new_right - new_left)) (r_is_valid r).
  (** rect_2d.py:387-410 set_right, set_max_x *)
  Definition Rect2D_set_right (r : rect T) (x : T) : rect T :=
    let new_left := nmin (Rect2D_left r) x in
    let new_right := nmax (Rect2D_left r) x in
    mkRect (Vector2D_set_x (r_top_left r) new_left)
           (Size2D_set_length (r_size r) (new_right - new_left)) (r_is_valid r).
  (** rect_2d.py:412-435 set_top, set_min_y *)
  Definition Rect2D_set_top (r : rect T) (y : T) : rect T :=
    let new_top := nmin (Rect2D_bottom r) y in
    let new_bottom := nmax (Rect2D_bottom r) y in
    mkRect (Vector2D_set_y (r_top_left r) new_top)
           (Size2D_set_width (r_size r) (new_bottom - new_top)) (r_is_valid r).
  (** rect_2d.py:437-460 set_bottom, set_max_y *)
  Definition Rect2D_set_bottom (r : rect T) (y : T) : rect T :=
    let new_top := nmin (Rect2D_top r) y in
    let new_bottom := nmax (Rect2D_top r) y in
    mkRect (Vector2D_set_y (r_top_left r) new_top)
           (Size2D_set_width (r_size r) (new_bottom - new_top)) (r_is_valid r).
  (** rect_2d.py:462-476 set_length, set_width *)
  Definition Rect2D_set_length (r : rect T) (l : T) : rect T :=
    mkRect (r_top_left r) (Size2D_set_length (r_size r) l) (r_is_valid r).
  (** rect_2d.py:470-476 set_width *)
  Definition Rect2D_set_width (r : rect T) (w : T) : rect T :=
    mkRect (r_top_left r) (Size2D_set_width (r_size r) w) (r_is_valid r).
  (** rect_2d.py:478-498 set_size (both forms) *)
  Definition Rect2D_set_size (r : rect T) (l w : T) : rect T :=
    mkRect (r_top_left r) (Size2D_assign (r_size r) l w) (r_is_valid r).
  (** rect_2d.py:478-498 set_size *)
  Definition Rect2D_set_size_of (r : rect T) (s : size T) : rect T :=
    mkRect (r_top_left r) (Size2D_init (sz_length s) (sz_width s)) (r_is_valid r).

  (** rect_2d.py:509-515 area *)
  Definition Rect2D_area (r : rect T) : T :=
    sz_length (r_size r) * sz_width (r_size r).
  (** rect_2d.py:517-526 contains *)
  Definition Rect2D_contains (r : rect T) (p : vec T) : bool :=
    (Rect2D_left r <=? vx p) && (vx p <=? Rect2D_right r)
    && (Rect2D_top r <=? vy p) && (vy p <=? Rect2D_bottom r).
  (** rect_2d.py:528-539 contains_almost: [point.x] is a bound method, and
      comparing a float with it raises TypeError *)
  Definition Rect2D_contains_almost (r : rect T) (p : vec T) (thr : T) : res bool :=
    Raise TypeError.

  (** rect_2d.py:670-700 edges as lines *)
  Definition Rect2D_left_edge (r : rect T) : line T :=
    Line2D_of_points (Rect2D_top_left r) (Rect2D_bottom_left r).
  (** rect_2d.py:678-684 right_edge *)
  Definition Rect2D_right_edge (r : rect T) : line T :=
    Line2D_of_points (Rect2D_top_right r) (Rect2D_bottom_right r).
  (** rect_2d.py:686-692 top_edge *)
  Definition Rect2D_top_edge (r : rect T) : line T :=
    Line2D_of_points (Rect2D_top_left r) (Rect2D_top_right r).
  (** rect_2d.py:694-700 bottom_edge *)
  Definition Rect2D_bottom_edge (r : rect T) : line T :=
    Line2D_of_points (Rect2D_bottom_left r) (Rect2D_bottom_right r).

  (** rect_2d.py:715-745 intersection with a line.  The two-slot array t_sol
      and counter n_sol are represented by the list of accepted points (length
      n_sol <= 2): a rejected candidate is overwritten by the next one. *)
  Definition rect_vertical_side (r : rect T) (sols : list (vec T))
    (edge l : line T) : res (list (vec T)) :=
    sol <- Line2D_intersection edge l ;;
    if v_valid sol && (Rect2D_top r <=? vy sol) && (vy sol <=? Rect2D_bottom r)
    then Ok (sols ++ [sol]) else Ok sols.
  (** rect_2d.py:702-763 intersection *)
  Definition rect_horizontal_side (r : rect T) (sols : list (vec T))
    (edge l : line T) : res (list (vec T)) :=
    if Nat.ltb (List.length sols) 2 then
      sol <- Line2D_intersection edge l ;;
      if v_valid sol && (Rect2D_left r <=? vx sol) && (vx sol <=? Rect2D_right r)
      then Ok (sols ++ [sol]) else Ok sols
    else Ok sols.
  (** rect_2d.py:702-763 intersection *)
  Definition Rect2D_intersection_line (r : rect T) (l : line T)
    : res (list (vec T)) :=
    s1 <- rect_vertical_side r [] (Rect2D_left_edge r) l ;;
    s2 <- rect_vertical_side r s1 (Rect2D_right_edge r) l ;;
    s3 <- rect_horizontal_side r s2 (Rect2D_top_edge r) l ;;
    s4 <- rect_horizontal_side r s3 (Rect2D_bottom_edge r) l ;;
    match s4 with
    | [p; q] =>
        if (nabs (vx p - vx q) <? EPSILON) && (nabs (vy p - vy q) <? EPSILON)
        then Ok [p] else Ok [p; q]
    | _ => Ok s4
    end.
  (** rect_2d.py:746-754 with a ray; 755-762 with a segment *)
  Definition Rect2D_intersection_ray (r : rect T) (ry : ray T)
    : res (list (vec T)) :=
    l <- Ray2D_line ry ;;
    sols <- Rect2D_intersection_line r l ;;
    filter_sols (fun p => Ray2D_in_right_dir_thr ry p (num 1)) sols.
  (** rect_2d.py:702-763 intersection *)
  Definition Rect2D_intersection_seg (r : rect T) (s : seg T)
    : res (list (vec T)) :=
    sols <- Rect2D_intersection_line r (Segment2D_line s) ;;
    filter_sols (fun p => Ok (Segment2D_contains s p)) sols.
  (** rect_2d.py:702-763 dispatch *)
  Definition Rect2D_intersection (r : rect T) (other : val T)
    : res (list (vec T)) :=
    match other with
    | VLine l => Rect2D_intersection_line r l
    | VRay ry => Rect2D_intersection_ray r ry
    | VSeg s => Rect2D_intersection_seg r s
    | _ => Raise GenericException
    end.

  (** [self._top_left.assign(x, y); self._size.assign(l, w)] *)
  (** rect_2d.py:765-819 intersected, united *)
  Definition rect_set_all (r : rect T) (x y l w : T) : rect T :=
    mkRect (Vector2D_assign (r_top_left r) x y)
           (Size2D_assign (r_size r) l w) (r_is_valid r).

  (** rect_2d.py:780-790, the common tail of intersected and united:
      statement by statement (the zeroing at 786-787 is dead: it is
      overwritten by 789-790) *)
  Definition intersect_tail (r other : rect T) : rect T :=
    let left := nmax (Rect2D_left r) (Rect2D_left other) in
    let top := nmax (Rect2D_top r) (Rect2D_top other) in
    let width := nmin (Rect2D_right r) (Rect2D_right other) - left in
    let length := nmin (Rect2D_bottom r) (Rect2D_bottom other) - top in
    let r1 := if (width <=? num 0) || (length <=? num 0)
              then rect_set_all r (num 0) (num 0) (num 0) (num 0) else r in
    rect_set_all r1 left top width length.
  (** rect_2d.py:765-792 intersected: the new state of self, which is also the
      returned object.  [self.is_valid] without a call is a bound method,
      hence truthy. *)
  Definition Rect2D_intersected (r other : rect T) : rect T :=
    let r0 := if negb (Rect2D_is_valid other)
              then rect_set_all r (num 0) (num 0) (num 0) (num 0) else r in
    intersect_tail r0 other.
  (** rect_2d.py:794-819 united *)
  Definition Rect2D_united (r other : rect T) : rect T :=
    let r0 := if negb (Rect2D_is_valid other)
              then mkRect (Vector2D_assign (r_top_left r) (num 0) (num 0))
                          (r_size r) (r_is_valid r)
              else r in
    let r1 := mkRect (r_top_left r0) (Size2D_assign (r_size r0) (num 0) (num 0))
                     (r_is_valid r0) in
    intersect_tail r1 other.

  (** rect_2d.py:821-848 from_center.  [Vector2D - float] evaluates
      [other._x] on a float: AttributeError. *)
  Definition Rect2D_from_center4 (x y l w : T) : rect T :=
    Rect2D_of_nums (x - l * nlit 1 2) (y - w * nlit 1 2) l w.
  (** rect_2d.py:821-848 from_center.  Arguments of other classes fail at the
      first operator or constructor that refuses them; which exception that is
      (TypeError, AttributeError or Exception) is not told apart: TypeError. *)
  Definition Rect2D_from_center (args : list (val T)) : res (rect T) :=
    match args with
    | [VNum x; VNum y; VNum l; VNum w] => Ok (Rect2D_from_center4 x y l w)
    | [_; _; _; _] => Raise TypeError
    | [VVec _; VNum _; VNum _] => Raise AttributeError
    | [VNum c; VNum l; VNum w] =>
        Ok (Rect2D_of_nums (c - l * nlit 1 2) (c - w * nlit 1 2) l w)
    | [_; _; _] => Raise TypeError
    | _ => Raise GenericException
    end.
End Rect.
