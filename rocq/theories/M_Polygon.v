(** * M_Polygon: model of src/pyrusgeom/polygon_2d.py

    A polygon is its vertex list (sharing of the Vector2D objects is in
    M_Heap.v).  [float('inf')] as the start value of a running minimum or
    maximum is the option [None], which every number improves on; a NaN or
    infinite coordinate is therefore outside the scope of the functions using
    it (get_bounding_box, contains, dist).  M_PolyF.v has these functions for
    such coordinates, and P_NaN.v shows that they agree on finite ones. *)
From Coq Require Import ZArith List Bool String.
From Verif Require Import Base Types M_Angle M_Vector M_Line M_Ray M_Triangle
  M_Segment M_Circle M_Sector M_Rect.
Import ListNotations.
Set Implicit Arguments.
Local Open Scope py_scope.
Local Open Scope num_scope.

(** (v_0,v_1), (v_1,v_2), ..., (v_{n-1},v_0): the pairs visited by
    [for i in range(n)] with the wrap-around index
    (polygon_2d.py:252-259, 356-361, 435-442). *)
Fixpoint path_pairs {A} (a : A) (l : list A) (last : A) : list (A * A) :=
  match l with
  | [] => [(a, last)]
  | b :: l' => (a, b) :: path_pairs b l' last
  end.
(** polygon_2d.py:300-460: consecutive vertices, the last one followed by the first *)
Definition cyc_pairs {A} (l : list A) : list (A * A) :=
  match l with [] => [] | a :: l' => path_pairs a l' a end.

Section Polygon.
  Context {T : Type} `{Num T}.

  (** polygon_2d.py:130-154 the constructor; non-vectors in the varargs form
      are skipped.  A list argument is stored as is. *)
  Fixpoint vecs_of (l : list (val T)) : list (vec T) :=
    match l with
    | [] => []
    | VVec v :: l' => Vector2D_copy v :: vecs_of l'
    | _ :: l' => vecs_of l'
    end.
  (** polygon_2d.py:130-154 __init__ *)
  Fixpoint vecs_raw (l : list (val T)) : option (list (vec T)) :=
    match l with
    | [] => Some []
    | VVec v :: l' => option_map (cons v) (vecs_raw l')
    | _ => None
    end.
  (** polygon_2d.py:130-154 __init__ *)
  Definition Polygon2D_init (args : list (val T)) : res (list (vec T)) :=
    match args with
    | [] => Ok [V (num 0) (num 0)]
    | VList l :: _ => match vecs_raw l with
                      | Some vs => Ok vs
                      | None => Raise TypeError (* only lists of vectors are modelled *)
                      end
    | _ => Ok (vecs_of args)
    end.

  (** polygon_2d.py:156-178 clear, assign, add_vertex *)
  Definition Polygon2D_clear (vs : list (vec T)) : list (vec T) := [V (num 0) (num 0)].
  (** polygon_2d.py:161-170 assign *)
  Definition Polygon2D_assign (vs pts : list (vec T)) : list (vec T) :=
    match pts with [] => vs | _ => pts end.
  (** polygon_2d.py:172-178 add_vertex *)
  Definition Polygon2D_add_vertex (vs : list (vec T)) (p : vec T) : list (vec T) :=
    vs ++ [p].

  (** polygon_2d.py:210-220, running maximum / minimum from -inf / inf *)
  Definition upd_max (m : option T) (x : T) : option T :=
    match m with
    | None => Some x
    | Some y => if x >? y then Some x else Some y
    end.
  (** polygon_2d.py:197-221 get_bounding_box *)
  Definition upd_min (m : option T) (x : T) : option T :=
    match m with
    | None => Some x
    | Some y => if x <? y then Some x else Some y
    end.

  (** polygon_2d.py:197-221 get_bounding_box.  Rect2D() without arguments
      raises (rect_2d.py:107-109). *)
  Definition bbox_extent (vs : list (vec T)) (upd : option T -> T -> option T)
    (proj : vec T -> T) : option T :=
    fold_left (fun m p => upd m (proj p)) vs None.
  (** polygon_2d.py:197-221 get_bounding_box *)
  Definition Polygon2D_get_bounding_box (vs : list (vec T)) : res (rect T) :=
    match bbox_extent vs upd_min (@vx T), bbox_extent vs upd_max (@vx T),
          bbox_extent vs upd_min (@vy T), bbox_extent vs upd_max (@vy T) with
    | Some x_min, Some x_max, Some y_min, Some y_max =>
        Ok (Rect2D_of_vec_size (V x_min y_min)
              (Size2D_init (x_max - x_min) (y_max - y_min)))
    | _, _, _, _ => Rect2D_init []
    end.

  (** polygon_2d.py:252-281 the edge loop of contains.  [min_line_x] is
      computed by the code but never read, so it is left out. *)
  Fixpoint contains_loop (half_line : seg T) (p : vec T) (allow : bool)
    (es : list (vec T * vec T)) (inside : bool) : bool :=
    match es with
    | [] => inside
    | (p0, p1) :: es' =>
        if negb allow && Segment2D_on_segment (Segment2D_of_points p0 p1) p
        then false
        else if allow && Vector2D_eq p p0 then true
        else if Segment2D_exist_intersection_seg half_line
                  (Segment2D_of_points p0 p1) then
          if ((vy p0 =? vy p) || (vy p1 =? vy p))
             && ((vy p0 =? vy p1) || (vy p0 <? vy p) || (vy p1 <? vy p))
          then contains_loop half_line p allow es' inside
          else contains_loop half_line p allow es' (negb inside)
        else contains_loop half_line p allow es' inside
    end.

  (** polygon_2d.py:244-247 the virtual half line *)
  Definition half_line (v0 p : vec T) (bb : rect T) : res (seg T) :=
    r <- Vector2D_r (Vector2D_sub v0 p) ;;
    Ok (Segment2D_of_points p
          (V (vx p + ((Rect2D_right bb - Rect2D_left bb + Rect2D_bottom bb
                       - Rect2D_top bb) + r) * num 3) (vy p))).

  (** polygon_2d.py:223-281 contains *)
  Definition Polygon2D_contains (vs : list (vec T)) (p : vec T) (allow : bool)
    : res bool :=
    match vs with
    | [] => Ok false
    | [v] => Ok (allow && Vector2D_eq v p)
    | v0 :: _ =>
        bb <- Polygon2D_get_bounding_box vs ;;
        if negb (Rect2D_contains bb p) then Ok false
        else
          hl <- half_line v0 p bb ;;
          Ok (contains_loop hl p allow (cyc_pairs vs) false)
    end.

  (** polygon_2d.py:283-289 bounding_box_center *)
  Definition Polygon2D_bounding_box_center (vs : list (vec T)) : res (vec T) :=
    bb <- Polygon2D_get_bounding_box vs ;; Ok (Rect2D_center bb).

  (** consecutive pairs without the closing one (polygon_2d.py:311-314) *)
  Fixpoint open_pairs {A} (l : list A) : list (A * A) :=
    match l with
    | a :: ((b :: _) as l') => (a, b) :: open_pairs l'
    | _ => []
    end.

  (** polygon_2d.py:310-327 running minimum of the segment distances *)
  Fixpoint dist_loop (p : vec T) (es : list (vec T * vec T)) (m : option T)
    : res (option T) :=
    match es with
    | [] => Ok m
    | (a, b) :: es' =>
        d <- Segment2D_dist_point (Segment2D_of_points a b) p ;;
        dist_loop p es' (upd_min m d)
    end.

  (** polygon_2d.py:291-329 dist; [None] is float('inf') *)
  Definition Polygon2D_dist (vs : list (vec T)) (p : vec T) (check_as_plane : bool)
    : res (option T) :=
    match vs with
    | [v] => d <- Vector2D_r (Vector2D_sub v p) ;; Ok (Some d)
    | _ =>
        inside <- (if check_as_plane then Polygon2D_contains vs p true
                   else Ok false) ;;
        if inside : bool then Ok (Some (num 0))
        else
          m <- dist_loop p (open_pairs vs) None ;;
          match vs with
          | v0 :: _ :: _ :: _ => dist_loop p [(last vs v0, v0)] m
          | _ => Ok m
          end
    end.

  (** polygon_2d.py:340-363 double_signed_area *)
  Definition edge_term (e : vec T * vec T) : T :=
    vx (fst e) * vy (snd e) - vx (snd e) * vy (fst e).
  (** polygon_2d.py:340-363 double_signed_area *)
  Definition Polygon2D_double_signed_area (vs : list (vec T)) : T :=
    match vs with
    | _ :: _ :: _ :: _ =>
        fold_left (fun s e => s + edge_term e) (cyc_pairs vs) (num 0)
    | _ => num 0
    end.
  (** polygon_2d.py:332-338 area; 365-379 orientation *)
  Definition Polygon2D_area (vs : list (vec T)) : T :=
    nabs (Polygon2D_double_signed_area vs * nlit 1 2).
  (** polygon_2d.py:365-371 is_counter_clockwise *)
  Definition Polygon2D_is_counter_clockwise (vs : list (vec T)) : bool :=
    Polygon2D_double_signed_area vs >? num 0.
  (** polygon_2d.py:373-379 is_clockwise *)
  Definition Polygon2D_is_clockwise (vs : list (vec T)) : bool :=
    Polygon2D_double_signed_area vs <? num 0.

  (** polygon_2d.py:419-462 get_line_clipped_polygon: loop over the cyclic
      pairs, accumulating new points; an invalid cut stops and returns what
      was collected so far. *)
  Fixpoint clip_loop (in_region : vec T -> bool) (l : line T)
    (es : list (vec T * vec T)) (acc : list (vec T)) : res (list (vec T)) :=
    match es with
    | [] => Ok acc
    | (p0, p1) :: es' =>
        if in_region p0 then
          if in_region p1 then clip_loop in_region l es' (acc ++ [p1])
          else
            cut <- Line2D_intersection l (Line2D_of_points p0 p1) ;;
            if negb (v_valid cut) then Ok acc
            else clip_loop in_region l es' (acc ++ [cut])
        else
          if in_region p1 then
            cut <- Line2D_intersection l (Line2D_of_points p0 p1) ;;
            if negb (v_valid cut) then Ok acc
            else clip_loop in_region l es' (acc ++ [cut; p1])
          else clip_loop in_region l es' acc
    end.
  (** polygon_2d.py:419-462 get_line_clipped_polygon *)
  Definition get_line_clipped_polygon (in_region : vec T -> bool)
    (pts : list (vec T)) (l : line T) : res (list (vec T)) :=
    clip_loop in_region l (cyc_pairs pts) [].

  (** polygon_2d.py:16-117 the four predicate classes *)
  Definition x_less_equal (thr : T) (p : vec T) : bool := vx p <=? thr.
  (** polygon_2d.py:48-57 __call__ *)
  Definition x_more_equal (thr : T) (p : vec T) : bool := vx p >=? thr.
  (** polygon_2d.py:74-83 __call__ *)
  Definition y_less_equal (thr : T) (p : vec T) : bool := vy p <=? thr.
  (** polygon_2d.py:100-109 __call__ *)
  Definition y_more_equal (thr : T) (p : vec T) : bool := vy p >=? thr.

  (** polygon_2d.py:381-417 get_rectangle_clipped_polygon (the bottom clip at
      405-407 uses rect.top() for its line).  An empty vertex list gives
      Polygon2D(), i.e. one vertex at the origin. *)
  Definition Polygon2D_get_rectangle_clipped_polygon (vs : list (vec T)) (r : rect T)
    : res (list (vec T)) :=
    match vs with
    | [] => Ok [V (num 0) (num 0)]
    | _ =>
        l1 <- Line2D_of_angle (V (Rect2D_right r) (num 0)) (AN (num 90)) ;;
        c1 <- get_line_clipped_polygon (x_less_equal (Rect2D_right r)) vs l1 ;;
        l2 <- Line2D_of_angle (V (num 0) (Rect2D_top r)) (AN (num 0)) ;;
        c2 <- get_line_clipped_polygon (y_less_equal (Rect2D_bottom r)) c1 l2 ;;
        l3 <- Line2D_of_angle (V (Rect2D_left r) (num 0)) (AN (num 90)) ;;
        c3 <- get_line_clipped_polygon (x_more_equal (Rect2D_left r)) c2 l3 ;;
        l4 <- Line2D_of_angle (V (num 0) (Rect2D_top r)) (AN (num 0)) ;;
        get_line_clipped_polygon (y_more_equal (Rect2D_top r)) c3 l4
    end.
End Polygon.
