(** * M_Segment: model of src/pyrusgeom/segment_2d.py *)
From Coq Require Import ZArith List Bool String.
From Verif Require Import Base Types M_Angle M_Vector M_Line M_Ray M_Triangle.
Import ListNotations.
Set Implicit Arguments.
Local Open Scope py_scope.
Local Open Scope num_scope.

Section Segment.
  Context {T : Type} `{Num T}.

  (** segment_2d.py:58-60 Segment2D(p, q) *)
  Definition Segment2D_of_points (p q : vec T) : seg T :=
    mkSeg (Vector2D_of_vec p) (Vector2D_of_vec q).

  (** segment_2d.py:61-63 Segment2D(origin, length, direction) *)
  Definition Segment2D_of_polar (p : vec T) (l : T) (d : ang_arg T) : res (seg T) :=
    v <- Vector2D_from_polar l d ;;
    Ok (mkSeg (Vector2D_of_vec p) (Vector2D_add p v)).

  (** segment_2d.py:26-72 the constructor; 74-121 assign computes the same.
      With a point, a length that is no number and a direction, some operand
      of Vector2D.from_polar fails; the exception is TypeError or Exception
      depending on the class of the length, here always TypeError. *)
  Definition Segment2D_init (args : list (val T)) : res (seg T) :=
    match args with
    | [VVec p; VVec q] => Ok (Segment2D_of_points p q)
    | [_; _] => Raise GenericException
    | [VVec p; VNum l; VAng d] => Segment2D_of_polar p l (AA d)
    | [VVec p; VNum l; VNum d] => Segment2D_of_polar p l (AN d)
    | [VVec p; _; _] => Raise TypeError
    | [_; _; _] => Raise GenericException
    | [VNum x1; VNum y1; VNum x2; VNum y2] => Ok (mkSeg (V x1 y1) (V x2 y2))
    | [_; _; _; _] => Raise GenericException
    | [] => Ok (mkSeg (V (num 0) (num 0)) (V (num 0) (num 0)))
    | _ => Raise GenericException
    end.

  (** segment_2d.py:123-131 is_valid *)
  Definition Segment2D_is_valid (s : seg T) : bool :=
    negb (Vector2D_equals_weakly (s_origin s) (s_terminal s)).
  (** segment_2d.py:133-140, 150-157 origin, terminal (copies) *)
  Definition Segment2D_origin (s : seg T) : vec T := Vector2D_of_vec (s_origin s).
  (** segment_2d.py:150-157 terminal *)
  Definition Segment2D_terminal (s : seg T) : vec T := Vector2D_of_vec (s_terminal s).
  (** segment_2d.py:167-173 line *)
  Definition Segment2D_line (s : seg T) : line T :=
    Line2D_of_points (s_origin s) (s_terminal s).
  (** segment_2d.py:175-181 length *)
  Definition Segment2D_length (s : seg T) : res T :=
    Vector2D_dist (s_origin s) (s_terminal s).
  (** segment_2d.py:183-189 direction *)
  Definition Segment2D_direction (s : seg T) : res (angle T) :=
    Vector2D_th (Vector2D_sub (s_terminal s) (s_origin s)).
  (** segment_2d.py:191-201 swap; 211-219 reverse *)
  Definition Segment2D_swap (s : seg T) : seg T :=
    mkSeg (s_terminal s) (s_origin s).
  (** segment_2d.py:203-209 copy *)
  Definition Segment2D_copy (s : seg T) : seg T :=
    Segment2D_of_points (Segment2D_origin s) (Segment2D_terminal s).
  (** segment_2d.py:221-227 reversed_segment *)
  Definition Segment2D_reversed_segment (s : seg T) : seg T :=
    Segment2D_swap (Segment2D_of_points (s_origin s) (s_terminal s)).
  (** segment_2d.py:229-235 perpendicular_bisector *)
  Definition Segment2D_perpendicular_bisector (s : seg T) : line T :=
    Line2D_perpendicular_bisector (s_origin s) (s_terminal s).
  (** segment_2d.py:237-247 contains *)
  Definition Segment2D_contains (s : seg T) (p : vec T) : bool :=
    ((vx p - vx (s_origin s)) * (vx p - vx (s_terminal s)) <=? CALC_ERROR)
    && ((vy p - vy (s_origin s)) * (vy p - vy (s_terminal s)) <=? CALC_ERROR).
  (** segment_2d.py:249-258 __eq__ *)
  Definition Segment2D_eq (s o : seg T) : bool :=
    Vector2D_eq (s_origin s) (s_origin o)
    && Vector2D_eq (s_terminal s) (s_terminal o).
  (** segment_2d.py:260-270 equals_weakly *)
  Definition Segment2D_equals_weakly (s o : seg T) : bool :=
    Vector2D_equals_weakly (s_origin s) (s_origin o)
    && Vector2D_equals_weakly (s_terminal s) (s_terminal o).

  (** segment_2d.py:272-298 projection *)
  Definition Segment2D_projection (s : seg T) (p : vec T) : res (vec T) :=
    let direction := Vector2D_sub (s_terminal s) (s_origin s) in
    length <- Vector2D_r direction ;;
    if length <? EPSILON then Ok (s_origin s)
    else
      direction1 <- Vector2D_truediv direction length ;;
      let ip := Vector2D_inner_product direction1
                  (Vector2D_sub p (s_origin s)) in
      if (- EPSILON <? ip) && (ip <? length + EPSILON) then
        let direction2 := Vector2D_imul direction1 ip in
        Ok (Vector2D_iadd (Vector2D_of_vec (s_origin s)) direction2)
      else Ok Vector2D_invalid.

  (** segment_2d.py:380-393 check_intersects_on_line *)
  Definition check_intersects_on_line (s : seg T) (p : vec T) : bool :=
    let o := s_origin s in let t := s_terminal s in
    if vx o =? vx t then
      ((vy o <=? vy p) && (vy p <=? vy t)) || ((vy t <=? vy p) && (vy p <=? vy o))
    else
      ((vx o <=? vx p) && (vx p <=? vx t)) || ((vx t <=? vx p) && (vx p <=? vx o)).

  (** segment_2d.py:346-373 exist_intersection with a segment *)
  Definition Segment2D_exist_intersection_seg (s o : seg T) : bool :=
    let tri_a0 := double_signed_area_st (s_origin s) (s_terminal s) (s_origin o) in
    let tri_a1 := double_signed_area_st (s_origin s) (s_terminal s) (s_terminal o) in
    let tri_b0 := double_signed_area_st (s_origin o) (s_terminal o) (s_origin s) in
    let tri_b1 := double_signed_area_st (s_origin o) (s_terminal o) (s_terminal s) in
    if (tri_a0 * tri_a1 <? num 0) && (tri_b0 * tri_b1 <? num 0) then true
    else if Vector2D_eq (s_origin s) (s_terminal s) then
      if Vector2D_eq (s_origin o) (s_terminal o)
      then Vector2D_eq (s_origin s) (s_origin o)
      else (tri_b0 =? num 0) && check_intersects_on_line o (s_origin s)
    else if Vector2D_eq (s_origin o) (s_terminal o) then
      (tri_a0 =? num 0) && check_intersects_on_line s (s_origin o)
    else
      ((tri_a0 =? num 0) && check_intersects_on_line s (s_origin o))
      || ((tri_a1 =? num 0) && check_intersects_on_line s (s_terminal o))
      || ((tri_b0 =? num 0) && check_intersects_on_line o (s_origin s))
      || ((tri_b1 =? num 0) && check_intersects_on_line o (s_terminal s)).

  (** segment_2d.py:374-378 exist_intersection with a line *)
  Definition Segment2D_exist_intersection_line (s : seg T) (l : line T) : bool :=
    let tri_a0 := l_a l * vx (s_origin s) + l_b l * vy (s_origin s) + l_c l in
    let tri_a1 := l_a l * vx (s_terminal s) + l_b l * vy (s_terminal s) + l_c l in
    tri_a0 * tri_a1 <=? num 0.

  (** segment_2d.py:336-378 exist_intersection dispatch; other types fall
      through and return None, which is modelled by [VNone]. *)
  Definition Segment2D_exist_intersection (s : seg T) (other : val T) : val T :=
    match other with
    | VSeg o => VBool (Segment2D_exist_intersection_seg s o)
    | VLine l => VBool (Segment2D_exist_intersection_line s l)
    | _ => VNone
    end.

  (** segment_2d.py:395-436 exist_intersection_except_endpoint,
      intersects_except_endpoint *)
  Definition Segment2D_exist_intersection_except_endpoint (s o : seg T) : bool :=
    (double_signed_area_st (s_origin s) (s_terminal s) (s_origin o)
     * double_signed_area_st (s_origin s) (s_terminal s) (s_terminal o) <? num 0)
    && (double_signed_area_st (s_origin o) (s_terminal o) (s_origin s)
        * double_signed_area_st (s_origin o) (s_terminal o) (s_terminal s) <? num 0).

  (** segment_2d.py:315-320 intersection with a line *)
  Definition Segment2D_intersection_line (s : seg T) (l : line T) : res (vec T) :=
    sol <- Line2D_intersection (Segment2D_line s) l ;;
    if negb (v_valid sol) || negb (Segment2D_contains s sol)
    then Ok Vector2D_invalid else Ok sol.

  (** segment_2d.py:322-331 intersection with a segment *)
  Definition Segment2D_intersection_seg (s o : seg T) (allow_end_point : bool)
    : res (vec T) :=
    sol <- Line2D_intersection (Segment2D_line s) (Segment2D_line o) ;;
    if negb (v_valid sol) || negb (Segment2D_contains s sol)
       || negb (Segment2D_contains o sol)
    then Ok Vector2D_invalid
    else if negb allow_end_point
            && negb (Segment2D_exist_intersection_except_endpoint s o)
    then Ok Vector2D_invalid
    else Ok sol.

  (** segment_2d.py:300-334 intersection dispatch *)
  Definition Segment2D_intersection (s : seg T) (args : list (val T))
    : res (vec T) :=
    match args with
    | [] => Raise IndexError
    | VLine l :: _ => Segment2D_intersection_line s l
    | [VSeg o; VBool b] => Segment2D_intersection_seg s o b
    | VSeg o :: _ => Segment2D_intersection_seg s o false
    | _ => Ok Vector2D_invalid
    end.

  (** segment_2d.py:438-463 nearest_point *)
  Definition Segment2D_nearest_point (s : seg T) (p : vec T) : res (vec T) :=
    let vec_tmp := Vector2D_sub (s_terminal s) (s_origin s) in
    let len_square := Vector2D_r2 vec_tmp in
    if len_square =? num 0 then Ok (s_origin s)
    else
      let ip := Vector2D_inner_product vec_tmp (Vector2D_sub p (s_origin s)) in
      if ip <=? num 0 then Ok (s_origin s)
      else if ip >=? len_square then Ok (s_terminal s)
      else
        q <- Vector2D_truediv (Vector2D_mul vec_tmp ip) len_square ;;
        Ok (Vector2D_add (s_origin s) q).

  (** segment_2d.py:478-490 dist to a point *)
  Definition Segment2D_dist_point (s : seg T) (p : vec T) : res T :=
    length <- Segment2D_length s ;;
    if length =? num 0 then Vector2D_dist (s_origin s) p
    else
      let tmp_vec := Vector2D_sub (s_terminal s) (s_origin s) in
      let prod := Vector2D_inner_product tmp_vec (Vector2D_sub p (s_origin s)) in
      if (num 0 <=? prod) && (prod <=? length * length) then
        q <- ndiv (double_signed_area_st (s_origin s) (s_terminal s) p) length ;;
        Ok (nabs q)
      else
        d1 <- Vector2D_dist2 (s_origin s) p ;;
        d2 <- Vector2D_dist2 (s_terminal s) p ;;
        nsqrt (nmin d1 d2).

  (** segment_2d.py:492-498 dist to a segment *)
  Definition Segment2D_dist_seg (s o : seg T) : res T :=
    if Segment2D_exist_intersection_seg s o then Ok (num 0)
    else
      d1 <- Segment2D_dist_point s (s_origin o) ;;
      d2 <- Segment2D_dist_point s (s_terminal o) ;;
      d3 <- Segment2D_dist_point o (s_origin s) ;;
      d4 <- Segment2D_dist_point o (s_terminal s) ;;
      Ok (nmin (nmin (nmin d1 d2) d3) d4).

  (** segment_2d.py:465-500 dist dispatch *)
  Definition Segment2D_dist (s : seg T) (other : val T) : res T :=
    match other with
    | VVec p => Segment2D_dist_point s p
    | VSeg o => Segment2D_dist_seg s o
    | _ => Raise GenericException
    end.

  (** segment_2d.py:502-511 farthest_dist *)
  Definition Segment2D_farthest_dist (s : seg T) (p : vec T) : res T :=
    d1 <- Vector2D_dist2 (s_origin s) p ;;
    d2 <- Vector2D_dist2 (s_terminal s) p ;;
    nsqrt (nmax d1 d2).

  (** segment_2d.py:513-523 on_segment *)
  Definition Segment2D_on_segment (s : seg T) (p : vec T) : bool :=
    (double_signed_area_st (s_origin s) (s_terminal s) p =? num 0)
    && check_intersects_on_line s p.

  (** segment_2d.py:525-535 on_segment_weakly *)
  Definition Segment2D_on_segment_weakly (s : seg T) (p : vec T) : res bool :=
    projection <- Segment2D_projection s p ;;
    Ok (v_valid projection && Vector2D_equals_weakly p projection).
End Segment.
