(** * M_Circle: model of src/pyrusgeom/circle_2d.py *)
From Coq Require Import ZArith List Bool String.
From Verif Require Import Base Types M_Angle M_Vector M_Line M_Ray M_Triangle M_Segment.
Import ListNotations.
Set Implicit Arguments.
Local Open Scope py_scope.
Local Open Scope num_scope.

Section Circle.
  Context {T : Type} `{Num T}.

  (** circle_2d.py:27-42 __init__; 44-55 assign *)
  Definition Circle2D_init (center : vec T) (radius : T) : circle T :=
    mkCircle (Vector2D_of_vec center)
             (if radius <? num 0 then num 0 else radius).
  (** circle_2d.py:44-55 assign *)
  Definition Circle2D_assign (c : circle T) (center : vec T) (radius : T)
    : circle T :=
    mkCircle (Vector2D_of_vec center)
             (if radius <? num 0 then num 0 else radius).
  (** circle_2d.py:27 Circle2D() *)
  Definition Circle2D_default : circle T :=
    Circle2D_init (V (num 0) (num 0)) (num 0).

  (** circle_2d.py:57-63 area *)
  Definition Circle2D_area (c : circle T) : T := nPI * c_radius c * c_radius c.

  (** circle_2d.py:65-74 contains *)
  Definition Circle2D_contains (c : circle T) (p : vec T) : res bool :=
    d2 <- Vector2D_dist2 (c_center c) p ;;
    Ok (d2 <? c_radius c * c_radius c).

  (** circle_2d.py:76-82 center (copy) *)
  Definition Circle2D_center (c : circle T) : vec T := Vector2D_of_vec (c_center c).

  (** circle_2d.py:311-336 quadratic_f.  The result list is [] or has exactly
      two elements. *)
  Definition quadratic_f (a b c : T) : res (option (T * T)) :=
    let delta := b * b - num 4 * a * c in
    if a =? num 0 then Raise GenericException
    else if nabs delta <? EPSILON then
      s <- ndiv (- b) (num 2 * a) ;; Ok (Some (s, s))
    else if delta <? num 0 then Ok None
    else
      d <- nsqrt delta ;;
      s1 <- ndiv (- b + d) (num 2 * a) ;;
      s2 <- ndiv (- b - d) (num 2 * a) ;;
      Ok (Some (s1, s2)).

  (** circle_2d.py:127-130, 147-150: two solutions, the second dropped when
      weakly equal to the first *)
  Definition merge_weakly (p q : vec T) : list (vec T) :=
    if Vector2D_equals_weakly p q then [p] else [p; q].

  (** circle_2d.py:111-154 intersection with a line *)
  Definition Circle2D_intersection_line (c : circle T) (l : line T)
    : res (list (vec T)) :=
    if nabs (l_a l) <? EPSILON then
      if nabs (l_b l) <? EPSILON then Ok []
      else
        px <- npowi (vx (c_center c)) 2 ;;
        q <- ndiv (l_c l) (l_b l) ;;
        py <- npowi (q + vy (c_center c)) 2 ;;
        pr <- npowi (c_radius c) 2 ;;
        n_sol <- quadratic_f (num 1) (num (-2) * vx (c_center c)) (px + py - pr) ;;
        match n_sol with
        | Some (s1, s2) =>
            y <- ndiv (- l_c l) (l_b l) ;;
            Ok (merge_weakly (V s1 y) (V s2 y))
        | None => Ok []
        end
    else
      b_a <- ndiv (l_b l) (l_a l) ;;
      c_a <- ndiv (l_c l) (l_a l) ;;
      let line_a := num 1 + b_a * b_a in
      let line_b := num 2 * (- vy (c_center c) + (c_a + vx (c_center c)) * b_a) in
      p1 <- npowi (c_a + vx (c_center c)) 2 ;;
      p2 <- npowi (vy (c_center c)) 2 ;;
      p3 <- npowi (c_radius c) 2 ;;
      let line_c := p1 + p2 - p3 in
      n_sol <- quadratic_f line_a line_b line_c ;;
      match n_sol with
      | Some (s1, s2) =>
          x1 <- Line2D_get_x l s1 ;;
          x2 <- Line2D_get_x l s2 ;;
          Ok (merge_weakly (V x1 s1) (V x2 s2))
      | None => Ok []
      end.

  (** circle_2d.py:158-162 / 169-173: delete element 1 and then element 0 of
      the solution list when they fail the test *)
  Definition filter_sols (ok : vec T -> res bool) (sols : list (vec T))
    : res (list (vec T)) :=
    match sols with
    | p :: q :: rest =>
        okq <- ok q ;;
        let sols1 := if negb okq then p :: rest else p :: q :: rest in
        okp <- ok p ;;
        Ok (if negb okp then List.tl sols1 else sols1)
    | [p] => okp <- ok p ;; Ok (if negb okp then [] else [p])
    | [] => Ok []
    end.

  (** circle_2d.py:155-164 intersection with a ray *)
  Definition Circle2D_intersection_ray (c : circle T) (r : ray T)
    : res (list (vec T)) :=
    d <- Ray2D_dir r ;;
    l <- Line2D_of_angle (Ray2D_origin r) (AA d) ;;
    sols <- Circle2D_intersection_line c l ;;
    filter_sols (fun p => Ray2D_in_right_dir_thr r p (num 1)) sols.

  (** circle_2d.py:166-175 intersection with a segment *)
  Definition Circle2D_intersection_seg (c : circle T) (s : seg T)
    : res (list (vec T)) :=
    sols <- Circle2D_intersection_line c (Segment2D_line s) ;;
    filter_sols (fun p => Ok (Segment2D_contains s p)) sols.

  (** circle_2d.py:177-190 intersection with a circle *)
  Definition Circle2D_intersection_circle (c o : circle T)
    : res (list (vec T)) :=
    let rel_x := vx (c_center o) - vx (c_center c) in
    let rel_y := vy (c_center o) - vy (c_center c) in
    let center_dist2 := rel_x * rel_x + rel_y * rel_y in
    center_dist <- nsqrt center_dist2 ;;
    if (center_dist <? nabs (c_radius c - c_radius o))
       || (c_radius c + c_radius o <? center_dist)
    then Ok []
    else
      Circle2D_intersection_line c
        (mkLine (num (-2) * rel_x) (num (-2) * rel_y)
                (Vector2D_r2 (c_center o) - c_radius o * c_radius o
                 - Vector2D_r2 (c_center c) + c_radius c * c_radius c)).

  (** circle_2d.py:100-193 dispatch; 195-237 intersection_with_line, _ray, _segment
      and _circle only call it *)
  Definition Circle2D_intersection (c : circle T) (other : val T)
    : res (list (vec T)) :=
    match other with
    | VLine l => Circle2D_intersection_line c l
    | VRay r => Circle2D_intersection_ray c r
    | VSeg s => Circle2D_intersection_seg c s
    | VCirc o => Circle2D_intersection_circle c o
    | _ => Raise GenericException
    end.

  (** circle_2d.py:239-257 circum_circle *)
  Definition Circle2D_circum_circle (p0 p1 p2 : vec T) : res (circle T) :=
    center <- tri_circumcenter p0 p1 p2 ;;
    if negb (v_valid center) then Ok Circle2D_default
    else r <- Vector2D_dist center p0 ;; Ok (Circle2D_init center r).

  (** circle_2d.py:259-291 circum_circle_contains *)
  Definition Circle2D_circum_circle_contains (p p0 p1 p2 : vec T) : res bool :=
    let p10x := vx p1 - vx p0 in
    let p10y := vy p1 - vy p0 in
    let p20x := vx p2 - vx p0 in
    let p20y := vy p2 - vy p0 in
    let avg1 := p10x * (vx p0 + vx p1) + p10y * (vy p0 + vy p1) in
    let avg2 := p20x * (vx p0 + vx p2) + p20y * (vy p0 + vy p2) in
    let area := num 2 * (p10x * (vy p2 - vy p1) - p10y * (vx p2 - vx p1)) in
    if nabs area <? nlit 1 10000000000 then Ok false
    else
      cx <- ndiv (p20y * avg1 - p10y * avg2) area ;;
      cy <- ndiv (p10x * avg2 - p20x * avg1) area ;;
      let center := V cx cy in
      d <- Vector2D_dist2 center p ;;
      d0 <- Vector2D_dist2 center p0 ;;
      Ok (d <? d0 - EPSILON * EPSILON).
End Circle.
