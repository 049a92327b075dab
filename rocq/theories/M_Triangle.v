(** * M_Triangle: model of src/pyrusgeom/triangle_2d.py, except [intersection]
    (which needs segments: see M_Triangle2.v) *)
From Coq Require Import ZArith List Bool String.
From Verif Require Import Base Types M_Angle M_Vector M_Line M_Ray.
Import ListNotations.
Set Implicit Arguments.
Local Open Scope py_scope.
Local Open Scope num_scope.

Section Triangle.
  Context {T : Type} `{Num T}.

  (** triangle_2d.py:53-57 Triangle2D(a, b, c) *)
  Definition Triangle2D_of_points (a b c : vec T) : triangle T :=
    mkTri (Vector2D_of_vec a) (Vector2D_of_vec b) (Vector2D_of_vec c).

  (** triangle_2d.py:33-64 the constructor; 66-99 assign computes the same *)
  Definition Triangle2D_init (args : list (val T)) : res (triangle T) :=
    match args with
    | [VVec a; VVec b; VVec c] => Ok (Triangle2D_of_points a b c)
    | [_; _; _] => Raise GenericException
    | [VSeg s; VVec c] =>
        Ok (Triangle2D_of_points (s_origin s) (s_terminal s) c)
    | [VSeg s; _] => Raise GenericException
    | [_; _] => Raise AttributeError
    | _ => Raise GenericException
    end.

  (** triangle_2d.py:101-108 is_valid; [!=] is the negation of __eq__ *)
  Definition Triangle2D_is_valid (t : triangle T) : bool :=
    v_valid (t_a t) && v_valid (t_b t) && v_valid (t_c t)
    && negb (Vector2D_eq (t_a t) (t_b t))
    && negb (Vector2D_eq (t_b t) (t_c t))
    && negb (Vector2D_eq (t_a t) (t_a t)).

  (** triangle_2d.py:322-339 double_signed_area_st *)
  Definition double_signed_area_st (a b c : vec T) : T :=
    (vx a - vx c) * (vy b - vy c) + (vx b - vx c) * (vy c - vy a).
  (** triangle_2d.py:341-357 signed_area_st *)
  Definition signed_area_st (a b c : vec T) : T :=
    double_signed_area_st a b c * nlit 1 2.
  (** triangle_2d.py:359-371 tri_ccw *)
  Definition tri_ccw (a b c : vec T) : bool :=
    double_signed_area_st a b c >? num 0.

  (** triangle_2d.py:158-164 area *)
  Definition Triangle2D_area (t : triangle T) : T :=
    nabs (Vector2D_outer_product (Vector2D_sub (t_b t) (t_a t))
                                 (Vector2D_sub (t_c t) (t_a t))) * nlit 1 2.
  (** triangle_2d.py:166-200 signed_area, double_signed_area, ccw *)
  Definition Triangle2D_signed_area (t : triangle T) : T :=
    signed_area_st (t_a t) (t_b t) (t_c t).
  (** triangle_2d.py:180-192 double_signed_area *)
  Definition Triangle2D_double_signed_area (t : triangle T) : T :=
    double_signed_area_st (t_a t) (t_b t) (t_c t).
  (** triangle_2d.py:194-200 ccw *)
  Definition Triangle2D_ccw (t : triangle T) : bool :=
    tri_ccw (t_a t) (t_b t) (t_c t).

  (** triangle_2d.py:472-497 tri_contains *)
  Definition tri_contains (a b c p : vec T) : bool :=
    let rel1 := Vector2D_of_vec (Vector2D_sub a p) in
    let rel2 := Vector2D_of_vec (Vector2D_sub b p) in
    let rel3 := Vector2D_of_vec (Vector2D_sub c p) in
    let outer1 := Vector2D_outer_product rel1 rel2 in
    let outer2 := Vector2D_outer_product rel2 rel3 in
    let outer3 := Vector2D_outer_product rel3 rel1 in
    ((outer1 >=? num 0) && (outer2 >=? num 0) && (outer3 >=? num 0))
    || ((outer1 <=? num 0) && (outer2 <=? num 0) && (outer3 <=? num 0)).
  (** triangle_2d.py:202-223 contains (same body) *)
  Definition Triangle2D_contains (t : triangle T) (p : vec T) : bool :=
    tri_contains (t_a t) (t_b t) (t_c t) p.

  (** triangle_2d.py:373-387 tri_centroid.  [Vector2D(v_a).add(v_b)] evaluates
      to None (vector_2d.py:284-306 has no return), so the next attribute
      access [.add] on None raises AttributeError. *)
  Definition Vector2D_add_result (v o : vec T) : val T := VNone.
  (** triangle_2d.py:373-387 tri_centroid *)
  Definition tri_centroid (a b c : vec T) : res (vec T) :=
    match Vector2D_add_result (Vector2D_of_vec a) b with
    | VVec v1 =>
        match Vector2D_add_result v1 c with
        | VVec v2 => Vector2D_truediv v2 (num 3)
        | _ => Raise TypeError
        end
    | _ => Raise AttributeError
    end.
  (** triangle_2d.py:225-231 centroid *)
  Definition Triangle2D_centroid (t : triangle T) : res (vec T) :=
    tri_centroid (t_a t) (t_b t) (t_c t).

  (** triangle_2d.py:389-409 tri_incenter *)
  Definition tri_incenter (a b c : vec T) : res (vec T) :=
    th_ab <- Vector2D_th (Vector2D_sub b a) ;;
    th_ac <- Vector2D_th (Vector2D_sub c a) ;;
    ba <- AngleDeg_bisect (AA th_ab) (AA th_ac) ;;
    bisect_a <- Line2D_of_angle a (AA ba) ;;
    th_ba <- Vector2D_th (Vector2D_sub a b) ;;
    th_bc <- Vector2D_th (Vector2D_sub c b) ;;
    bb <- AngleDeg_bisect (AA th_ba) (AA th_bc) ;;
    bisect_b <- Line2D_of_angle b (AA bb) ;;
    Line2D_intersection bisect_a bisect_b.
  (** triangle_2d.py:233-239 incenter *)
  Definition Triangle2D_incenter (t : triangle T) : res (vec T) :=
    tri_incenter (t_a t) (t_b t) (t_c t).

  (** triangle_2d.py:411-452 tri_circumcenter.  Note that a valid first
      intersection is not returned: the closed formula is used instead. *)
  Definition tri_circumcenter_formula (a b c : vec T) : res (vec T) :=
    let a_b := Vector2D_sub b a in
    let c_a := Vector2D_sub c a in
    let tmp := Vector2D_outer_product a_b c_a in
    if nabs tmp <? nlit 1 10000000000 then Ok Vector2D_invalid
    else
      inv <- ndiv (nlit 1 2) tmp ;;
      let ab_len2 := Vector2D_r2 a_b in
      let ca_len2 := Vector2D_r2 c_a in
      let xcc := inv * (ab_len2 * vy c_a - ca_len2 * vy a_b) in
      let ycc := inv * (vx a_b * ca_len2 - vx c_a * ab_len2) in
      Ok (V (vx a + xcc) (vy a + ycc)).
  (** triangle_2d.py:411-452 tri_circumcenter *)
  Definition tri_circumcenter (a b c : vec T) : res (vec T) :=
    let p_ab := Line2D_perpendicular_bisector a b in
    let p_bc := Line2D_perpendicular_bisector b c in
    sol <- Line2D_intersection p_ab p_bc ;;
    if negb (v_valid sol) then
      let p_ca := Line2D_perpendicular_bisector c a in
      sol2 <- Line2D_intersection p_ab p_ca ;;
      if v_valid sol2 then Ok sol2
      else
        sol3 <- Line2D_intersection p_bc p_ca ;;
        if v_valid sol3 then Ok sol3
        else tri_circumcenter_formula a b c
    else tri_circumcenter_formula a b c.
  (** triangle_2d.py:241-247 circumcenter *)
  Definition Triangle2D_circumcenter (t : triangle T) : res (vec T) :=
    tri_circumcenter (t_a t) (t_b t) (t_c t).

  (** triangle_2d.py:454-470 tri_orthocenter *)
  Definition tri_orthocenter (a b c : vec T) : res (vec T) :=
    let perpend_a := Line2D_perpendicular (Line2D_of_points b c) a in
    let perpend_b := Line2D_perpendicular (Line2D_of_points c a) b in
    Line2D_intersection perpend_a perpend_b.
  (** triangle_2d.py:249-255 orthocenter *)
  Definition Triangle2D_orthocenter (t : triangle T) : res (vec T) :=
    tri_orthocenter (t_a t) (t_b t) (t_c t).
End Triangle.
