(** * M_Line: model of src/pyrusgeom/line_2d.py *)
From Coq Require Import ZArith List Bool String.
From Verif Require Import Base Types M_Angle M_Vector.
Import ListNotations.
Set Implicit Arguments.
Local Open Scope py_scope.
Local Open Scope num_scope.

Section Line.
  Context {T : Type} `{Num T}.

  (** line_2d.py:68-72 Line2D(p1, p2) *)
  Definition Line2D_of_points (p1 p2 : vec T) : line T :=
    let a := - (vy p2 - vy p1) in
    let b := vx p2 - vx p1 in
    let c := - a * vx p1 - b * vy p1 in
    mkLine a b c.

  (** line_2d.py:61-67 Line2D(p, angle) *)
  Definition Line2D_of_angle (p : vec T) (ang : ang_arg T) : res (line T) :=
    d <- to_angle ang ;;
    s <- AngleDeg_sin d ;;
    c <- AngleDeg_cos d ;;
    let a := - s in
    let b := c in
    Ok (mkLine a b (- a * vx p - b * vy p)).

  (** line_2d.py:20-104 the constructor.  In the keyword forms the code does
      not check types: p1, p2, p and l of a wrong type raise AttributeError, an
      [a] that AngleDeg refuses raises TypeError (before [p] is looked at);
      a, b and c of a wrong type are stored and fail at their first use, which
      we answer at once with TypeError; a Triangle2D given as l, which has
      methods a, b and c of its own, is treated the same way. *)
  Definition Line2D_init (args : list (val T)) (kw : list (string * val T))
    : res (line T) :=
    match kw with
    | [] =>
        match args with
        | [VNum a; VNum b; VNum c] => Ok (mkLine a b c)
        | [VVec p; VAng d] => Line2D_of_angle p (AA d)
        | [VVec p; VNum d] => Line2D_of_angle p (AN d)
        | [VVec p; VVec q] => Ok (Line2D_of_points p q)
        | [VLine l] => Ok (mkLine (l_a l) (l_b l) (l_c l))
        | _ => Raise GenericException
        end
    | _ =>
        if kw_in "a" kw && kw_in "b" kw && kw_in "c" kw then
          match kw_get "a" kw, kw_get "b" kw, kw_get "c" kw with
          | Some (VNum a), Some (VNum b), Some (VNum c) => Ok (mkLine a b c)
          | _, _, _ => Raise TypeError
          end
        else if kw_in "p1" kw && kw_in "p2" kw then
          match kw_get "p1" kw, kw_get "p2" kw with
          | Some (VVec p), Some (VVec q) => Ok (Line2D_of_points p q)
          | _, _ => Raise AttributeError
          end
        else if kw_in "p" kw && kw_in "a" kw then
          match kw_get "p" kw, kw_get "a" kw with
          | Some (VVec p), Some (VAng d) => Line2D_of_angle p (AA d)
          | Some (VVec p), Some (VNum d) => Line2D_of_angle p (AN d)
          | Some _, Some (VAng d) => _ <- Line2D_of_angle (V (num 0) (num 0)) (AA d) ;; Raise AttributeError
          | Some _, Some (VNum d) => _ <- Line2D_of_angle (V (num 0) (num 0)) (AN d) ;; Raise AttributeError
          | _, _ => Raise TypeError
          end
        else match kw_get "l" kw with
             | Some (VLine l) => Ok (mkLine (l_a l) (l_b l) (l_c l))
             | Some (VTri _) => Raise TypeError
             | Some _ => Raise AttributeError
             | None => Raise GenericException
             end
    end.

  (** line_2d.py:130-141 get_x *)
  Definition Line2D_get_x (l : line T) (y : T) : res T :=
    if nabs (l_a l) <? EPSILON then Ok ERROR_VALUE
    else ndiv (- (l_b l * y + l_c l)) (l_a l).

  (** line_2d.py:143-154 get_y *)
  Definition Line2D_get_y (l : line T) (x : T) : res T :=
    if nabs (l_b l) <? EPSILON then Ok ERROR_VALUE
    else ndiv (- (l_a l * x + l_c l)) (l_b l).

  (** line_2d.py:156-162 copy *)
  Definition Line2D_copy (l : line T) : line T := mkLine (l_a l) (l_b l) (l_c l).

  (** line_2d.py:164-175 dist *)
  Definition Line2D_dist (l : line T) (p : vec T) : res T :=
    s <- nsqrt (l_a l * l_a l + l_b l * l_b l) ;;
    q <- ndiv (l_a l * vx p + l_b l * vy p + l_c l) s ;;
    Ok (nabs q).

  (** line_2d.py:177-187 dist2 *)
  Definition Line2D_dist2 (l : line T) (p : vec T) : res T :=
    let delta := l_a l * vx p + l_b l * vy p + l_c l in
    ndiv (delta * delta) (l_a l * l_a l + l_b l * l_b l).

  (** line_2d.py:189-198 is_parallel *)
  Definition Line2D_is_parallel (l o : line T) : bool :=
    nabs (l_a l * l_b o - l_a o * l_b l) <? EPSILON.

  (** line_2d.py:234-250 line_intersection; 200-210 intersection *)
  Definition Line2D_intersection (l1 l2 : line T) : res (vec T) :=
    let tmp := l_a l1 * l_b l2 - l_b l1 * l_a l2 in
    if nabs tmp <? EPSILON then Ok Vector2D_invalid
    else
      x <- ndiv (l_b l1 * l_c l2 - l_b l2 * l_c l1) tmp ;;
      y <- ndiv (l_a l2 * l_c l1 - l_a l1 * l_c l2) tmp ;;
      Ok (V x y).

  (** line_2d.py:212-221 perpendicular *)
  Definition Line2D_perpendicular (l : line T) (p : vec T) : line T :=
    mkLine (l_b l) (- l_a l) (l_a l * vy p - l_b l * vx p).

  (** line_2d.py:223-232 projection *)
  Definition Line2D_projection (l : line T) (p : vec T) : res (vec T) :=
    Line2D_intersection l (Line2D_perpendicular l p).

  (** line_2d.py:252-264 angle_bisector *)
  Definition Line2D_angle_bisector (o : vec T) (left right : ang_arg T)
    : res (line T) :=
    b <- AngleDeg_bisect left right ;; Line2D_of_angle o (AA b).

  (** line_2d.py:266-284 perpendicular_bisector (the printed message is not
      modelled) *)
  Definition Line2D_perpendicular_bisector (p1 p2 : vec T) : line T :=
    if (nabs (vx p2 - vx p1) <? EPSILON) && (nabs (vy p2 - vy p1) <? EPSILON)
    then Line2D_of_points p1 (V (vx p1 + num 1) (vy p2))
    else
      let tmp := (vx p2 * vx p2 - vx p1 * vx p1
                  + vy p2 * vy p2 - vy p1 * vy p1) * nlit (-1) 2 in
      mkLine (vx p2 - vx p1) (vy p2 - vy p1) tmp.

  (** line_2d.py:286-295 __eq__ *)
  Definition Line2D_eq (l o : line T) : bool :=
    (nabs (l_a l * l_b o - l_a o * l_b l) <? EPSILON) && (l_c l =? l_c o).
End Line.
