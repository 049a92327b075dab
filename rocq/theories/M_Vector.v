(** * M_Vector: model of src/pyrusgeom/vector_2d.py *)
From Coq Require Import ZArith List Bool String.
From Verif Require Import Base Types M_Angle.
Import ListNotations.
Set Implicit Arguments.
Local Open Scope py_scope.
Local Open Scope num_scope.

Section Vector.
  Context {T : Type} `{Num T}.

  (** vector_2d.py:49-54, Vector2D(x, y) for two numbers *)
  Definition V (x y : T) : vec T := mkVec x y true.

  (** vector_2d.py:173-183 set_polar *)
  Definition Vector2D_set_polar (v : vec T) (radius : T) (ang : ang_arg T)
    : res (vec T) :=
    a <- to_angle ang ;;
    c <- AngleDeg_cos a ;;
    s <- AngleDeg_sin a ;;
    Ok (mkVec (radius * c) (radius * s) (v_valid v)).

  (** vector_2d.py:49-57 copy construction Vector2D(v) *)
  Definition Vector2D_of_vec (v : vec T) : vec T := V (vx v) (vy v).

  (** vector_2d.py:21-72 the constructor.  In the x=, y= keyword form any
      value is stored; we restrict to numbers and answer TypeError for
      non-numbers (Python would fail at the first use instead). *)
  Definition Vector2D_init (args : list (val T)) (kw : list (string * val T))
    : res (vec T) :=
    match kw with
    | [] =>
        match args with
        | [VNum x; VNum y] => Ok (V x y)
        | [VVec v] => Ok (Vector2D_of_vec v)
        | [] => Ok (V (num 0) (num 0))
        | _ => Raise GenericException
        end
    | [_; _] =>
        match kw_get "x" kw, kw_get "y" kw with
        | Some (VNum x), Some (VNum y) => Ok (V x y)
        | Some _, Some _ => Raise TypeError
        | _, _ =>
            match kw_get "r" kw, kw_get "a" kw with
            | Some (VNum r), Some (VNum a) =>
                Vector2D_set_polar (V (num 0) (num 0)) r (AN a)
            | Some (VNum r), Some (VAng a) =>
                Vector2D_set_polar (V (num 0) (num 0)) r (AA a)
            | Some _, Some _ => Raise TypeError
            | _, _ => Raise GenericException
            end
        end
    | _ => Raise GenericException
    end.

  (** vector_2d.py:107-121 copy, get_copy *)
  Definition Vector2D_copy (v : vec T) : vec T := V (vx v) (vy v).
  (** vector_2d.py:123-135 assign; 153-161 set_x_y *)
  Definition Vector2D_assign (v : vec T) (x y : T) : vec T :=
    mkVec x y (v_valid v).
  (** vector_2d.py:137-151 set_x, set_y *)
  Definition Vector2D_set_x (v : vec T) (x : T) : vec T :=
    mkVec x (vy v) (v_valid v).
  (** vector_2d.py:145-151 set_y *)
  Definition Vector2D_set_y (v : vec T) (y : T) : vec T :=
    mkVec (vx v) y (v_valid v).
  (** vector_2d.py:163-171 set_vector *)
  Definition Vector2D_set_vector (v o : vec T) : vec T :=
    mkVec (vx o) (vy o) (v_valid o).
  (** vector_2d.py:185-205 validate, invalidate, is_valid *)
  Definition Vector2D_validate (v : vec T) : vec T := mkVec (vx v) (vy v) true.
  (** vector_2d.py:192-197 invalidate *)
  Definition Vector2D_invalidate (v : vec T) : vec T := mkVec (vx v) (vy v) false.
  (** vector_2d.py:199-205 is_valid *)
  Definition Vector2D_is_valid (v : vec T) : bool := v_valid v.
  (** vector_2d.py:207-240 r2, r, length, length2 *)
  Definition Vector2D_r2 (v : vec T) : T := vx v * vx v + vy v * vy v.
  (** vector_2d.py:214-220 r *)
  Definition Vector2D_r (v : vec T) : res T := nsqrt (Vector2D_r2 v).
  (** vector_2d.py:242-258 th, dir *)
  Definition Vector2D_th (v : vec T) : res (angle T) :=
    AngleDeg_of_num (atan2_deg (vy v) (vx v)).
  (** vector_2d.py:260-282 abs, abs_x, abs_y *)
  Definition Vector2D_abs (v : vec T) : vec T := V (nabs (vx v)) (nabs (vy v)).
  (** vector_2d.py:268-274 abs_x *)
  Definition Vector2D_abs_x (v : vec T) : T := nabs (vx v).
  (** vector_2d.py:276-282 abs_y *)
  Definition Vector2D_abs_y (v : vec T) : T := nabs (vy v).
  (** vector_2d.py:284-306 add: the new state of [self]; the Python call
      itself returns None (which centroid relies on, see M_Triangle.v). *)
  Definition Vector2D_add_inplace (v o : vec T) : vec T :=
    mkVec (vx v + vx o) (vy v + vy o) (v_valid v).
  (** vector_2d.py:284-306 add *)
  Definition Vector2D_add_xy (v : vec T) (x y : T) : vec T :=
    mkVec (vx v + x) (vy v + y) (v_valid v).
  (** vector_2d.py:308-322 add_x, add_y *)
  Definition Vector2D_add_x (v : vec T) (x : T) : vec T :=
    mkVec (vx v + x) (vy v) (v_valid v).
  (** vector_2d.py:316-322 add_y *)
  Definition Vector2D_add_y (v : vec T) (y : T) : vec T :=
    mkVec (vx v) (vy v + y) (v_valid v).
  (** vector_2d.py:324-362 sub, sub_x, sub_y *)
  Definition Vector2D_sub_inplace (v o : vec T) : vec T :=
    mkVec (vx v - vx o) (vy v - vy o) (v_valid v).
  (** vector_2d.py:324-346 sub *)
  Definition Vector2D_sub_xy (v : vec T) (x y : T) : vec T :=
    mkVec (vx v - x) (vy v - y) (v_valid v).
  (** vector_2d.py:348-354 sub_x *)
  Definition Vector2D_sub_x (v : vec T) (x : T) : vec T :=
    mkVec (vx v - x) (vy v) (v_valid v).
  (** vector_2d.py:356-362 sub_y *)
  Definition Vector2D_sub_y (v : vec T) (y : T) : vec T :=
    mkVec (vx v) (vy v - y) (v_valid v).
  (** vector_2d.py:364-371 scale *)
  Definition Vector2D_scale (v : vec T) (k : T) : vec T :=
    mkVec (vx v * k) (vy v * k) (v_valid v).
  (** vector_2d.py:373-382 dist2 *)
  Definition Vector2D_dist2 (v o : vec T) : res T :=
    dx2 <- npowi (vx v - vx o) 2 ;;
    dy2 <- npowi (vy v - vy o) 2 ;;
    Ok (dx2 + dy2).
  (** vector_2d.py:384-393 dist *)
  Definition Vector2D_dist (v o : vec T) : res T :=
    d2 <- Vector2D_dist2 v o ;; nsqrt d2.
  (** vector_2d.py:395-403 reverse *)
  Definition Vector2D_reverse (v : vec T) : vec T :=
    mkVec (vx v * num (-1)) (vy v * num (-1)) (v_valid v).
  (** vector_2d.py:405-411 reverse_vector *)
  Definition Vector2D_reverse_vector (v : vec T) : vec T :=
    Vector2D_reverse (V (vx v) (vy v)).
  (** vector_2d.py:413-421 set_length *)
  Definition Vector2D_set_length (v : vec T) (l : T) : res (vec T) :=
    mag <- Vector2D_r v ;;
    if mag >? EPSILON then k <- ndiv l mag ;; Ok (Vector2D_scale v k)
    else Ok v.
  (** vector_2d.py:423-434 set_length_vector *)
  Definition Vector2D_set_length_vector (v : vec T) (l : T) : res (vec T) :=
    Vector2D_set_length (V (vx v) (vy v)) l.
  (** vector_2d.py:436-441 normalize; 443-450 normalize_vector *)
  Definition Vector2D_normalize (v : vec T) : res (vec T) :=
    Vector2D_set_length v (num 1).
  (** vector_2d.py:443-450 normalize_vector *)
  Definition Vector2D_normalize_vector (v : vec T) : res (vec T) :=
    Vector2D_set_length (V (vx v) (vy v)) (num 1).
  (** vector_2d.py:452-463 inner_product; 626-636 inner_product_static *)
  Definition Vector2D_inner_product (v p : vec T) : T :=
    vx v * vx p + vy v * vy p.
  (** vector_2d.py:465-480 outer_product; 639-649 outer_product_static *)
  Definition Vector2D_outer_product (v p : vec T) : T :=
    vx v * vy p - vy v * vx p.
  (** vector_2d.py:482-491 equals *)
  Definition Vector2D_equals (v o : vec T) : bool :=
    (vx v =? vx o) && (vy v =? vy o).
  (** vector_2d.py:493-502 equals_weakly *)
  Definition Vector2D_equals_weakly (v o : vec T) : bool :=
    (nabs (vx v - vx o) <? EPSILON) && (nabs (vy v - vy o) <? EPSILON).
  (** vector_2d.py:504-518 rotate *)
  Definition Vector2D_rotate (v : vec T) (deg : ang_arg T) : res (vec T) :=
    d <- ang_num deg ;;
    c <- ncos (d * DEG2RAD) ;;
    s <- nsin (d * DEG2RAD) ;;
    Ok (Vector2D_assign v (vx v * c - vy v * s) (vx v * s + vy v * c)).
  (** vector_2d.py:520-529 rotated_vector *)
  Definition Vector2D_rotated_vector (v : vec T) (deg : ang_arg T) : res (vec T) :=
    Vector2D_rotate (V (vx v) (vy v)) deg.
  (** vector_2d.py:531-541 set_dir *)
  Definition Vector2D_set_dir (v : vec T) (dir : ang_arg T) : res (vec T) :=
    a <- to_angle dir ;;
    radius <- Vector2D_r v ;;
    c <- AngleDeg_cos a ;;
    s <- AngleDeg_sin a ;;
    Ok (mkVec (radius * c) (radius * s) (v_valid v)).
  (** vector_2d.py:548-549 __eq__ on two vectors *)
  Definition Vector2D_eq (v o : vec T) : bool :=
    (vx v =? vx o) && (vy v =? vy o).
  (** vector_2d.py:551-561 __add__, __sub__, __truediv__, __mul__ *)
  Definition Vector2D_add (v o : vec T) : vec T := V (vx v + vx o) (vy v + vy o).
  (** vector_2d.py:554-555 __sub__ *)
  Definition Vector2D_sub (v o : vec T) : vec T := V (vx v - vx o) (vy v - vy o).
  (** vector_2d.py:557-558 __truediv__ *)
  Definition Vector2D_truediv (v : vec T) (k : T) : res (vec T) :=
    x <- ndiv (vx v) k ;; y <- ndiv (vy v) k ;; Ok (V x y).
  (** vector_2d.py:560-561 __mul__ *)
  Definition Vector2D_mul (v : vec T) (k : T) : vec T := V (vx v * k) (vy v * k).
  (** vector_2d.py:563-581 __iadd__, __isub__, __imul__, __idiv__ *)
  Definition Vector2D_iadd (v o : vec T) : vec T :=
    mkVec (vx v + vx o) (vy v + vy o) (v_valid v).
  (** vector_2d.py:568-571 __isub__ *)
  Definition Vector2D_isub (v o : vec T) : vec T :=
    mkVec (vx v - vx o) (vy v - vy o) (v_valid v).
  (** vector_2d.py:573-576 __imul__ *)
  Definition Vector2D_imul (v : vec T) (k : T) : vec T :=
    mkVec (vx v * k) (vy v * k) (v_valid v).
  (** vector_2d.py:578-581 __idiv__ *)
  Definition Vector2D_idiv (v : vec T) (k : T) : res (vec T) :=
    x <- ndiv (vx v) k ;; y <- ndiv (vy v) k ;; Ok (mkVec x y (v_valid v)).
  (** vector_2d.py:586-595 invalid *)
  Definition Vector2D_invalid : vec T := mkVec (num 0) (num 0) false.
  (** vector_2d.py:597-610 from_polar; 612-623 polar2vector (static) *)
  Definition Vector2D_from_polar (mag : T) (theta : ang_arg T) : res (vec T) :=
    a <- to_angle theta ;;
    c <- AngleDeg_cos a ;;
    s <- AngleDeg_sin a ;;
    Ok (V (mag * c) (mag * s)).
End Vector.
