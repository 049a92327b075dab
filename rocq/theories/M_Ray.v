(** * M_Ray: model of src/pyrusgeom/ray_2d.py *)
From Coq Require Import ZArith List Bool String.
From Verif Require Import Base Types M_Angle M_Vector M_Line.
Import ListNotations.
Set Implicit Arguments.
Local Open Scope py_scope.
Local Open Scope num_scope.

Section Ray.
  Context {T : Type} `{Num T}.

  (** ray_2d.py:39-41 Ray2D(origin, point) *)
  Definition Ray2D_of_point (origin p : vec T) : res (ray T) :=
    d <- Vector2D_th (Vector2D_sub p origin) ;;
    Ok (mkRay (Vector2D_of_vec origin) d).

  (** ray_2d.py:42-44 Ray2D(origin, angle) *)
  Definition Ray2D_of_angle (origin : vec T) (d : ang_arg T) : res (ray T) :=
    a <- AngleDeg_of_arg d ;; Ok (mkRay (Vector2D_of_vec origin) a).

  (** ray_2d.py:23-47 the constructor *)
  Definition Ray2D_init (origin direction : val T) : res (ray T) :=
    match origin with
    | VVec o =>
        match direction with
        | VVec p => Ray2D_of_point o p
        | VAng a => Ray2D_of_angle o (AA a)
        | VNum x => Ray2D_of_angle o (AN x)
        | _ => Raise GenericException
        end
    | _ => Raise GenericException
    end.

  (** ray_2d.py:49-63 origin, dir *)
  Definition Ray2D_origin (r : ray T) : vec T := Vector2D_of_vec (ray_origin r).
  (** ray_2d.py:57-63 dir *)
  Definition Ray2D_dir (r : ray T) : res (angle T) := AngleDeg_of_angle (ray_dir r).

  (** ray_2d.py:81-87 copy *)
  Definition Ray2D_copy (r : ray T) : res (ray T) :=
    d <- Ray2D_dir r ;; Ray2D_of_angle (Ray2D_origin r) (AA d).

  (** ray_2d.py:89-95 line *)
  Definition Ray2D_line (r : ray T) : res (line T) :=
    Line2D_of_angle (ray_origin r) (AA (ray_dir r)).

  (** ray_2d.py:97-107 in_right_dir with an explicit threshold *)
  Definition Ray2D_in_right_dir_thr (r : ray T) (p : vec T) (thr : T) : res bool :=
    th <- Vector2D_th (Vector2D_sub p (ray_origin r)) ;;
    d <- AngleDeg_sub th (AA (ray_dir r)) ;;
    a <- AngleDeg_abs d ;;
    Ok (a <? thr).
  (** ray_2d.py:97 the default threshold is 10 degrees *)
  Definition Ray2D_in_right_dir (r : ray T) (p : vec T) : res bool :=
    Ray2D_in_right_dir_thr r p (num 10).

  (** ray_2d.py:130-138 intersection with a line *)
  Definition Ray2D_intersection_line (r : ray T) (l : line T) : res (vec T) :=
    rl <- Ray2D_line r ;;
    sol <- Line2D_intersection rl l ;;
    if negb (v_valid sol) then Ok Vector2D_invalid
    else
      ok <- Ray2D_in_right_dir r sol ;;
      if negb ok then Ok Vector2D_invalid else Ok sol.

  (** ray_2d.py:121-129 intersection with a ray *)
  Definition Ray2D_intersection_ray (r o : ray T) : res (vec T) :=
    rl <- Ray2D_line r ;;
    ol <- Ray2D_line o ;;
    sol <- Line2D_intersection rl ol ;;
    if negb (v_valid sol) then Ok Vector2D_invalid
    else
      ok1 <- Ray2D_in_right_dir r sol ;;
      if negb ok1 then Ok Vector2D_invalid
      else
        ok2 <- Ray2D_in_right_dir o sol ;;
        if negb ok2 then Ok Vector2D_invalid else Ok sol.

  (** ray_2d.py:109-140 intersection dispatch *)
  Definition Ray2D_intersection (r : ray T) (other : val T) : res (vec T) :=
    match other with
    | VRay o => Ray2D_intersection_ray r o
    | VLine l => Ray2D_intersection_line r l
    | _ => Raise GenericException
    end.

  (** ray_2d.py:142-151 __eq__; math.fabs calls AngleDeg.__float__ *)
  Definition Ray2D_eq (r o : ray T) : res bool :=
    d <- AngleDeg_sub (ray_dir r) (AA (ray_dir o)) ;;
    f <- AngleDeg_float d ;;
    Ok ((nabs f <? EPSILON) && Vector2D_eq (ray_origin r) (ray_origin o)).
End Ray.
