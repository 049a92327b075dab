(** * M_Sector: models of src/pyrusgeom/size_2d.py and sector_2d.py *)
From Coq Require Import ZArith List Bool String.
From Verif Require Import Base Types M_Angle M_Vector.
Import ListNotations.
Set Implicit Arguments.
Local Open Scope py_scope.
Local Open Scope num_scope.

Section Size.
  Context {T : Type} `{Num T}.
  (** size_2d.py:17-39 __init__, assign *)
  Definition Size2D_init (l w : T) : size T := mkSize (nabs l) (nabs w).
  (** size_2d.py:31-39 assign *)
  Definition Size2D_assign (s : size T) (l w : T) : size T := mkSize (nabs l) (nabs w).
  (** size_2d.py:41-55 set_length, set_width *)
  Definition Size2D_set_length (s : size T) (l : T) : size T :=
    mkSize (nabs l) (sz_width s).
  (** size_2d.py:49-55 set_width *)
  Definition Size2D_set_width (s : size T) (w : T) : size T :=
    mkSize (sz_length s) (nabs w).
  (** size_2d.py:73-79 diagonal *)
  Definition Size2D_diagonal (s : size T) : res T :=
    nsqrt (sz_length s * sz_length s + sz_width s * sz_width s).
  (** size_2d.py:81-87 is_valid *)
  Definition Size2D_is_valid (s : size T) : bool :=
    (sz_length s >? num 0) && (sz_width s >? num 0).
  (** size_2d.py:89-99 __eq__ *)
  Definition Size2D_eq (s o : size T) : bool :=
    (nabs (sz_length s - sz_length o) <? EPSILON)
    && (nabs (sz_width s - sz_width o) <? EPSILON).
End Size.

Section Sector.
  Context {T : Type} `{Num T}.

  (** sector_2d.py:31-51 __init__; 53-68 assign computes the same *)
  Definition Sector2D_init (center : vec T) (min_r max_r : T)
    (start end_ : ang_arg T) : res (sector T) :=
    s <- AngleDeg_of_arg start ;;
    e <- AngleDeg_of_arg end_ ;;
    Ok (mkSector (Vector2D_of_vec center) (nmin (num 0) min_r)
                 (nmax min_r max_r) s e).

  (** sector_2d.py:86-92 radius_min; 94-100 radius_max (returns _min_r) *)
  Definition Sector2D_radius_min (s : sector T) : T := sec_min_r s.
  (** sector_2d.py:94-100 radius_max *)
  Definition Sector2D_radius_max (s : sector T) : T := sec_min_r s.

  (** sector_2d.py:141-143 the angular extent *)
  Definition Sector2D_div (s : sector T) : res T :=
    d <- AngleDeg_sub (sec_end s) (AA (sec_start s)) ;;
    let div := AngleDeg_degree_ d in
    Ok (if div <? num 0 then div + num 360 else div).

  (** sector_2d.py:134-144 area *)
  Definition Sector2D_area (s : sector T) : res T :=
    let circle_area := sec_max_r s * sec_max_r s * nPI
                       - sec_min_r s * sec_min_r s * nPI in
    div <- Sector2D_div s ;;
    ndiv (circle_area * div) (num 360).

  (** sector_2d.py:146-158 contains *)
  Definition Sector2D_contains (s : sector T) (p : vec T) : res bool :=
    let rel := Vector2D_sub p (sec_center s) in
    let delta := Vector2D_r2 rel in
    if (sec_min_r s * sec_min_r s <=? delta) && (delta <=? sec_max_r s * sec_max_r s)
    then th <- Vector2D_th rel ;;
         AngleDeg_is_within th (AA (sec_start s)) (AA (sec_end s))
    else Ok false.

  (** sector_2d.py:160-180 get_circumference_min, get_circumference_max *)
  Definition Sector2D_circumference_min (s : sector T) : res T :=
    div <- Sector2D_div s ;;
    q <- ndiv div (num 360) ;;
    Ok ((num 2 * sec_min_r s * nPI) * q).
  (** sector_2d.py:171-180 get_circumference_max *)
  Definition Sector2D_circumference_max (s : sector T) : res T :=
    div <- Sector2D_div s ;;
    q <- ndiv div (num 360) ;;
    Ok ((num 2 * sec_max_r s * nPI) * q).

  (** sector_2d.py:182-194 __eq__ *)
  Definition Sector2D_eq (s o : sector T) : res bool :=
    if Vector2D_equals_weakly (sec_center s) (sec_center o) then
      e1 <- AngleDeg_eq (sec_start s) (AA (sec_start o)) ;;
      if e1 : bool then
        e2 <- AngleDeg_eq (sec_end s) (AA (sec_end o)) ;;
        if e2 : bool then
          Ok ((nabs (sec_min_r s - Sector2D_radius_min o) <? EPSILON)
              && (nabs (sec_max_r s - Sector2D_radius_max o) <? EPSILON))
        else Ok false
      else Ok false
    else Ok false.
End Sector.
