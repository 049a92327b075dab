(** * M_PolyF: polygon_2d.py's get_bounding_box, contains and dist on all doubles

    [M_Polygon] starts the running minima and maxima from "nothing yet" and so leaves NaN and infinite coordinates out
    of its scope.  Here they start from float('inf') and -float('inf') as in the code, at the double instance; the
    rest of the bodies is that of [M_Polygon]. *)
From Coq Require Import ZArith List Bool.
From Flocq Require Import Core BinarySingleNaN.
From Verif Require Import Base Types NumF M_Vector M_Triangle M_Segment M_Sector M_Rect M_Polygon.
Import ListNotations.
Local Open Scope py_scope.

Section PolyF.
  Variable L : libm.
  Local Existing Instance NumF.

  (** float("inf"), -float("inf"); polygon_2d.py:205-208, 310 *)
  Definition pinf : F := B754_infinity false.
  (** polygon_2d.py:206, 208 *)
  Definition minf : F := Bopp pinf.
  (** polygon_2d.py:213-214, 219-220, 318-319, 326-327 *)
  Definition less (m x : F) : F := if Bltb x m then x else m.
  (** polygon_2d.py:210-211, 216-217 *)
  Definition more (m x : F) : F := if Bltb m x then x else m.

  (** polygon_2d.py:197-221 get_bounding_box *)
  Definition bounding_box (vs : list (vec F)) : res (rect F) :=
    match vs with
    | [] => @Rect2D_init F (NumF L) []
    | _ =>
        let xs := map (@vx F) vs in let ys := map (@vy F) vs in
        let x_min := fold_left less xs pinf in let x_max := fold_left more xs minf in
        let y_min := fold_left less ys pinf in let y_max := fold_left more ys minf in
        Ok (@Rect2D_of_vec_size F (V x_min y_min)
              (@Size2D_init F (NumF L) (Bminus mode_NE x_max x_min) (Bminus mode_NE y_max y_min)))
    end.

  (** polygon_2d.py:223-281 contains *)
  Definition poly_contains (vs : list (vec F)) (p : vec F) (allow : bool) : res bool :=
    match vs with
    | [] => Ok false
    | [v] => Ok (allow && @Vector2D_eq F (NumF L) v p)
    | v0 :: _ =>
        bb <- bounding_box vs ;;
        if negb (@Rect2D_contains F (NumF L) bb p) then Ok false
        else
          hl <- @half_line F (NumF L) v0 p bb ;;
          Ok (@contains_loop F (NumF L) hl p allow (cyc_pairs vs) false)
    end.

  (** polygon_2d.py:311-319, 321-327 *)
  Fixpoint nearest (p : vec F) (es : list (vec F * vec F)) (m : F) : res F :=
    match es with
    | [] => Ok m
    | (a, b) :: es' =>
        d <- @Segment2D_dist_point F (NumF L) (Segment2D_of_points a b) p ;;
        nearest p es' (less m d)
    end.
  (** polygon_2d.py:291-329 dist *)
  Definition poly_dist (vs : list (vec F)) (p : vec F) (check_as_plane : bool) : res F :=
    match vs with
    | [v] => @Vector2D_r F (NumF L) (@Vector2D_sub F (NumF L) v p)
    | _ =>
        inside <- (if check_as_plane then poly_contains vs p true else Ok false) ;;
        if inside : bool then Ok (F_of_Z 0)
        else
          m <- nearest p (open_pairs vs) pinf ;;
          match vs with
          | v0 :: _ :: _ :: _ => nearest p [(last vs v0, v0)] m
          | _ => Ok m
          end
    end.
End PolyF.
