(** * M_Obj3: clipping a polygon, on objects with identity

    A vertex that stays is the same Vector2D object in the clipped polygon, a cut
    is a new one.  As in M_Obj.v the points are read before the loop (which
    changes none of them). *)
From Coq Require Import ZArith List Bool.
From Verif Require Import Base Types M_Vector M_Line M_Rect M_Polygon M_Heap M_Obj.
Import ListNotations.
Set Implicit Arguments.
Local Open Scope py_scope.
Local Open Scope num_scope.
Local Open Scope obj_scope.

Section Clip.
  Context {T : Type} `{Num T}.
  Local Notation MT A := (heap T -> res (A * heap T)).

  (** polygon_2d.py:435-462, the loop over the edges; an edge is a pair of (object, value) *)
  Fixpoint obj_clip_loop (in_region : vec T -> bool) (l : line T)
    (es : list ((ref * vec T) * (ref * vec T))) (acc : list ref) : MT (list ref) :=
    match es with
    | [] => ret acc
    | (p0, p1) :: es' =>
        if in_region (snd p0) then
          if in_region (snd p1) then obj_clip_loop in_region l es' (acc ++ [fst p1])
          else
            cut <-- lift (Line2D_intersection l (Line2D_of_points (snd p0) (snd p1))) ;;;
            if negb (v_valid cut) then ret acc
            else c <-- new (OVec cut) ;;; obj_clip_loop in_region l es' (acc ++ [c])
        else
          if in_region (snd p1) then
            cut <-- lift (Line2D_intersection l (Line2D_of_points (snd p0) (snd p1))) ;;;
            if negb (v_valid cut) then ret acc
            else c <-- new (OVec cut) ;;; obj_clip_loop in_region l es' (acc ++ [c; fst p1])
          else obj_clip_loop in_region l es' acc
    end.
  (** polygon_2d.py:419-462 get_line_clipped_polygon *)
  Definition obj_clip_line (in_region : vec T -> bool) (xs : list ref) (l : line T) : MT (list ref) :=
    vs <-- read_all xs ;;; obj_clip_loop in_region l (cyc_pairs (combine xs vs)) [].
  (** polygon_2d.py:381-417 get_rectangle_clipped_polygon of the polygon object
      [p] and the rectangle object [r] *)
  Definition obj_poly_clip (p r : ref) : MT ref :=
    k <-- get_poly p ;;; xs <-- get_list k ;;;
    match xs with
    | [] => obj_poly_new []
    | _ =>
        rv <-- rect_value r ;;;
        l1 <-- lift (Line2D_of_angle (V (Rect2D_right rv) (num 0)) (AN (num 90))) ;;;
        c1 <-- obj_clip_line (x_less_equal (Rect2D_right rv)) xs l1 ;;;
        l2 <-- lift (Line2D_of_angle (V (num 0) (Rect2D_top rv)) (AN (num 0))) ;;;
        c2 <-- obj_clip_line (y_less_equal (Rect2D_bottom rv)) c1 l2 ;;;
        l3 <-- lift (Line2D_of_angle (V (Rect2D_left rv) (num 0)) (AN (num 90))) ;;;
        c3 <-- obj_clip_line (x_more_equal (Rect2D_left rv)) c2 l3 ;;;
        l4 <-- lift (Line2D_of_angle (V (num 0) (Rect2D_top rv)) (AN (num 0))) ;;;
        c4 <-- obj_clip_line (y_more_equal (Rect2D_top rv)) c3 l4 ;;;
        t <-- new (OList c4) ;;; obj_poly_new_list t
    end.
End Clip.
