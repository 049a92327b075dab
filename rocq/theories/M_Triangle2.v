(** * M_Triangle2: Triangle2D.intersection (triangle_2d.py:257-318) *)
From Coq Require Import ZArith List Bool String.
From Verif Require Import Base Types M_Angle M_Vector M_Line M_Ray M_Triangle M_Segment.
Import ListNotations.
Set Implicit Arguments.
Local Open Scope py_scope.
Local Open Scope num_scope.

Section TriInter.
  Context {T : Type} `{Num T}.

  (** The Python result is the list [n_sol, t_sol[0], t_sol[1]]. *)
  (** triangle_2d.py:257-318 intersection *)
  Record tri_sol := mkTriSol { ts_n : nat; ts_1 : vec T; ts_2 : vec T }.

  (** State of the loop-free code: counter and the two-element list t_sol. *)
  (** triangle_2d.py:257-318 intersection *)
  Definition tsol_state := (nat * (vec T * vec T))%type.

  (** [t_sol[n_sol] = v] on the two-element list: index 2 raises IndexError *)
  (** triangle_2d.py:257-318 intersection *)
  Definition tsol_store (st : tsol_state) (v : vec T) : res tsol_state :=
    let '(n, (s0, s1)) := st in
    match n with
    | 0%nat => Ok (n, (v, s1))
    | 1%nat => Ok (n, (s0, v))
    | _ => Raise IndexError
    end.

  (** triangle_2d.py:277-279 (and 281-283, 285-287): intersect one side, store
      it, count it when valid *)
  Definition tsol_side (st : tsol_state) (p q : vec T) (l : line T)
    : res tsol_state :=
    v <- Segment2D_intersection_line (Segment2D_of_points p q) l ;;
    '(n, (s0, s1)) <- tsol_store st v ;;
    let cur := match n with 0%nat => s0 | _ => s1 end in
    if Nat.ltb n 2 && v_valid cur then Ok (S n, (s0, s1)) else Ok (n, (s0, s1)).

  (** triangle_2d.py:273-294 intersection with a line *)
  Definition Triangle2D_intersection_line (t : triangle T) (l : line T)
    : res tri_sol :=
    let v0 := V (num 0) (num 0) in
    st1 <- tsol_side (0%nat, (v0, v0)) (t_a t) (t_b t) l ;;
    st2 <- tsol_side st1 (t_b t) (t_c t) l ;;
    '(n, (s0, s1)) <- tsol_side st2 (t_c t) (t_a t) l ;;
    let n' := if Nat.eqb n 2
                 && (nabs (vx s0 - vx s1) <? EPSILON)
                 && (nabs (vy s0 - vy s1) <? EPSILON)
              then 1%nat else n in
    Ok (mkTriSol n' s0 s1).

  (** triangle_2d.py:295-305 intersection with a ray (checks n_sol[1] twice) *)
  Definition Triangle2D_intersection_ray (t : triangle T) (r : ray T)
    : res tri_sol :=
    rl <- Ray2D_line r ;;
    sol <- Triangle2D_intersection_line t rl ;;
    sol1 <- (if Nat.ltb 1 (ts_n sol) then
               ok <- Ray2D_in_right_dir_thr r (ts_1 sol) (num 1) ;;
               Ok (if negb ok then mkTriSol (ts_n sol - 1) (ts_1 sol) (ts_2 sol)
                   else sol)
             else Ok sol) ;;
    if Nat.ltb 0 (ts_n sol1) then
      ok <- Ray2D_in_right_dir_thr r (ts_1 sol1) (num 1) ;;
      Ok (if negb ok then mkTriSol (ts_n sol1 - 1) (ts_2 sol1) (ts_2 sol1)
          else sol1)
    else Ok sol1.

  (** triangle_2d.py:257-318 dispatch.  [Segment2D] is assigned by an import
      statement inside the first branch, hence it is a local name of the
      function; evaluating [isinstance(other, Segment2D)] at line 307 with
      that branch not taken raises UnboundLocalError, for every argument that
      is neither a line nor a ray. *)
  Definition Triangle2D_intersection (t : triangle T) (other : val T)
    : res tri_sol :=
    match other with
    | VLine l => Triangle2D_intersection_line t l
    | VRay r => Triangle2D_intersection_ray t r
    | _ => Raise UnboundLocalError
    end.
End TriInter.
Arguments tri_sol T : clear implicits.
