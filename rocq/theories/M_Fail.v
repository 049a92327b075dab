(** * M_Fail: what a call that raises leaves behind

    In the other M_*.v files a call either returns the new state or raises, and
    the state after an exception is not said.  Here the methods that write
    fields are transcribed statement by statement over a state that survives the
    exception: a caller that catches it sees the fields as the statements before
    the failing one left them.  Expressions are evaluated by the functions of the
    other files. *)
From Coq Require Import ZArith List Bool String.
From Verif Require Import Base Types M_Angle M_Vector M_Line M_Ray M_Triangle
  M_Segment M_Circle M_Sector M_Rect M_Hull.
Import ListNotations.
Set Implicit Arguments.
Local Open Scope py_scope.
Local Open Scope num_scope.

(** Modelling device (no counterpart in /repo): a method body; its outcome and the object's fields afterwards *)
Definition body (S A : Type) := S -> res A * S.
(** Modelling device (no counterpart in /repo): `pass` / `return x` *)
Definition done {S A} (a : A) : body S A := fun s => (Ok a, s).
(** Modelling device (no counterpart in /repo): one statement after another; an exception keeps the fields written so far *)
Definition andthen {S A B} (m : body S A) (k : A -> body S B) : body S B :=
  fun s => match m s with (Ok a, s') => k a s' | (Raise e, s') => (Raise e, s') end.
(** Modelling device (no counterpart in /repo): evaluation of an expression, which may raise and writes nothing *)
Definition eval {S A} (x : res A) : body S A := fun s => (x, s).
(** Modelling device (no counterpart in /repo): an assignment to fields of self *)
Definition write {S} (f : S -> S) : body S unit := fun s => (Ok tt, f s).
(** Modelling device (no counterpart in /repo): reading fields of self *)
Definition self {S A} (f : S -> A) : body S A := fun s => (Ok (f s), s).
(** Modelling device (no counterpart in /repo): try: call; except Exception: pass *)
Definition caught {S A} (m : body S A) : S -> S := fun s => snd (m s).

Declare Scope body_scope.
Notation "x <~ m ;; k" := (andthen m (fun x => k))
  (at level 100, m at next level, right associativity) : body_scope.
Notation "m ;~ k" := (andthen m (fun _ => k))
  (at level 100, right associativity) : body_scope.
Local Open Scope body_scope.

Section Bodies.
  Context {T : Type} `{Num T}.

  (** ** AngleDeg *)

  (** angle_deg.py:78-93 normal, statement by statement *)
  Definition st_normal : body (angle T) unit :=
    d <~ self (@a_degree T) ;;
    (if (d <? num (-360)) || (num 360 <? d)
     then x <~ eval (nfmod d (num 360)) ;; write (fun _ => mkAngle x)
     else done tt) ;~
    d1 <~ self (@a_degree T) ;;
    (if d1 <? num (-180) then write (fun _ => mkAngle (d1 + num 360)) else done tt) ;~
    d2 <~ self (@a_degree T) ;;
    (if d2 >? num 180 then write (fun _ => mkAngle (d2 - num 360)) else done tt).

  (** the calls that change an AngleDeg: angle_deg.py:61-68 set_degree, 70-76
      set_angle, 78-93 normal, 142-148 reverse, 224-278 the in-place operators *)
  Inductive ang_call :=
  | ASetDegree (x : T) | ASetAngle (b : angle T) | ANormal | AReverse
  | AIadd (x : ang_arg T) | AIsub (x : ang_arg T) | AImul (k : T) | AIdiv (k : T).

  (** angle_deg.py:61-93, 142-148, 224-278, statement by statement *)
  Definition st_ang (c : ang_call) : body (angle T) unit :=
    match c with
    | ASetDegree x => write (fun _ => mkAngle x) ;~ st_normal
    | ASetAngle b => x <~ eval (AngleDeg_degree b) ;; write (fun _ => mkAngle x)
    | ANormal => st_normal
    | AReverse => write (@AngleDeg_reverse T _)
    | AIadd x => o <~ eval (ang_num x) ;; write (fun a => mkAngle (a_degree a + o)) ;~ st_normal
    | AIsub x => o <~ eval (ang_num x) ;; write (fun a => mkAngle (a_degree a - o)) ;~ st_normal
    | AImul k => write (fun a => mkAngle (a_degree a * k)) ;~ st_normal
    | AIdiv k => a <~ self (fun a => a) ;; q <~ eval (ndiv (a_degree a) k) ;;
                 write (fun _ => mkAngle q) ;~ st_normal
    end.
  (** the same calls on values: M_Angle.v, angle_deg.py:61-93, 142-148, 224-278 *)
  Definition ang_call_val (c : ang_call) (a : angle T) : res (angle T) :=
    match c with
    | ASetDegree x => AngleDeg_set_degree a x
    | ASetAngle b => AngleDeg_set_angle a b
    | ANormal => AngleDeg_of_num (a_degree a)
    | AReverse => Ok (AngleDeg_reverse a)
    | AIadd x => AngleDeg_iadd a x
    | AIsub x => AngleDeg_isub a x
    | AImul k => AngleDeg_imul a k
    | AIdiv k => AngleDeg_idiv a k
    end.

  (** ** Vector2D *)

  (** vector_2d.py:173-183 set_polar *)
  Definition st_set_polar (radius : T) (ang : ang_arg T) : body (vec T) unit :=
    a <~ eval (to_angle ang) ;;
    c <~ eval (AngleDeg_cos a) ;; write (fun v => mkVec (radius * c) (vy v) (v_valid v)) ;~
    s <~ eval (AngleDeg_sin a) ;; write (fun v => mkVec (vx v) (radius * s) (v_valid v)).
  (** vector_2d.py:531-541 set_dir *)
  Definition st_set_dir (dir : ang_arg T) : body (vec T) unit :=
    a <~ eval (to_angle dir) ;;
    v0 <~ self (fun v => v) ;;
    radius <~ eval (Vector2D_r v0) ;;
    c <~ eval (AngleDeg_cos a) ;; write (fun v => mkVec (radius * c) (vy v) (v_valid v)) ;~
    s <~ eval (AngleDeg_sin a) ;; write (fun v => mkVec (vx v) (radius * s) (v_valid v)).
  (** vector_2d.py:504-518 rotate *)
  Definition st_rotate (deg : ang_arg T) : body (vec T) unit :=
    d <~ eval (ang_num deg) ;;
    c <~ eval (ncos (d * DEG2RAD)) ;;
    s <~ eval (nsin (d * DEG2RAD)) ;;
    write (fun v => Vector2D_assign v (vx v * c - vy v * s) (vx v * s + vy v * c)).
  (** vector_2d.py:413-421 set_length, with 364-371 scale *)
  Definition st_set_length (l : T) : body (vec T) unit :=
    v0 <~ self (fun v => v) ;;
    mag <~ eval (Vector2D_r v0) ;;
    if mag >? EPSILON then
      k <~ eval (ndiv l mag) ;;
      write (fun v => mkVec (vx v * k) (vy v) (v_valid v)) ;~
      write (fun v => mkVec (vx v) (vy v * k) (v_valid v))
    else done tt.
  (** `number += value`: TypeError unless the value is a number (no class of the
      package defines __radd__ or __rsub__); vector_2d.py:303-304, 343-344 *)
  Definition num_arg (x : val T) : res T :=
    match x with VNum x => Ok x | _ => Raise TypeError end.
  (** vector_2d.py:284-306 add, on any arguments *)
  Definition st_add (args : list (val T)) : body (vec T) unit :=
    match args with
    | [VVec o] => write (fun v => mkVec (vx v + vx o) (vy v) (v_valid v)) ;~
                  write (fun v => mkVec (vx v) (vy v + vy o) (v_valid v))
    | [x; y] => x' <~ eval (num_arg x) ;; write (fun v => mkVec (vx v + x') (vy v) (v_valid v)) ;~
                y' <~ eval (num_arg y) ;; write (fun v => mkVec (vx v) (vy v + y') (v_valid v))
    | _ => eval (Raise GenericException)
    end.
  (** vector_2d.py:324-346 sub, on any arguments: with one argument that is not a
      vector the call .x() fails *)
  Definition st_sub (args : list (val T)) : body (vec T) unit :=
    match args with
    | [VVec o] => write (fun v => mkVec (vx v - vx o) (vy v) (v_valid v)) ;~
                  write (fun v => mkVec (vx v) (vy v - vy o) (v_valid v))
    | [_] => eval (Raise AttributeError)
    | [x; y] => x' <~ eval (num_arg x) ;; write (fun v => mkVec (vx v - x') (vy v) (v_valid v)) ;~
                y' <~ eval (num_arg y) ;; write (fun v => mkVec (vx v) (vy v - y') (v_valid v))
    | _ => eval (Raise GenericException)
    end.
  (** vector_2d.py:578-581 __idiv__ *)
  Definition st_idiv (k : T) : body (vec T) unit :=
    x <~ self (@vx T) ;; x' <~ eval (ndiv x k) ;; write (fun v => mkVec x' (vy v) (v_valid v)) ;~
    y <~ self (@vy T) ;; y' <~ eval (ndiv y k) ;; write (fun v => mkVec (vx v) y' (v_valid v)).

  (** ** Size2D *)

  (** size_2d.py:31-39 assign, on any arguments *)
  Definition st_size_assign (l w : val T) : body (size T) unit :=
    l' <~ eval (fabs_arg l) ;; write (fun s => mkSize l' (sz_width s)) ;~
    w' <~ eval (fabs_arg w) ;; write (fun s => mkSize (sz_length s) w').

  (** ** Segment2D *)

  (** an assignment to _origin / _terminal; segment_2d.py:105-118 *)
  Definition set_s_origin (p : vec T) : body (seg T) unit := write (fun s => mkSeg p (s_terminal s)).
  (** segment_2d.py:105-118 *)
  Definition set_s_terminal (p : vec T) : body (seg T) unit := write (fun s => mkSeg (s_origin s) p).
  (** segment_2d.py:112 args[0] + Vector2D.from_polar(args[1], args[2]); args[0]
      has passed Vector2D(args[0]) and is a vector.  As in M_Segment.v a length
      that is no number, or a direction that is neither angle nor number, is
      answered with TypeError. *)
  Definition polar_end (p l d : val T) : res (vec T) :=
    match p, l, d with
    | VVec p, VNum l, VAng d => v <- Vector2D_from_polar l (AA d) ;; Ok (Vector2D_add p v)
    | VVec p, VNum l, VNum d => v <- Vector2D_from_polar l (AN d) ;; Ok (Vector2D_add p v)
    | _, _, _ => Raise TypeError
    end.
  (** segment_2d.py:74-121 assign, statement by statement *)
  Definition st_seg_assign (args : list (val T)) : body (seg T) unit :=
    set_s_origin vec0 ;~ set_s_terminal vec0 ;~
    match args with
    | [p; q] => o <~ eval (Vector2D_init [p] []) ;; set_s_origin o ;~
                t <~ eval (Vector2D_init [q] []) ;; set_s_terminal t
    | [p; l; d] => o <~ eval (Vector2D_init [p] []) ;; set_s_origin o ;~
                   t <~ eval (polar_end p l d) ;; set_s_terminal t
    | [a; b; c; d] => o <~ eval (Vector2D_init [a; b] []) ;; set_s_origin o ;~
                      t <~ eval (Vector2D_init [c; d] []) ;; set_s_terminal t
    | [] => set_s_origin vec0 ;~ set_s_terminal vec0
    | _ => eval (Raise GenericException)
    end.

  (** ** Triangle2D *)

  (** args[0].origin_() and args[0].terminal_(): triangle_2d.py:93-94 *)
  Definition seg_arg (x : val T) : res (seg T) :=
    match x with VSeg s => Ok s | _ => Raise AttributeError end.
  (** triangle_2d.py:66-99 assign, statement by statement *)
  Definition st_tri_assign (args : list (val T)) : body (triangle T) unit :=
    match args with
    | [a; b; c] =>
        a' <~ eval (Vector2D_init [a] []) ;; write (fun t => mkTri a' (t_b t) (t_c t)) ;~
        b' <~ eval (Vector2D_init [b] []) ;; write (fun t => mkTri (t_a t) b' (t_c t)) ;~
        c' <~ eval (Vector2D_init [c] []) ;; write (fun t => mkTri (t_a t) (t_b t) c')
    | [s; c] =>
        s1 <~ eval (seg_arg s) ;; write (fun t => mkTri (Vector2D_of_vec (s_origin s1)) (t_b t) (t_c t)) ;~
        s2 <~ eval (seg_arg s) ;; write (fun t => mkTri (t_a t) (Vector2D_of_vec (s_terminal s2)) (t_c t)) ;~
        c' <~ eval (Vector2D_init [c] []) ;; write (fun t => mkTri (t_a t) (t_b t) c')
    | _ => eval (Raise GenericException)
    end.

  (** ** Rect2D *)

  (** the argument lists of rect_2d.py:111-174 assign whose fields the model can
      hold: in the four-argument form line 145 stores args[0] and args[1] without
      a check, so these are numbers here, and line 167 stores args[1] without a
      check, so it is a Size2D here *)
  Inductive rect_args :=
  | RA4 (x y : T) (l w : val T) | RA3 (tl l w : val T) | RA2corners (tl : val T) (br : vec T)
  | RA2size (tl : val T) (s : size T) | RA1 (x : val T) | RAnone | RAmany.
  (** a call on self._size; rect_2d.py:146, 149, 494 *)
  Definition on_size {A} (m : body (size T) A) : body (rect T) A :=
    fun r => let '(o, s) := m (r_size r) in (o, mkRect (r_top_left r) s (r_is_valid r)).
  (** an assignment to self._top_left or a call of its assign; rect_2d.py:145-169 *)
  Definition set_top_left_field (f : vec T -> vec T) : body (rect T) unit :=
    write (fun r => mkRect (f (r_top_left r)) (r_size r) (r_is_valid r)).
  (** rect_2d.py:111-174 assign, statement by statement *)
  Definition st_rect_assign (args : rect_args) : body (rect T) unit :=
    match args with
    | RA4 x y l w =>
        set_top_left_field (fun v => Vector2D_assign v x y) ;~
        on_size (st_size_assign (VNum x) w)
    | RA3 tl l w =>
        p <~ eval (Vector2D_init [tl] []) ;; set_top_left_field (fun _ => p) ;~
        on_size (st_size_assign l w)
    | RA2corners tl br =>
        p <~ eval (Vector2D_init [tl] []) ;;
        let '(p', s) := two_corner_fields p br in
        set_top_left_field (fun _ => p') ;~
        on_size (write (fun _ => s))
    | RA2size tl s =>
        p <~ eval (Vector2D_init [tl] []) ;; set_top_left_field (fun _ => p) ;~
        on_size (write (fun _ => s))
    | RA1 (VRect o) =>
        set_top_left_field (fun _ => Rect2D_top_left o) ;~
        on_size (write (fun _ => Rect2D_size o))
    | _ => eval (Raise GenericException)
    end.
  (** rect_2d.py:478-498 set_size, on any arguments *)
  Definition st_rect_set_size (args : list (val T)) : body (rect T) unit :=
    match args with
    | [l; w] => on_size (st_size_assign l w)
    | [VSize s] => on_size (write (fun _ => Size2D_init (sz_length s) (sz_width s)))
    | _ => eval (Raise GenericException)
    end.

  (** ** Circle2D and Sector2D *)

  (** circle_2d.py:44-55 assign, for a numeric radius *)
  Definition st_circle_assign (center : val T) (radius : T) : body (circle T) unit :=
    p <~ eval (Vector2D_init [center] []) ;; write (fun c => mkCircle p (c_radius c)) ;~
    write (fun c => mkCircle (c_center c) radius) ;~
    if radius <? num 0 then write (fun c => mkCircle (c_center c) (num 0)) else done tt.
  (** sector_2d.py:53-68 assign, for numeric radii *)
  Definition st_sector_assign (center : val T) (min_r max_r : T) (start end_ : ang_arg T)
    : body (sector T) unit :=
    p <~ eval (Vector2D_init [center] []) ;;
    write (fun s => mkSector p (sec_min_r s) (sec_max_r s) (sec_start s) (sec_end s)) ;~
    write (fun s => mkSector (sec_center s) (nmin (num 0) min_r) (sec_max_r s) (sec_start s) (sec_end s)) ;~
    write (fun s => mkSector (sec_center s) (sec_min_r s) (nmax min_r max_r) (sec_start s) (sec_end s)) ;~
    a <~ eval (AngleDeg_of_arg start) ;;
    write (fun s => mkSector (sec_center s) (sec_min_r s) (sec_max_r s) a (sec_end s)) ;~
    b <~ eval (AngleDeg_of_arg end_) ;;
    write (fun s => mkSector (sec_center s) (sec_min_r s) (sec_max_r s) (sec_start s) b).
End Bodies.

Section HullBodies.
  Context {T : Type} `{Num T}.

  (** an assignment to elements of self._input_points; convex_hull.py:386-387, 391, 430-434.  Where the two
      lists are one object (376) this is also the vertex list. *)
  Definition put_input (l : list (vec T)) : body (hull T) unit :=
    write (fun h => mkHull l (h_vertices h) (h_edges h) (h_alias h)).
  (** self._vertices.append(p); convex_hull.py:282-283, 321, 352, where the lists are two objects *)
  Definition push_vertex (p : vec T) : body (hull T) unit :=
    write (fun h => mkHull (h_input h) (h_vertices h ++ [p]) (h_edges h) (h_alias h)).
  (** self._edges.append(s); convex_hull.py:286-291, 358-359, 395-397 *)
  Definition push_edge (s : seg T) : body (hull T) unit :=
    write (fun h => mkHull (h_input h) (h_vertices h) (h_edges h ++ [s]) (h_alias h)).

  (** convex_hull.py:356-359, 393-396: the edges, one by one; [verts] is the vertex list, [lst] its last element *)
  Fixpoint st_edges (verts : list (vec T)) (lst : vec T) (is : list nat) : body (hull T) unit :=
    match is with
    | [] => done tt
    | i :: is' =>
        v <~ eval (py_get verts (Z.of_nat i)) ;;
        (if negb (Vector2D_eq v lst)
         then w <~ eval (py_get verts (Z.of_nat (S i))) ;; push_edge (Segment2D_of_points v w)
         else done tt) ;~
        st_edges verts lst is'
    end.
  (** convex_hull.py:356, 393 for i in range(len(self._vertices)) *)
  Definition st_all_edges (verts : list (vec T)) : body (hull T) unit :=
    match List.rev verts with
    | [] => done tt
    | lst :: _ => st_edges verts lst (seq 0 (List.length verts))
    end.

  (** convex_hull.py:325-355, the vertices appended as they are found *)
  Fixpoint st_wrap_loop (fuel : nat) (pts : list (vec T)) (min_index cur : nat) (used : list nat) : body (hull T) unit :=
    match fuel with
    | O => done tt
    | S fuel' =>
        cur_pt <~ eval (py_get pts (Z.of_nat cur)) ;;
        let n := List.length pts in
        let c0 := first_candidate n cur used in
        c <~ eval (wrap_scan pts cur_pt cur used (seq (S c0) (n - S c0)) c0) ;;
        p <~ eval (py_get pts (Z.of_nat c)) ;;
        push_vertex p ;~
        if Nat.eqb c min_index then done tt
        else st_wrap_loop fuel' pts min_index c (used ++ [c])
    end.
  (** convex_hull.py:308-361 compute_wrapping_method *)
  Definition st_wrapping : body (hull T) unit :=
    write (@clear_results T) ;~
    pts <~ self (@h_input T) ;;
    match get_min_point_index pts with
    | Some min_index =>
        if Nat.ltb (List.length pts) 3 then done tt
        else
          p <~ eval (py_get pts (Z.of_nat min_index)) ;; push_vertex p ;~
          st_wrap_loop (S (List.length pts)) pts min_index min_index [] ;~
          verts <~ self (@h_vertices T) ;;
          st_all_edges verts ;~
          write (fun h => mkHull (h_input h) (removelast (h_vertices h)) (h_edges h) (h_alias h))
    | None => done tt
    end.

  (** list.sort in place: an exception of the comparison leaves the list in some order *)
  (** CPython's list.sort, called at convex_hull.py:296 and 434 *)
  Definition sorting := list (vec T) -> res unit * list (vec T).
  (** the same sort as a function, for the value-level model *)
  (** CPython's list.sort, called at convex_hull.py:296 and 434 *)
  Definition sorted_by (srt : sorting) (l : list (vec T)) : res (list (vec T)) :=
    match srt l with (Ok _, l') => Ok l' | (Raise e, _) => Raise e end.

  (** convex_hull.py:379-387; the two lists are one object, so the writes show in both *)
  Fixpoint st_graham_loop (is : list nat) (top : Z) : body (hull T) Z :=
    match is with
    | [] => done top
    | i :: is' =>
        l <~ self (@h_input T) ;;
        p <~ eval (py_get l (Z.of_nat i)) ;;
        top1 <~ eval (graham_pop (2 * List.length l + 3) l p top) ;;
        let top2 := (top1 + 1)%Z in
        tmp <~ eval (py_get l top2) ;;
        vi <~ eval (py_get l (Z.of_nat i)) ;;
        l1 <~ eval (py_set l top2 vi) ;; put_input l1 ;~
        l2 <~ eval (py_set l1 (Z.of_nat i) tmp) ;; put_input l2 ;~
        st_graham_loop is' top2
    end.
  (** convex_hull.py:363-397 compute_graham_scan with 423-434 sort_points_angle_from *)
  Definition st_graham (srt : sorting) : body (hull T) unit :=
    write (@clear_results T) ;~
    pts <~ self (@h_input T) ;;
    match get_min_point_index pts with
    | Some min_index =>
        if Nat.ltb (List.length pts) 3 then done tt
        else
          p0 <~ eval (py_get pts 0) ;;
          pm <~ eval (py_get pts (Z.of_nat min_index)) ;;
          l1 <~ eval (py_set pts 0 pm) ;; put_input l1 ;~
          l2 <~ eval (py_set l1 (Z.of_nat min_index) p0) ;; put_input l2 ;~
          (fun h => let '(o, l3) := srt l2 in (o, mkHull l3 (h_vertices h) (h_edges h) (h_alias h))) ;~
          write (fun h => mkHull (h_input h) [] (h_edges h) true) ;~
          top <~ st_graham_loop (seq 2 (List.length pts - 2)) 1 ;;
          l4 <~ self (@h_input T) ;;
          put_input (py_del_from l4 (top + 1)) ;~
          l5 <~ self (@h_input T) ;;
          st_all_edges l5 ;~
          first <~ eval (py_get l5 0) ;;
          lst <~ eval (py_get l5 (-1)) ;;
          push_edge (Segment2D_of_points first lst)
    | None => done tt
    end.

  (** convex_hull.py:251-291, one pair of points after the other *)
  Fixpoint st_direct_pairs (pts : list (vec T)) (ijs : list (nat * nat)) : body (hull T) unit :=
    match ijs with
    | [] => done tt
    | (i, j) :: ijs' =>
        pf <~ eval (py_get pts (Z.of_nat i)) ;;
        ps <~ eval (py_get pts (Z.of_nat j)) ;;
        let rel := Vector2D_sub ps pf in
        let '(valid, last_value) := direct_scan pf rel i j 0 pts (num 0) in
        (if valid : bool then
           push_vertex pf ;~ push_vertex ps ;~
           push_edge (if last_value <? num 0 then Segment2D_of_points pf ps
                      else Segment2D_of_points ps pf)
         else done tt) ;~
        st_direct_pairs pts ijs'
    end.
  (** convex_hull.py:240-306 compute_direct_method *)
  Definition st_direct (srt : sorting) : body (hull T) unit :=
    write (@clear_results T) ;~
    pts <~ self (@h_input T) ;;
    if Nat.ltb (List.length pts) 3 then done tt
    else
      st_direct_pairs pts (direct_pairs (List.length pts)) ;~
      vs <~ self (@h_vertices T) ;;
      match vs with
      | [] => done tt
      | _ =>
          (fun h => let '(o, vs') := srt vs in (o, mkHull (h_input h) vs' (h_edges h) (h_alias h))) ;~
          write (fun h => mkHull (h_input h) (list2set (h_vertices h)) (h_edges h) (h_alias h))
      end.

  (** convex_hull.py:173-187 compute *)
  Definition st_compute (srt : sorting) (m : method_type) : body (hull T) unit :=
    match m with
    | DIRECT_METHOD => st_direct srt
    | GRAHAN_SCAN => st_graham srt
    | WRAPPING_METHOD => st_wrapping
    end.
  (** convex_hull.py:144-187, one call *)
  Definition st_hull_call (srt : sorting) (c : @hull_call T) : body (hull T) unit :=
    match c with
    | CallAddPoints ps => write (fun h => ConvexHull_add_points h ps)
    | CallClear => write (@ConvexHull_clear T)
    | CallClearResults => write (@clear_results T)
    | CallCompute m => st_compute srt m
    end.
End HullBodies.
