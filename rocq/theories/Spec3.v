(** * Spec3: what a user who thinks in values expects of a program.

    [ovalue] is the value of an object; [reads h r v] says that reading the
    object at reference [r] through its fields gives [v]; [expect] executes a
    call on an environment of independent values: each variable has its own
    value, a method changes the value of its receiver only, and arguments and
    results are copied.  No reference occurs in it. *)
From Coq Require Import ZArith List Bool.
From Verif Require Import Base Types M_Angle M_Vector M_Line M_Ray M_Triangle
  M_Segment M_Circle M_Sector M_Rect M_Polygon M_Hull M_Heap M_Obj.
Import ListNotations.
Set Implicit Arguments.
Local Open Scope py_scope.
Local Open Scope num_scope.

Section Values.
  Context {T : Type} `{Num T}.

  Inductive ovalue :=
  | WVec (v : vec T) | WAng (a : angle T) | WSize (s : size T) | WSeg (s : seg T)
  | WRect (tl : vec T) (s : size T) | WTri (t : triangle T) | WCirc (c : circle T)
  | WRay (r : ray T) | WSector (s : sector T) | WPoly (vs : list (vec T)).

  (** Reading an object.  The field _is_valid of a rectangle is not part of its
      value: rect_2d.py:500-507 writes it on every read. *)
  Inductive reads (h : heap T) : ref -> ovalue -> Prop :=
  | reads_vec r v : nth_error h r = Some (OVec v) -> reads h r (WVec v)
  | reads_ang r a : nth_error h r = Some (OAng a) -> reads h r (WAng a)
  | reads_size r s : nth_error h r = Some (OSize s) -> reads h r (WSize s)
  | reads_seg r a b v w :
      nth_error h r = Some (OSeg a b) -> nth_error h a = Some (OVec v) ->
      nth_error h b = Some (OVec w) -> reads h r (WSeg (mkSeg v w))
  | reads_rect r t s b v z :
      nth_error h r = Some (ORect t s b) -> nth_error h t = Some (OVec v) ->
      nth_error h s = Some (OSize z) -> reads h r (WRect v z)
  | reads_tri r a b c u v w :
      nth_error h r = Some (OTri a b c) -> nth_error h a = Some (OVec u) ->
      nth_error h b = Some (OVec v) -> nth_error h c = Some (OVec w) ->
      reads h r (WTri (mkTri u v w))
  | reads_circ r c x v :
      nth_error h r = Some (OCirc c x) -> nth_error h c = Some (OVec v) ->
      reads h r (WCirc (mkCircle v x))
  | reads_ray r a b v d :
      nth_error h r = Some (ORay a b) -> nth_error h a = Some (OVec v) ->
      nth_error h b = Some (OAng d) -> reads h r (WRay (mkRay v d))
  | reads_sector r c x y a b v d e :
      nth_error h r = Some (OSector c x y a b) -> nth_error h c = Some (OVec v) ->
      nth_error h a = Some (OAng d) -> nth_error h b = Some (OAng e) ->
      reads h r (WSector (mkSector v x y d e))
  | reads_poly r l xs vs :
      nth_error h r = Some (OPoly l) -> nth_error h l = Some (OList xs) ->
      Forall2 (fun x v => nth_error h x = Some (OVec v)) xs vs ->
      reads h r (WPoly vs).

  Definition env := list ovalue.
  Definition evec (e : env) (i : nat) : res (vec T) :=
    match nth_error e i with Some (WVec v) => Ok v | _ => Raise AttributeError end.
  Definition eang (e : env) (i : nat) : res (angle T) :=
    match nth_error e i with Some (WAng v) => Ok v | _ => Raise AttributeError end.
  Definition esize (e : env) (i : nat) : res (size T) :=
    match nth_error e i with Some (WSize v) => Ok v | _ => Raise AttributeError end.
  Definition eseg (e : env) (i : nat) : res (seg T) :=
    match nth_error e i with Some (WSeg v) => Ok v | _ => Raise AttributeError end.
  Definition erect (e : env) (i : nat) : res (rect T) :=
    match nth_error e i with Some (WRect v z) => Ok (mkRect v z true) | _ => Raise AttributeError end.
  Definition etri (e : env) (i : nat) : res (triangle T) :=
    match nth_error e i with Some (WTri v) => Ok v | _ => Raise AttributeError end.
  Definition ecirc (e : env) (i : nat) : res (circle T) :=
    match nth_error e i with Some (WCirc v) => Ok v | _ => Raise AttributeError end.
  Definition eray (e : env) (i : nat) : res (ray T) :=
    match nth_error e i with Some (WRay v) => Ok v | _ => Raise AttributeError end.
  Definition esector (e : env) (i : nat) : res (sector T) :=
    match nth_error e i with Some (WSector v) => Ok v | _ => Raise AttributeError end.
  Definition epoly (e : env) (i : nat) : res (list (vec T)) :=
    match nth_error e i with Some (WPoly v) => Ok v | _ => Raise AttributeError end.
  Definition wrect (r : rect T) : ovalue := WRect (r_top_left r) (r_size r).
  Definition fresh (e : env) (v : ovalue) : res env := Ok (e ++ [v]).
  Definition change (e : env) (i : nat) (v : ovalue) : res env := Ok (list_set e i v).

  (** The calls that neither store nor return an existing object. *)
  Definition copying (c : call T) : bool :=
    match c with
    | NewRectSize _ _ | AssignRectSize _ _ _ | SizeRect_ _ | TopLeftRect_ _ | OriginSeg_ _
    | TerminalSeg_ _ | NearestPointSeg _ _ | ProjectionSeg _ _ | CornerTri_ _ _ | CenterCirc_ _
    | OriginRay_ _ | DirRay_ _ | CenterSector_ _ | StartSector_ _ | EndSector_ _ | NewList _
    | AppendList _ _ | NewPolyList _ | AssignPoly _ _ | AddVertexPoly _ _ | VerticesPoly _
    | VerticesPoly_ _ => false
    | _ => true
    end.

  (** The variable whose object the call changes, if any. *)
  Definition receiver (c : call T) : option nat :=
    match c with
    | MutVec _ i | MutVec2 _ i _ | MutAng _ i | MutAng2 _ i _ | MutSize _ i
    | AssignSeg i _ _ | AssignSeg4 i _ _ _ _ | SwapSeg i | MutRect _ i | MutRectP _ i _
    | AssignRect3 i _ _ _ | AssignRectCorners i _ _ | AssignRectRect i _ | MoveTopLeftRect i _
    | SetSizeOfRect i _ | IntersectedRect i _ | UnitedRect i _ | AssignTri i _ _ _
    | AssignCirc i _ _ | AssignSector i _ _ _ _ _ | ClearPoly i => Some i
    | _ => None
    end.

  (** r.intersected(r) and r.united(r): the zeroing of self is seen through the
      argument *)
  Definition self_intersected (r : rect T) : rect T :=
    let r0 := if negb (Rect2D_is_valid r)
              then rect_set_all r (num 0) (num 0) (num 0) (num 0) else r in
    intersect_tail r0 r0.
  Definition self_united (r : rect T) : rect T :=
    let r0 := if negb (Rect2D_is_valid r)
              then mkRect (Vector2D_assign (r_top_left r) (num 0) (num 0))
                          (r_size r) (r_is_valid r) else r in
    let r1 := mkRect (r_top_left r0) (Size2D_assign (r_size r0) (num 0) (num 0))
                     (r_is_valid r0) in
    intersect_tail r1 r1.

  Definition expect (e : env) (c : call T) : res env :=
    match c with
    | NewVec x y => fresh e (WVec (V x y))
    | CopyVec i => v <- evec e i ;; fresh e (WVec (Vector2D_of_vec v))
    | MutVec u i => v <- evec e i ;; w <- vec_mut_fun u v ;; change e i (WVec w)
    | MutVec2 u i j => v <- evec e i ;; w <- evec e j ;; change e i (WVec (vec_mut2_fun u v w))
    | OpVec1 u i => v <- evec e i ;; w <- vec_op1_fun u v ;; fresh e (WVec w)
    | OpVec2 u i j => v <- evec e i ;; w <- evec e j ;; fresh e (WVec (vec_op2_fun u v w))
    | ThVec i => v <- evec e i ;; a <- Vector2D_th v ;; fresh e (WAng a)
    | NewAng x => a <- AngleDeg_of_num x ;; fresh e (WAng a)
    | CopyAng i => a <- eang e i ;; b <- AngleDeg_of_angle a ;; fresh e (WAng b)
    | MutAng u i => a <- eang e i ;; b <- ang_mut_fun u a ;; change e i (WAng b)
    | MutAng2 u i j =>
        a <- eang e i ;; b <- eang e j ;; c <- ang_mut2_fun u a b ;; change e i (WAng c)
    | NewSize l w => fresh e (WSize (Size2D_init l w))
    | MutSize u i => s <- esize e i ;; change e i (WSize (size_mut_fun u s))
    | NewSeg i j => v <- evec e i ;; w <- evec e j ;; fresh e (WSeg (Segment2D_of_points v w))
    | NewSeg4 x1 y1 x2 y2 => fresh e (WSeg (mkSeg (V x1 y1) (V x2 y2)))
    | AssignSeg s i j =>
        _ <- eseg e s ;; v <- evec e i ;; w <- evec e j ;;
        change e s (WSeg (Segment2D_of_points v w))
    | AssignSeg4 s x1 y1 x2 y2 =>
        _ <- eseg e s ;; change e s (WSeg (mkSeg (V x1 y1) (V x2 y2)))
    | SwapSeg s => x <- eseg e s ;; change e s (WSeg (Segment2D_swap x))
    | OriginSeg s => x <- eseg e s ;; fresh e (WVec (Segment2D_origin x))
    | TerminalSeg s => x <- eseg e s ;; fresh e (WVec (Segment2D_terminal x))
    | CopySeg s => x <- eseg e s ;; fresh e (WSeg (Segment2D_copy x))
    | ReversedSeg s => x <- eseg e s ;; fresh e (WSeg (Segment2D_reversed_segment x))
    | NewRect4 x y l w => fresh e (wrect (Rect2D_of_nums x y l w))
    | NewRect3 i l w => v <- evec e i ;; fresh e (wrect (Rect2D_of_vec_nums v l w))
    | NewRectCorners i j =>
        v <- evec e i ;; w <- evec e j ;; fresh e (wrect (Rect2D_of_corners v w))
    | CopyRect r => x <- erect e r ;; fresh e (wrect (Rect2D_of_rect x))
    | SizeRect r => x <- erect e r ;; fresh e (WSize (Rect2D_size x))
    | TopLeftRect r => x <- erect e r ;; fresh e (WVec (Rect2D_top_left x))
    | PointRect u r => x <- erect e r ;; fresh e (WVec (rect_point_fun u x))
    | IsValidRect r => _ <- erect e r ;; Ok e
    | MutRect u r => x <- erect e r ;; change e r (wrect (rect_mut_fun u x))
    | MutRectP u r i =>
        x <- erect e r ;; v <- evec e i ;; change e r (wrect (rect_mutp_fun u x v))
    | AssignRect3 r i l w =>
        x <- erect e r ;; v <- evec e i ;; change e r (wrect (Rect2D_assign3 x v l w))
    | AssignRectCorners r i j =>
        x <- erect e r ;; v <- evec e i ;; w <- evec e j ;;
        change e r (wrect (Rect2D_assign_corners x v w))
    | AssignRectRect r o =>
        x <- erect e r ;; y <- erect e o ;; change e r (wrect (Rect2D_assign_rect x y))
    | MoveTopLeftRect r i =>
        x <- erect e r ;; v <- evec e i ;; change e r (wrect (Rect2D_move_top_left x v))
    | SetSizeOfRect r z =>
        x <- erect e r ;; s <- esize e z ;; change e r (wrect (Rect2D_set_size_of x s))
    | IntersectedRect r o =>
        x <- erect e r ;; y <- erect e o ;;
        change e r (wrect (if Nat.eqb r o then self_intersected x else Rect2D_intersected x y))
    | UnitedRect r o =>
        x <- erect e r ;; y <- erect e o ;;
        change e r (wrect (if Nat.eqb r o then self_united x else Rect2D_united x y))
    | NewTri i j k =>
        u <- evec e i ;; v <- evec e j ;; w <- evec e k ;; fresh e (WTri (Triangle2D_of_points u v w))
    | AssignTri t i j k =>
        _ <- etri e t ;; u <- evec e i ;; v <- evec e j ;; w <- evec e k ;;
        change e t (WTri (Triangle2D_of_points u v w))
    | CornerTri u t =>
        x <- etri e t ;;
        fresh e (WVec (Vector2D_of_vec (match u with
                                        | CornerA => t_a x | CornerB => t_b x | CornerC => t_c x
                                        end)))
    | NewCirc i x => v <- evec e i ;; fresh e (WCirc (Circle2D_init v x))
    | AssignCirc c i x =>
        y <- ecirc e c ;; v <- evec e i ;; change e c (WCirc (Circle2D_assign y v x))
    | CenterCirc c => y <- ecirc e c ;; fresh e (WVec (Circle2D_center y))
    | NewRayPoint i j =>
        v <- evec e i ;; w <- evec e j ;; r <- Ray2D_of_point v w ;; fresh e (WRay r)
    | NewRayAng i j =>
        v <- evec e i ;; a <- eang e j ;; r <- Ray2D_of_angle v (AA a) ;; fresh e (WRay r)
    | NewRayNum i x => v <- evec e i ;; r <- Ray2D_of_angle v (AN x) ;; fresh e (WRay r)
    | OriginRay r => y <- eray e r ;; fresh e (WVec (Ray2D_origin y))
    | DirRay r => y <- eray e r ;; d <- Ray2D_dir y ;; fresh e (WAng d)
    | NewSector i x y j k =>
        v <- evec e i ;; a <- eang e j ;; b <- eang e k ;;
        s <- Sector2D_init v x y (AA a) (AA b) ;; fresh e (WSector s)
    | AssignSector c i x y j k =>
        _ <- esector e c ;; v <- evec e i ;; a <- eang e j ;; b <- eang e k ;;
        s <- Sector2D_init v x y (AA a) (AA b) ;; change e c (WSector s)
    | CenterSector c => s <- esector e c ;; fresh e (WVec (Vector2D_of_vec (sec_center s)))
    | StartSector c =>
        s <- esector e c ;; a <- AngleDeg_of_angle (sec_start s) ;; fresh e (WAng a)
    | EndSector c =>
        s <- esector e c ;; a <- AngleDeg_of_angle (sec_end s) ;; fresh e (WAng a)
    | NewPoly is =>
        vs <- mapM (evec e) is ;;
        fresh e (WPoly match vs with
                       | [] => [V (num 0) (num 0)]
                       | _ => map (@Vector2D_copy T) vs
                       end)
    | ClearPoly p => vs <- epoly e p ;; change e p (WPoly (Polygon2D_clear vs))
    | _ => Raise NotImplementedErr
    end.

  Fixpoint expect_run (e : env) (cs : list (call T)) : res env :=
    match cs with
    | [] => Ok e
    | c :: cs' => e' <- expect e c ;; expect_run e' cs'
    end.
End Values.
Arguments ovalue T : clear implicits.
