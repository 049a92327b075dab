(** * M_Hull: model of src/pyrusgeom/convex_hull.py

    State of a ConvexHull: the input list, the vertex list, the edge list, and
    whether [_vertices] is the same list object as [_input_points] (set by
    compute_graham_scan, line 376).  When aliased, [h_vertices] is ignored and
    the vertex list is the input list. *)
From Coq Require Import ZArith List Bool String Lia.
From Verif Require Import Base Types M_Angle M_Vector M_Line M_Ray M_Triangle M_Segment.
Import ListNotations.
Set Implicit Arguments.
Local Open Scope py_scope.
Local Open Scope num_scope.

(** Python list indexing with negative indices *)
(** Python list indexing, used by convex_hull.py:308-397; negative indices count from the end *)
Definition py_index {A} (l : list A) (i : Z) : option nat :=
  let n := Z.of_nat (List.length l) in
  let j := if (i <? 0)%Z then (i + n)%Z else i in
  if ((0 <=? j) && (j <? n))%Z then Some (Z.to_nat j) else None.
(** Python l[i], used by convex_hull.py:308-397 *)
Definition py_get {A} (l : list A) (i : Z) : res A :=
  match py_index l i with
  | Some j => match nth_error l j with Some a => Ok a | None => Raise IndexError end
  | None => Raise IndexError
  end.
(** Python list update, used by convex_hull.py:384-387, 429-431 *)
Fixpoint list_set {A} (l : list A) (i : nat) (a : A) : list A :=
  match l, i with
  | [], _ => []
  | _ :: l', O => a :: l'
  | b :: l', S i' => b :: list_set l' i' a
  end.
(** Python l[i] = x, used by convex_hull.py:384-387, 429-431 *)
Definition py_set {A} (l : list A) (i : Z) (a : A) : res (list A) :=
  match py_index l i with
  | Some j => Ok (list_set l j a)
  | None => Raise IndexError
  end.

Section Hull.
  Context {T : Type} `{Num T}.

  (** convex_hull.py:29-43 list2set; [in] on lists uses Vector2D.__eq__ (and,
      before it, object identity: the same as __eq__ unless a coordinate is
      NaN) *)
  Definition vec_in (v : vec T) (l : list (vec T)) : bool :=
    existsb (fun w => Vector2D_eq w v) l.
  (** convex_hull.py:29-43 list2set *)
  Definition list2set (l : list (vec T)) : list (vec T) :=
    fold_left (fun sub item => if vec_in item sub then sub else sub ++ [item]) l [].

  (** convex_hull.py:77-101 angle_sort_predicate *)
  Definition angle_sort_predicate (lhs rhs base : vec T) : res Z :=
    let area := double_signed_area_st base lhs rhs in
    if area <? num 0 then Ok (-1)%Z
    else if area <? EPSILON then
      dl <- Vector2D_dist2 base lhs ;;
      dr <- Vector2D_dist2 base rhs ;;
      if vy base <? vy lhs then
        (if dl >? dr then Ok (-1)%Z else Ok 1%Z)
      else
        (if dl <? dr then Ok (-1)%Z else Ok 1%Z)
    else Ok 1%Z.
  (** The default argument: base = Vector2D() *)
  (** convex_hull.py:77-101 with the default base, as used by convex_hull.py:296 and 434 *)
  Definition angle_lt (lhs rhs : vec T) : res bool :=
    c <- angle_sort_predicate lhs rhs (V (num 0) (num 0)) ;; Ok (c <? 0)%Z.

  (** convex_hull.py:49-74 AngleSortPredicate: a point with the base it is
      compared around.  The other arguments of __init__ are kept but never used
      and are left out. *)
  Record sort_key := mkKey { k_obj : vec T; k_base : vec T }.
  (** convex_hull.py:58-59 __lt__; the base is the left operand's *)
  Definition key_lt (a b : sort_key) : res bool :=
    c <- angle_sort_predicate (k_obj a) (k_obj b) (k_base a) ;; Ok (c <? 0)%Z.
  (** convex_hull.py:61-62 __gt__ *)
  Definition key_gt (a b : sort_key) : res bool :=
    c <- angle_sort_predicate (k_obj a) (k_obj b) (k_base a) ;; Ok (c >? 0)%Z.
  (** convex_hull.py:64-65 __eq__ *)
  Definition key_eq (a b : sort_key) : res bool :=
    c <- angle_sort_predicate (k_obj a) (k_obj b) (k_base a) ;; Ok (c =? 0)%Z.
  (** convex_hull.py:67-68 __le__ *)
  Definition key_le (a b : sort_key) : res bool :=
    c <- angle_sort_predicate (k_obj a) (k_obj b) (k_base a) ;; Ok (c <=? 0)%Z.
  (** convex_hull.py:70-71 __ge__ *)
  Definition key_ge (a b : sort_key) : res bool :=
    c <- angle_sort_predicate (k_obj a) (k_obj b) (k_base a) ;; Ok (c >=? 0)%Z.
  (** convex_hull.py:73-74 __ne__ *)
  Definition key_ne (a b : sort_key) : res bool :=
    c <- angle_sort_predicate (k_obj a) (k_obj b) (k_base a) ;; Ok (negb (c =? 0)%Z).

  (** convex_hull.py:104-118 is_clockwise.  The distances are evaluated only
      if needed. *)
  Definition hull_is_clockwise (p0 p1 p2 : vec T) : res bool :=
    let area := double_signed_area_st p0 p1 p2 in
    if area <? num 0 then Ok true
    else if area <? EPSILON then
      d1 <- Vector2D_dist2 p0 p1 ;;
      d2 <- Vector2D_dist2 p0 p2 ;;
      Ok (d1 >? d2)
    else Ok false.

  (** convex_hull.py:399-421 get_min_point_index; None is -1 *)
  Fixpoint min_loop (l : list (vec T)) (i : nat) (mp : vec T) (mi : nat) : nat :=
    match l with
    | [] => mi
    | p :: l' =>
        if (vx mp >? vx p) || ((vx mp =? vx p) && (vy mp >? vy p))
        then min_loop l' (S i) p i
        else min_loop l' (S i) mp mi
    end.
  (** convex_hull.py:399-421 get_min_point_index *)
  Definition get_min_point_index (pts : list (vec T)) : option nat :=
    match pts with
    | [] => None
    | p :: _ => Some (min_loop pts 0 p 0)
    end.

  (** convex_hull.py:327-332: first index that is neither current nor used;
      0 if there is none *)
  Definition first_candidate (n cur : nat) (used : list nat) : nat :=
    match find (fun i => negb (Nat.eqb i cur) && negb (existsb (Nat.eqb i) used))
               (seq 0 n) with
    | Some i => i
    | None => 0%nat
    end.

  (** convex_hull.py:333-348: scan the indices [is] after the candidate *)
  Fixpoint wrap_scan (pts : list (vec T)) (cur_pt : vec T) (cur : nat)
    (used : list nat) (is : list nat) (cand : nat) : res nat :=
    match is with
    | [] => Ok cand
    | i :: is' =>
        if Nat.eqb i cur || existsb (Nat.eqb i) used
        then wrap_scan pts cur_pt cur used is' cand
        else
          pf <- py_get pts (Z.of_nat cand) ;;
          ps <- py_get pts (Z.of_nat i) ;;
          let area := double_signed_area_st cur_pt pf ps in
          if area <? num 0 then wrap_scan pts cur_pt cur used is' i
          else if area <? EPSILON then
            df <- Vector2D_dist2 cur_pt pf ;;
            ds <- Vector2D_dist2 cur_pt ps ;;
            wrap_scan pts cur_pt cur used is' (if df >? ds then i else cand)
          else wrap_scan pts cur_pt cur used is' cand
    end.

  (** convex_hull.py:325-355: [fuel] is the [for _ in range(point_size + 1)]
      bound; the accumulator is the vertex list *)
  Fixpoint wrap_loop (fuel : nat) (pts : list (vec T)) (min_index cur : nat)
    (used : list nat) (verts : list (vec T)) : res (list (vec T)) :=
    match fuel with
    | O => Ok verts
    | S fuel' =>
        cur_pt <- py_get pts (Z.of_nat cur) ;;
        let n := List.length pts in
        let c0 := first_candidate n cur used in
        c <- wrap_scan pts cur_pt cur used (seq (S c0) (n - S c0)) c0 ;;
        p <- py_get pts (Z.of_nat c) ;;
        let used' := used ++ [c] in
        let verts' := verts ++ [p] in
        if Nat.eqb c min_index then Ok verts'
        else wrap_loop fuel' pts min_index c used' verts'
    end.

  (** convex_hull.py:356-359 / 393-396: the edge list; an edge is skipped when
      its start equals the last vertex *)
  Definition build_edges (verts : list (vec T)) : res (list (seg T)) :=
    match List.rev verts with
    | [] => Ok []
    | lst :: _ =>
        fold_left
          (fun acc i =>
             es <- acc ;;
             v <- py_get verts (Z.of_nat i) ;;
             if negb (Vector2D_eq v lst) then
               w <- py_get verts (Z.of_nat (S i)) ;;
               Ok (es ++ [Segment2D_of_points v w])
             else Ok es)
          (seq 0 (List.length verts)) (Ok [])
    end.

  (** convex_hull.py:129-142 __init__ *)
  Record hull := mkHull {
    h_input : list (vec T);
    h_vertices : list (vec T);
    h_edges : list (seg T);
    h_alias : bool }.

  (** the list seen through [_vertices] *)
  (** convex_hull.py:206-221, 376 *)
  Definition hull_vertices (h : hull) : list (vec T) :=
    if h_alias h then h_input h else h_vertices h.

  (** convex_hull.py:129-142 __init__ *)
  Definition ConvexHull_init (pts : list (vec T)) : hull := mkHull pts [] [] false.
  (** convex_hull.py:150-154 clear_results: clears the vertex list object,
      which is the input list when aliased *)
  Definition clear_results (h : hull) : hull :=
    if h_alias h then mkHull [] [] [] true
    else mkHull (h_input h) [] [] false.
  (** convex_hull.py:144-148 clear *)
  Definition ConvexHull_clear (h : hull) : hull :=
    let h1 := clear_results h in mkHull [] (h_vertices h1) (h_edges h1) (h_alias h1).
  (** convex_hull.py:156-171 add_point, add_points *)
  Definition ConvexHull_add_points (h : hull) (ps : list (vec T)) : hull :=
    mkHull (h_input h ++ ps) (h_vertices h) (h_edges h) (h_alias h).

  (** convex_hull.py:308-361 compute_wrapping_method.  (When the lists are
      aliased, clear_results has just emptied both, so the early return is
      taken and nothing is appended to the shared list.) *)
  Definition compute_wrapping_method (h : hull) : res hull :=
    let h0 := clear_results h in
    let pts := h_input h0 in
    match get_min_point_index pts with
    | Some min_index =>
        if Nat.ltb (List.length pts) 3 then Ok h0
        else
          p <- py_get pts (Z.of_nat min_index) ;;
          verts <- wrap_loop (S (List.length pts)) pts min_index min_index [] [p] ;;
          edges <- build_edges verts ;;
          Ok (mkHull pts (removelast verts) edges false)
    | None => Ok h0
    end.

  (** CPython list.sort for fewer than 64 elements (Objects/listobject.c,
      count_run and binarysort): find the leading run (reversing a strictly
      descending one) and binary-insert the rest. *)
  (** CPython's list.sort, called at convex_hull.py:296 and 434 *)
  Fixpoint bin_insert_pos (lt : vec T -> vec T -> res bool) (fuel : nat)
    (l : list (vec T)) (x : vec T) (lo hi : nat) : res nat :=
    match fuel with
    | O => Ok lo
    | S fuel' =>
        if Nat.ltb lo hi then
          let mid := Nat.div (lo + hi) 2 in
          match nth_error l mid with
          | None => Raise IndexError
          | Some y =>
              b <- lt x y ;;
              if b : bool then bin_insert_pos lt fuel' l x lo mid
              else bin_insert_pos lt fuel' l x (S mid) hi
          end
        else Ok lo
    end.
  (** CPython's list.sort, called at convex_hull.py:296 and 434 *)
  Fixpoint bin_sort (lt : vec T -> vec T -> res bool) (sorted rest : list (vec T))
    : res (list (vec T)) :=
    match rest with
    | [] => Ok sorted
    | x :: rest' =>
        pos <- bin_insert_pos lt (S (List.length sorted)) sorted x 0 (List.length sorted) ;;
        bin_sort lt (firstn pos sorted ++ x :: skipn pos sorted) rest'
    end.
  (** the longest prefix continuing an ascending (desc = false) or strictly
      descending (desc = true) run after [prev]; returns (run, rest) *)
  (** CPython's list.sort, called at convex_hull.py:296 and 434 *)
  Fixpoint run_from (lt : vec T -> vec T -> res bool) (desc : bool) (prev : vec T)
    (l : list (vec T)) : res (list (vec T) * list (vec T)) :=
    match l with
    | [] => Ok ([], [])
    | x :: l' =>
        b <- lt x prev ;;
        if Bool.eqb b desc
        then '(run, rest) <- run_from lt desc x l' ;; Ok (x :: run, rest)
        else Ok ([], l)
    end.
  (** CPython's list.sort on fewer than 64 elements, called at convex_hull.py:296 and 434 *)
  Definition py_sort_small (lt : vec T -> vec T -> res bool) (l : list (vec T))
    : res (list (vec T)) :=
    match l with
    | [] => Ok []
    | [x] => Ok [x]
    | x :: y :: l' =>
        b <- lt y x ;;
        '(run, rest) <- run_from lt b y l' ;;
        let run' := x :: y :: run in
        bin_sort lt (if b : bool then List.rev run' else run') rest
    end.

  (** convex_hull.py:380-382: the inner while; Python's negative indices wrap
      around, so the fuel bound [2 n + 3] always suffices (an index below -n
      raises IndexError). *)
  Fixpoint graham_pop (fuel : nat) (l : list (vec T)) (p : vec T) (top : Z) : res Z :=
    match fuel with
    | O => Raise NonTermination
    | S fuel' =>
        a <- py_get l (top - 1) ;;
        b <- py_get l top ;;
        c <- hull_is_clockwise a b p ;;
        if c : bool then Ok top else graham_pop fuel' l p (top - 1)%Z
    end.
  (** convex_hull.py:379-387 *)
  Fixpoint graham_loop (is : list nat) (l : list (vec T)) (top : Z)
    : res (list (vec T) * Z) :=
    match is with
    | [] => Ok (l, top)
    | i :: is' =>
        p <- py_get l (Z.of_nat i) ;;
        top1 <- graham_pop (2 * List.length l + 3) l p top ;;
        let top2 := (top1 + 1)%Z in
        tmp <- py_get l top2 ;;
        vi <- py_get l (Z.of_nat i) ;;
        l1 <- py_set l top2 vi ;;
        l2 <- py_set l1 (Z.of_nat i) tmp ;;
        graham_loop is' l2 top2
    end.
  (** [del l[top:len(l)]] *)
  (** convex_hull.py:391 *)
  Definition py_del_from {A} (l : list A) (top : Z) : list A :=
    let n := Z.of_nat (List.length l) in
    let start := if (top <? 0)%Z then Z.max 0 (top + n) else top in
    firstn (Z.to_nat start) l.

  (** convex_hull.py:363-397 compute_graham_scan with 423-434
      sort_points_angle_from; [sorter] is list.sort with the comparison
      [angle_lt] (any sorter: see the theorems; [py_sort_small angle_lt] is
      CPython's for fewer than 64 points). *)
  Definition compute_graham_scan (sorter : list (vec T) -> res (list (vec T)))
    (h : hull) : res hull :=
    let h0 := clear_results h in
    let pts := h_input h0 in
    match get_min_point_index pts with
    | Some min_index =>
        if Nat.ltb (List.length pts) 3 then Ok h0
        else
          p0 <- py_get pts 0 ;;
          pm <- py_get pts (Z.of_nat min_index) ;;
          l1 <- py_set pts 0 pm ;;
          l2 <- py_set l1 (Z.of_nat min_index) p0 ;;
          l3 <- sorter l2 ;;
          '(l4, top) <- graham_loop (seq 2 (List.length pts - 2)) l3 1 ;;
          let l5 := py_del_from l4 (top + 1) in
          edges <- build_edges l5 ;;
          first <- py_get l5 0 ;;
          lst <- py_get l5 (-1) ;;
          Ok (mkHull l5 [] (edges ++ [Segment2D_of_points first lst]) true)
    | None => Ok h0
    end.

  (** convex_hull.py:260-279: scan of all other points for one pair; result
      (valid, last_value) *)
  Fixpoint direct_scan (pf rel : vec T) (i j : nat) (k : nat) (l : list (vec T))
    (last_value : T) : bool * T :=
    match l with
    | [] => (true, last_value)
    | pt :: l' =>
        if Nat.eqb k i || Nat.eqb k j
        then direct_scan pf rel i j (S k) l' last_value
        else
          let outer_prod := Vector2D_outer_product rel (Vector2D_sub pt pf) in
          if (nabs outer_prod <? EPSILON)
             && (Vector2D_r2 (Vector2D_sub pt pf) <? Vector2D_r2 rel)
          then (false, last_value)
          else if outer_prod * last_value <? num 0 then (false, last_value)
          else direct_scan pf rel i j (S k) l' outer_prod
    end.
  (** convex_hull.py:240-306 compute_direct_method *)
  Definition direct_pairs (n : nat) : list (nat * nat) :=
    flat_map (fun i => map (fun j => (i, j)) (seq (S i) (n - S i))) (seq 0 (n - 1)).
  (** convex_hull.py:252-291, one pair of points *)
  Definition direct_step (pts : list (vec T))
    (acc : res (list (vec T) * list (seg T))) (ij : nat * nat)
    : res (list (vec T) * list (seg T)) :=
    '(vs, es) <- acc ;;
    let '(i, j) := ij in
    pf <- py_get pts (Z.of_nat i) ;;
    ps <- py_get pts (Z.of_nat j) ;;
    let rel := Vector2D_sub ps pf in
    let '(valid, last_value) := direct_scan pf rel i j 0 pts (num 0) in
    if valid : bool then
      Ok (vs ++ [pf; ps],
          es ++ [if last_value <? num 0 then Segment2D_of_points pf ps
                 else Segment2D_of_points ps pf])
    else Ok (vs, es).
  (** convex_hull.py:240-306 compute_direct_method *)
  Definition compute_direct_method (sorter : list (vec T) -> res (list (vec T)))
    (h : hull) : res hull :=
    let h0 := clear_results h in
    let pts := h_input h0 in
    if Nat.ltb (List.length pts) 3 then Ok h0
    else
      '(vs, es) <- fold_left (direct_step pts) (direct_pairs (List.length pts)) (Ok ([], [])) ;;
      match vs with
      | [] => Ok (mkHull pts [] es false)
      | _ => vs' <- sorter vs ;; Ok (mkHull pts (list2set vs') es false)
      end.

  (** convex_hull.py:16-26 MethodType; 173-187 compute *)
  Inductive method_type := DIRECT_METHOD | WRAPPING_METHOD | GRAHAN_SCAN.
  (** convex_hull.py:173-187 compute *)
  Definition ConvexHull_compute (sorter : list (vec T) -> res (list (vec T)))
    (m : method_type) (h : hull) : res hull :=
    match m with
    | DIRECT_METHOD => compute_direct_method sorter h
    | GRAHAN_SCAN => compute_graham_scan sorter h
    | WRAPPING_METHOD => compute_wrapping_method h
    end.

  (** One call of a mutating method on a ConvexHull object (144-187), and a
      sequence of calls. *)
  (** convex_hull.py:156-162 add_point, 144-148 clear, 173-187 compute *)
  Inductive hull_call :=
  | CallAddPoints (ps : list (vec T))
  | CallClear
  | CallClearResults
  | CallCompute (m : method_type).
  (** convex_hull.py:156-162 add_point, 144-148 clear, 173-187 compute *)
  Definition hull_step (sorter : list (vec T) -> res (list (vec T))) (h : hull) (c : hull_call) : res hull :=
    match c with
    | CallAddPoints ps => Ok (ConvexHull_add_points h ps)
    | CallClear => Ok (ConvexHull_clear h)
    | CallClearResults => Ok (clear_results h)
    | CallCompute m => ConvexHull_compute sorter m h
    end.
  (** a history of calls of convex_hull.py:121-442 *)
  Fixpoint hull_run (sorter : list (vec T) -> res (list (vec T))) (h : hull) (cs : list hull_call) : res hull :=
    match cs with
    | [] => Ok h
    | c :: cs' => h' <- hull_step sorter h c ;; hull_run sorter h' cs'
    end.
End Hull.
Arguments hull T : clear implicits.
Arguments sort_key T : clear implicits.
