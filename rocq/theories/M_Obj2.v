(** * M_Obj2: the remaining methods of ConvexHull on objects with identity

    M_Obj.v has the list accessors, clear, add_point and the wrapping method;
    here are add_points, the Graham scan, the direct method and compute.  As in
    M_Obj.v the points are read before the loops (which change none of them): a
    list of pairs (object, value) stands for the list of objects.  An exception
    ends the program; what a call that raises leaves behind is in M_Fail.v. *)
From Coq Require Import ZArith List Bool.
From Verif Require Import Base Types M_Vector M_Segment M_Hull M_Heap M_Obj.
Import ListNotations.
Set Implicit Arguments.
Local Open Scope py_scope.
Local Open Scope num_scope.
Local Open Scope obj_scope.

(** list.sort on elements of any type, given the comparison; called at convex_hull.py:296 and 434 *)
Definition sort_fn := forall A : Type, (A -> A -> res bool) -> list A -> res (list A).

(** CPython's list.sort for fewer than 64 elements on any element type; the
    same text as in M_Hull.v, called at convex_hull.py:296 and 434 *)
Section Sort.
  Variable A : Type.
  Variable lt : A -> A -> res bool.
  (** CPython's list.sort, called at convex_hull.py:296 and 434 *)
  Fixpoint any_insert_pos (fuel : nat) (l : list A) (x : A) (lo hi : nat) : res nat :=
    match fuel with
    | O => Ok lo
    | S fuel' =>
        if Nat.ltb lo hi then
          let mid := Nat.div (lo + hi) 2 in
          match nth_error l mid with
          | None => Raise IndexError
          | Some y =>
              b <- lt x y ;;
              if b : bool then any_insert_pos fuel' l x lo mid
              else any_insert_pos fuel' l x (S mid) hi
          end
        else Ok lo
    end.
  (** CPython's list.sort, called at convex_hull.py:296 and 434 *)
  Fixpoint any_bin_sort (sorted rest : list A) : res (list A) :=
    match rest with
    | [] => Ok sorted
    | x :: rest' =>
        pos <- any_insert_pos (S (List.length sorted)) sorted x 0 (List.length sorted) ;;
        any_bin_sort (firstn pos sorted ++ x :: skipn pos sorted) rest'
    end.
  (** CPython's list.sort, called at convex_hull.py:296 and 434 *)
  Fixpoint any_run_from (desc : bool) (prev : A) (l : list A) : res (list A * list A) :=
    match l with
    | [] => Ok ([], [])
    | x :: l' =>
        b <- lt x prev ;;
        if Bool.eqb b desc
        then '(run, rest) <- any_run_from desc x l' ;; Ok (x :: run, rest)
        else Ok ([], l)
    end.
  (** CPython's list.sort on fewer than 64 elements, called at convex_hull.py:296 and 434 *)
  Definition any_sort_small (l : list A) : res (list A) :=
    match l with
    | [] => Ok []
    | [x] => Ok [x]
    | x :: y :: l' =>
        b <- lt y x ;;
        '(run, rest) <- any_run_from b y l' ;;
        let run' := x :: y :: run in
        any_bin_sort (if b : bool then List.rev run' else run') rest
    end.
End Sort.

Section HullMethods.
  Context {T : Type} `{Num T}.
  Local Notation MT A := (heap T -> res (A * heap T)).

  (** convex_hull.py:164-171 add_points: the loop asks the list [pts] for its
      next element each time round, after appending to the input list (which
      may be the same list); [fuel] bounds the number of turns *)
  Fixpoint obj_add_points_loop (fuel : nat) (c pts : ref) (j : nat) : MT unit :=
    match fuel with
    | O => lift (Raise NonTermination)
    | S fuel' =>
        xs <-- get_list pts ;;;
        match nth_error xs j with
        | None => ret tt
        | Some p => obj_hull_add_point c p ;;; obj_add_points_loop fuel' c pts (S j)
        end
    end.
  (** convex_hull.py:164-171 add_points; the bound is the number of elements at
      the call plus one (enough unless [pts] is the input list itself) *)
  Definition obj_hull_add_points (c pts : ref) : MT unit :=
    xs <-- get_list pts ;;; obj_add_points_loop (S (List.length xs)) c pts 0.

  (** convex_hull.py:380-382, on pairs *)
  Fixpoint graham_pop_refs (fuel : nat) (l : list (ref * vec T)) (p : vec T) (top : Z) : res Z :=
    match fuel with
    | O => Raise NonTermination
    | S fuel' =>
        a <- py_get l (top - 1) ;;
        b <- py_get l top ;;
        c <- hull_is_clockwise (snd a) (snd b) p ;;
        if c : bool then Ok top else graham_pop_refs fuel' l p (top - 1)%Z
    end.
  (** convex_hull.py:379-387, on pairs *)
  Fixpoint graham_loop_refs (is : list nat) (l : list (ref * vec T)) (top : Z)
    : res (list (ref * vec T) * Z) :=
    match is with
    | [] => Ok (l, top)
    | i :: is' =>
        p <- py_get l (Z.of_nat i) ;;
        top1 <- graham_pop_refs (2 * List.length l + 3) l (snd p) top ;;
        let top2 := (top1 + 1)%Z in
        tmp <- py_get l top2 ;;
        vi <- py_get l (Z.of_nat i) ;;
        l1 <- py_set l top2 vi ;;
        l2 <- py_set l1 (Z.of_nat i) tmp ;;
        graham_loop_refs is' l2 top2
    end.
  (** convex_hull.py:393-396 the edges of the vertex list *)
  Definition obj_build_edges (rs : list ref) : MT (list ref) :=
    match List.rev rs with
    | [] => ret []
    | z :: _ => vz <-- get_vec z ;;; obj_edges_from vz rs
    end.
  (** convex_hull.py:363-397 compute_graham_scan with 423-434
      sort_points_angle_from: the input list object is permuted and cut in
      place, and becomes the vertex list too (376) *)
  Definition obj_hull_compute_graham (srt : sort_fn) (c : ref) : MT unit :=
    obj_hull_clear_results c ;;;
    '(i, _, e) <-- get_hull c ;;;
    xs <-- get_list i ;;;
    vs <-- read_all xs ;;;
    match get_min_point_index vs with
    | None => ret tt
    | Some m =>
        if Nat.ltb (List.length vs) 3 then ret tt
        else
          let l0 := combine xs vs in
          p0 <-- lift (py_get l0 0) ;;;
          pm <-- lift (py_get l0 (Z.of_nat m)) ;;;
          l1 <-- lift (py_set l0 0 pm) ;;;
          l2 <-- lift (py_set l1 (Z.of_nat m) p0) ;;;
          l3 <-- lift (srt _ (fun a b => angle_lt (snd a) (snd b)) l2) ;;;
          '(l4, top) <-- lift (graham_loop_refs (seq 2 (List.length vs - 2)) l3 1) ;;;
          let l5 := map fst (py_del_from l4 (top + 1)) in
          wr i (OList l5) ;;;
          wr c (OHull i i e) ;;;
          es <-- obj_build_edges l5 ;;;
          f <-- lift (py_get l5 0) ;;;
          z <-- lift (py_get l5 (-1)) ;;;
          s <-- obj_seg_new f z ;;;
          wr e (OList (es ++ [s]))
    end.

  (** convex_hull.py:252-291, one pair of points; an edge is the pair of its end point objects *)
  Definition direct_step_refs (pts : list (ref * vec T))
    (acc : res (list (ref * vec T) * list (ref * ref))) (ij : nat * nat)
    : res (list (ref * vec T) * list (ref * ref)) :=
    '(vs, es) <- acc ;;
    let '(i, j) := ij in
    pf <- py_get pts (Z.of_nat i) ;;
    ps <- py_get pts (Z.of_nat j) ;;
    let rel := Vector2D_sub (snd ps) (snd pf) in
    let '(valid, last_value) := direct_scan (snd pf) rel i j 0 (map snd pts) (num 0) in
    if valid : bool then
      Ok (vs ++ [pf; ps],
          es ++ [if last_value <? num 0 then (fst pf, fst ps) else (fst ps, fst pf)])
    else Ok (vs, es).
  (** convex_hull.py:29-43 list2set on objects: [in] is identity or == *)
  Definition list2set_refs (l : list (ref * vec T)) : list (ref * vec T) :=
    fold_left (fun sub item =>
      if existsb (fun w => Nat.eqb (fst w) (fst item) || Vector2D_eq (snd w) (snd item)) sub
      then sub else sub ++ [item]) l [].
  (** convex_hull.py:285-291: the edges are Segment2D objects with copies of the end points *)
  Fixpoint obj_new_segs (es : list (ref * ref)) : MT (list ref) :=
    match es with
    | [] => ret []
    | (a, b) :: es' => s <-- obj_seg_new a b ;;; ss <-- obj_new_segs es' ;;; ret (s :: ss)
    end.
  (** convex_hull.py:240-306 compute_direct_method: the vertex list is filled and
      sorted in place, then replaced by the new list that list2set returns *)
  Definition obj_hull_compute_direct (srt : sort_fn) (c : ref) : MT unit :=
    obj_hull_clear_results c ;;;
    '(i, v, e) <-- get_hull c ;;;
    xs <-- get_list i ;;;
    vs <-- read_all xs ;;;
    if Nat.ltb (List.length vs) 3 then ret tt
    else
      '(ps, es) <-- lift (fold_left (direct_step_refs (combine xs vs)) (direct_pairs (List.length vs)) (Ok ([], []))) ;;;
      ss <-- obj_new_segs es ;;;
      wr e (OList ss) ;;;
      match ps with
      | [] => ret tt
      | _ =>
          l <-- lift (srt _ (fun a b => angle_lt (snd a) (snd b)) ps) ;;;
          wr v (OList (map fst l)) ;;;
          v' <-- new (OList (map fst (list2set_refs l))) ;;;
          wr c (OHull i v' e)
      end.

  (** convex_hull.py:173-187 compute *)
  Definition obj_hull_compute (srt : sort_fn) (m : method_type) (c : ref) : MT unit :=
    match m with
    | DIRECT_METHOD => obj_hull_compute_direct srt c
    | GRAHAN_SCAN => obj_hull_compute_graham srt c
    | WRAPPING_METHOD => obj_hull_compute_wrapping c
    end.

  (** What a caller that has made a hull from the list [l] can do: call the
      hull's methods (convex_hull.py:144-187), or append to and clear the list
      it passed in (convex_hull.py:140 keeps that list). *)
  Inductive hobj_call :=
  | HAddPoint (q : ref) | HAddPoints (k : ref) | HClear | HClearResults
  | HCompute (m : method_type) | HListAppend (q : ref) | HListClear.
  (** convex_hull.py:144-187 *)
  Definition hobj_step (srt : sort_fn) (c l : ref) (x : hobj_call) : MT unit :=
    match x with
    | HAddPoint q => obj_hull_add_point c q
    | HAddPoints k => obj_hull_add_points c k
    | HClear => obj_hull_clear c
    | HClearResults => obj_hull_clear_results c
    | HCompute m => obj_hull_compute srt m c
    | HListAppend q => obj_list_append l q
    | HListClear => _ <-- get_list l ;;; wr l (OList [])
    end.
  (** a history of such calls (convex_hull.py:121-442) *)
  Fixpoint hobj_run (srt : sort_fn) (c l : ref) (xs : list hobj_call) : MT unit :=
    match xs with
    | [] => ret tt
    | x :: xs' => hobj_step srt c l x ;;; hobj_run srt c l xs'
    end.
End HullMethods.
