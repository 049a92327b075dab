(** * M_Text: printing (__repr__, to_str), Vector2D.__hash__ and membership in
    Python sets; region_2d.py

    CPython's [str(x)] and [round(x, 3)] on numbers are arguments of the model
    ([printer]); so are its hash functions ([hasher]).  The theorems say which
    facts about them they use. *)
From Coq Require Import ZArith List Bool String Ascii.
From Verif Require Import Base Types M_Angle M_Vector M_Circle M_Rect M_Hull.
Import ListNotations.
Set Implicit Arguments.
Local Open Scope py_scope.
Local Open Scope string_scope.

(** builtin str(x) and round(x, 3) of a number, e.g. vector_2d.py:584, circle_2d.py:307-308 *)
Record printer (T : Type) := mkPrinter { str_num : T -> string; round3 : T -> T }.

Section Text.
  Context {T : Type} `{Num T} (pr : printer T).
  Local Notation st := (str_num pr).
  Local Notation rd x := (str_num pr (round3 pr x)).

  (** vector_2d.py:583-584 __repr__ *)
  Definition Vector2D_repr (v : vec T) : string := "(" ++ st (vx v) ++ "," ++ st (vy v) ++ ")".
  (** angle_deg.py:336-342 __repr__ *)
  Definition AngleDeg_repr (a : angle T) : res string := d <- AngleDeg_degree a ;; Ok (st d).
  (** size_2d.py:101-107 __repr__ *)
  Definition Size2D_repr (s : size T) : string := "[len:" ++ st (sz_length s) ++ ",wid:" ++ st (sz_width s) ++ "]".
  (** segment_2d.py:537-543 __repr__ *)
  Definition Segment2D_repr (s : seg T) : string := "[" ++ Vector2D_repr (s_origin s) ++ "," ++ Vector2D_repr (s_terminal s) ++ "]".
  (** triangle_2d.py:499-505 __repr__ *)
  Definition Triangle2D_repr (t : triangle T) : string :=
    "[" ++ Vector2D_repr (t_a t) ++ "," ++ Vector2D_repr (t_b t) ++ "," ++ Vector2D_repr (t_c t) ++ "]".
  (** circle_2d.py:293-299 __repr__ *)
  Definition Circle2D_repr (c : circle T) : string := "(" ++ Vector2D_repr (c_center c) ++ " , " ++ st (c_radius c) ++ ")".
  (** line_2d.py:297-306 __repr__ *)
  Definition Line2D_repr (l : line T) : string :=
    if neqb (l_c l) (num 0) then "(" ++ st (l_a l) ++ " X + " ++ st (l_b l) ++ " Y = 0)"
    else "(" ++ st (l_a l) ++ " X + " ++ st (l_b l) ++ " Y + " ++ st (l_c l) ++ " = 0)".
  (** ray_2d.py:153-159 __repr__ *)
  Definition Ray2D_repr (r : ray T) : res string :=
    d <- AngleDeg_repr (ray_dir r) ;; Ok (Vector2D_repr (ray_origin r) ++ " dir : " ++ d).
  (** rect_2d.py:850-856 __repr__ *)
  Definition Rect2D_repr (r : rect T) : string :=
    "[topleft:" ++ Vector2D_repr (r_top_left r) ++ ",len:" ++ st (sz_length (r_size r)) ++ ",wid:" ++ st (sz_width (r_size r)) ++ "]".
  (** sector_2d.py:197-204 __repr__; the line continuation leaves the
      indentation of the second source line in the string *)
  Definition Sector2D_repr (s : sector T) : res string :=
    a <- AngleDeg_repr (sec_start s) ;; b <- AngleDeg_repr (sec_end s) ;;
    Ok ("[v(" ++ Vector2D_repr (sec_center s) ++ ") a(" ++ a ++ ", " ++ b ++ ")          r(" ++ st (sec_min_r s) ++ ", " ++ st (sec_max_r s) ++ ")]").
  (** builtin repr of a list, used by polygon_2d.py:470 and convex_hull.py:450 *)
  Fixpoint items_repr {A} (f : A -> string) (l : list A) : string :=
    match l with [] => "]" | x :: l => ", " ++ f x ++ items_repr f l end.
  (** builtin repr of a list, used by polygon_2d.py:470 and convex_hull.py:450 *)
  Definition list_repr {A} (f : A -> string) (l : list A) : string :=
    match l with [] => "[]" | x :: l => "[" ++ f x ++ items_repr f l end.
  (** matrix_2d.py:368-374 __repr__: the repr of a list of numbers (repr and str of a float agree) *)
  Definition Matrix2D_repr (m : matrix T) : string :=
    list_repr st [m11 m; m12 m; m21 m; m22 m; mdx m; mdy m].
  (** polygon_2d.py:464-470 __repr__ *)
  Definition Polygon2D_repr (vs : list (vec T)) : string := "(" ++ list_repr Vector2D_repr vs ++ ")".
  (** convex_hull.py:444-450 __repr__ *)
  Definition ConvexHull_repr (h : hull T) : string :=
    "(" ++ list_repr Vector2D_repr (hull_vertices h) ++ " , " ++ list_repr Segment2D_repr (h_edges h) ++ ")".

  (** What [out2 = shape.to_str(out)] leaves in [out] and [out2]; [None] is
      Python's None.  [ostr += ...] rebinds the parameter, not [out]. *)
  (** circle_2d.py:301-308 to_str *)
  Definition Circle2D_to_str (c : circle T) (out : string) : string * option string :=
    let ostr := out ++ "(circle " ++ rd (vx (Circle2D_center c)) ++ "             " ++ rd (vy (Circle2D_center c)) ++ " " ++ rd (c_radius c) ++ ")" in
    (out, None).
  (** segment_2d.py:545-552 to_str *)
  Definition Segment2D_to_str (s : seg T) (out : string) : string * option string :=
    let ostr := out ++ " (line " ++ rd (vx (s_origin s)) ++ " " ++ rd (vy (s_origin s)) ++ "             " ++ rd (vx (s_terminal s)) ++ " " ++ rd (vy (s_terminal s)) ++ ")" in
    (out, None).
  (** triangle_2d.py:507-514 to_str *)
  Definition Triangle2D_to_str (t : triangle T) (out : string) : string * option string :=
    let ostr := out ++ "(tri " ++ rd (vx (t_a t)) ++ " " ++ rd (vy (t_a t)) ++ " " ++ rd (vx (t_b t)) ++ "         "
       ++ rd (vy (t_b t)) ++ " " ++ rd (vx (t_c t)) ++ " " ++ rd (vy (t_c t)) ++ ")" in
    (out, None).
  (** rect_2d.py:858-866 to_str; the second source line begins with a stray f *)
  Definition Rect2D_to_str (r : rect T) (out : string) : string * option string :=
    let ostr := out ++ "(rect " ++ rd (Rect2D_left r) ++ " " ++ rd (Rect2D_top r) ++ "             f" ++ rd (Rect2D_right r) ++ " " ++ rd (Rect2D_bottom r) ++ ")" in
    (out, Some ostr).
End Text.

(** region_2d.py:11-13 __init__, 15-20 area, 22-30 contains: no statements, so
    the methods of the base class return None *)
Definition Region2D_area {T} : val T := VNone.
(** region_2d.py:22-30 contains *)
Definition Region2D_contains {T} (p : vec T) : val T := VNone.

(** builtin hash of a number, of a pair of hashes (a tuple), and of an object
    that keeps object.__hash__; used by vector_2d.py:545-546 *)
Record hasher (T : Type) := mkHasher { hash_num : T -> Z; hash_pair : Z -> Z -> Z }.

Section Hash.
  Context {T : Type} `{Num T} (hs : hasher T).

  (** vector_2d.py:545-546 __hash__ *)
  Definition Vector2D_hash (v : vec T) : Z := hash_pair hs (hash_num hs (vx v)) (hash_num hs (vy v)).

  (** hash(x) for an object x at address [addr].  A class that defines __eq__
      and no __hash__ has __hash__ = None and its objects cannot be hashed:
      angle_deg.py:361, line_2d.py:286, matrix_2d.py:353, ray_2d.py:142,
      segment_2d.py:249, size_2d.py:89 (and sector_2d.py:182, convex_hull.py:64,
      not in [val]); circle_2d.py, rect_2d.py, triangle_2d.py and polygon_2d.py
      define neither.  Lists cannot be hashed; booleans and None are left out. *)
  Definition py_hash (addr : Z) (x : val T) : res Z :=
    match x with
    | VNum n => Ok (hash_num hs n)
    | VVec v => Ok (Vector2D_hash v)
    | VAng _ | VLine _ | VSeg _ | VRay _ | VSize _ | VMat _ | VList _ => Raise TypeError
    | VCirc _ | VRect _ | VTri _ | VPoly _ => Ok addr
    | VBool _ | VNone => Raise NotImplementedErr
    end.

  (** A heap of vectors; objects are numbers.  Modelling device (no counterpart in /repo) *)
  Definition vheap := nat -> vec T.
  (** builtin set.add / set(list): the hash is taken when the object goes in
      (vector_2d.py:545-546) *)
  Definition py_set_of (h : vheap) (l : list nat) : list (Z * nat) := map (fun i => (Vector2D_hash (h i), i)) l.
  (** builtin [x in s] on a set: same stored hash, then identity or == (vector_2d.py:545-549) *)
  Definition py_in_set (h : vheap) (x : nat) (s : list (Z * nat)) : bool :=
    existsb (fun e => Z.eqb (fst e) (Vector2D_hash (h x)) && (Nat.eqb (snd e) x || Vector2D_eq (h (snd e)) (h x))) s.
  (** builtin [x in l] on a list: identity or == (vector_2d.py:548-549) *)
  Definition py_in_list (h : vheap) (x : nat) (l : list nat) : bool :=
    existsb (fun i => Nat.eqb i x || Vector2D_eq (h i) (h x)) l.
  (** an in-place method of the vector at [i], e.g. vector_2d.py:137-143 set_x; modelling device *)
  Definition vheap_set (h : vheap) (i : nat) (v : vec T) : vheap := fun j => if Nat.eqb j i then v else h j.
End Hash.
