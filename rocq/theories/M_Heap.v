(** * M_Heap: objects with identity.

    Python variables hold references; methods such as Matrix2D.__imul__ change
    the object that every other reference also sees.  A heap maps object
    references to object states; the operations below are the methods of the
    value-level model, applied to references. *)
From Coq Require Import ZArith List Bool Lia.
From Verif Require Import Base Types M_Angle M_Vector M_Matrix.
Import ListNotations.
Set Implicit Arguments.

(** object references *)
(** Modelling device: Python object identity (matrix_2d.py:311-348 depends on it) *)
Definition ref := nat.
(** Modelling device: the objects that exist, by reference; needed for matrix_2d.py:311-348 *)
Definition store (A : Type) := ref -> A.
(** Modelling device: the effect of an in-place method (matrix_2d.py:133-236, 311-348) on the heap *)
Definition put {A} (h : store A) (r : ref) (a : A) : store A :=
  fun r' => if Nat.eqb r' r then a else h r'.

Section MatrixObjects.
  Context {T : Type} `{Num T}.
  (** Modelling device: heap of Matrix2D objects (matrix_2d.py:14) *)
  Definition mheap := store (matrix T).

  (** matrix_2d.py:311-331 __imul__ on objects: all reads come before the
      writes; returns self *)
  Definition imul_obj (h : mheap) (self other : ref) : mheap * ref :=
    (put h self (Matrix2D_imul (h self) (h other)), self).
  (** matrix_2d.py:333-348 __mul__ with a Matrix2D: [mat_tmp = self] is the
      same object *)
  Definition mul_obj (h : mheap) (self other : ref) : mheap * ref := imul_obj h self other.
  (** matrix_2d.py:343-344 __mul__ with a Vector2D *)
  Definition mul_vec_obj (h : mheap) (self : ref) (v : vec T) : vec T := Matrix2D_transform (h self) v.
  (** matrix_2d.py:175-228 translate, scale, rotate on objects; 61-65 reset;
      67-83 assign *)
  Definition translate_obj (h : mheap) (self : ref) (x y : T) : mheap := put h self (Matrix2D_translate (h self) x y).
  (** matrix_2d.py:188-203 scale *)
  Definition scale_obj (h : mheap) (self : ref) (x y : T) : mheap := put h self (Matrix2D_scale (h self) x y).
  (** matrix_2d.py:205-228 rotate *)
  Definition rotate_obj (h : mheap) (self : ref) (a : angle T) : res mheap :=
    m <- Matrix2D_rotate (h self) a ;; Ok (put h self m).
  (** matrix_2d.py:61-65 reset *)
  Definition reset_obj (h : mheap) (self : ref) : mheap := put h self Matrix2D_identity.
  (** matrix_2d.py:67-83 assign *)
  Definition assign_obj (h : mheap) (self : ref) (m : matrix T) : mheap := put h self m.

  (** Python expressions built from variables with [*]; evaluated left operand
      first. *)
  (** matrix_2d.py:333-348 __mul__ *)
  Inductive mexpr := MVar (r : ref) | MMul (a b : mexpr).
  (** matrix_2d.py:333-348 __mul__ *)
  Fixpoint meval (h : mheap) (e : mexpr) : mheap * ref :=
    match e with
    | MVar r => (h, r)
    | MMul a b =>
        let '(h1, ra) := meval h a in
        let '(h2, rb) := meval h1 b in
        mul_obj h2 ra rb
    end.

  (** Programs over matrix variables.  A variable is bound to an object
      reference; objects are numbered in order of creation.  The language of
      statements stands for the client code, the effect of each statement is
      that of the method it calls. *)
  (** Programs over matrix_2d.py:14-374: the calls a caller can make *)
  Inductive mcmd :=
  | MNew (x : nat) (m : matrix T)            (* x = Matrix2D(m11, m12, m21, m22, dx, dy), 38-59 *)
  | MTranslation (x : nat) (a b : T)         (* x = Matrix2D.make_translation(a, b), 271-282 *)
  | MScaling (x : nat) (a b : T)             (* x = Matrix2D.make_scaling(a, b), 284-295 *)
  | MRotation (x : nat) (a : angle T)        (* x = Matrix2D.make_rotation(a), 297-309 *)
  | MInverted (x y : nat)                    (* x = y.inverted(), 157-173: a new object *)
  | MAlias (x y : nat)                       (* x = y *)
  | MMulTo (x y z : nat)                     (* x = y * z, 333-348: y itself, changed *)
  | MIMul (x y : nat)                        (* x *= y, 311-331 *)
  | MTranslate (x : nat) (a b : T)           (* x.translate(a, b) *)
  | MScale (x : nat) (a b : T)               (* x.scale(a, b) *)
  | MRotate (x : nat) (a : angle T)          (* x.rotate(a) *)
  | MReset (x : nat)                         (* x.reset() *)
  | MAssign (x : nat) (m : matrix T)         (* x.assign(...) *)
  | MPrint (x : nat) (v : vec T).            (* print(x * v) *)
  (** Modelling device: state of a caller of matrix_2d.py:14-374 *)
  Record mstate := mkMState {
    ms_env : nat -> option ref;
    ms_next : ref;                            (* the next object to be created *)
    ms_heap : mheap;
    ms_out : list (vec T) }.                  (* what was printed, latest first *)
  (** Modelling device: variable lookup in a caller of matrix_2d.py:14-374 *)
  Definition mget (st : mstate) (x : nat) : res ref :=
    match ms_env st x with Some r => Ok r | None => Raise UnboundLocalError end.
  (** Modelling device: assignment to a variable in a caller of matrix_2d.py:14-374 *)
  Definition mbind_var (st : mstate) (x : nat) (r : ref) (h : mheap) : mstate :=
    mkMState (fun y => if Nat.eqb y x then Some r else ms_env st y) (ms_next st) h (ms_out st).
  (** Modelling device: object creation by matrix_2d.py:40-54 and 239-308 *)
  Definition malloc (st : mstate) (x : nat) (m : matrix T) : mstate :=
    mkMState (fun y => if Nat.eqb y x then Some (ms_next st) else ms_env st y) (S (ms_next st))
             (put (ms_heap st) (ms_next st) m) (ms_out st).
  (** Modelling device: look up the receiver of a call in matrix_2d.py:14-374 *)
  Definition mwith (st : mstate) (h : mheap) : mstate :=
    mkMState (ms_env st) (ms_next st) h (ms_out st).
  (** matrix_2d.py:38-59 __init__, 61-65 reset, 67-83 assign, 175-186 translate, 188-203 scale, 205-228 rotate, 157-173 inverted, 271-282 make_translation, 284-295 make_scaling, 297-309 make_rotation, 311-331 __imul__, 333-348 __mul__ *)
  Definition mexec (st : mstate) (c : mcmd) : res mstate :=
    match c with
    | MNew x m => Ok (malloc st x m)
    | MTranslation x a b => Ok (malloc st x (make_translation a b))
    | MScaling x a b => Ok (malloc st x (make_scaling a b))
    | MRotation x a => m <- make_rotation a ;; Ok (malloc st x m)
    | MInverted x y => r <- mget st y ;; m <- Matrix2D_inverted (ms_heap st r) ;; Ok (malloc st x m)
    | MAlias x y => r <- mget st y ;; Ok (mbind_var st x r (ms_heap st))
    | MMulTo x y z =>
        ry <- mget st y ;; rz <- mget st z ;;
        let '(h, r) := mul_obj (ms_heap st) ry rz in Ok (mbind_var st x r h)
    | MIMul x y =>
        rx <- mget st x ;; ry <- mget st y ;;
        let '(h, r) := imul_obj (ms_heap st) rx ry in Ok (mbind_var st x r h)
    | MTranslate x a b => r <- mget st x ;; Ok (mwith st (translate_obj (ms_heap st) r a b))
    | MScale x a b => r <- mget st x ;; Ok (mwith st (scale_obj (ms_heap st) r a b))
    | MRotate x a => r <- mget st x ;; h <- rotate_obj (ms_heap st) r a ;; Ok (mwith st h)
    | MReset x => r <- mget st x ;; Ok (mwith st (reset_obj (ms_heap st) r))
    | MAssign x m => r <- mget st x ;; Ok (mwith st (assign_obj (ms_heap st) r m))
    | MPrint x v =>
        r <- mget st x ;;
        Ok (mkMState (ms_env st) (ms_next st) (ms_heap st) (mul_vec_obj (ms_heap st) r v :: ms_out st))
    end.
  (** Modelling device: a caller's program over matrix_2d.py:14-374, statement by statement *)
  Fixpoint mrun (st : mstate) (cs : list mcmd) : res mstate :=
    match cs with [] => Ok st | c :: cs' => st' <- mexec st c ;; mrun st' cs' end.
  (** Modelling device: no object and no variable yet; a caller of matrix_2d.py:14-374 *)
  Definition mstart : mstate := mkMState (fun _ => None) 0 (fun _ => Matrix2D_identity) [].
End MatrixObjects.
Arguments mcmd T : clear implicits.
Arguments mstate T : clear implicits.
