(** * Base: Python results, exceptions and the abstract number interface.

    The whole library is transcribed once, over an abstract record of number
    operations [Num], and instantiated at ideal reals ([NumR.v]) and at IEEE
    binary64 ([NumF.v]).  Everything that can raise in Python returns a
    [res]. *)
From Coq Require Import ZArith List Bool String.
Import ListNotations.
Set Implicit Arguments.

(** Exceptions that the modelled code can raise.  [GenericException] is
    [Exception(...)] raised explicitly by the package. *)
(** Modelling device (no counterpart in /repo): Python exception classes *)
Inductive exn :=
| ZeroDivisionError | ValueError | OverflowError | TypeError
| AttributeError | IndexError | UnboundLocalError | NotImplementedErr
| GenericException
| NonTermination. (* only used by fuelled loops; shown unreachable where used *)

(** A Python call either returns a value or raises. *)
(** Modelling device (no counterpart in /repo): a call returns or raises *)
Inductive res (A : Type) :=
| Ok (a : A)
| Raise (e : exn).
Arguments Ok {A} a.
Arguments Raise {A} e.

(** Modelling device (no counterpart in /repo): sequencing; an exception skips the rest *)
Definition bind {A B} (m : res A) (f : A -> res B) : res B :=
  match m with Ok a => f a | Raise e => Raise e end.

Declare Scope py_scope.
Delimit Scope py_scope with py.
Notation "x <- m ;; k" := (bind m (fun x => k))
  (at level 100, m at next level, right associativity) : py_scope.
Notation "' p <- m ;; k" := (bind m (fun p => k))
  (at level 100, p pattern, m at next level, right associativity) : py_scope.
Open Scope py_scope.

(** The call returns normally, with a value satisfying [P]. *)
(** Modelling device (no counterpart in /repo): statement form used by the theorems *)
Definition returns {A} (m : res A) (P : A -> Prop) : Prop :=
  exists a, m = Ok a /\ P a.

(** Modelling device (no counterpart in /repo): statement form used by the theorems *)
Definition raises {A} (m : res A) (e : exn) : Prop := m = Raise e.

(** Modelling device (no counterpart in /repo): a loop that builds a list *)
Fixpoint mapM {A B} (f : A -> res B) (l : list A) : res (list B) :=
  match l with
  | [] => Ok []
  | a :: l' => b <- f a ;; bs <- mapM f l' ;; Ok (b :: bs)
  end.

(** The number operations used by the package.  Operations returning [res]
    can raise in Python. *)
(** Modelling device (no counterpart in /repo): the numbers; each field is one Python operation or function of the math module *)
Class Num (T : Type) := {
  nlit  : Z -> positive -> T;     (* decimal literal n/d, correctly rounded *)
  nofZ  : Z -> T;                 (* int -> number conversion *)
  nPI   : T;                      (* math_values.py:4 *)
  nadd  : T -> T -> T;
  nsub  : T -> T -> T;
  nmul  : T -> T -> T;
  nneg  : T -> T;
  nabs  : T -> T;                 (* math.fabs and the builtin abs *)
  ndiv  : T -> T -> res T;        (* / : ZeroDivisionError *)
  nltb  : T -> T -> bool;
  nleb  : T -> T -> bool;
  neqb  : T -> T -> bool;
  nsqrt : T -> res T;             (* math.sqrt *)
  npowi : T -> Z -> res T;        (* math.pow(x, n) and x ** n for an int n *)
  nfmod : T -> T -> res T;        (* math.fmod *)
  nmod  : T -> T -> res T;        (* x % y *)
  nsin  : T -> res T;
  ncos  : T -> res T;
  ntan  : T -> res T;
  nasin : T -> res T;
  nacos : T -> res T;
  natan : T -> res T;
  natan2 : T -> T -> T;           (* math.atan2(y, x) never raises *)
  nexp  : T -> res T;
  nlog  : T -> res T;
  ntrunc : T -> res Z             (* int(x) *)
}.

Declare Scope num_scope.
Delimit Scope num_scope with num.
Infix "+" := nadd : num_scope.
Infix "-" := nsub : num_scope.
Infix "*" := nmul : num_scope.
Notation "- x" := (nneg x) : num_scope.
Infix "<?" := nltb : num_scope.
Infix "<=?" := nleb : num_scope.
Infix "=?" := neqb : num_scope.
Notation "x >? y" := (nltb y x) : num_scope.
Notation "x >=? y" := (nleb y x) : num_scope.

(** [num n] is the integer literal n, [nlit n d] the decimal literal n/d. *)
Notation num n := (nlit n 1).

Section Consts.
  Context {T : Type} `{Num T}.
  Local Open Scope num_scope.

  (** Builtins [min(a, b)] / [max(a, b)]: CPython keeps the first argument
      unless the second is strictly smaller / greater. *)
  (** builtin min(a, b), e.g. rect_2d.py:327-330, 780-783, sector_2d.py:53-68 *)
  Definition nmin (a b : T) : T := if b <? a then b else a.
  (** builtin max(a, b), e.g. rect_2d.py:327-330, 780-783, sector_2d.py:53-68 *)
  Definition nmax (a b : T) : T := if b >? a then b else a.

  (** math_values.py:5 *)
  Definition EPSILON : T := nlit 1 1000000.
  (** math_values.py:8 *)
  Definition CALC_ERROR : T := nlit 1 1000000000.
  (** math_values.py:9 *)
  Definition ERROR_VALUE : T := nlit 100000000000000000000 1.
  (** math_values.py:6.  The division is by the non-zero literal 180.0, so the
      [Raise] branch is dead in every instance (NumR.v / NumF.v prove it). *)
  Definition DEG2RAD : T :=
    match ndiv nPI (num 180) with Ok v => v | Raise _ => nPI end.
  (** math_values.py:7; same remark (PI is non-zero). *)
  Definition RAD2DEG : T :=
    match ndiv (num 180) nPI with Ok v => v | Raise _ => nPI end.
End Consts.
