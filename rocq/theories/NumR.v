(** * NumR: the ideal-real instance of the number interface.

    Arithmetic is exact; literals denote their exact decimal value; the
    literal PI (math_values.py:4) is idealised to the real number pi; there is
    no overflow, infinity or NaN.  Exceptions are Python's: division by zero,
    square root of a negative number, math domain errors. *)
From Coq Require Import ZArith List Bool Reals Lra Lia.
From Flocq Require Import Core.
From Verif Require Import Base.
Local Open Scope R_scope.

(** math.atan2 on finite arguments *)
Definition Ratan2 (y x : R) : R :=
  if Rlt_bool 0 x then atan (y / x)
  else if Rlt_bool x 0 then
         if Rle_bool 0 y then atan (y / x) + PI else atan (y / x) - PI
       else if Rlt_bool 0 y then PI / 2
            else if Rlt_bool y 0 then - (PI / 2) else 0.

Definition Rlit (n : Z) (d : positive) : R :=
  match d with xH => IZR n | _ => IZR n / IZR (Zpos d) end.

Definition Rdiv_py (x y : R) : res R :=
  if Req_bool y 0 then Raise ZeroDivisionError else Ok (x / y).
Definition Rsqrt_py (x : R) : res R :=
  if Rlt_bool x 0 then Raise ValueError else Ok (sqrt x).
Definition Rpowi_py (x : R) (n : Z) : res R :=
  if Z.ltb n 0 && Req_bool x 0 then Raise ValueError else Ok (powerRZ x n).
Definition Rfmod_py (x y : R) : res R :=
  if Req_bool y 0 then Raise ValueError else Ok (x - y * IZR (Ztrunc (x / y))).
Definition Rmod_py (x y : R) : res R :=
  if Req_bool y 0 then Raise ZeroDivisionError
  else Ok (x - y * IZR (Zfloor (x / y))).
Definition Rasin_py (x : R) : res R :=
  if Rle_bool (-1) x && Rle_bool x 1 then Ok (asin x) else Raise ValueError.
Definition Racos_py (x : R) : res R :=
  if Rle_bool (-1) x && Rle_bool x 1 then Ok (acos x) else Raise ValueError.
Definition Rlog_py (x : R) : res R :=
  if Rle_bool x 0 then Raise ValueError else Ok (ln x).

#[export] Instance NumR : Num R := {|
  nlit := Rlit;
  nofZ := IZR;
  nPI := PI;
  nadd := Rplus;
  nsub := Rminus;
  nmul := Rmult;
  nneg := Ropp;
  nabs := Rabs;
  ndiv := Rdiv_py;
  nltb := Rlt_bool;
  nleb := Rle_bool;
  neqb := Req_bool;
  nsqrt := Rsqrt_py;
  npowi := Rpowi_py;
  nfmod := Rfmod_py;
  nmod := Rmod_py;
  nsin := fun x => Ok (sin x);
  ncos := fun x => Ok (cos x);
  ntan := fun x => Ok (tan x);
  nasin := Rasin_py;
  nacos := Racos_py;
  natan := fun x => Ok (atan x);
  natan2 := Ratan2;
  nexp := fun x => Ok (exp x);
  nlog := Rlog_py;
  ntrunc := fun x => Ok (Ztrunc x)
|}.
