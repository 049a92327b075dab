(** * NumF: the IEEE-754 binary64 instance (Flocq, BinarySingleNaN).

    CPython float semantics: round to nearest even, no trapping for
    overflow in + - * / (result is an infinity), ZeroDivisionError for a zero
    divisor, ValueError/OverflowError in the math module as documented in
    CPython's Modules/mathmodule.c.  The C library functions are an arbitrary
    record [libm]; theorems quantify over it.  Python ints that the code mixes
    in (literals such as 180, default coordinates 0) are represented by their
    float value, which gives the same results in mixed arithmetic. *)
From Coq Require Import ZArith List Bool Lia.
From Flocq Require Import Core BinarySingleNaN.
From Verif Require Import Base.

Notation F := (binary_float 53 1024).
#[export] Instance prec53 : Prec_gt_0 53 := eq_refl.
#[export] Instance emax1024 : Prec_lt_emax 53 1024 := eq_refl.

(** Conversion of an integer, correctly rounded (int.__float__).  An integer
    too large for a double raises OverflowError in Python; here it becomes an
    infinity.  The model only converts literals and the integers of r_int,
    which are within one of a finite double and so never overflow. *)
Definition F_of_Z (n : Z) : F := binary_normalize 53 1024 _ _ mode_NE n 0 false.
Definition F_lit (n : Z) (d : positive) : F :=
  match d with
  | xH => F_of_Z n
  | _ => Bdiv mode_NE (F_of_Z n) (F_of_Z (Zpos d))
  end.
(** The double nearest to the literal 3.14159265358979323846 *)
Definition F_PI : F := binary_normalize 53 1024 _ _ mode_NE 884279719003555 (-48) false.

(** C library functions, arbitrary *)
Record libm := {
  lm_sin : F -> F; lm_cos : F -> F; lm_tan : F -> F;
  lm_asin : F -> F; lm_acos : F -> F; lm_atan : F -> F;
  lm_atan2 : F -> F -> F; lm_exp : F -> F; lm_log : F -> F;
  lm_pow : F -> F -> F }.

Definition F_is_zero (x : F) : bool := Beqb x (F_of_Z 0).
Definition F_is_inf (x : F) : bool :=
  match x with B754_infinity _ => true | _ => false end.

(** float.__truediv__ *)
Definition F_div (x y : F) : res F :=
  if F_is_zero y then Raise ZeroDivisionError else Ok (Bdiv mode_NE x y).

(** math.sqrt *)
Definition F_sqrt (x : F) : res F :=
  if Bltb x (F_of_Z 0) then Raise ValueError else Ok (Bsqrt mode_NE x).

(** C fmod is exact: for finite x = mx 2^ex and y = my 2^ey it is the integer
    remainder at the common exponent, with the sign of x. *)
Definition F_fmod_fin (x y : F) : F :=
  match x, y with
  | B754_finite sx mx ex _, B754_finite sy my ey _ =>
      let e := Z.min ex ey in
      let ix := (cond_Zopp sx (Zpos mx) * 2 ^ (ex - e))%Z in
      let iy := (Zpos my * 2 ^ (ey - e))%Z in
      binary_normalize 53 1024 _ _ mode_NE (Z.rem ix iy) e sx
  | _, _ => x
  end.
(** math.fmod: ValueError for an infinite x or a zero y (unless NaN) *)
Definition F_fmod (x y : F) : res F :=
  match x, y with
  | B754_nan, _ => Ok B754_nan
  | _, B754_nan => Ok B754_nan
  | B754_infinity _, _ => Raise ValueError
  | _, B754_zero _ => Raise ValueError
  | _, B754_infinity _ => Ok x
  | _, _ => Ok (F_fmod_fin x y)
  end.
(** float.__mod__ (Objects/floatobject.c, float_rem) *)
Definition F_mod (x y : F) : res F :=
  if F_is_zero y then Raise ZeroDivisionError
  else
    let m := match x, y with
             | B754_nan, _ | _, B754_nan | B754_infinity _, _ => B754_nan
             | _, B754_infinity _ => x
             | _, _ => F_fmod_fin x y
             end in
    if is_nan m then Ok m
    else if F_is_zero m then Ok (B754_zero (Bsign y))
    else if Bool.eqb (Bltb y (F_of_Z 0)) (Bltb m (F_of_Z 0)) then Ok m
    else Ok (Bplus mode_NE m y).

(** math_1 of mathmodule.c: a NaN from a non-NaN argument is a domain error,
    an infinity from a finite argument an overflow or a domain error. *)
Definition F_math1 (f : F -> F) (can_overflow : bool) (x : F) : res F :=
  let r := f x in
  if is_nan r && negb (is_nan x) then Raise ValueError
  else if F_is_inf r && is_finite x
       then Raise (if can_overflow then OverflowError else ValueError)
       else Ok r.

(** math.log: ValueError for arguments <= 0 *)
Definition F_log (L : libm) (x : F) : res F :=
  if Bleb x (F_of_Z 0) then Raise ValueError else Ok (lm_log L x).

(** math.pow(x, n) / x ** n with an int exponent; an int beyond the range of doubles cannot be converted *)
Definition F_powi (L : libm) (x : F) (n : Z) : res F :=
  let r := lm_pow L x (F_of_Z n) in
  if is_finite (F_of_Z n) then
    if is_finite x then
      if is_nan r then Raise ValueError
      else if F_is_inf r then
             Raise (if F_is_zero x then ValueError else OverflowError)
           else Ok r
    else Ok r
  else Raise OverflowError.

(** int(x) *)
Definition F_trunc (x : F) : res Z :=
  match x with
  | B754_nan => Raise ValueError
  | B754_infinity _ => Raise OverflowError
  | _ => Ok (Btrunc x)
  end.

Section Inst.
  Variable L : libm.
  Definition NumF : Num F := {|
    nlit := F_lit;
    nofZ := F_of_Z;
    nPI := F_PI;
    nadd := Bplus mode_NE;
    nsub := Bminus mode_NE;
    nmul := Bmult mode_NE;
    nneg := Bopp;
    nabs := Babs;
    ndiv := F_div;
    nltb := Bltb;
    nleb := Bleb;
    neqb := Beqb;
    nsqrt := F_sqrt;
    npowi := F_powi L;
    nfmod := F_fmod;
    nmod := F_mod;
    nsin := F_math1 (lm_sin L) false;
    ncos := F_math1 (lm_cos L) false;
    ntan := F_math1 (lm_tan L) false;
    nasin := F_math1 (lm_asin L) false;
    nacos := F_math1 (lm_acos L) false;
    natan := F_math1 (lm_atan L) false;
    natan2 := lm_atan2 L;
    nexp := F_math1 (lm_exp L) true;
    nlog := F_log L;
    ntrunc := F_trunc
  |}.
End Inst.

(** A double given by an integer and a power of two, for concrete cases. *)
Definition Fd (m e : Z) : F := binary_normalize 53 1024 _ _ mode_NE m e false.
