(** * NumP: Python numbers, an int of any size or a float

    The coordinates of a vector are whatever numbers the caller gave: ints stay
    ints (vector_2d.py:51-57).  An int is an exact integer of any size; int with
    int gives an int for + - * and %, a correctly rounded float for /; an int met
    by a float is converted first, and so is the argument of a math function;
    comparisons of an int with a float are exact (CPython, Objects/longobject.c
    and floatobject.c).

    Two simplifications.  The record [Num] has one form of literal, so a literal
    with a whole value is an int here, also where the source writes 0.0 or 2.0,
    and one absolute value, which is math.fabs here, and one power, which is
    math.pow here.  And where + - * would convert an int too large for a double
    (beyond 2^1024, where Python raises OverflowError) the operand is an
    infinity.  Theorems about this instance are about functions in which literals
    with a whole value occur in comparisons only, or where a whole float added to the number gives
    the same value (C196), and say so. *)
From Coq Require Import ZArith List Bool Lia Reals.
From Flocq Require Import Core BinarySingleNaN.
From Verif Require Import Base NumF.
Local Open Scope Z_scope.

Inductive pynum := PyI (z : Z) | PyF (f : F).

(** int.__float__, OverflowError beyond the doubles *)
Definition to_float (x : pynum) : res F :=
  match x with
  | PyF f => Ok f
  | PyI z => let f := F_of_Z z in if is_finite f then Ok f else Raise OverflowError
  end.
(** the operand of a mixed operation *)
Definition fl (x : pynum) : F := match x with PyF f => f | PyI z => F_of_Z z end.

(** int op int, otherwise float op float *)
Definition py_arith (iop : Z -> Z -> Z) (fop : F -> F -> F) (x y : pynum) : pynum :=
  match x, y with
  | PyI a, PyI b => PyI (iop a b)
  | _, _ => PyF (fop (fl x) (fl y))
  end.

(** comparison of an int with a float (float_richcompare): exact; None with NaN *)
Definition cmp_ZF (a : Z) (f : F) : option comparison :=
  match f with
  | B754_nan => None
  | B754_infinity s => Some (if s then Gt else Lt)
  | B754_zero _ => Some (a ?= 0)
  | B754_finite s m e _ =>
      let z := cond_Zopp s (Zpos m) in
      Some (if 0 <=? e then a ?= z * 2 ^ e else a * 2 ^ (- e) ?= z)
  end.
Definition py_cmp (x y : pynum) : option comparison :=
  match x, y with
  | PyI a, PyI b => Some (a ?= b)
  | PyF f, PyF g => Bcompare f g
  | PyI a, PyF g => cmp_ZF a g
  | PyF f, PyI b => option_map CompOpp (cmp_ZF b f)
  end.
Definition py_ltb (x y : pynum) : bool := match py_cmp x y with Some Lt => true | _ => false end.
Definition py_leb (x y : pynum) : bool := match py_cmp x y with Some Lt | Some Eq => true | _ => false end.
Definition py_eqb (x y : pynum) : bool := match py_cmp x y with Some Eq => true | _ => false end.

(** int / int: the double nearest to the exact quotient, OverflowError if there is none (long_true_divide) *)
Definition int_div (a b : Z) : res F :=
  let q := round radix2 (FLT_exp (-1074) 53) ZnearestE (IZR a / IZR b) in
  let f := binary_normalize 53 1024 _ _ mode_NE (Ztrunc (scaled_mantissa radix2 (FLT_exp (-1074) 53) q))
             (cexp radix2 (FLT_exp (-1074) 53) q) (Z.ltb a 0 && Z.ltb 0 b || Z.ltb 0 a && Z.ltb b 0) in
  if is_finite f then Ok f else Raise OverflowError.

(** a function of the math module *)
Definition py_math (g : F -> res F) (x : pynum) : res pynum :=
  (f <- to_float x ;; r <- g f ;; Ok (PyF r))%py.

Section Inst.
  Variable L : libm.
  Definition NumP : Num pynum := {|
    nlit := fun n d => match d with xH => PyI n | _ => PyF (F_lit n d) end;
    nofZ := PyI;
    nPI := PyF F_PI;
    nadd := py_arith Z.add (Bplus mode_NE);
    nsub := py_arith Z.sub (Bminus mode_NE);
    nmul := py_arith Z.mul (Bmult mode_NE);
    nneg := fun x => match x with PyI a => PyI (- a) | PyF f => PyF (Bopp f) end;
    nabs := fun x => PyF (Babs (fl x));
    ndiv := fun x y =>
      match x, y with
      | PyI a, PyI b => if Z.eqb b 0 then Raise ZeroDivisionError else (q <- int_div a b ;; Ok (PyF q))%py
      | _, _ => (f <- to_float x ;; g <- to_float y ;; r <- F_div f g ;; Ok (PyF r))%py
      end;
    nltb := py_ltb;
    nleb := py_leb;
    neqb := py_eqb;
    nsqrt := py_math F_sqrt;
    npowi := fun x n => py_math (fun f => F_powi L f n) x;
    nfmod := fun x y => (f <- to_float x ;; g <- to_float y ;; r <- F_fmod f g ;; Ok (PyF r))%py;
    nmod := fun x y =>
      match x, y with
      | PyI a, PyI b => if Z.eqb b 0 then Raise ZeroDivisionError else Ok (PyI (a mod b))
      | _, _ => (f <- to_float x ;; g <- to_float y ;; r <- F_mod f g ;; Ok (PyF r))%py
      end;
    nsin := py_math (F_math1 (lm_sin L) false);
    ncos := py_math (F_math1 (lm_cos L) false);
    ntan := py_math (F_math1 (lm_tan L) false);
    nasin := py_math (F_math1 (lm_asin L) false);
    nacos := py_math (F_math1 (lm_acos L) false);
    natan := py_math (F_math1 (lm_atan L) false);
    natan2 := fun y x => PyF (lm_atan2 L (fl y) (fl x));
    nexp := py_math (F_math1 (lm_exp L) true);
    nlog := py_math (F_log L);
    ntrunc := fun x => match x with PyI z => Ok z | PyF f => F_trunc f end
  |}.
End Inst.

(** the number an int or a finite float stands for *)
Definition value (x : pynum) : R := match x with PyI z => IZR z | PyF f => B2R f end.
Definition finite_num (x : pynum) : bool := match x with PyI _ => true | PyF f => is_finite f end.

(** comparisons are comparisons of the values *)
Lemma cmp_ZF_ok a f : is_finite f = true -> cmp_ZF a f = Some (Rcompare (IZR a) (B2R f)).
Proof.
  destruct f as [s|s| |s m e H]; try discriminate; intros _; cbn [cmp_ZF B2R].
  - now rewrite Rcompare_IZR.
  - f_equal. unfold F2R. cbn [Fnum Fexp]. destruct (Z.leb_spec 0 e) as [E|E].
    + rewrite <- (IZR_Zpower radix2 e E), <- mult_IZR, Rcompare_IZR. reflexivity.
    + rewrite <- (Rcompare_mult_r (bpow radix2 (- e)) (IZR a)) by apply bpow_gt_0. rewrite Rmult_assoc, <- bpow_plus. replace (e + - e) with 0 by ring.
      rewrite Rmult_1_r, <- (IZR_Zpower radix2 (- e)) by lia. rewrite <- mult_IZR, Rcompare_IZR. reflexivity.
Qed.
Lemma py_cmp_ok x y : finite_num x = true -> finite_num y = true -> py_cmp x y = Some (Rcompare (value x) (value y)).
Proof.
  destruct x as [a|f], y as [b|g]; cbn [finite_num py_cmp value]; intros X Y.
  - now rewrite Rcompare_IZR.
  - now apply cmp_ZF_ok.
  - rewrite cmp_ZF_ok by assumption. cbn [option_map]. f_equal. now rewrite Rcompare_sym, CompOpp_involutive.
  - now apply Bcompare_correct.
Qed.
Lemma py_ltb_ok x y : finite_num x = true -> finite_num y = true -> py_ltb x y = Rlt_bool (value x) (value y).
Proof. intros X Y. unfold py_ltb, Rlt_bool. rewrite py_cmp_ok by assumption. now destruct (Rcompare _ _). Qed.
Lemma py_leb_ok x y : finite_num x = true -> finite_num y = true -> py_leb x y = Rle_bool (value x) (value y).
Proof. intros X Y. unfold py_leb, Rle_bool. rewrite py_cmp_ok by assumption. now destruct (Rcompare _ _). Qed.
Lemma py_eqb_ok x y : finite_num x = true -> finite_num y = true -> py_eqb x y = Req_bool (value x) (value y).
Proof. intros X Y. unfold py_eqb, Req_bool. rewrite py_cmp_ok by assumption. now destruct (Rcompare _ _). Qed.
