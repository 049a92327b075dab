(** * P_SafeSoccer: which calls of soccer_math can raise in doubles (C182) *)
From Coq Require Import ZArith List Bool String Reals Lra Lia Psatz.
From Flocq Require Import Core BinarySingleNaN Plus_error.
From Verif Require Import Base Types NumR NumF R_Tac Spec Abs M_Angle M_Vector M_Soccer
  L_Float P_Float P_AngleF P_Soccer2 P_Robust P_Hull2 P_VecF P_TrigF P_LineF P_MatF P_SoccerF P_SafeF P_AngleF3.
Import ListNotations.
Local Open Scope R_scope.

Lemma zero_R (x : F) : is_finite x = true -> F_is_zero x = true <-> B2R x = 0.
Proof.
  intros Fx. rewrite zero_iff. split; [intros [s ->]; reflexivity|]. intros E. destruct x as [s|s| |s m e B]; try discriminate; [now exists s|].
  exfalso. cbn [B2R] in E. apply eq_0_F2R in E. destruct s; discriminate E.
Qed.
(** a sum of doubles is zero only if it is exactly zero *)
Lemma rnd_sum_zero (x y : F) : rnd64 (B2R x + B2R y) = 0 -> B2R x + B2R y = 0.
Proof.
  intros E. destruct (Req_dec (B2R x + B2R y) 0) as [H|H]; [exact H|exfalso]. revert E. apply round_plus_neq_0; try exact H; try apply fmt_F; typeclasses eauto.
Qed.
Lemma add_zero (x y : F) : F_is_zero (Bplus mode_NE x y) = true -> is_finite x = true /\ is_finite y = true /\ B2R x + B2R y = 0.
Proof.
  intros Z. destruct (is_finite x) eqn:Fx, (is_finite y) eqn:Fy.
  - split; [easy|split; [easy|]]. pose proof (Bplus_correct 53 1024 _ _ mode_NE x y Fx Fy) as C. change (round radix2 (SpecFloat.fexp 53 1024) (round_mode mode_NE) (B2R x + B2R y)) with (rnd64 (B2R x + B2R y)) in C.
    destruct (Rlt_or_le (Rabs (rnd64 (B2R x + B2R y))) (bpow radix2 1024)) as [H1|H1].
    + rewrite Rlt_bool_true in C by exact H1. destruct C as (C1 & C2 & _). apply zero_R in Z; [|exact C2]. rewrite C1 in Z. now apply rnd_sum_zero.
    + rewrite Rlt_bool_false in C by exact H1. destruct C as [C _]. apply zero_iff in Z. destruct Z as [s Z]. rewrite Z in C. discriminate C.
  - exfalso. apply zero_iff in Z. destruct Z as [s Z]. destruct y as [t|t| |t m e B]; try discriminate Fy; destruct x as [r|r| |r m e B]; try discriminate Fx; discriminate Z.
  - exfalso. apply zero_iff in Z. destruct Z as [s Z]. destruct x as [t|t| |t m e B]; try discriminate Fx; destruct y as [r|r| |r m e B]; try discriminate Fy; discriminate Z.
  - exfalso. apply zero_iff in Z. destruct Z as [s Z]. destruct x as [t|t| |t m e B]; try discriminate Fx; destruct y as [r|r| |r n f C]; try discriminate Fy; try discriminate Z. destruct t, r; discriminate Z.
Qed.
Lemma minus_plus (x y : F) : Bminus mode_NE x y = Bplus mode_NE x (Bopp y).
Proof. destruct x, y; reflexivity. Qed.
(** the double one *)
Definition is_one (x : F) : Prop := is_finite x = true /\ B2R x = 1.
Lemma is_one_eq x : is_one x -> x = fone.
Proof. intros [A B]. destruct one_F as [E1 E2]. apply B2R_inj; [destruct x; try discriminate; try (cbn in B; lra); reflexivity|reflexivity|now rewrite B, E1]. Qed.
Lemma one_minus_zero (d : F) : F_is_zero (Bminus mode_NE fone d) = true <-> is_one d.
Proof.
  split.
  - intros Z. rewrite minus_plus in Z. apply add_zero in Z. destruct one_F as [E1 E2]. destruct Z as (_ & Fd & S). rewrite is_finite_Bopp in Fd. rewrite B2R_Bopp, E1 in S. split; [exact Fd|lra].
  - intros H. apply is_one_eq in H. subst d. vm_compute. reflexivity.
Qed.

(** ** Divisions *)
Lemma div_out (x y : F) : (F_is_zero y = true -> F_div x y = Raise ZeroDivisionError) /\ (F_is_zero y = false -> returns (F_div x y)).
Proof. split; intros H; [unfold F_div; now rewrite H|now apply ret_div]. Qed.
Lemma notneg_mul (x y : F) : notneg x -> notneg y -> is_finite (Bmult mode_NE x y) = true -> 0 <= B2R (Bmult mode_NE x y).
Proof.
  intros X Y Fp. destruct (F_of_Z_exact 0 eq_refl) as [Z1 Z2].
  assert (G : forall z : F, notneg z -> is_finite z = true -> 0 <= B2R z) by (intros z N Fz; unfold notneg in N; rewrite ltb_F in N by assumption; rewrite Z1 in N; now apply Rnot_lt_le; intros K; rewrite Rlt_bool_true in N).
  destruct (is_finite x) eqn:Fx; [destruct (is_finite y) eqn:Fy|].
  - pose proof (Bmult_correct 53 1024 _ _ mode_NE x y) as C. change (round radix2 (SpecFloat.fexp 53 1024) (round_mode mode_NE) (B2R x * B2R y)) with (rnd64 (B2R x * B2R y)) in C.
    destruct (Rlt_or_le (Rabs (rnd64 (B2R x * B2R y))) (bpow radix2 1024)) as [H1|H1].
    + rewrite Rlt_bool_true in C by exact H1. destruct C as (C1 & _). rewrite C1. rewrite <- (rnd_id 0) by apply generic_format_0. apply rnd_le. apply Rmult_le_pos; now apply G.
    + rewrite Rlt_bool_false in C by exact H1. destruct (Bmult mode_NE x y); discriminate.
  - destruct y as [t|t| |t m e B]; try discriminate Fy; destruct x as [r|r| |r m e B]; try discriminate Fx; discriminate Fp.
  - destruct x as [t|t| |t m e B]; try discriminate Fx; destruct y as [r|r| |r m e B]; discriminate Fp.
Qed.
(** C182: for any doubles at all, infinities and NaN included: the formulas that divide by 1 - decay raise
    ZeroDivisionError exactly when the decay is 1, kick_rate exactly when the margin is 0, dir_rate never raises, and
    effective_turn does not unless the inertia moment or the speed is negative. *)
Theorem C182_divisions_F : forall (L : libm) (a b c decay e margin : F) (pos vel : vec F),
  (is_one decay -> @final_speed F (NumF L) a b c decay = Raise ZeroDivisionError /\ @inertia_final_travel F (NumF L) vel decay = Raise ZeroDivisionError /\
     @inertia_final_point F (NumF L) pos vel decay = Raise ZeroDivisionError /\ @inertia_final_distance F (NumF L) a decay = Raise ZeroDivisionError) /\
  (~ is_one decay -> returns (@final_speed F (NumF L) a b c decay) /\ returns (@inertia_final_travel F (NumF L) vel decay) /\
     returns (@inertia_final_point F (NumF L) pos vel decay) /\ returns (@inertia_final_distance F (NumF L) a decay)) /\
  (F_is_zero margin = true -> @kick_rate F (NumF L) a b c decay e margin = Raise ZeroDivisionError) /\
  (F_is_zero margin = false -> returns (@kick_rate F (NumF L) a b c decay e margin)) /\
  returns (@dir_rate F (NumF L) a b c) /\
  (Bltb b (F_of_Z 0) = false -> Bltb c (F_of_Z 0) = false -> returns (@effective_turn F (NumF L) a b c)).
Proof.
  intros L a b c decay e margin pos vel.
  unfold final_speed, inertia_final_point, inertia_final_travel, inertia_final_distance, Vector2D_truediv. cbn [vx vy V]. change (@nlit F (NumF L) 1 1) with fone. cbn [nsub ndiv nmul nabs NumF].
  split; [|split; [|split; [|split; [|split]]]].
  - intros H. apply one_minus_zero in H. split; [now apply div_out|]. rewrite (proj1 (div_out (vx vel) _) H). cbn [bind]. split; [reflexivity|]. split; [reflexivity|]. now apply div_out.
  - intros H. assert (Z : F_is_zero (Bminus mode_NE fone decay) = false) by (destruct (F_is_zero (Bminus mode_NE fone decay)) eqn:E; [apply one_minus_zero in E; contradiction|reflexivity]).
    split; [now apply div_out|]. destruct (ret_div (vx vel) _ Z) as [x ->]. destruct (ret_div (vy vel) _ Z) as [y ->]. cbn [bind]. split; [apply ret_ok|]. split; [apply ret_ok|]. now apply div_out.
  - intros H. unfold kick_rate. cbn [ndiv NumF]. assert (Z : F_is_zero (@nlit F (NumF L) 180 1) = false) by (vm_compute; reflexivity). match goal with |- context [F_div ?x (nlit 180 1)] => destruct (ret_div x _ Z) as [y ->] end. cbn [bind]. now rewrite (proj1 (div_out _ _) H).
  - intros H. unfold kick_rate. cbn [ndiv NumF]. assert (Z : F_is_zero (@nlit F (NumF L) 180 1) = false) by (vm_compute; reflexivity). apply ret_bind; [now apply ret_div|]. intros x _. apply ret_bind; [now apply ret_div|]. intros; apply ret_ok.
  - unfold dir_rate. assert (Z : F_is_zero (@nlit F (NumF L) 90 1) = false) by (vm_compute; reflexivity). ret_if; (apply ret_bind; [now apply ret_div|]; intros; apply ret_ok).
  - intros B C. unfold effective_turn. change (@nlit F (NumF L) 1 1) with fone. cbn [ndiv nadd nmul NumF]. apply ret_div. destruct (F_is_zero _) eqn:Z; [|reflexivity]. exfalso. apply add_zero in Z. destruct Z as (_ & Fp & S).
    pose proof (notneg_mul c b C B Fp). destruct one_F as [E1 _]. lra.
Qed.

(** ** Rounding to an integer *)
Lemma r_int_any L (x : F) : is_finite x = true -> exists n : Z, @r_int F (NumF L) x = Ok n /\ Rabs (IZR n - B2R x) < 2.
Proof.
  intros Fx. unfold r_int. cbn [ntrunc NumF]. rewrite F_trunc_R by exact Fx. cbn [bind]. eexists. split; [reflexivity|].
  assert (T : Rabs (IZR (Ztrunc (B2R x)) - B2R x) < 1).
  { destruct (Rle_or_lt 0 (B2R x)) as [P|P]; [rewrite Ztrunc_floor by exact P; pose proof (Zfloor_lb (B2R x)); pose proof (Zfloor_ub (B2R x))|rewrite Ztrunc_ceil by lra; pose proof (Zceil_ub (B2R x)); pose proof (Zceil_lb (B2R x))]; apply Rabs_def1; lra. }
  apply Rabs_def2 in T. repeat match goal with |- context [if ?b then _ else _] => destruct b end; rewrite ?minus_IZR, ?plus_IZR; apply Rabs_def1; lra.
Qed.
Lemma r_int_out L (x : F) : (x = B754_nan -> @r_int F (NumF L) x = Raise ValueError) /\ (F_is_inf x = true -> @r_int F (NumF L) x = Raise OverflowError) /\ (is_finite x = true -> returns (@r_int F (NumF L) x)).
Proof.
  split; [intros ->; reflexivity|]. split; [destruct x as [t|t| |t m e B]; intros H; try discriminate; reflexivity|]. intros H. destruct (r_int_any L x H) as (n & -> & _). apply ret_ok.
Qed.
(** The three calls that round a quotient. *)
Definition all_raise (L : libm) (v q : F) (e : exn) : Prop :=
  @quantize F (NumF L) v q = Raise e /\ @unquantize_min F (NumF L) v q = Raise e /\ @unquantize_max F (NumF L) v q = Raise e.
Definition all_return (L : libm) (v q : F) : Prop :=
  returns (@quantize F (NumF L) v q) /\ returns (@unquantize_min F (NumF L) v q) /\ returns (@unquantize_max F (NumF L) v q).
Lemma all_steps L v q : F_is_zero q = false -> (Bdiv mode_NE v q = B754_nan -> all_raise L v q ValueError) /\ (F_is_inf (Bdiv mode_NE v q) = true -> all_raise L v q OverflowError) /\
  (is_finite (Bdiv mode_NE v q) = true -> all_return L v q).
Proof.
  intros Z. unfold all_raise, all_return, quantize, unquantize_min, unquantize_max. cbn [ndiv NumF]. unfold F_div. rewrite Z. cbn [bind]. destruct (r_int_out L (Bdiv mode_NE v q)) as (A & B & C).
  split; [|split]; intros H; [rewrite (A H); repeat split|rewrite (B H); repeat split|]. destruct (C H) as [n ->]. cbn [bind]. repeat split; apply ret_ok.
Qed.
(** C182: r_int raises ValueError for NaN and OverflowError for an infinity, and returns for every finite double.
    quantize, unquantize_min and unquantize_max raise ZeroDivisionError exactly when the step is 0; otherwise
    ValueError exactly when the value or the step is NaN or both are infinite, OverflowError exactly when the value
    alone is infinite or the quotient of two finite doubles rounds past the largest double, and return in every
    other case. *)
Theorem C182_rounding_F : forall (L : libm) (v q : F),
  (v = B754_nan -> @r_int F (NumF L) v = Raise ValueError) /\ (F_is_inf v = true -> @r_int F (NumF L) v = Raise OverflowError) /\ (is_finite v = true -> returns (@r_int F (NumF L) v)) /\
  (F_is_zero q = true -> all_raise L v q ZeroDivisionError) /\
  (F_is_zero q = false ->
    (v = B754_nan \/ q = B754_nan \/ (F_is_inf v = true /\ F_is_inf q = true) -> all_raise L v q ValueError) /\
    (F_is_inf v = true -> is_finite q = true -> all_raise L v q OverflowError) /\
    (is_finite v = true -> F_is_inf q = true -> all_return L v q) /\
    (is_finite v = true -> is_finite q = true -> bpow radix2 1024 <= Rabs (rnd64 (B2R v / B2R q)) -> all_raise L v q OverflowError) /\
    (is_finite v = true -> is_finite q = true -> Rabs (rnd64 (B2R v / B2R q)) < bpow radix2 1024 -> all_return L v q)).
Proof.
  intros L v q. destruct (r_int_out L v) as (A & B & C). split; [exact A|split; [exact B|split; [exact C|]]]. split.
  - intros Z. unfold all_raise, quantize, unquantize_min, unquantize_max. cbn [ndiv NumF]. unfold F_div. rewrite Z. repeat split.
  - intros Z. destruct (all_steps L v q Z) as (N & I & R). assert (QZ : is_finite q = true -> B2R q <> 0) by (intros Fq K; apply zero_R in K; [congruence|exact Fq]).
    split; [|split; [|split; [|split]]].
    + intros [->|[->|[H1 H2]]]; apply N; [destruct q; reflexivity|destruct v; reflexivity|]. destruct v; try discriminate H1. destruct q; try discriminate H2. reflexivity.
    + intros H1 H2. apply I. destruct v; try discriminate H1. destruct q as [t|t| |t m e K]; try discriminate H2; [destruct t; vm_compute in Z; discriminate|reflexivity].
    + intros H1 H2. apply R. destruct q; try discriminate H2. destruct v; try discriminate H1; reflexivity.
    + intros H1 H2 H3. apply I. pose proof (Bdiv_correct 53 1024 _ _ mode_NE v q (QZ H2)) as D. change (round radix2 (SpecFloat.fexp 53 1024) (round_mode mode_NE) (B2R v / B2R q)) with (rnd64 (B2R v / B2R q)) in D.
      rewrite Rlt_bool_false in D by exact H3. destruct (Bdiv mode_NE v q) as [t|t| |t m e K]; cbn in D; try discriminate D. reflexivity.
    + intros H1 H2 H3. apply R. exact (proj2 (F_quot v q H1 (QZ H2) H3)).
Qed.

(** ** Powers *)
(** What is asked of the C library: 1 to any power is 1, and any number to the power 0 is 1. *)
Definition pow_ones (L : libm) : Prop := forall x : F, lm_pow L fone x = fone /\ lm_pow L x (F_of_Z 0) = fone.
Lemma powi_one L n : pow_ones L -> is_finite (F_of_Z n) = true -> @npowi F (NumF L) fone n = Ok fone.
Proof. intros P Fn. cbn [npowi NumF]. unfold F_powi. cbv zeta. rewrite (proj1 (P _)), Fn. reflexivity. Qed.
Lemma powi_zero L x : pow_ones L -> @npowi F (NumF L) x 0 = Ok fone.
Proof. intros P. cbn [npowi NumF]. unfold F_powi. cbv zeta. rewrite (proj2 (P _)). destruct (is_finite x); reflexivity. Qed.
Lemma one_one : F_is_zero (Bminus mode_NE fone fone) = true.
Proof. vm_compute. reflexivity. Qed.
(** C182: coasting n steps raises ZeroDivisionError for the decay 1, whatever n (within the doubles), and returns for a decay of at least 0
    and below 1; the first term of a geometric series raises ZeroDivisionError for the ratio 1 and for the length 0,
    and returns for ratios from 0 to 1 - 2^-51 and lengths from 1. *)
Theorem C182_coast_F : forall (L : libm) (pos vel : vec F) (a decay : F), pow_ones L -> pow_unit L ->
  (forall n : Z, is_one decay -> is_finite (F_of_Z n) = true -> @inertia_n_step_travel F (NumF L) vel n decay = Raise ZeroDivisionError /\ @inertia_n_step_point F (NumF L) pos vel n decay = Raise ZeroDivisionError /\
     @inertia_n_step_distance F (NumF L) a n decay = Raise ZeroDivisionError /\ @calc_first_term_geom_series F (NumF L) a decay n = Raise ZeroDivisionError) /\
  (@calc_first_term_geom_series F (NumF L) a decay 0 = Raise ZeroDivisionError) /\
  (forall n : Z, is_finite decay = true -> 0 <= B2R decay < 1 -> (0 <= n < 2 ^ 53)%Z -> returns (@inertia_n_step_travel F (NumF L) vel n decay) /\ returns (@inertia_n_step_point F (NumF L) pos vel n decay) /\
     returns (@inertia_n_step_distance F (NumF L) a n decay) /\ ((1 <= n)%Z -> B2R decay <= 1 - bpow radix2 (-51) -> returns (@calc_first_term_geom_series F (NumF L) a decay n))).
Proof.
  intros L pos vel a decay PO PU. split; [|split].
  - intros n H Fn. assert (Z := proj2 (one_minus_zero _) H). apply is_one_eq in H. subst decay. unfold inertia_n_step_point, inertia_n_step_travel, inertia_n_step_distance, calc_first_term_geom_series. rewrite powi_one by assumption. cbn [bind].
    change (@nlit F (NumF L) 1 1) with fone. cbn [ndiv nsub NumF]. unfold F_div. rewrite Z. repeat split.
  - unfold calc_first_term_geom_series. rewrite powi_zero by exact PO. cbn [bind]. change (@nlit F (NumF L) 1 1) with fone. cbn [ndiv nsub NumF]. unfold F_div. rewrite one_one. reflexivity.
  - intros n Fd [D0 D1] Hn. assert (EN : Z.of_nat (Z.to_nat n) = n) by lia. assert (PN := PU decay (Z.to_nat n) Fd ltac:(lra) ltac:(lia)). rewrite EN in PN. cbv zeta in PN. destruct PN as [P1 P2].
    assert (E : @npowi F (NumF L) decay n = Ok (lm_pow L decay (F_of_Z n))).
    { cbn [npowi NumF]. unfold F_powi. replace (is_finite (F_of_Z n)) with true by (symmetry; rewrite <- EN; apply exponent_finite; lia). rewrite Fd. cbv zeta. destruct (lm_pow L decay (F_of_Z n)); try discriminate P1; reflexivity. }
    assert (Z : F_is_zero (Bminus mode_NE fone decay) = false) by (destruct (F_is_zero (Bminus mode_NE fone decay)) eqn:Q; [apply one_minus_zero in Q; destruct Q; lra|reflexivity]).
    unfold inertia_n_step_point, inertia_n_step_travel, inertia_n_step_distance, calc_first_term_geom_series. rewrite E. cbn [bind]. change (@nlit F (NumF L) 1 1) with fone. cbn [ndiv nsub nmul NumF].
    destruct (ret_div (Bminus mode_NE fone (lm_pow L decay (F_of_Z n))) _ Z) as [x ->]. cbn [bind]. split; [apply ret_ok|]. split; [apply ret_ok|]. split; [now apply ret_div|]. intros N1 D2. apply ret_div.
    match goal with |- F_is_zero ?y = false => destruct (F_is_zero y) eqn:Q; [|reflexivity] end. exfalso. apply one_minus_zero in Q. destruct Q as [_ Q]. rewrite Q in P2.
    assert (K : B2R decay ^ Z.to_nat n <= B2R decay).
    { replace (Z.to_nat n) with (S (Z.to_nat (n - 1))) by lia. cbn [pow]. rewrite <- (Rmult_1_r (B2R decay)) at 3. apply Rmult_le_compat_l; [exact D0|]. rewrite <- (pow1 (Z.to_nat (n - 1))). apply pow_incr. lra. }
    apply Rabs_le_inv in P2. assert (B : bpow radix2 (-52) < bpow radix2 (-51)) by (apply bpow_lt; lia). lra.
Qed.

(** ** Logarithms and exponentials *)
(** What is asked of the C library: the logarithm of a positive finite double within the relative error 2^-52, the
    exponential of a finite double up to 620 within the relative error 2^-52, plus half the smallest double. *)
Definition log_accurate (L : libm) : Prop := forall x : F, is_finite x = true -> 0 < B2R x -> is_finite (lm_log L x) = true /\ Rabs (B2R (lm_log L x) - ln (B2R x)) <= bpow radix2 (-52) * Rabs (ln (B2R x)).
Definition exp_accurate (L : libm) : Prop := forall x : F, is_finite x = true -> B2R x <= 620 -> is_finite (lm_exp L x) = true /\ Rabs (B2R (lm_exp L x) - exp (B2R x)) <= bpow radix2 (-52) * exp (B2R x) + bpow radix2 (-1074).
Lemma seps_val L : is_finite (@SERVER_EPS F (NumF L)) = true /\ 0 < B2R (@SERVER_EPS F (NumF L)) /\ B2R (@SERVER_EPS F (NumF L)) < 1 / 100.
Proof.
  assert (E : B2SF (@SERVER_EPS F (NumF L)) = SpecFloat.S754_finite false 7737125245533627 (-86)) by (vm_compute; reflexivity). set (e := @SERVER_EPS F (NumF L)) in *. clearbody e.
  destruct e as [t|t| |t m x B]; try discriminate E. injection E as -> -> ->. split; [reflexivity|]. cbn [B2R cond_Zopp]. unfold F2R. cbn [Fnum Fexp]. change (bpow radix2 (-86)) with (/ 77371252455336267181195264). lra.
Qed.
Lemma log_zero L (x : F) : log_accurate L -> is_finite x = true -> 0 < B2R x -> F_is_zero (lm_log L x) = true <-> B2R x = 1.
Proof.
  intros LA Fx P. destruct (LA x Fx P) as [A B]. rewrite zero_R by exact A. split.
  - intros E. rewrite E, Rminus_0_l, Rabs_Ropp in B. pose proof (Rabs_pos (ln (B2R x))) as N. assert (Z : Rabs (ln (B2R x)) = 0) by (assert (bpow radix2 (-52) < 1) by (change 1 with (bpow radix2 0); apply bpow_lt; lia); nra).
    destruct (Req_dec (ln (B2R x)) 0) as [K|K]; [|now apply Rabs_no_R0 in K]. apply ln_inv; [exact P|lra|]. now rewrite K, ln_1.
  - intros E. rewrite E, ln_1, Rabs_R0, Rmult_0_r, Rminus_0_r in B. pose proof (Rabs_pos (B2R (lm_log L x))) as N. destruct (Req_dec (B2R (lm_log L x)) 0) as [K|K]; [exact K|]. apply Rabs_no_R0 in K. lra.
Qed.
Lemma log_ret L (x : F) : Bleb x (@SERVER_EPS F (NumF L)) = false -> @nlog F (NumF L) x = Ok (lm_log L x).
Proof.
  intros H. cbn [nlog NumF]. unfold F_log. destruct (Bleb x (F_of_Z 0)) eqn:E; [|reflexivity]. exfalso. destruct (seps_val L) as (S1 & S2 & _). destruct (F_of_Z_exact 0 eq_refl) as [Z1 Z2].
  destruct (is_finite x) eqn:Fx.
  - rewrite leb_F in E, H by assumption. rewrite Z1 in E. revert E H. destruct (Rle_bool_spec (B2R x) 0); [|discriminate]. rewrite Rle_bool_true by lra. discriminate.
  - destruct x as [t|t| |t m e B]; try discriminate Fx; [|discriminate E]. destruct t; [|discriminate E]. vm_compute in H. discriminate H.
Qed.
(** C182: the length of a geometric series raises only ZeroDivisionError, and exactly when the ratio is 1 and
    neither the first term nor the sum is at most SERVER_EPS; the ratio is any finite double, the other two are any
    doubles. *)
Theorem C182_series_F : forall (L : libm) (first_term sum_all ratio : F), log_accurate L -> is_finite ratio = true ->
  let stuck := Bleb first_term (@SERVER_EPS F (NumF L)) = false /\ Bleb sum_all (@SERVER_EPS F (NumF L)) = false /\ B2R ratio = 1 in
  (stuck -> @calc_length_geom_series F (NumF L) first_term sum_all ratio = Raise ZeroDivisionError) /\
  (~ stuck -> returns (@calc_length_geom_series F (NumF L) first_term sum_all ratio)).
Proof.
  intros L a s r LA Fr stuck. unfold calc_length_geom_series. cbn [nleb nltb ndiv nmul nsub nadd NumF]. change (@nlit F (NumF L) 1 1) with fone. change (@nlit F (NumF L) 0 1) with (F_of_Z 0).
  destruct (seps_val L) as (S1 & S2 & S3).
  assert (NZ : Bleb a (@SERVER_EPS F (NumF L)) = false -> F_is_zero a = false).
  { intros H. destruct (F_is_zero a) eqn:E; [|reflexivity]. apply zero_iff in E. destruct E as [t ->]. destruct t; vm_compute in H; discriminate. }
  assert (SN : Bleb s (@SERVER_EPS F (NumF L)) = false -> Bltb s (F_of_Z 0) = false).
  { intros H. destruct (Bltb s (F_of_Z 0)) eqn:E; [|reflexivity]. exfalso. destruct (F_of_Z_exact 0 eq_refl) as [Z1 Z2]. destruct (is_finite s) eqn:Fs.
    - rewrite ltb_F in E by assumption. rewrite leb_F in H by assumption. rewrite Z1 in E. revert E H. destruct (Rlt_bool_spec (B2R s) 0); [|discriminate]. rewrite Rle_bool_true by lra. discriminate.
    - destruct s as [t|t| |t m e B]; try discriminate Fs; [|discriminate E]. destruct t; [|discriminate E]. vm_compute in H. discriminate H. }
  split.
  - intros (H1 & H2 & H3). assert (ER : r = fone) by (apply is_one_eq; now split). rewrite H1, H2, (SN H2). rewrite ER at 1. replace (Bleb fone (@SERVER_EPS F (NumF L))) with false by (vm_compute; reflexivity). cbn [orb].
    destruct (ret_div (Bmult mode_NE s (Bminus mode_NE r fone)) a (NZ H1)) as [q Q]. rewrite Q. cbn [bind].
    assert (T : Bleb (Bplus mode_NE fone q) (@SERVER_EPS F (NumF L)) = false).
    { assert (ED : Bminus mode_NE r fone = B754_zero false) by (rewrite ER; vm_compute; reflexivity). rewrite ED in Q. unfold F_div in Q. rewrite (NZ H1) in Q. injection Q as <-.
      assert (K : Bdiv mode_NE (Bmult mode_NE s (B754_zero false)) a = B754_nan \/ exists t, Bdiv mode_NE (Bmult mode_NE s (B754_zero false)) a = B754_zero t).
      { specialize (NZ H1). destruct s as [t|t| |t m e B]; [|left; destruct a; reflexivity|left; destruct a; reflexivity|]; (destruct a as [u|u| |u n f C]; [destruct u; discriminate NZ|right; eexists; cbn [Bmult Bdiv]; reflexivity|left; reflexivity|right; eexists; cbn [Bmult Bdiv]; reflexivity]). }
      destruct K as [->|[t ->]]; [reflexivity|]. destruct t; vm_compute; reflexivity. }
    rewrite T, (log_ret L _ T). cbn [bind]. assert (TR : Bleb r (@SERVER_EPS F (NumF L)) = false) by (rewrite ER; vm_compute; reflexivity). rewrite (log_ret L _ TR). cbn [bind]. apply div_out. apply (log_zero L r LA Fr); lra.
  - intros H. destruct (Bleb a _) eqn:A; [apply ret_ok|]. destruct (Bleb s (@SERVER_EPS F (NumF L))) eqn:S.
    + destruct (Bltb s _); [apply ret_ok|]. cbn [orb]. destruct (Bleb r _); apply ret_ok.
    + rewrite (SN eq_refl). cbn [orb]. destruct (Bleb r _) eqn:R; [apply ret_ok|]. apply ret_bind; [apply ret_div, NZ; reflexivity|]. intros q _. destruct (Bleb (Bplus mode_NE fone q) _) eqn:T; [apply ret_ok|].
      rewrite (log_ret L _ T), (log_ret L _ R). cbn [bind]. apply ret_div. match goal with |- F_is_zero ?y = false => destruct (F_is_zero y) eqn:Q; [|reflexivity] end. exfalso. apply H. split; [reflexivity|]. split; [reflexivity|].
      apply (log_zero L r LA Fr); [|exact Q]. rewrite leb_F in R by assumption. revert R. destruct (Rle_bool_spec (B2R r) (B2R (@SERVER_EPS F (NumF L)))); [discriminate|]. intros _. lra.
Qed.

(** ** Quantized distances *)
Lemma ln_mono x y : 0 < x -> x <= y -> ln x <= ln y.
Proof. intros P [H|H]; [left; now apply ln_increasing|right; now rewrite H]. Qed.
Lemma ln2_unit : 0 < ln 2 <= 1.
Proof. split; [pose proof ln_lt_2; lra|]. rewrite <- (ln_exp 1). apply ln_mono; [lra|]. pose proof (exp_ineq1 1 ltac:(lra)). lra. Qed.
Lemma ln_bpow x k : (0 <= k)%Z -> 0 < x -> (x <= bpow radix2 k -> ln x <= IZR k) /\ (bpow radix2 (- k) <= x -> - IZR k <= ln x).
Proof.
  intros Hk P. pose proof ln2_unit as [L1 L2]. apply IZR_le in Hk. split; intros H.
  - apply ln_mono in H; [|exact P]. rewrite bpow_exp, ln_exp in H. change (IZR radix2) with 2 in H. nra.
  - apply ln_mono in H; [|apply bpow_gt_0]. rewrite bpow_exp, ln_exp, opp_IZR in H. change (IZR radix2) with 2 in H. nra.
Qed.
Lemma exp_nat n : exp (INR n) <= 3 ^ n.
Proof. induction n as [|n IH]; [cbn; rewrite exp_0; lra|]. rewrite S_INR, exp_plus, <- tech_pow_Rmult, (Rmult_comm 3). apply Rmult_le_compat; try (left; apply exp_pos); [exact IH|apply exp_le_3]. Qed.
Lemma exp_620 x : x <= 620 -> exp x <= bpow radix2 983.
Proof.
  intros H. apply Rle_trans with (exp (INR 620)).
  - destruct H as [H|H]; [left; apply exp_increasing; rewrite INR_IZR_INZ; exact H|right; rewrite H, INR_IZR_INZ; reflexivity].
  - eapply Rle_trans; [apply exp_nat|]. rewrite pow_IZR. rewrite <- (IZR_Zpower radix2) by lia. apply IZR_le. vm_compute. discriminate.
Qed.
Lemma rnd_up x : Rabs (rnd64 x) <= (1 + / 9007199254740992) * Rabs x + bpow radix2 (-1075).
Proof.
  pose proof (rnd_rel x) as H. assert (UE : u = / 9007199254740992) by reflexivity. rewrite UE in H. assert (T : Rabs (rnd64 x) <= Rabs x + Rabs (rnd64 x - x)) by (replace (rnd64 x) with (x + (rnd64 x - x)) at 1 by ring; apply Rabs_triang).
  lra.
Qed.
Lemma tiny_lit : 0 < bpow radix2 (-1075) < / 1000000.
Proof. split; [apply bpow_gt_0|]. apply Rlt_trans with (bpow radix2 (-30)); [apply bpow_lt; lia|]. change (bpow radix2 (-30)) with (/ 1073741824). lra. Qed.
Lemma rnd_pos x y : fmt64 y -> y <= x -> y <= rnd64 x.
Proof. intros H K. rewrite <- (rnd_id y H). now apply rnd_le. Qed.
Lemma rnd_neg x y : fmt64 y -> x <= y -> rnd64 x <= y.
Proof. intros H K. rewrite <- (rnd_id y H). now apply rnd_le. Qed.
Lemma half_val L : is_finite (@nlit F (NumF L) 1 2) = true /\ B2R (@nlit F (NumF L) 1 2) = 1 / 2.
Proof.
  assert (E : B2SF (@nlit F (NumF L) 1 2) = SpecFloat.S754_finite false 4503599627370496 (-53)) by (vm_compute; reflexivity). set (h := @nlit F (NumF L) 1 2) in *. clearbody h.
  destruct h as [t|t| |t m x B]; try discriminate E. injection E as -> -> ->. split; [reflexivity|]. cbn [B2R cond_Zopp]. unfold F2R. cbn [Fnum Fexp]. change (bpow radix2 (-53)) with (/ 9007199254740992). lra.
Qed.
(** the integer number of steps, as a double *)
Lemma step_core L (v q : F) : is_finite v = true -> is_finite q = true -> Rabs (B2R v) <= 2000 -> bpow radix2 (-900) <= B2R q <= 1 ->
  exists w n, @ndiv F (NumF L) v q = Ok w /\ @r_int F (NumF L) w = Ok n /\ is_finite (F_of_Z n) = true /\ Rabs (B2R (F_of_Z n)) <= bpow radix2 914 /\ Rabs (B2R (F_of_Z n)) * B2R q <= Rabs (B2R v) + 3 /\ (B2R v <= 0 -> B2R (F_of_Z n) <= 2).
Proof.
  intros Fv Fq V [Q1 Q2]. pose proof (bpow_gt_0 radix2 (-900)) as P9. assert (Q0 : B2R q <> 0) by lra. assert (QP : 0 < B2R q) by lra.
  assert (IQ : / B2R q <= bpow radix2 900) by (change 900%Z with (- (-900))%Z; rewrite bpow_opp; apply Rinv_le; [exact P9|exact Q1]).
  assert (A : Rabs (B2R v / B2R q) <= bpow radix2 911).
  { unfold Rdiv. rewrite Rabs_mult, (Rabs_pos_eq (/ B2R q)) by (left; now apply Rinv_0_lt_compat). change 911%Z with (11 + 900)%Z. rewrite bpow_plus. apply Rmult_le_compat; [apply Rabs_pos|left; now apply Rinv_0_lt_compat| |exact IQ]. change (bpow radix2 11) with 2048. lra. }
  destruct (rnd_err _ 911 ltac:(lia) A) as [_ W0]. destruct (F_quot v q Fv Q0) as [D1 D2]; [apply (finite_lt 911); [lia|exact W0]|]. set (w := Bdiv mode_NE v q) in *.
  destruct (r_int_any L w D2) as (n & N1 & N2). exists w, n. split; [apply fdiv_F; assumption|]. split; [exact N1|]. rewrite D1 in N2. apply Rabs_def2 in N2.
  assert (NB : Rabs (IZR n) <= bpow radix2 913).
  { apply Rabs_le_inv in W0. assert (B1 : bpow radix2 911 + 2 <= bpow radix2 913) by (change 913%Z with (2 + 911)%Z; rewrite (bpow_plus radix2 2 911); change (bpow radix2 2) with 4; assert (1 <= bpow radix2 911) by (change 1 with (bpow radix2 0); apply bpow_le; lia); lra). apply Rabs_le. lra. }
  destruct (rnd_err _ 913 ltac:(lia) NB) as [_ F0]. destruct (F_of_Z_rnd n) as [F1 F2]; [apply (finite_lt 913); [lia|exact F0]|]. split; [exact F2|]. rewrite F1.
  split; [eapply Rle_trans; [exact F0|apply bpow_le; lia]|]. split.
  - pose proof (rnd_up (B2R v / B2R q)) as U1. pose proof (rnd_up (IZR n)) as U2. destruct tiny_lit as [T1 T2]. set (t := bpow radix2 (-1075)) in *. set (W := rnd64 (B2R v / B2R q)) in *.
    assert (EQ : Rabs (B2R v / B2R q) * B2R q = Rabs (B2R v)) by (unfold Rdiv; rewrite Rabs_mult, (Rabs_pos_eq (/ B2R q)) by (left; now apply Rinv_0_lt_compat); field; lra).
    assert (UN : Rabs (IZR n) <= Rabs W + 2) by (replace (IZR n) with (W + (IZR n - W)) by ring; eapply Rle_trans; [apply Rabs_triang|]; apply Rplus_le_compat_l, Rabs_le; lra).
    apply (Rmult_le_compat_r (B2R q)) in U1; [|lra]. apply (Rmult_le_compat_r (B2R q)) in U2; [|lra]. apply (Rmult_le_compat_r (B2R q)) in UN; [|lra].
    rewrite Rmult_plus_distr_r, Rmult_assoc in U1, U2. rewrite Rmult_plus_distr_r in UN. rewrite EQ in U1.
    assert (TQ : t * B2R q <= t) by (rewrite <- (Rmult_1_r t) at 2; apply Rmult_le_compat_l; lra).
    set (a := Rabs (rnd64 (IZR n)) * B2R q) in *. set (b := Rabs (IZR n) * B2R q) in *. set (c := Rabs W * B2R q) in *. clearbody a b c. lra.
  - intros V0. assert (IP : 0 < / B2R q) by (now apply Rinv_0_lt_compat). assert (VQ : B2R v / B2R q <= 0) by (unfold Rdiv; clear - V0 IP; nra). assert (W2 : rnd64 (B2R v / B2R q) <= 0) by (apply rnd_neg; [apply generic_format_0|exact VQ]).
    apply rnd_neg; [apply (fmt_Z 2); lia|]. lra.
Qed.
Lemma step_bound L (v q : F) : is_finite v = true -> is_finite q = true -> Rabs (B2R v) <= 2000 -> B2R v <= 610 -> bpow radix2 (-900) <= B2R q <= 1 ->
  gives (fun r => is_finite r = true /\ B2R r <= 620) (@quantize F (NumF L) v q) /\ gives (fun r => is_finite r = true /\ B2R r <= 620) (@unquantize_min F (NumF L) v q) /\ gives (fun r => is_finite r = true /\ B2R r <= 620) (@unquantize_max F (NumF L) v q).
Proof.
  intros Fv Fq V V2 Q. destruct (step_core L v q Fv Fq V Q) as (w & n & E1 & E2 & F1 & F2 & F3 & F4). pose proof (bpow_gt_0 radix2 (-900)) as P9. set (f := F_of_Z n) in *.
  assert (M : forall g : F, is_finite g = true -> Rabs (B2R g) * B2R q <= Rabs (B2R v) + 4 -> (B2R v <= 0 -> B2R g <= 3) -> is_finite (Bmult mode_NE g q) = true /\ B2R (Bmult mode_NE g q) <= 620).
  { intros g G1 G2 G3. assert (B : Rabs (B2R g * B2R q) <= bpow radix2 11) by (rewrite Rabs_mult, (Rabs_pos_eq (B2R q)) by lra; change (bpow radix2 11) with 2048; lra). destruct (rnd_err _ 11 ltac:(lia) B) as [R1 R2].
    destruct (F_mul g q G1 Fq) as [M1 M2]; [apply (finite_lt 11); [lia|exact R2]|]. split; [exact M2|]. rewrite M1. apply rnd_neg; [apply (fmt_Z 620); lia|].
    destruct (Rle_or_lt (B2R v) 0) as [C|C]; [specialize (G3 C); nra|]. rewrite (Rabs_pos_eq (B2R v)) in G2 by lra. apply Rle_trans with (Rabs (B2R g) * B2R q); [apply Rmult_le_compat_r; [lra|apply Rle_abs]|lra]. }
  destruct (half_val L) as [H1 H2].
  assert (S : forall c : F, is_finite c = true -> Rabs (B2R c) = 1 / 2 -> let g := Bplus mode_NE f c in is_finite g = true /\ Rabs (B2R g) * B2R q <= Rabs (B2R v) + 4 /\ (B2R v <= 0 -> B2R g <= 3)).
  { intros c C1 C2 g. assert (TB : Rabs (B2R f + B2R c) <= bpow radix2 915).
    { eapply Rle_trans; [apply Rabs_triang|]. rewrite C2. change 915%Z with (1 + 914)%Z. rewrite bp2. assert (1 <= bpow radix2 914) by (change 1 with (bpow radix2 0); apply bpow_le; lia). lra. }
    destruct (rnd_err _ 915 ltac:(lia) TB) as [_ R2]. destruct (F_add f c F1 C1) as [A1 A2]; [apply (finite_lt 915); [lia|exact R2]|]. split; [exact A2|]. unfold g. rewrite A1. split.
    - pose proof (rnd_up (B2R f + B2R c)) as U1. pose proof (Rabs_triang (B2R f) (B2R c)) as U2. rewrite C2 in U2. destruct tiny_lit as [T1 T2]. set (t := bpow radix2 (-1075)) in *.
      apply (Rmult_le_compat_r (B2R q)) in U1; [|lra]. apply (Rmult_le_compat_r (B2R q)) in U2; [|lra]. rewrite Rmult_plus_distr_r, Rmult_assoc in U1. rewrite Rmult_plus_distr_r in U2.
      assert (TQ : t * B2R q <= t) by (rewrite <- (Rmult_1_r t) at 2; apply Rmult_le_compat_l; lra).
      set (a := Rabs (rnd64 (B2R f + B2R c)) * B2R q) in *. set (b := Rabs (B2R f + B2R c) * B2R q) in *. set (d := Rabs (B2R f) * B2R q) in *. clearbody a b d. lra.
    - intros C. specialize (F4 C). apply rnd_neg; [apply (fmt_Z 3); lia|]. pose proof (Rle_abs (B2R c)). lra. }
  unfold quantize, unquantize_min, unquantize_max. rewrite E1. cbn [bind]. rewrite E2. cbn [bind nofZ nmul nsub nadd NumF]. fold f.
  split; [|split]; (eexists; split; [reflexivity|]); cbv beta.
  - apply M; [exact F1|lra|]. intros C. specialize (F4 C). lra.
  - rewrite minus_plus. destruct (S (Bopp (@nlit F (NumF L) 1 2))) as (X1 & X2 & X3); [now rewrite is_finite_Bopp|rewrite B2R_Bopp, Rabs_Ropp, H2; apply Rabs_pos_eq; lra|]. now apply M.
  - destruct (S (@nlit F (NumF L) 1 2)) as (X1 & X2 & X3); [exact H1|rewrite H2; apply Rabs_pos_eq; lra|]. now apply M.
Qed.
Lemma fmt_at x k : fmt64 x -> (-1000 <= k)%Z -> bpow radix2 k <= Rabs x -> exists z : Z, x = IZR z * bpow radix2 (k - 52).
Proof.
  intros Hx Hk HB. assert (M : (k + 1 <= mag radix2 x)%Z) by (apply mag_ge_bpow; replace (k + 1 - 1)%Z with k by ring; exact HB).
  unfold fmt64, generic_format in Hx. set (e := cexp radix2 (FLT_exp (-1074) 53) x) in *. set (z := Ztrunc (scaled_mantissa radix2 (FLT_exp (-1074) 53) x)) in *.
  assert (He : (k - 52 <= e)%Z) by (unfold e, cexp, FLT_exp; lia). exists (z * 2 ^ (e - (k - 52)))%Z. rewrite Hx. unfold F2R. cbn [Fnum Fexp]. rewrite mult_IZR, (IZR_Zpower radix2) by lia. rewrite Rmult_assoc, <- bpow_plus. do 2 f_equal. lia.
Qed.
Lemma fmt_least x : fmt64 x -> 0 < x -> bpow radix2 (-1074) <= x.
Proof.
  intros Hx P. unfold fmt64, generic_format in Hx. set (e := cexp radix2 (FLT_exp (-1074) 53) x) in *. set (z := Ztrunc (scaled_mantissa radix2 (FLT_exp (-1074) 53) x)) in *.
  assert (He : (-1074 <= e)%Z) by (unfold e, cexp, FLT_exp; lia). rewrite Hx in P |- *. unfold F2R in *. cbn [Fnum Fexp] in *. pose proof (bpow_gt_0 radix2 e) as B.
  assert (Z : (1 <= z)%Z) by (assert (0 < IZR z) by nra; apply lt_IZR in H; lia). apply IZR_le in Z. apply Rle_trans with (bpow radix2 e); [now apply bpow_le|]. nra.
Qed.
Lemma log_bound L (x : F) : log_accurate L -> is_finite x = true -> 0 < B2R x <= bpow radix2 601 -> @nlog F (NumF L) x = Ok (lm_log L x) /\ is_finite (lm_log L x) = true /\ Rabs (B2R (lm_log L x)) <= 2000 /\ B2R (lm_log L x) <= 610.
Proof.
  intros LA Fx [P U]. destruct (LA x Fx P) as [A B]. destruct (ln_bpow (B2R x) 601 ltac:(lia) P) as [L1 _]. destruct (ln_bpow (B2R x) 1074 ltac:(lia) P) as [_ L2].
  specialize (L1 U). specialize (L2 (fmt_least _ (fmt_F x) P)). set (l := ln (B2R x)) in *. set (y := B2R (lm_log L x)) in *. clearbody l y.
  assert (AL : Rabs l <= 1074) by (apply Rabs_le; lra). change (bpow radix2 (-52)) with (/ 4503599627370496) in B. assert (BB : Rabs (y - l) <= 1) by lra. apply Rabs_le_inv in BB.
  split; [|split; [exact A|split; [apply Rabs_le; lra|lra]]]. cbn [nlog NumF]. unfold F_log. destruct (F_of_Z_exact 0 eq_refl) as [Z1 Z2]. rewrite leb_F, Z1 by assumption. now rewrite Rle_bool_false.
Qed.
Lemma exp_bound L (x : F) : exp_accurate L -> is_finite x = true -> B2R x <= 620 -> @nexp F (NumF L) x = Ok (lm_exp L x) /\ is_finite (lm_exp L x) = true /\ Rabs (B2R (lm_exp L x)) <= bpow radix2 985.
Proof.
  intros EA Fx U. destruct (EA x Fx U) as [A B]. split; [apply math1_finite; exact A|]. split; [exact A|]. pose proof (exp_620 _ U) as E. pose proof (exp_pos (B2R x)) as E0. set (y := B2R (lm_exp L x)) in *. set (z := exp (B2R x)) in *. clearbody y z.
  assert (T : bpow radix2 (-1074) <= bpow radix2 983) by (apply bpow_le; lia). assert (K : bpow radix2 (-52) <= 1) by (change 1 with (bpow radix2 0); apply bpow_le; lia). assert (K0 := bpow_ge_0 radix2 (-52)).
  assert (B2 : bpow radix2 985 = 4 * bpow radix2 983) by (change 985%Z with (2 + 983)%Z; rewrite (bpow_plus radix2 2 983); reflexivity).
  assert (M : bpow radix2 (-52) * z <= bpow radix2 983) by (rewrite <- (Rmult_1_l (bpow radix2 983)); apply Rmult_le_compat; try assumption; left; exact E0). rewrite B2. clear B2.
  set (a := bpow radix2 983) in *. set (b := bpow radix2 (-1074)) in *. set (c := bpow radix2 (-52) * z) in *. clearbody a b c. apply Rabs_le_inv in B. apply Rabs_le. lra.
Qed.
Lemma tenth_val L : is_finite (@nlit F (NumF L) 1 10) = true /\ B2R (@nlit F (NumF L) 1 10) = 3602879701896397 / 36028797018963968.
Proof.
  assert (E : B2SF (@nlit F (NumF L) 1 10) = SpecFloat.S754_finite false 7205759403792794 (-56)) by (vm_compute; reflexivity). set (h := @nlit F (NumF L) 1 10) in *. clearbody h.
  destruct h as [t|t| |t m x B]; try discriminate E. injection E as -> -> ->. split; [reflexivity|]. cbn [B2R cond_Zopp]. unfold F2R. cbn [Fnum Fexp]. change (bpow radix2 (-56)) with (/ 72057594037927936). lra.
Qed.
Lemma tenth_steps L (v : F) j : (0 <= j <= 985)%Z -> is_finite v = true -> Rabs (B2R v) <= bpow radix2 j ->
  exists w n, @ndiv F (NumF L) v (@nlit F (NumF L) 1 10) = Ok w /\ is_finite w = true /\ B2R w = rnd64 (B2R v / B2R (@nlit F (NumF L) 1 10)) /\ @r_int F (NumF L) w = Ok n /\ Rabs (IZR n - B2R w) < 2 /\ is_finite (F_of_Z n) = true /\ Rabs (B2R (F_of_Z n)) <= bpow radix2 (j + 5).
Proof.
  intros Hj Fv V. destruct (tenth_val L) as [T1 T2]. set (q := @nlit F (NumF L) 1 10) in *. assert (Q0 : B2R q <> 0) by (rewrite T2; lra).
  assert (A : Rabs (B2R v / B2R q) <= bpow radix2 (j + 4)).
  { unfold Rdiv. rewrite Rabs_mult, bpow_plus. apply Rmult_le_compat; try apply Rabs_pos; [exact V|]. rewrite T2, Rabs_pos_eq by (left; apply Rinv_0_lt_compat; lra). change (bpow radix2 4) with 16. lra. }
  destruct (rnd_err _ (j + 4) ltac:(lia) A) as [_ W0]. destruct (F_quot v q Fv Q0) as [D1 D2]; [apply (finite_lt (j + 4)); [lia|exact W0]|]. set (w := Bdiv mode_NE v q) in *.
  destruct (r_int_any L w D2) as (n & N1 & N2). exists w, n. split; [apply fdiv_F; assumption|]. split; [exact D2|]. split; [exact D1|]. split; [exact N1|]. split; [exact N2|].
  assert (NB : Rabs (IZR n) <= bpow radix2 (j + 5)).
  { rewrite D1 in N2. apply Rabs_def2 in N2. apply Rabs_le_inv in W0. replace (j + 5)%Z with (1 + (j + 4))%Z by lia. rewrite bp2. assert (16 <= bpow radix2 (j + 4)) by (change 16 with (bpow radix2 4); apply bpow_le; lia). apply Rabs_le. lra. }
  destruct (rnd_err _ (j + 5) ltac:(lia) NB) as [_ F0]. destruct (F_of_Z_rnd n) as [F1 F2]; [apply (finite_lt (j + 5)); [lia|exact F0]|]. split; [exact F2|]. rewrite F1. exact F0.
Qed.
(** half of the double 0.1 separates what is rounded to 0 steps or less from what is rounded to 1 step or more *)
Lemma see_steps L (v : F) : is_finite v = true -> Rabs (B2R v) <= bpow radix2 500 -> exists n, (forall (f : Z -> res F), bind (@ndiv F (NumF L) v (@nlit F (NumF L) 1 10)) (fun w => bind (@r_int F (NumF L) w) f) = f n) /\
  is_finite (F_of_Z n) = true /\ Rabs (B2R (F_of_Z n)) <= bpow radix2 505 /\
  (B2R (@nlit F (NumF L) 1 10) / 2 <= B2R v -> 1 <= B2R (F_of_Z n)) /\ (B2R v < B2R (@nlit F (NumF L) 1 10) / 2 -> B2R (F_of_Z n) <= 0).
Proof.
  intros Fv V. destruct (tenth_steps L v 500 ltac:(lia) Fv V) as (w & n & E1 & W1 & W2 & E2 & N & F1 & F2). exists n. split; [intros f; rewrite E1; cbn [bind]; rewrite E2; reflexivity|]. split; [exact F1|]. split; [exact F2|].
  destruct (tenth_val L) as [T1 T2]. set (q := @nlit F (NumF L) 1 10) in *. assert (QP : 0 < B2R q) by (rewrite T2; lra).
  assert (FZ : B2R (F_of_Z n) = rnd64 (IZR n)).
  { apply F_of_Z_rnd. assert (NB : Rabs (IZR n) <= bpow radix2 506).
    { apply Rabs_def2 in N. assert (A : Rabs (B2R v / B2R q) <= bpow radix2 504).
      { unfold Rdiv. rewrite Rabs_mult. change 504%Z with (500 + 4)%Z. rewrite bpow_plus. apply Rmult_le_compat; try apply Rabs_pos; [exact V|]. rewrite T2, Rabs_pos_eq by (left; apply Rinv_0_lt_compat; lra). change (bpow radix2 4) with 16. lra. }
      destruct (rnd_err _ 504 ltac:(lia) A) as [_ W0]. rewrite <- W2 in W0. apply Rabs_le_inv in W0. change 506%Z with (2 + 504)%Z. rewrite (bpow_plus radix2 2 504). change (bpow radix2 2) with 4. assert (16 <= bpow radix2 504) by (change 16 with (bpow radix2 4); apply bpow_le; lia). apply Rabs_le. lra. }
    destruct (rnd_err _ 506 ltac:(lia) NB) as [_ K]. apply (finite_lt 506); [lia|exact K]. }
  assert (BIG : Rabs (B2R w) <= 9007199254740991 -> round_away (B2R w) n) by (intros K; destruct (C93_r_int_F L w W1 K) as (m & M1 & M2); rewrite E2 in M1; injection M1 as <-; exact M2).
  apply Rabs_def2 in N. rewrite FZ. split; intros H.
  - assert (WH : 1 / 2 <= B2R w).
    { rewrite W2. apply rnd_pos; [destruct (half_val L) as [_ <-]; apply fmt_F|]. apply (Rmult_le_reg_r (B2R q)); [exact QP|]. unfold Rdiv at 2. rewrite Rmult_assoc, Rinv_l by lra. lra. }
    apply rnd_pos; [apply (fmt_Z 1); lia|]. apply (IZR_le 1). destruct (Rle_or_lt (Rabs (B2R w)) 9007199254740991) as [C|C].
    + specialize (BIG C). destruct BIG as [B1 B2]. assert (G : (0 <= n)%Z) by (apply le_IZR; apply Rabs_le_inv in B1; lra). assert (n <> 0)%Z; [|lia]. intros ->. rewrite Rminus_0_l, Rabs_Ropp in *. rewrite Rabs_pos_eq in B1 by lra. specialize (B2 ltac:(rewrite Rabs_pos_eq; lra)). rewrite Rabs_R0 in B2. pose proof (Rabs_pos (B2R w)). lra.
    + rewrite Rabs_pos_eq in C by lra. apply le_IZR. lra.
  - assert (WH : B2R w < 1 / 2).
    { rewrite W2. assert (FB : fmt64 (1 / 2 - / 18014398509481984)) by (replace (1 / 2 - / 18014398509481984) with (F2R (Float radix2 9007199254740991 (-54))) by (unfold F2R; cbn [Fnum Fexp]; change (bpow radix2 (-54)) with (/ 18014398509481984); lra); apply fmt_F2R; lia).
      apply Rle_lt_trans with (1 / 2 - / 18014398509481984); [|lra]. apply rnd_neg; [exact FB|]. apply (Rmult_le_reg_r (B2R q)); [exact QP|]. unfold Rdiv at 1. rewrite Rmult_assoc, Rinv_l, Rmult_1_r by lra.
      destruct (Rle_or_lt (/ 32) (B2R v)) as [C|C]; [|rewrite T2; lra]. destruct (fmt_at (B2R v) (-5) (fmt_F v) ltac:(lia)) as (z & Z); [rewrite Rabs_pos_eq by lra; change (bpow radix2 (-5)) with (/ 32); exact C|].
      change (bpow radix2 (-5 - 52)) with (/ 144115188075855872) in Z. rewrite T2 in *. rewrite Z in H |- *. assert (K : (z < 7205759403792794)%Z) by (apply lt_IZR; lra). assert (K2 : (z <= 7205759403792793)%Z) by lia. apply IZR_le in K2. lra. }
    apply rnd_neg; [apply generic_format_0|]. apply (IZR_le n 0). destruct (Rle_or_lt (Rabs (B2R w)) 9007199254740991) as [C|C].
    + specialize (BIG C). destruct BIG as [B1 B2]. apply Rabs_le_inv in B1. assert (n < 1)%Z; [|lia]. apply lt_IZR. lra.
    + assert (B2R w < -9007199254740991) by (destruct (Rcase_abs (B2R w)) as [D|D]; [rewrite Rabs_left in C by exact D|rewrite Rabs_right in C by exact D]; lra). apply le_IZR. lra.
Qed.
(** the ends of the interval of the seen distance *)
Lemma see_ends L (v : F) : is_finite v = true -> Rabs (B2R v) <= bpow radix2 500 -> exists lo hi, @unquantize_min F (NumF L) v (@nlit F (NumF L) 1 10) = Ok lo /\ @unquantize_max F (NumF L) v (@nlit F (NumF L) 1 10) = Ok hi /\
  is_finite lo = true /\ is_finite hi = true /\ (B2R (@nlit F (NumF L) 1 10) / 2 <= B2R v -> 0 < B2R lo <= bpow radix2 601 /\ 0 < B2R hi <= bpow radix2 601) /\ (B2R v < B2R (@nlit F (NumF L) 1 10) / 2 -> B2R lo < 0).
Proof.
  intros Fv V. destruct (see_steps L v Fv V) as (n & E & F1 & F2 & U & D). unfold unquantize_min, unquantize_max. eexists _, _. split; [rewrite E; reflexivity|]. split; [rewrite E; reflexivity|]. cbn [nofZ nmul nsub nadd NumF].
  destruct (tenth_val L) as [T1 T2]. set (q := @nlit F (NumF L) 1 10) in *. destruct (half_val L) as [H1 H2]. set (h := @nlit F (NumF L) 1 2) in *. set (f := F_of_Z n) in *.
  assert (BF : Rabs (B2R f - B2R h) <= bpow radix2 506 /\ Rabs (B2R f + B2R h) <= bpow radix2 506).
  { change 506%Z with (1 + 505)%Z. rewrite (bp2 505), H2. assert (1 <= bpow radix2 505) by (change 1 with (bpow radix2 0); apply bpow_le; lia). apply Rabs_le_inv in F2. split; apply Rabs_le; lra. }
  destruct BF as [B1 B2]. destruct (rnd_err _ 506 ltac:(lia) B1) as [_ R1]. destruct (rnd_err _ 506 ltac:(lia) B2) as [_ R2].
  destruct (F_sub f h F1 H1) as [S1 S2]; [apply (finite_lt 506); [lia|exact R1]|]. destruct (F_add f h F1 H1) as [A1 A2]; [apply (finite_lt 506); [lia|exact R2]|].
  assert (M : forall g : F, is_finite g = true -> Rabs (B2R g) <= bpow radix2 506 -> is_finite (Bmult mode_NE g q) = true /\ B2R (Bmult mode_NE g q) <= bpow radix2 601 /\ (1 / 2 <= B2R g -> 0 < B2R (Bmult mode_NE g q)) /\ (B2R g <= - (1 / 2) -> B2R (Bmult mode_NE g q) < 0)).
  { intros g G1 G2. assert (B : Rabs (B2R g * B2R q) <= bpow radix2 506) by (rewrite Rabs_mult, <- (Rmult_1_r (bpow radix2 506)); apply Rmult_le_compat; try apply Rabs_pos; [exact G2|rewrite T2, Rabs_pos_eq; lra]).
    destruct (rnd_err _ 506 ltac:(lia) B) as [_ R]. destruct (F_mul g q G1 T1) as [M1 M2]; [apply (finite_lt 506); [lia|exact R]|]. split; [exact M2|]. rewrite M1. split; [apply Rle_trans with (bpow radix2 506); [apply Rabs_le_inv in R; lra|apply bpow_le; lia]|].
    assert (FB : fmt64 (bpow radix2 (-5))) by (apply fmt_bpow; lia). split; intros K.
    - apply Rlt_le_trans with (bpow radix2 (-5)); [apply bpow_gt_0|]. apply rnd_pos; [exact FB|]. change (bpow radix2 (-5)) with (/ 32). rewrite T2. lra.
    - apply Rle_lt_trans with (- bpow radix2 (-5)); [|pose proof (bpow_gt_0 radix2 (-5)); lra]. apply rnd_neg; [now apply fmt_opp|]. change (bpow radix2 (-5)) with (/ 32). rewrite T2. lra. }
  rewrite <- S1 in R1. rewrite <- A1 in R2. destruct (M _ S2 R1) as (X1 & X2 & X3 & X4). destruct (M _ A2 R2) as (Y1 & Y2 & Y3 & Y4). split; [exact X1|]. split; [exact Y1|].
  assert (FH : fmt64 (1 / 2)) by (rewrite <- H2; apply fmt_F). split.
  - intros K. specialize (U K). split; (split; [|assumption]); [apply X3; rewrite S1|apply Y3; rewrite A1]; (apply rnd_pos; [exact FH|rewrite H2; lra]).
  - intros K. specialize (D K). apply X4. rewrite S1. apply rnd_neg; [now apply fmt_opp|]. rewrite H2. lra.
Qed.
(** C182: quantize_dist raises ValueError exactly when the distance is at most -SERVER_EPS, and unquantize_error
    exactly when the seen distance is below half of the double 0.1, for distances up to 2^600 and 2^500 and steps
    from 2^-900 to 1; otherwise they return. *)
Theorem C182_seen_F : forall (L : libm) (d see qstep : F), log_accurate L -> exp_accurate L -> is_finite qstep = true -> bpow radix2 (-900) <= B2R qstep <= 1 ->
  (Bleb d (Bopp (@SERVER_EPS F (NumF L))) = true -> @quantize_dist F (NumF L) d qstep = Raise ValueError) /\
  (is_finite d = true -> - B2R (@SERVER_EPS F (NumF L)) < B2R d <= bpow radix2 600 -> returns (@quantize_dist F (NumF L) d qstep)) /\
  (is_finite see = true -> Rabs (B2R see) <= bpow radix2 500 -> let half := B2R (@nlit F (NumF L) 1 10) / 2 in
     (B2R see < half -> @unquantize_error F (NumF L) see qstep = Raise ValueError) /\ (half <= B2R see -> returns (@unquantize_error F (NumF L) see qstep))).
Proof.
  intros L d see q LA EA Fq Q. destruct (seps_val L) as (S1 & S2 & S3). destruct (F_of_Z_exact 0 eq_refl) as [Z1 Z2]. split; [|split].
  - intros H. unfold quantize_dist. cbn [nlog nadd NumF]. unfold F_log. assert (K : Bleb (Bplus mode_NE d (@SERVER_EPS F (NumF L))) (F_of_Z 0) = true); [|rewrite K; reflexivity].
    destruct (is_finite d) eqn:Fd.
    + rewrite leb_F in H by (rewrite ?is_finite_Bopp; assumption). rewrite B2R_Bopp in H. revert H. destruct (Rle_bool_spec (B2R d) (- B2R (@SERVER_EPS F (NumF L)))) as [C|C]; [intros _|discriminate].
      pose proof (Bplus_correct 53 1024 _ _ mode_NE d (@SERVER_EPS F (NumF L)) Fd S1) as P. change (round radix2 (SpecFloat.fexp 53 1024) (round_mode mode_NE) (B2R d + B2R (@SERVER_EPS F (NumF L)))) with (rnd64 (B2R d + B2R (@SERVER_EPS F (NumF L)))) in P.
      assert (LE : rnd64 (B2R d + B2R (@SERVER_EPS F (NumF L))) <= 0) by (apply rnd_neg; [apply generic_format_0|lra]).
      assert (GE : B2R d <= rnd64 (B2R d + B2R (@SERVER_EPS F (NumF L)))) by (apply rnd_pos; [apply fmt_F|lra]).
      rewrite Rlt_bool_true in P; [destruct P as (P1 & P2 & _); rewrite leb_F, P1, Z1 by assumption; now apply Rle_bool_true|].
      apply Rle_lt_trans with (Rabs (B2R d)); [rewrite !Rabs_left1 by lra; lra|apply F2R_lt_emax_fin].
    + destruct d as [t|t| |t m e B]; try discriminate Fd; [|discriminate H]. destruct t; [vm_compute; reflexivity|]. vm_compute in H. discriminate H.
  - intros Fd [D1 D2]. unfold quantize_dist. cbn [nadd NumF].
    assert (AB : Rabs (B2R d + B2R (@SERVER_EPS F (NumF L))) <= bpow radix2 601).
    { change 601%Z with (1 + 600)%Z. rewrite (bp2 600). assert (1 <= bpow radix2 600) by (change 1 with (bpow radix2 0); apply bpow_le; lia). apply Rabs_le. lra. }
    destruct (rnd_err _ 601 ltac:(lia) AB) as [_ R]. destruct (F_add d (@SERVER_EPS F (NumF L)) Fd S1) as [A1 A2]; [apply (finite_lt 601); [lia|exact R]|]. set (s := Bplus mode_NE d (@SERVER_EPS F (NumF L))) in *.
    assert (SP : 0 < B2R s).
    { assert (G0 : 0 <= rnd64 (B2R d + B2R (@SERVER_EPS F (NumF L)))) by (apply rnd_pos; [apply generic_format_0|lra]). rewrite A1. destruct G0 as [G0|G0]; [exact G0|]. symmetry in G0. apply rnd_sum_zero in G0. lra. }
    destruct (log_bound L s LA A2) as (E1 & E2 & E3 & E4); [split; [exact SP|]; rewrite A1; apply Rabs_le_inv in R; lra|]. rewrite E1. cbn [bind].
    destruct (step_bound L _ q E2 Fq E3 E4 Q) as ((r & R1 & R2 & R3) & _). rewrite R1. cbn [bind]. destruct (exp_bound L r EA R2 R3) as (X1 & X2 & X3). rewrite X1. cbn [bind].
    destruct (tenth_steps L _ 985 ltac:(lia) X2 X3) as (w & n & W1 & _ & _ & W2 & _). unfold quantize. rewrite W1. cbn [bind]. rewrite W2. apply ret_ok.
  - intros Fs B half. unfold half. destruct (see_ends L see Fs B) as (lo & hi & L1 & H1 & L2 & H2 & UP & DOWN). unfold unquantize_error. rewrite L1. cbn [bind]. split.
    + intros K. specialize (DOWN K). cbn [nlog NumF]. unfold F_log. rewrite leb_F, Z1 by assumption. rewrite Rle_bool_true by lra. reflexivity.
    + intros K. destruct (UP K) as [UL UH]. destruct (log_bound L lo LA L2 UL) as (E1 & E2 & E3 & E4). rewrite E1. cbn [bind]. destruct (step_bound L _ q E2 Fq E3 E4 Q) as (_ & (r & R1 & R2 & R3) & _). rewrite R1. cbn [bind].
      destruct (exp_bound L r EA R2 R3) as (X1 & _). rewrite X1. cbn [bind]. rewrite H1. cbn [bind]. destruct (log_bound L hi LA H2 UH) as (G1 & G2 & G3 & G4). rewrite G1. cbn [bind]. destruct (step_bound L _ q G2 Fq G3 G4 Q) as (_ & _ & (r' & R1' & R2' & R3')). rewrite R1'. cbn [bind].
      destruct (exp_bound L r' EA R2' R3') as (Y1 & _). rewrite Y1. apply ret_ok.
Qed.

(** C182: wind_effect raises ValueError for an infinite direction; otherwise ZeroDivisionError exactly when the
    product of the weights rounds to 0; otherwise it returns, for any other doubles. *)
Theorem C182_wind_F : forall (L : libm) (speed weight force dir wweight rand : F) (err : option (vec F)), trig_sane L ->
  (F_is_inf dir = true -> @wind_effect F (NumF L) speed weight force dir wweight rand err = Raise ValueError) /\
  (F_is_inf dir = false -> F_is_zero (Bmult mode_NE weight wweight) = true -> @wind_effect F (NumF L) speed weight force dir wweight rand err = Raise ZeroDivisionError) /\
  (F_is_inf dir = false -> F_is_zero (Bmult mode_NE weight wweight) = false -> returns (@wind_effect F (NumF L) speed weight force dir wweight rand err)).
Proof.
  intros L speed weight force dir wweight rand err TS. unfold wind_effect. cbv zeta. split; [|split].
  - destruct dir as [t|t| |t m e B]; intros H; try discriminate. unfold Vector2D_from_polar. cbn [to_angle bind]. unfold AngleDeg_of_num. rewrite normal_F_inf. reflexivity.
  - intros H Z. destruct (polar_ret L force (AN dir) TS H) as [p ->]. cbn [bind ndiv nmul NumF]. unfold F_div. rewrite Z. destruct err; reflexivity.
  - intros H Z. apply ret_bind; [now apply polar_ret|]. intros p _. cbn [ndiv nmul NumF]. apply ret_bind; [destruct err; [|apply ret_ok]; apply ret_bind; [now apply ret_div|]; intros x _; apply ret_bind; [now apply ret_div|]; intros; apply ret_ok|].
    intros o _. apply ret_bind; [now apply ret_div|]. intros x _. apply ret_bind; [now apply ret_div|]. intros; apply ret_ok.
Qed.

(** ** The hypotheses are met *)
(** every function rounded correctly *)
Definition libm_exact : libm := {| lm_sin := lm_sin libm_round; lm_cos := lm_cos libm_round; lm_tan := lm_tan libm_round; lm_asin := lm_asin libm_round; lm_acos := lm_acos libm_round; lm_atan := lm_atan libm_round;
  lm_atan2 := lm_atan2 libm_round; lm_exp := lm_exp libm_round; lm_log := lm_log libm_round; lm_pow := lm_pow libm_pow |}.
Lemma libm_exact_pow : pow_ones libm_exact /\ pow_unit libm_exact.
Proof.
  split; [|exact libm_pow_unit]. assert (O : F_of_R 1 = fone).
  { apply is_one_eq. destruct (F_of_R_ok 1) as [A B]; [rewrite Rabs_R1; change 1 with (bpow radix2 0); apply bpow_le; lia|]. split; [exact A|]. rewrite B. apply rnd_id. apply (fmt_Z 1). lia. }
  destruct one_F as [E1 _]. destruct (F_of_Z_exact 0 eq_refl) as [Z1 _]. intros x. cbn [lm_pow libm_exact libm_pow]. rewrite E1, Z1, pow1, (Zfloor_IZR 0). cbn [Z.to_nat pow]. split; exact O.
Qed.
Lemma ln_below y : 0 < y -> ln y <= y - 1.
Proof. intros P. destruct (Req_dec (ln y) 0) as [E|E]; [apply (f_equal exp) in E; rewrite exp_ln, exp_0 in E by exact P; rewrite E, ln_1; lra|]. pose proof (exp_ineq1 (ln y) E) as H. rewrite exp_ln in H by exact P. lra. Qed.
Lemma libm_exact_log : log_accurate libm_exact.
Proof.
  intros x Fx P. cbn [lm_log libm_exact libm_round]. set (l := ln (B2R x)).
  assert (AL : Rabs l <= bpow radix2 1000).
  { destruct (ln_bpow (B2R x) 1024 ltac:(lia) P) as [L1 _]. destruct (ln_bpow (B2R x) 1074 ltac:(lia) P) as [_ L2]. specialize (L2 (fmt_least _ (fmt_F x) P)). specialize (L1 ltac:(pose proof (F2R_lt_emax_fin x) as K; apply Rabs_def2 in K; lra)). fold l in L1, L2.
    apply Rle_trans with (bpow radix2 11); [change (bpow radix2 11) with 2048; apply Rabs_le; lra|apply bpow_le; lia]. }
  destruct (F_of_R_ok l AL) as [A B]. split; [exact A|]. rewrite B. destruct (Req_dec (B2R x) 1) as [E|E].
  - unfold l. rewrite E, ln_1, rnd_id by apply generic_format_0. rewrite Rminus_0_r, Rabs_R0. lra.
  - assert (G : / 18014398509481984 <= Rabs l).
    { assert (GAP : / 9007199254740992 <= Rabs (B2R x - 1)).
      { destruct (Rle_or_lt (/ 2) (B2R x)) as [C|C]; [|rewrite Rabs_left; lra]. destruct (fmt_at (B2R x) (-1) (fmt_F x) ltac:(lia)) as (z & Z); [rewrite Rabs_pos_eq by lra; change (bpow radix2 (-1)) with (/ 2); exact C|].
        change (bpow radix2 (-1 - 52)) with (/ 9007199254740992) in Z. rewrite Z in E |- *. assert (K : (z <> 9007199254740992)%Z) by (intros ->; apply E; lra).
        destruct (Z_lt_le_dec z 9007199254740992) as [M|M]; [assert (N : (z <= 9007199254740991)%Z) by lia; apply IZR_le in N; rewrite Rabs_left by lra; lra|assert (N : (9007199254740993 <= z)%Z) by lia; apply IZR_le in N; rewrite Rabs_right by lra; lra]. }
      destruct (Rlt_or_le (B2R x) 1) as [C|C].
      - rewrite Rabs_left in GAP by lra. pose proof (ln_below _ P) as K. fold l in K. rewrite Rabs_left by lra. lra.
      - rewrite Rabs_right in GAP by lra. assert (IP : 0 < / B2R x) by (now apply Rinv_0_lt_compat). pose proof (ln_below _ IP) as K. rewrite ln_Rinv in K by exact P. fold l in K.
        assert (I1 : / B2R x <= 1 - / 18014398509481984).
        { apply Rle_trans with (/ (1 + / 9007199254740992)); [apply Rinv_le; lra|]. apply (Rmult_le_reg_r (1 + / 9007199254740992)); [lra|]. rewrite Rinv_l by lra. lra. }
        pose proof (Rle_abs l). lra. }
    eapply Rle_trans; [apply rnd_rel|]. assert (UE : u = / 9007199254740992) by reflexivity. rewrite UE. change (bpow radix2 (-52)) with (/ 4503599627370496).
    assert (T : bpow radix2 (-1075) <= / 9007199254740992 * / 18014398509481984) by (apply Rle_trans with (bpow radix2 (-107)); [apply bpow_le; lia|change (bpow radix2 (-107)) with (/ 162259276829213363391578010288128); lra]). nra.
Qed.
Lemma libm_exact_exp : exp_accurate libm_exact.
Proof.
  intros x Fx U. cbn [lm_exp libm_exact libm_round]. pose proof (exp_pos (B2R x)) as P. pose proof (exp_620 _ U) as E.
  destruct (F_of_R_ok (exp (B2R x))) as [A B]; [rewrite Rabs_pos_eq by lra; eapply Rle_trans; [exact E|apply bpow_le; lia]|]. split; [exact A|]. rewrite B. eapply Rle_trans; [apply rnd_rel|]. rewrite (Rabs_pos_eq (exp (B2R x))) by lra.
  assert (UE : u = / 9007199254740992) by reflexivity. rewrite UE. change (bpow radix2 (-52)) with (/ 4503599627370496). assert (T : bpow radix2 (-1075) <= bpow radix2 (-1074)) by (apply bpow_le; lia). apply Rplus_le_compat; [|exact T]. apply Rmult_le_compat_r; lra.
Qed.
Example C182_nonvacuous : let L := libm_exact in
  (pow_ones L /\ pow_unit L /\ log_accurate L /\ exp_accurate L /\ trig_sane L) /\ is_one fone /\ ~ is_one (Fd 1 (-1)) /\ ~ is_one B754_nan /\ F_is_zero (B754_zero true) = true /\
  (is_finite (Fd 1 900) = true /\ is_finite (Fd 1 (-200)) = true /\ bpow radix2 1024 <= Rabs (rnd64 (B2R (Fd 1 900) / B2R (Fd 1 (-200))))) /\
  (is_finite (Fd 1 (-1)) = true /\ 0 <= B2R (Fd 1 (-1)) <= 1 - bpow radix2 (-51)) /\
  (Bleb (F_of_Z 3) (@SERVER_EPS F (NumF L)) = false /\ Bleb (F_of_Z 5) (@SERVER_EPS F (NumF L)) = false) /\
  (Bleb (F_of_Z (-1)) (Bopp (@SERVER_EPS F (NumF L))) = true /\ bpow radix2 (-900) <= B2R (Fd 1 (-4)) <= 1 /\ - B2R (@SERVER_EPS F (NumF L)) < B2R (F_of_Z 20) <= bpow radix2 600) /\
  (Rabs (B2R (Fd 1 (-5))) <= bpow radix2 500 /\ B2R (Fd 1 (-5)) < B2R (@nlit F (NumF L) 1 10) / 2 /\ B2R (@nlit F (NumF L) 1 10) / 2 <= B2R (Fd 1 (-4))) /\
  F_is_zero (Bmult mode_NE (Fd 1 (-600)) (Fd 1 (-600))) = true.
Proof.
  intros L. destruct one_F as [E1 E2]. destruct (F_of_Z_exact 20 eq_refl) as [A1 A2]. destruct (seps_val L) as (S1 & S2 & S3). destruct (tenth_val L) as [T1 T2].
  assert (D : forall e, (-1000 <= e <= 900)%Z -> B2R (Fd 1 e) = bpow radix2 e) by (intros e He; rewrite (Fd_exact 1 e) by lia; apply Rmult_1_l).
  split; [split; [apply libm_exact_pow|split; [apply libm_exact_pow|split; [exact libm_exact_log|split; [exact libm_exact_exp|exact libm_round_trig_sane]]]]|].
  split; [split; assumption|]. split; [intros [_ K]; rewrite D in K by lia; change (bpow radix2 (-1)) with (/ 2) in K; lra|]. split; [intros [K _]; discriminate K|]. split; [reflexivity|].
  rewrite !D by lia. split; [split; [vm_compute; reflexivity|split; [vm_compute; reflexivity|]]|].
  { replace (bpow radix2 900 / bpow radix2 (-200)) with (bpow radix2 1100) by (unfold Rdiv; rewrite <- bpow_opp, <- bpow_plus; reflexivity). rewrite rnd_id by (apply generic_format_bpow; unfold FLT_exp; lia). rewrite Rabs_pos_eq by apply bpow_ge_0. apply bpow_le. lia. }
  split; [split; [vm_compute; reflexivity|change (bpow radix2 (-1)) with (/ 2); change (bpow radix2 (-51)) with (/ 2251799813685248); lra]|].
  split; [split; vm_compute; reflexivity|]. split; [split; [vm_compute; reflexivity|split; [split; [apply bpow_le; lia|change (bpow radix2 (-4)) with (/ 16); lra]|]]|].
  { rewrite A1. split; [lra|]. apply Rle_trans with (bpow radix2 5); [change (bpow radix2 5) with 32; lra|apply bpow_le; lia]. }
  split; [|vm_compute; reflexivity]. rewrite T2. split; [rewrite Rabs_pos_eq by apply bpow_ge_0; apply bpow_le; lia|]. change (bpow radix2 (-5)) with (/ 32). change (bpow radix2 (-4)) with (/ 16). lra.
Qed.
