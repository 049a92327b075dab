(** * P_PowF: coasting and geometric series for every number of steps, negative and huge ones included (C182) *)
From Coq Require Import ZArith List Bool String Reals Lra Lia.
From Flocq Require Import Core BinarySingleNaN Relative.
From Verif Require Import Base Types NumR NumF R_Tac Spec Abs M_Vector M_Soccer L_Float P_Float P_VecF P_SafeF P_TrigF P_SoccerF P_SafeSoccer P_Int2.
Import ListNotations.
Local Open Scope R_scope.

(** What is asked of the C library's pow for an exponent that is a whole number: a power of a non-zero finite double is
    within a relative 2^-52 (plus the smallest double) of the exact one as long as that is at most 2^1023, infinite when
    it is 2^1025 or more; 0 to a negative power is infinite and to a positive power 0. *)
Definition pow_integer (L : libm) : Prop :=
  (forall (x : F) (n : Z), is_finite x = true -> B2R x <> 0 -> (Z.abs n < 2 ^ 53)%Z -> let p := lm_pow L x (F_of_Z n) in let e := powerRZ (B2R x) n in
     (Rabs e <= bpow radix2 1023 -> is_finite p = true /\ Rabs (B2R p - e) <= bpow radix2 (-52) * Rabs e + bpow radix2 (-1074)) /\
     (bpow radix2 1025 <= Rabs e -> F_is_inf p = true)) /\
  (forall (x : F) (n : Z), F_is_zero x = true -> (Z.abs n < 2 ^ 1024 - 2 ^ 970)%Z -> ((n < 0)%Z -> F_is_inf (lm_pow L x (F_of_Z n)) = true) /\ ((0 < n)%Z -> F_is_zero (lm_pow L x (F_of_Z n)) = true)).

Section Raises.
  Variables (L : libm) (pos vel : vec F) (a decay : F) (n : Z).
  Definition coast_raise e : Prop := @inertia_n_step_travel F (NumF L) vel n decay = Raise e /\ @inertia_n_step_point F (NumF L) pos vel n decay = Raise e /\ @inertia_n_step_distance F (NumF L) a n decay = Raise e.
  Definition coast_return : Prop := returns (@inertia_n_step_travel F (NumF L) vel n decay) /\ returns (@inertia_n_step_point F (NumF L) pos vel n decay) /\ returns (@inertia_n_step_distance F (NumF L) a n decay).
  Lemma power_raises e : @npowi F (NumF L) decay n = Raise e -> coast_raise e /\ @calc_first_term_geom_series F (NumF L) a decay n = Raise e.
  Proof. intros E. unfold coast_raise, inertia_n_step_point, inertia_n_step_travel, inertia_n_step_distance, calc_first_term_geom_series. rewrite E. cbn [bind]. repeat split. Qed.
  Lemma power_returns p : @npowi F (NumF L) decay n = Ok p -> ~ is_one decay -> coast_return /\ (~ is_one p -> returns (@calc_first_term_geom_series F (NumF L) a decay n)).
  Proof.
    intros E ND. assert (Z : forall d, ~ is_one d -> F_is_zero (Bminus mode_NE fone d) = false) by (intros d Hd; destruct (F_is_zero (Bminus mode_NE fone d)) eqn:Q; [apply one_minus_zero in Q; easy|reflexivity]).
    unfold coast_return, inertia_n_step_point, inertia_n_step_travel, inertia_n_step_distance, calc_first_term_geom_series. rewrite E. cbn [bind]. change (@nlit F (NumF L) 1 1) with fone. cbn [ndiv nsub nmul NumF].
    destruct (ret_div (Bminus mode_NE fone p) _ (Z _ ND)) as [x ->]. cbn [bind]. split; [split; [apply ret_ok|split; [apply ret_ok|now apply ret_div, Z]]|]. intros NP. now apply ret_div, Z.
  Qed.
End Raises.

Lemma F_zero_cases (x : F) : F_is_zero x = true -> is_finite x = true /\ B2R x = 0.
Proof. destruct x as [s|s| |s m e H]; intros E; [split; reflexivity|destruct s; discriminate E|discriminate E|destruct s; discriminate E]. Qed.
Lemma B2R_zero (x : F) : is_finite x = true -> F_is_zero x = false -> B2R x <> 0.
Proof. intros Fx Z E. destruct x as [s|s| |s m e H]; try discriminate Fx; [destruct s; discriminate Z|]. cbn [B2R] in E. unfold F2R in E. cbn [Fnum Fexp] in E. apply Rmult_integral in E as [E|E]; [apply (eq_IZR _ 0) in E; destruct s; discriminate|]. pose proof (bpow_gt_0 radix2 e). lra. Qed.

(** C182: coasting n steps (travel, point, distance) and the first term of a geometric series, for every int n.
    Beyond the doubles, n itself raises OverflowError.  Otherwise decay 1 raises ZeroDivisionError; decay 0 raises
    ValueError for n < 0 and coasting returns for n >= 0; infinite and NaN decays return; and for any other decay, up
    to 2^53 steps in either direction, OverflowError is raised when the decay to the power n is 2^1025 or more, and
    the call returns when it is at most 2^1023; the first term of a series returns then, unless that power is within
    2^-51 of 1. *)
Theorem C182_powers_F : forall (L : libm) (pos vel : vec F) (a decay : F) (n : Z), pow_ones L -> pow_integer L ->
  let raise e := coast_raise L pos vel a decay n e /\ @calc_first_term_geom_series F (NumF L) a decay n = Raise e in
  ((2 ^ 1024 - 2 ^ 970 <= Z.abs n)%Z -> raise OverflowError) /\
  ((Z.abs n < 2 ^ 1024 - 2 ^ 970)%Z ->
    (is_one decay -> raise ZeroDivisionError) /\
    (is_finite decay = false -> coast_return L pos vel a decay n) /\
    (F_is_zero decay = true -> ((n < 0)%Z -> raise ValueError) /\ ((0 <= n)%Z -> coast_return L pos vel a decay n)) /\
    (is_finite decay = true -> F_is_zero decay = false -> ~ is_one decay -> (Z.abs n < 2 ^ 53)%Z -> let exact := powerRZ (B2R decay) n in
      (bpow radix2 1025 <= Rabs exact -> raise OverflowError) /\
      (Rabs exact <= bpow radix2 1023 -> coast_return L pos vel a decay n /\ (bpow radix2 (-51) <= Rabs (exact - 1) -> returns (@calc_first_term_geom_series F (NumF L) a decay n))))).
Proof.
  intros L pos vel a decay n PO [PI PZ]. cbv zeta. change (2 ^ 1024 - 2 ^ 970)%Z with float_limit in *. split.
  { intros H. apply power_raises. cbn [npowi NumF]. unfold F_powi. now rewrite (of_Z_infinite n H). }
  intros H. destruct (of_Z_finite n H) as [_ Fn].
  assert (NZ : forall p, @F_is_zero p = true -> ~ is_one p) by (intros p Z [_ Q]; apply F_zero_cases in Z as [_ Z]; lra).
  split; [|split; [|split]].
  - intros D. assert (Z := proj2 (one_minus_zero _) D). apply is_one_eq in D. subst decay. unfold coast_raise, inertia_n_step_point, inertia_n_step_travel, inertia_n_step_distance, calc_first_term_geom_series. rewrite powi_one by assumption. cbn [bind].
    change (@nlit F (NumF L) 1 1) with fone. cbn [ndiv nsub NumF]. unfold F_div. rewrite Z. repeat split.
  - intros D. apply (power_returns L pos vel a decay n (lm_pow L decay (F_of_Z n))).
    + cbn [npowi NumF]. unfold F_powi. now rewrite Fn, D.
    + intros [Q _]. congruence.
  - intros D. destruct (PZ decay n D H) as [P1 P2]. destruct (F_zero_cases _ D) as [Fd _]. split.
    + intros N0. specialize (P1 N0). apply power_raises. cbn [npowi NumF]. unfold F_powi. rewrite Fn, Fd, D, P1. destruct (lm_pow L decay (F_of_Z n)); try discriminate P1; reflexivity.
    + intros N0. destruct (Z.eq_dec n 0) as [->|NN].
      * apply (power_returns L pos vel a decay 0 fone); [now apply powi_zero|now apply NZ].
      * specialize (P2 ltac:(lia)). apply (power_returns L pos vel a decay n (lm_pow L decay (F_of_Z n))); [|now apply NZ]. destruct (F_zero_cases _ P2) as [Fp _]. cbn [npowi NumF]. unfold F_powi. rewrite Fn, Fd. cbv zeta. destruct (lm_pow L decay (F_of_Z n)); try discriminate Fp; reflexivity.
  - intros Fd D0 D1 N53. destruct (PI decay n Fd (B2R_zero _ Fd D0) N53) as [P1 P2]. cbv zeta in P1, P2. set (e := powerRZ (B2R decay) n) in *. set (p := lm_pow L decay (F_of_Z n)) in *. split.
    + intros E. specialize (P2 E). apply power_raises. cbn [npowi NumF]. unfold F_powi. fold p. rewrite Fn, Fd, D0, P2. destruct p; try discriminate P2; reflexivity.
    + intros E. specialize (P1 E) as [Fp Ep]. destruct (power_returns L pos vel a decay n p) as [R1 R2]; [|exact D1|].
      { cbn [npowi NumF]. unfold F_powi. fold p. rewrite Fn, Fd. cbv zeta. destruct p; try discriminate Fp; reflexivity. }
      split; [exact R1|]. intros FAR. apply R2. intros [_ Q]. rewrite Q in Ep.
      assert (S : bpow radix2 (-1074) <= bpow radix2 (-60)) by (apply bpow_le; lia). change (bpow radix2 (-60)) with (/ IZR (2 ^ 60)) in S. change (bpow radix2 (-52)) with (/ IZR (2 ^ 52)) in Ep. change (bpow radix2 (-51)) with (/ IZR (2 ^ 51)) in FAR.
      change (2 ^ 60)%Z with 1152921504606846976%Z in S. change (2 ^ 52)%Z with 4503599627370496%Z in Ep. change (2 ^ 51)%Z with 2251799813685248%Z in FAR. set (t := bpow radix2 (-1074)) in *. clearbody t e.
      revert FAR Ep. unfold Rabs. repeat destruct (Rcase_abs _); lra.
Qed.

(** ** The hypotheses are met: powers rounded correctly *)
Lemma F_of_R_fits x : Rabs x <= bpow radix2 1023 -> is_finite (F_of_R x) = true /\ B2R (F_of_R x) = rnd64 x.
Proof.
  intros H. assert (B : Rabs (rnd64 x) <= bpow radix2 1023) by (apply abs_round_le_generic; [apply FLT_exp_valid; exact prec53|apply valid_rnd_N|apply generic_format_bpow; cbn; lia|exact H]).
  assert (FM : fmt64 (rnd64 x)) by (apply generic_format_round; [apply FLT_exp_valid; exact prec53|apply valid_rnd_N]).
  assert (E : F2R (Float radix2 (Ztrunc (scaled_mantissa radix2 (FLT_exp (-1074) 53) (rnd64 x))) (cexp radix2 (FLT_exp (-1074) 53) (rnd64 x))) = rnd64 x) by (symmetry; exact FM).
  unfold F_of_R. destruct (normalize_exact (Ztrunc (scaled_mantissa radix2 (FLT_exp (-1074) 53) (rnd64 x))) (cexp radix2 (FLT_exp (-1074) 53) (rnd64 x)) false) as [A1 A2]; rewrite ?E in *; try assumption.
  - eapply Rle_lt_trans; [exact B|]. apply bpow_lt. lia.
  - split; assumption.
Qed.
Lemma F_of_R_beyond x : bpow radix2 1025 <= Rabs x -> F_is_inf (F_of_R x) = true.
Proof.
  intros H. assert (B : bpow radix2 1025 <= Rabs (rnd64 x)) by (apply abs_round_ge_generic; [apply FLT_exp_valid; exact prec53|apply valid_rnd_N|apply generic_format_bpow; cbn; lia|exact H]).
  assert (FM : fmt64 (rnd64 x)) by (apply generic_format_round; [apply FLT_exp_valid; exact prec53|apply valid_rnd_N]).
  unfold F_of_R. set (m := Ztrunc _). set (k := cexp _ _ _).
  assert (E : F2R (Float radix2 m k) = rnd64 x) by (symmetry; exact FM). clearbody m k.
  pose proof (binary_normalize_correct 53 1024 eq_refl eq_refl mode_NE m k false) as K. cbn beta iota zeta in K. rewrite E in K.
  change (round radix2 (SpecFloat.fexp 53 1024) (round_mode mode_NE) (rnd64 x)) with (rnd64 (rnd64 x)) in K.
  assert (ID : rnd64 (rnd64 x) = rnd64 x) by (apply round_generic; [apply valid_rnd_N|exact FM]). rewrite ID in K. rewrite Rlt_bool_false in K by (eapply Rle_trans; [apply bpow_le|exact B]; lia).
  destruct (binary_normalize 53 1024 eq_refl eq_refl mode_NE m k false) as [s|s| |s m' e' HH]; cbn in K; try discriminate K; reflexivity.
Qed.
Definition libm_int : libm := {| lm_sin := fun x => x; lm_cos := fun x => x; lm_tan := fun x => x; lm_asin := fun x => x; lm_acos := fun x => x; lm_atan := fun x => x;
  lm_atan2 := fun _ x => x; lm_exp := fun x => x; lm_log := fun x => x;
  lm_pow := fun x y => if F_is_zero y then fone else if is_finite x then if F_is_zero x then if Bltb y (F_of_Z 0) then B754_infinity false else x else F_of_R (powerRZ (B2R x) (Zfloor (B2R y))) else x |}.
Lemma powerRZ_one z : powerRZ 1 z = 1.
Proof. destruct z as [|q|q]; cbn [powerRZ]; rewrite ?pow1; [reflexivity|reflexivity|apply Rinv_1]. Qed.
Lemma libm_int_ones : pow_ones libm_int.
Proof.
  assert (O : F_of_R 1 = fone) by (destruct (F_of_R_fits 1) as [G1 G2]; [rewrite Rabs_R1; change 1 with (bpow radix2 0); apply bpow_le; lia|]; apply is_one_eq; split; [exact G1|]; rewrite G2; change 1 with (bpow radix2 0); apply round_generic; [apply valid_rnd_N|apply generic_format_bpow; cbn; lia]).
  intros x. cbn [lm_pow libm_int]. split.
  - destruct (F_is_zero x); [reflexivity|]. change (is_finite fone) with true. replace (F_is_zero fone) with false by (vm_compute; reflexivity). cbv iota. now rewrite (proj1 one_F), powerRZ_one.
  - replace (F_is_zero (F_of_Z 0)) with true by (vm_compute; reflexivity). reflexivity.
Qed.
Lemma F_of_Z_zero n : (Z.abs n < 2 ^ 53)%Z -> n <> 0%Z -> F_is_zero (F_of_Z n) = false.
Proof. intros H NZ. destruct (F_is_zero (F_of_Z n)) eqn:E; [|reflexivity]. exfalso. apply F_zero_cases in E as [_ E]. destruct (F_of_Z_exact n ltac:(lia)) as [V _]. rewrite V in E. now apply (eq_IZR n 0) in E. Qed.
Lemma libm_int_integer : pow_integer libm_int.
Proof.
  split.
  - intros x n Fx X0 N. cbv zeta. cbn [lm_pow libm_int]. set (e := powerRZ (B2R x) n).
    assert (Q : lm_pow libm_int x (F_of_Z n) = F_of_R e).
    { cbn [lm_pow libm_int]. destruct (Z.eq_dec n 0) as [->|NZ].
      - unfold e. cbn [powerRZ]. replace (F_is_zero (F_of_Z 0)) with true by (vm_compute; reflexivity). destruct (libm_int_ones fone) as [W _]. cbn [lm_pow libm_int] in W. symmetry. destruct (libm_int_ones (F_of_Z 1)) as [W1 _]. cbn [lm_pow libm_int] in W1.
        replace (F_is_zero (F_of_Z 1)) with false in W1 by (vm_compute; reflexivity). replace (F_is_zero fone) with false in W1 by (vm_compute; reflexivity). change (is_finite fone) with true in W1. cbv iota in W1. now rewrite (proj1 one_F), powerRZ_one in W1.
      - rewrite (F_of_Z_zero n N NZ), Fx. destruct (F_is_zero x) eqn:Z; [apply F_zero_cases in Z as [_ Z]; easy|]. destruct (F_of_Z_exact n ltac:(lia)) as [V _]. now rewrite V, Zfloor_IZR. }
    cbn [lm_pow libm_int] in Q. rewrite Q. split; [|apply F_of_R_beyond]. intros H. destruct (F_of_R_fits e H) as [G1 G2]. split; [exact G1|]. rewrite G2.
    destruct (error_N_FLT radix2 (-1074) 53 ltac:(lia) (fun z => negb (Z.even z)) e) as (eps & eta & E1 & E2 & _ & E3). change (round radix2 (FLT_exp (-1074) 53) (Znearest _) e) with (rnd64 e) in E3. rewrite E3.
    replace (e * (1 + eps) + eta - e) with (eps * e + eta) by ring. eapply Rle_trans; [apply Rabs_triang|]. rewrite Rabs_mult. pose proof (Rabs_pos e). pose proof (bpow_gt_0 radix2 (-1074)). assert (E1b : Rabs eps <= / 2 * bpow radix2 (-52)) by exact E1. assert (E2b : Rabs eta <= / 2 * bpow radix2 (-1074)) by exact E2. pose proof (bpow_gt_0 radix2 (-52)).
    assert (Rabs eps * Rabs e <= bpow radix2 (-52) * Rabs e) by (apply Rmult_le_compat_r; lra). lra.
  - intros x n X0 H. cbn [lm_pow libm_int]. destruct (of_Z_finite n H) as [V Fn]. destruct (F_zero_cases _ X0) as [Fx _]. rewrite Fx, X0. destruct (F_of_Z_exact 0 eq_refl) as [Z1 Z2F].
    assert (SG : forall m : Z, (1 <= m)%Z -> 1 <= rnd64 (IZR m)) by (intros m Hm; apply round_ge_generic; [apply FLT_exp_valid; exact prec53|apply valid_rnd_N|change 1 with (bpow radix2 0); apply generic_format_bpow; cbn; lia|now apply (IZR_le 1)]).
    split; intros N0.
    + assert (B : B2R (F_of_Z n) <= -1) by (rewrite V; replace n with (- (- n))%Z by lia; rewrite opp_IZR; unfold rnd64; rewrite round_NE_opp; pose proof (SG (- n)%Z ltac:(lia)) as S; unfold rnd64 in S; lra).
      destruct (F_is_zero (F_of_Z n)) eqn:Q; [apply F_zero_cases in Q as [_ Q]; lra|]. rewrite Bltb_correct by assumption. rewrite Z1. rewrite Rlt_bool_true by lra. reflexivity.
    + assert (B : 1 <= B2R (F_of_Z n)) by (rewrite V; apply SG; lia).
      destruct (F_is_zero (F_of_Z n)) eqn:Q; [apply F_zero_cases in Q as [_ Q]; lra|]. rewrite Bltb_correct by assumption. rewrite Z1. rewrite Rlt_bool_false by lra. exact X0.
Qed.
Example C182_powers_nonvacuous : pow_ones libm_int /\ pow_integer libm_int /\
  (exists half : F, is_finite half = true /\ F_is_zero half = false /\ ~ is_one half /\ bpow radix2 1025 <= Rabs (powerRZ (B2R half) (-1025)) /\ Rabs (powerRZ (B2R half) (-3)) <= bpow radix2 1023 /\ bpow radix2 (-51) <= Rabs (powerRZ (B2R half) (-3) - 1)).
Proof.
  split; [exact libm_int_ones|]. split; [exact libm_int_integer|]. exists (Fd 1 (-1)).
  assert (V : B2R (Fd 1 (-1)) = / 2) by (replace (B2R (Fd 1 (-1))) with (SF2R radix2 (B2SF (Fd 1 (-1)))) by apply SF2R_B2SF; replace (B2SF (Fd 1 (-1))) with (SpecFloat.S754_finite false 4503599627370496 (-53)) by (vm_compute; reflexivity); unfold SF2R, F2R; cbn [cond_Zopp Fnum Fexp]; change (bpow radix2 (-53)) with (/ IZR (2 ^ 53)); change (2 ^ 53)%Z with 9007199254740992%Z; lra).
  rewrite V. split; [vm_compute; reflexivity|]. split; [vm_compute; reflexivity|]. split; [intros [_ Q]; rewrite V in Q; lra|].
  assert (P : forall q, powerRZ (/ 2) (Zneg q) = bpow radix2 (Zpos q)).
  { intros q. cbn [powerRZ]. rewrite <- Rinv_pow by lra. rewrite Rinv_inv. rewrite <- (positive_nat_Z q). rewrite bpow_powerRZ. rewrite <- pow_powerRZ. reflexivity. }
  rewrite !P. rewrite !Rabs_pos_eq by apply bpow_ge_0. split; [lra|]. split; [apply bpow_le; lia|]. change (bpow radix2 3) with 8. rewrite Rabs_pos_eq by lra. pose proof (bpow_le radix2 (-51) 0 ltac:(lia)) as S. change (bpow radix2 0) with 1 in S. lra.
Qed.
