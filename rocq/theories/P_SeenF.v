(** * P_SeenF: quantized distances in doubles (C183) *)
From Coq Require Import ZArith List Bool String Reals Lra Lia Psatz.
From Flocq Require Import Core BinarySingleNaN.
From Verif Require Import Base Types NumR NumF R_Tac Spec Abs M_Angle M_Vector M_Soccer
  L_Float P_Float P_AngleF P_Soccer2 P_Robust P_Hull2 P_VecF P_TrigF P_LineF P_MatF P_SoccerF P_SafeF P_AngleF3 P_QuantF P_SafeSoccer.
Import ListNotations.
Local Open Scope R_scope.

(** one rounding to a multiple of the step, and the ends of its interval *)
Lemma stage L m (v q : F) : (0 <= m <= 46)%Z -> quant_dom m v q -> 0 < B2R q ->
  exists (k : Z) (r lo hi : F), @quantize F (NumF L) v q = Ok r /\ @unquantize_min F (NumF L) v q = Ok lo /\ @unquantize_max F (NumF L) v q = Ok hi /\
    r = Bmult mode_NE (F_of_Z k) q /\ (Z.abs k <= 2 ^ m + 1)%Z /\ round_away (rnd64 (B2R v / B2R q)) k /\ is_finite r = true /\ is_finite lo = true /\ is_finite hi = true /\
    Rabs (IZR k * B2R q - B2R v) <= (1 / 2 + bpow radix2 (m - 54)) * B2R q /\
    let h := bpow radix2 (m - 50) * B2R q in Rabs (B2R r - IZR k * B2R q) <= h /\ Rabs (B2R lo - (IZR k - 1 / 2) * B2R q) <= h /\ Rabs (B2R hi - (IZR k + 1 / 2) * B2R q) <= h.
Proof.
  intros Hm H QP. assert (QA : Rabs (B2R q) = B2R q) by (apply Rabs_pos_eq; lra). destruct (quot_step L m v q ltac:(lia) H) as (k & (w & W1 & W2) & K & KE & KB). pose proof (dom_nz _ _ _ H) as QN. destruct H as (V1 & Q1 & Q2 & _).
  assert (PB : (2 ^ m <= 2 ^ 46)%Z) by (apply Z.pow_le_mono_r; lia). change (2 ^ 46)%Z with 70368744177664%Z in PB.
  destruct (F_of_Z_exact k) as [Z1 Z2]; [change (2 ^ 53)%Z with 9007199254740992%Z; lia|]. destruct (half_exact L k) as [[A1 A2] [B1 B2]]; [change (2 ^ 50)%Z with 1125899906842624%Z; lia|].
  assert (KI : Rabs (IZR k) + 1 <= bpow radix2 (m + 2)).
  { rewrite <- abs_IZR, <- plus_IZR. replace (bpow radix2 (m + 2)) with (IZR (2 ^ (m + 2))) by (rewrite <- (IZR_Zpower radix2) by lia; reflexivity). apply IZR_le. rewrite Z.pow_add_r by lia. assert (1 <= 2 ^ m)%Z by (apply (Z.pow_le_mono_r 2 0 m); lia). change (2 ^ 2)%Z with 4%Z. lia. }
  assert (S : forall c : F, is_finite c = true -> Rabs (B2R c) <= bpow radix2 (m + 2) -> is_finite (Bmult mode_NE c q) = true /\ Rabs (B2R (Bmult mode_NE c q) - B2R c * B2R q) <= bpow radix2 (m - 50) * B2R q).
  { intros c C1 C2. destruct (times_step c q (m + 2) ltac:(lia) C1 C2 Q1 Q2) as (T1 & T2 & T3). split; [exact T2|]. rewrite T1. eapply Rle_trans; [exact T3|]. rewrite QA, <- Rmult_plus_distr_r. apply Rmult_le_compat_r; [lra|].
    replace (m - 50)%Z with (1 + (m - 51))%Z by lia. rewrite bp2. assert (bpow radix2 (-175) <= bpow radix2 (m - 51)) by (apply bpow_le; lia). replace (m + 2 - 53)%Z with (m - 51)%Z by lia. lra. }
  exists k. eexists _, _, _. unfold quantize, unquantize_min, unquantize_max. rewrite W1. cbn [bind]. rewrite W2. cbn [bind]. split; [reflexivity|]. split; [reflexivity|]. split; [reflexivity|]. split; [reflexivity|]. cbn [nofZ nmul NumF] in *.
  split; [exact KB|]. split; [exact K|].
  destruct (S (F_of_Z k) Z2) as [R1 R2]; [rewrite Z1; lra|]. rewrite Z1 in R2.
  destruct (S _ A2) as [L1 L2]; [rewrite A1; apply Rle_trans with (Rabs (IZR k) + 1); [unfold Rminus; eapply Rle_trans; [apply Rabs_triang|]; rewrite (Rabs_left1 (- / 2)) by lra; lra|exact KI]|]. rewrite A1 in L2.
  destruct (S _ B2) as [M1 M2]; [rewrite B1; apply Rle_trans with (Rabs (IZR k) + 1); [eapply Rle_trans; [apply Rabs_triang|]; rewrite (Rabs_pos_eq (/ 2)) by lra; lra|exact KI]|]. rewrite B1 in M2.
  split; [exact R1|]. split; [exact L1|]. split; [exact M1|]. split.
  - destruct K as [K _]. apply Rabs_le_inv in K. apply Rabs_le_inv in KE. replace (IZR k * B2R q - B2R v) with ((IZR k - B2R v / B2R q) * B2R q) by (field; lra). rewrite Rabs_mult, QA. apply Rmult_le_compat_r; [lra|]. apply Rabs_le. lra.
  - cbv zeta. replace (1 / 2) with (/ 2) by lra. split; [exact R2|]. split; [exact L2|exact M2].
Qed.

Lemma eps_low L : / 17179869184 <= B2R (@SERVER_EPS F (NumF L)) <= / 8589934592.
Proof.
  assert (E : B2SF (@SERVER_EPS F (NumF L)) = SpecFloat.S754_finite false 7737125245533627 (-86)) by (vm_compute; reflexivity). set (e := @SERVER_EPS F (NumF L)) in *. clearbody e.
  destruct e as [t|t| |t m x B]; try discriminate E. injection E as -> -> ->. cbn [B2R cond_Zopp]. unfold F2R. cbn [Fnum Fexp]. change (bpow radix2 (-86)) with (/ 77371252455336267181195264). lra.
Qed.
Lemma exp_small x : 0 <= x <= 1 / 2 -> exp x <= 1 + 2 * x.
Proof.
  intros H. assert (I : exp x * exp (- x) = 1) by (rewrite <- exp_plus, Rplus_opp_r; apply exp_0). assert (G : 1 - x <= exp (- x)) by (destruct (Req_dec x 0) as [->|N]; [rewrite Ropp_0, exp_0; lra|pose proof (exp_ineq1 (- x) ltac:(lra)); lra]).
  pose proof (exp_pos x) as P. apply (Rmult_le_reg_r (1 - x)); [lra|]. apply Rle_trans with 1; [rewrite <- I; apply Rmult_le_compat_l; lra|nra].
Qed.
Lemma exp_le x y : x <= y -> exp x <= exp y.
Proof. intros [H|H]; [left; now apply exp_increasing|right; now rewrite H]. Qed.
Lemma exp_at_least x : 1 + x <= exp x.
Proof. destruct (Req_dec x 0) as [->|N]; [rewrite exp_0; lra|left; now apply exp_ineq1]. Qed.

(** the steps and distances considered *)
Definition seen_dom (d q : F) : Prop := is_finite d = true /\ 0 <= B2R d <= bpow radix2 20 /\ is_finite q = true /\ bpow radix2 (-10) <= B2R q <= 1.

(** from the distance to the number of steps of its logarithm *)
Lemma log_stage L (d q : F) : log_accurate L -> seen_dom d q -> exists (s l r lo hi : F) (k : Z), s = Bplus mode_NE d (@SERVER_EPS F (NumF L)) /\ l = lm_log L s /\ @nlog F (NumF L) s = Ok l /\ @quantize F (NumF L) l q = Ok r /\
  let D := B2R d + B2R (@SERVER_EPS F (NumF L)) in 0 < B2R s /\ is_finite s = true /\ is_finite l = true /\ Rabs (B2R s - D) <= / 1000000000000000 * D /\ Rabs (B2R l - ln (B2R s)) <= / 100000000000000 /\
  quant_dom 16 l q /\ is_finite r = true /\ Rabs (IZR k * B2R q - B2R l) <= (1 / 2 + / 100000000000) * B2R q /\ Rabs (B2R r - IZR k * B2R q) <= / 10000000000.
Proof.
  intros LA (Fd & D0 & Fq & Q). destruct (seps_val L) as (S1 & S2 & S3). pose proof (eps_low L) as EL. set (ep := @SERVER_EPS F (NumF L)) in *. change (bpow radix2 20) with 1048576 in D0. change (bpow radix2 (-10)) with (/ 1024) in Q.
  assert (AB : Rabs (B2R d + B2R ep) <= bpow radix2 21) by (change (bpow radix2 21) with 2097152; apply Rabs_le; lra). destruct (rnd_err _ 21 ltac:(lia) AB) as [_ R]. destruct (F_add d ep Fd S1) as [A1 A2]; [apply (finite_lt 21); [lia|exact R]|].
  set (s := Bplus mode_NE d ep) in *. set (D := B2R d + B2R ep) in *. assert (DP : / 17179869184 <= D <= 1048577) by (unfold D; lra).
  assert (E1 : Rabs (B2R s - D) <= / 1000000000000000 * D).
  { rewrite A1. eapply Rle_trans; [apply rnd_rel|]. assert (UE : u = / 9007199254740992) by reflexivity. rewrite UE, Rabs_pos_eq by lra. assert (T : bpow radix2 (-1075) <= / 1267650600228229401496703205376) by (change (/ 1267650600228229401496703205376) with (bpow radix2 (-100)); apply bpow_le; lia). lra. }
  assert (SP : / 34359738368 <= B2R s <= 2097152) by (apply Rabs_le_inv in E1; lra).
  assert (S0 : 0 < B2R s) by lra. destruct (LA s A2 S0) as [L1 L2]. destruct (ln_bpow (B2R s) 21 ltac:(lia) S0) as [N1 _]. destruct (ln_bpow (B2R s) 35 ltac:(lia) S0) as [_ N2].
  change (bpow radix2 21) with 2097152 in N1. change (bpow radix2 (-(35))) with (/ 34359738368) in N2. specialize (N1 ltac:(lra)). specialize (N2 ltac:(lra)).
  assert (E2 : Rabs (B2R (lm_log L s) - ln (B2R s)) <= / 100000000000000) by (eapply Rle_trans; [exact L2|]; change (bpow radix2 (-52)) with (/ 4503599627370496); assert (Rabs (ln (B2R s)) <= 35) by (apply Rabs_le; lra); lra).
  set (l := lm_log L s) in *. assert (LB : Rabs (B2R l) <= 36) by (apply Rabs_le_inv in E2; apply Rabs_le; lra).
  assert (QD : quant_dom 16 l q).
  { split; [exact L1|]. split; [exact Fq|]. rewrite (Rabs_pos_eq (B2R q)) by lra. change (bpow radix2 16) with 65536. split; [split; [apply Rle_trans with (bpow radix2 (-10)); [apply bpow_le; lia|change (bpow radix2 (-10)) with (/ 1024); lra]|apply Rle_trans with (bpow radix2 0); [change (bpow radix2 0) with 1; lra|apply bpow_le; lia]]|]. lra. }
  destruct (stage L 16 l q ltac:(lia) QD ltac:(lra)) as (k & r & lo & hi & T1 & _ & _ & _ & _ & _ & T2 & _ & _ & T3 & T4 & _). exists s, l, r, lo, hi, k. split; [reflexivity|]. split; [reflexivity|].
  split; [cbn [nlog NumF]; unfold F_log; destruct (F_of_Z_exact 0 eq_refl) as [Z1 Z2]; rewrite leb_F, Z1 by assumption; now rewrite Rle_bool_false|]. split; [exact T1|]. cbv zeta. fold D.
  split; [exact S0|]. split; [exact A2|]. split; [exact L1|]. split; [exact E1|]. split; [exact E2|]. split; [exact QD|]. split; [exact T2|]. split.
  - eapply Rle_trans; [exact T3|]. apply Rmult_le_compat_r; [lra|]. change (bpow radix2 (16 - 54)) with (/ 274877906944). lra.
  - eapply Rle_trans; [exact T4|]. change (bpow radix2 (16 - 50)) with (/ 17179869184). lra.
Qed.
Lemma exp_val L (r : F) : exp_accurate L -> is_finite r = true -> B2R r <= 620 -> @nexp F (NumF L) r = Ok (lm_exp L r) /\ is_finite (lm_exp L r) = true /\ Rabs (B2R (lm_exp L r)) <= bpow radix2 985 /\
  exp (B2R r) * (1 - / 1000000000000000) - / 1000000000000000000000000000000 <= B2R (lm_exp L r) <= exp (B2R r) * (1 + / 1000000000000000) + / 1000000000000000000000000000000.
Proof.
  intros EA Fr U. destruct (exp_bound L r EA Fr U) as (A & B & C). split; [exact A|]. split; [exact B|]. split; [exact C|]. destruct (EA r Fr U) as [_ E]. pose proof (exp_pos (B2R r)) as P.
  assert (T : bpow radix2 (-1074) <= / 1267650600228229401496703205376) by (change (/ 1267650600228229401496703205376) with (bpow radix2 (-100)); apply bpow_le; lia). change (bpow radix2 (-52)) with (/ 4503599627370496) in E. apply Rabs_le_inv in E. lra.
Qed.
(** the whole of quantize_dist *)
Lemma dist_stage L (d q : F) : log_accurate L -> exp_accurate L -> seen_dom d q -> exists (s l r e see : F) (k n : Z),
  s = Bplus mode_NE d (@SERVER_EPS F (NumF L)) /\ l = lm_log L s /\ e = lm_exp L r /\ see = Bmult mode_NE (F_of_Z n) (@nlit F (NumF L) 1 10) /\
  @quantize_dist F (NumF L) d q = Ok see /\ @quantize F (NumF L) l q = Ok r /\ @quantize F (NumF L) e (@nlit F (NumF L) 1 10) = Ok see /\ quant_dom 16 l q /\ quant_dom 30 e (@nlit F (NumF L) 1 10) /\
  let D := B2R d + B2R (@SERVER_EPS F (NumF L)) in 0 < B2R s /\ is_finite s = true /\ Rabs (B2R s - D) <= / 1000000000000000 * D /\ Rabs (B2R l - ln (B2R s)) <= / 100000000000000 /\
  is_finite r = true /\ Rabs (IZR k * B2R q - B2R l) <= (1 / 2 + / 100000000000) * B2R q /\ Rabs (B2R r - IZR k * B2R q) <= / 10000000000 /\
  is_finite e = true /\ exp (B2R r) * (1 - / 1000000000000000) - / 1000000000000000000000000000000 <= B2R e <= exp (B2R r) * (1 + / 1000000000000000) + / 1000000000000000000000000000000 /\
  (Z.abs n <= 2 ^ 30 + 1)%Z /\ is_finite see = true /\ Rabs (IZR n * B2R (@nlit F (NumF L) 1 10) - B2R e) <= / 20 + / 100000000 /\ Rabs (B2R see - IZR n * B2R (@nlit F (NumF L) 1 10)) <= / 1000000.
Proof.
  intros LA EA SD. destruct (log_stage L d q LA SD) as (s & l & r & lo & hi & k & Es & El & NL & QL & C1 & C2 & C3 & C4 & C5 & C6 & C7 & C8 & C9). pose proof (eps_low L) as EL. destruct SD as (Fd & D0 & Fq & Q).
  set (ep := @SERVER_EPS F (NumF L)) in *. set (D := B2R d + B2R ep) in *. change (bpow radix2 20) with 1048576 in D0. change (bpow radix2 (-10)) with (/ 1024) in Q. assert (DP : / 17179869184 <= D <= 1048577) by (unfold D; lra).
  assert (RS : B2R r <= ln (B2R s) + 1) by (apply Rabs_le_inv in C5; apply Rabs_le_inv in C8; apply Rabs_le_inv in C9; lra).
  assert (EX : exp (B2R r) <= 4000000).
  { apply Rle_trans with (exp (ln (B2R s) + 1)); [now apply exp_le|]. rewrite exp_plus, exp_ln by exact C1. pose proof exp_le_3 as E3. apply Rabs_le_inv in C4. pose proof (exp_pos 1). apply Rle_trans with (B2R s * 3); [apply Rmult_le_compat_l; lra|lra]. }
  assert (RU : B2R r <= 620).
  { destruct (ln_bpow (B2R s) 21 ltac:(lia) C1) as [N1 _]. change (bpow radix2 21) with 2097152 in N1. specialize (N1 ltac:(apply Rabs_le_inv in C4; lra)). lra. }
  destruct (exp_val L r EA C7 RU) as (X1 & X2 & _ & X4). pose proof (exp_pos (B2R r)) as EP. destruct (tenth_val L) as [T1 T2]. set (t := @nlit F (NumF L) 1 10) in *.
  assert (QD : quant_dom 30 (lm_exp L r) t).
  { split; [exact X2|]. split; [exact T1|]. rewrite T2, (Rabs_pos_eq (_ / _)) by lra. split; [split|].
    - apply Rle_trans with (bpow radix2 (-4)); [apply bpow_le; lia|change (bpow radix2 (-4)) with (/ 16); lra].
    - apply Rle_trans with (bpow radix2 0); [change (bpow radix2 0) with 1; lra|apply bpow_le; lia].
    - change (bpow radix2 30) with 1073741824. apply Rabs_le. lra. }
  destruct (stage L 30 (lm_exp L r) t ltac:(lia) QD ltac:(lra)) as (n & see & lo' & hi' & S1 & _ & _ & S2 & S3 & _ & S4 & _ & _ & S5 & S6 & _).
  exists s, l, r, (lm_exp L r), see, k, n. do 4 (split; [first [assumption | reflexivity]|]).
  split; [unfold quantize_dist; fold ep; change (@nadd F (NumF L) d ep) with (Bplus mode_NE d ep); rewrite <- Es, NL; cbn [bind]; rewrite QL; cbn [bind]; rewrite X1; exact S1|].
  split; [exact QL|]. split; [exact S1|]. split; [exact C6|]. split; [exact QD|]. cbv zeta. fold D. split; [exact C1|]. split; [exact C2|]. split; [exact C4|]. split; [exact C5|]. split; [exact C7|]. split; [exact C8|]. split; [exact C9|].
  split; [exact X2|]. split; [exact X4|]. split; [exact S3|]. split; [exact S4|]. rewrite T2 in *. split.
  - eapply Rle_trans; [exact S5|]. change (bpow radix2 (30 - 54)) with (/ 16777216). lra.
  - eapply Rle_trans; [exact S6|]. change (bpow radix2 (30 - 50)) with (/ 1048576). lra.
Qed.
(** C183: what quantize_dist returns: a number within 0.05 of one whose logarithm is within half a step of that of
    the distance, up to rounding. *)
Theorem C183_seen_F : forall (L : libm) (d q : F), log_accurate L -> exp_accurate L -> seen_dom d q ->
  exists (see : F) (e : R), @quantize_dist F (NumF L) d q = Ok see /\ is_finite see = true /\ Rabs (B2R see - e) <= / 20 + / 500000 /\
    (B2R d + B2R (@SERVER_EPS F (NumF L))) * exp (- (B2R q / 2 + / 1000000000)) <= e <= (B2R d + B2R (@SERVER_EPS F (NumF L))) * exp (B2R q / 2 + / 1000000000).
Proof.
  intros L d q LA EA SD. destruct (dist_stage L d q LA EA SD) as (s & l & r & e & see & k & n & _ & _ & _ & _ & QD & _ & _ & _ & _ & C1 & C2 & C4 & C5 & C7 & C8 & C9 & E1 & E2 & N1 & S1 & S2 & S3). pose proof (eps_low L) as EL. destruct SD as (Fd & D0 & Fq & Q).
  set (ep := @SERVER_EPS F (NumF L)) in *. set (D := B2R d + B2R ep) in *. change (bpow radix2 20) with 1048576 in D0. change (bpow radix2 (-10)) with (/ 1024) in Q. assert (DP : / 17179869184 <= D <= 1048577) by (unfold D; lra).
  exists see, (exp (B2R r)). split; [exact QD|]. split; [exact S1|].
  assert (RS : Rabs (B2R r - ln (B2R s)) <= B2R q / 2 + / 5000000000) by (apply Rabs_le_inv in C5; apply Rabs_le_inv in C8; apply Rabs_le_inv in C9; apply Rabs_le; lra).
  apply Rabs_le_inv in RS. pose proof (exp_pos (B2R r)) as EP.
  assert (SD1 : D * exp (- / 2000000000) <= B2R s <= D * exp (/ 2000000000)).
  { apply Rabs_le_inv in C4. pose proof (exp_at_least (/ 2000000000)) as G1. assert (G2 : exp (- / 2000000000) <= 1 - / 4000000000).
    { assert (I : exp (/ 2000000000) * exp (- / 2000000000) = 1) by (rewrite <- exp_plus, Rplus_opp_r; apply exp_0). pose proof (exp_pos (- / 2000000000)). nra. }
    split; [apply Rle_trans with (D * (1 - / 4000000000)); [apply Rmult_le_compat_l; lra|lra]|apply Rle_trans with (D * (1 + / 2000000000)); [lra|apply Rmult_le_compat_l; lra]]. }
  split.
  - assert (EX : exp (B2R r) <= 4000000).
    { apply Rle_trans with (exp (ln (B2R s) + 1)); [apply exp_le; lra|]. rewrite exp_plus, exp_ln by exact C1. pose proof exp_le_3 as E3. apply Rabs_le_inv in C4. pose proof (exp_pos 1). apply Rle_trans with (B2R s * 3); [apply Rmult_le_compat_l; lra|lra]. }
    apply Rabs_le_inv in S2. apply Rabs_le_inv in S3. apply Rabs_le. lra.
  - assert (EE : exp (B2R r) = B2R s * exp (B2R r - ln (B2R s))) by (rewrite <- (exp_ln (B2R s) C1) at 1; rewrite <- exp_plus; f_equal; ring).
    rewrite EE. split.
    + replace (- (B2R q / 2 + / 1000000000)) with (- / 2000000000 + (- (B2R q / 2) - / 2000000000)) by lra. rewrite exp_plus, <- Rmult_assoc. apply Rmult_le_compat; [apply Rmult_le_pos; [lra|left; apply exp_pos]|left; apply exp_pos|apply SD1|apply exp_le; lra].
    + replace (B2R q / 2 + / 1000000000) with (/ 2000000000 + (B2R q / 2 + / 2000000000)) by lra. rewrite exp_plus, <- Rmult_assoc. apply Rmult_le_compat; [lra|left; apply exp_pos|apply SD1|apply exp_le; lra].
Qed.

(** the two ends unquantize_error computes *)
Definition low_end L (see q : F) : res F := bind (@unquantize_min F (NumF L) see (@nlit F (NumF L) 1 10)) (fun m => bind (@nlog F (NumF L) m) (fun l => bind (@unquantize_min F (NumF L) l q) (@nexp F (NumF L)))).
Definition high_end L (see q : F) : res F := bind (@unquantize_max F (NumF L) see (@nlit F (NumF L) 1 10)) (fun m => bind (@nlog F (NumF L) m) (fun l => bind (@unquantize_max F (NumF L) l q) (@nexp F (NumF L)))).
Lemma error_ends L see q em ex : low_end L see q = Ok em -> high_end L see q = Ok ex ->
  @unquantize_error F (NumF L) see q = Ok (Babs (Bminus mode_NE (Bminus mode_NE ex (@SERVER_EPS F (NumF L))) (Bminus mode_NE em (@SERVER_EPS F (NumF L))))).
Proof.
  unfold low_end, high_end, unquantize_error. intros A B.
  destruct (@unquantize_min F (NumF L) see (@nlit F (NumF L) 1 10)) as [m0|]; cbn [bind] in A |- *; [|discriminate A]. destruct (@nlog F (NumF L) m0) as [l0|]; cbn [bind] in A |- *; [|discriminate A].
  destruct (@unquantize_min F (NumF L) l0 q) as [u0|]; cbn [bind] in A |- *; [|discriminate A]. rewrite A. cbn [bind].
  destruct (@unquantize_max F (NumF L) see (@nlit F (NumF L) 1 10)) as [m1|]; cbn [bind] in B |- *; [|discriminate B]. destruct (@nlog F (NumF L) m1) as [l1|]; cbn [bind] in B |- *; [|discriminate B].
  destruct (@unquantize_max F (NumF L) l1 q) as [u1|]; cbn [bind] in B |- *; [|discriminate B]. rewrite B. reflexivity.
Qed.
Lemma log_val L (x : F) : log_accurate L -> is_finite x = true -> / 32 <= B2R x <= 2097152 * 8 -> @nlog F (NumF L) x = Ok (lm_log L x) /\ is_finite (lm_log L x) = true /\ Rabs (B2R (lm_log L x) - ln (B2R x)) <= / 100000000000000 /\ Rabs (ln (B2R x)) <= 24.
Proof.
  intros LA Fx B. assert (P : 0 < B2R x) by lra. destruct (LA x Fx P) as [L1 L2]. destruct (ln_bpow (B2R x) 24 ltac:(lia) P) as [N1 _]. destruct (ln_bpow (B2R x) 5 ltac:(lia) P) as [_ N2].
  change (bpow radix2 24) with 16777216 in N1. change (bpow radix2 (-(5))) with (/ 32) in N2. specialize (N1 ltac:(lra)). specialize (N2 ltac:(lra)). assert (A : Rabs (ln (B2R x)) <= 24) by (apply Rabs_le; lra).
  split; [cbn [nlog NumF]; unfold F_log; destruct (F_of_Z_exact 0 eq_refl) as [Z1 Z2]; rewrite leb_F, Z1 by assumption; now rewrite Rle_bool_false|]. split; [exact L1|]. split; [|exact A]. eapply Rle_trans; [exact L2|]. change (bpow radix2 (-52)) with (/ 4503599627370496). lra.
Qed.
Lemma ends_bound L (d q see : F) : log_accurate L -> exp_accurate L -> seen_dom d q -> @quantize_dist F (NumF L) d q = Ok see -> 0 < B2R see ->
  let D := B2R d + B2R (@SERVER_EPS F (NumF L)) in
  exists em ex, low_end L see q = Ok em /\ high_end L see q = Ok ex /\ is_finite em = true /\ is_finite ex = true /\ Rabs (B2R em) <= bpow radix2 985 /\ Rabs (B2R ex) <= bpow radix2 985 /\ B2R em <= D * (1 + / 1000000000) /\ D * (1 - / 1000000000) <= B2R ex.
Proof.
  intros LA EA SD EQ SP D. destruct (dist_stage L d q LA EA SD) as (s & l & r & e & see' & k & n & _ & _ & _ & ES & QD & _ & _ & _ & _ & C1 & C2 & C4 & C5 & C7 & C8 & C9 & E1 & E2 & N1 & S1 & S2 & S3). rewrite EQ in QD. injection QD as <-. pose proof (eps_low L) as EL. destruct SD as (Fd & D0 & Fq & Q).
  set (ep := @SERVER_EPS F (NumF L)) in *. fold D in C4. change (bpow radix2 20) with 1048576 in D0. change (bpow radix2 (-10)) with (/ 1024) in Q. assert (DP : / 17179869184 <= D <= 1048577) by (unfold D; lra).
  destruct (tenth_val L) as [T1 T2]. set (t := @nlit F (NumF L) 1 10) in *. pose proof (exp_pos (B2R r)) as EP.
  assert (RS : B2R r <= ln (B2R s) + 1) by (apply Rabs_le_inv in C5; apply Rabs_le_inv in C8; apply Rabs_le_inv in C9; lra).
  assert (EX : exp (B2R r) <= 4000000).
  { apply Rle_trans with (exp (ln (B2R s) + 1)); [now apply exp_le|]. rewrite exp_plus, exp_ln by exact C1. pose proof exp_le_3 as E3. apply Rabs_le_inv in C4. pose proof (exp_pos 1). apply Rle_trans with (B2R s * 3); [apply Rmult_le_compat_l; lra|lra]. }
  (* at least one tenth *)
  assert (NP : (1 <= n)%Z).
  { destruct (Z_lt_le_dec n 1) as [K|K]; [exfalso|exact K]. assert (n <= 0)%Z by lia. rewrite ES in SP. destruct (F_of_Z_exact n) as [Z1 Z2]; [change (2 ^ 53)%Z with 9007199254740992%Z; change (2 ^ 30)%Z with 1073741824%Z in N1; lia|]. apply IZR_le in H.
    destruct (F_mul (F_of_Z n) t Z2 T1) as [M1 M2]; [apply (finite_lt 40); [lia|]; apply rnd_err; [lia|]; rewrite Z1, T2, Rabs_mult, (Rabs_pos_eq (_ / _)) by lra; rewrite <- abs_IZR; apply IZR_le in N1; change (2 ^ 30 + 1)%Z with 1073741825%Z in N1; change (bpow radix2 40) with 1099511627776; lra|].
    rewrite M1, Z1 in SP. assert (rnd64 (IZR n * B2R t) <= 0) by (apply rnd_neg; [apply generic_format_0|]; rewrite T2; lra). lra. }
  apply IZR_le in NP. rewrite T2 in S2, S3. apply Rabs_le_inv in S2. apply Rabs_le_inv in S3.
  assert (EB : / 25 <= B2R e <= 4100000) by lra. assert (XB : / 26 <= exp (B2R r)) by lra.
  (* the ends of the interval of tenths *)
  assert (AG := again 30 n t ltac:(lia) N1 T1). cbv zeta in AG. rewrite <- ES in AG. destruct AG as [AG1 AG2].
  { rewrite T2, Rabs_pos_eq by lra. split; [apply Rle_trans with (bpow radix2 (-4)); [apply bpow_le; lia|change (bpow radix2 (-4)) with (/ 16); lra]|apply Rle_trans with (bpow radix2 0); [change (bpow radix2 0) with 1; lra|apply bpow_le; lia]]. }
  destruct (stage L 32 see t ltac:(lia) AG1 ltac:(lra)) as (n' & see2 & lo & hi & _ & U1 & U2 & _ & _ & RA & _ & F1 & F2 & _ & _ & B1 & B2). assert (n' = n) by (exact (round_away_unique _ _ _ RA AG2)). subst n'.
  change (bpow radix2 (32 - 50)) with (/ 262144) in B1, B2. rewrite T2 in B1, B2. apply Rabs_le_inv in B1. apply Rabs_le_inv in B2.
  assert (LO : / 32 <= B2R lo <= 2097152 * 8 /\ B2R lo <= B2R e + / 2000000) by lra. assert (HI : / 32 <= B2R hi <= 2097152 * 8 /\ B2R e - / 2000000 <= B2R hi) by lra.
  destruct (log_val L lo LA F1 (proj1 LO)) as (G1 & G2 & G3 & G4). destruct (log_val L hi LA F2 (proj1 HI)) as (H1 & H2 & H3 & H4). destruct LO as [LOB LO]. destruct HI as [HIB HI].
  (* their logarithms against r *)
  assert (LE : ln (B2R lo) <= B2R r + / 50000).
  { rewrite <- (ln_exp (B2R r + / 50000)). apply ln_mono; [lra|]. rewrite exp_plus. pose proof (exp_at_least (/ 50000)). apply Rle_trans with (exp (B2R r) * (1 + / 50000)); [lra|apply Rmult_le_compat_l; lra]. }
  assert (HE : B2R r - / 20000 <= ln (B2R hi)).
  { rewrite <- (ln_exp (B2R r - / 20000)). apply ln_mono; [apply exp_pos|]. unfold Rminus. rewrite exp_plus. assert (I : exp (/ 20000) * exp (- / 20000) = 1) by (rewrite <- exp_plus, Rplus_opp_r; apply exp_0). pose proof (exp_pos (- / 20000)). pose proof (exp_at_least (/ 20000)).
    assert (M : exp (- / 20000) <= 1 - / 40000) by nra. apply Rle_trans with (exp (B2R r) * (1 - / 40000)); [apply Rmult_le_compat_l; lra|lra]. }
  apply Rabs_le_inv in C5. apply Rabs_le_inv in C8. apply Rabs_le_inv in C9. apply Rabs_le_inv in C4.
  assert (DOM : forall x : F, is_finite x = true -> Rabs (B2R x) <= 36 -> quant_dom 16 x q).
  { intros x X1 X2. split; [exact X1|]. split; [exact Fq|]. rewrite (Rabs_pos_eq (B2R q)) by lra. change (bpow radix2 16) with 65536. split; [split; [apply Rle_trans with (bpow radix2 (-10)); [apply bpow_le; lia|change (bpow radix2 (-10)) with (/ 1024); lra]|apply Rle_trans with (bpow radix2 0); [change (bpow radix2 0) with 1; lra|apply bpow_le; lia]]|]. lra. }
  apply Rabs_le_inv in G3. apply Rabs_le_inv in G4. apply Rabs_le_inv in H3. apply Rabs_le_inv in H4.
  destruct (stage L 16 (lm_log L lo) q ltac:(lia) (DOM _ G2 ltac:(apply Rabs_le; lra)) ltac:(lra)) as (j & x1 & um & x2 & _ & J1 & _ & _ & _ & _ & _ & J2 & _ & J3 & _ & J4 & _).
  destruct (stage L 16 (lm_log L hi) q ltac:(lia) (DOM _ H2 ltac:(apply Rabs_le; lra)) ltac:(lra)) as (i & y1 & y2 & ux & _ & _ & I1 & _ & _ & _ & _ & _ & I2 & I3 & _ & _ & I4).
  change (bpow radix2 (16 - 54)) with (/ 274877906944) in J3, I3. change (bpow radix2 (16 - 50)) with (/ 17179869184) in J4, I4. apply Rabs_le_inv in J3. apply Rabs_le_inv in J4. apply Rabs_le_inv in I3. apply Rabs_le_inv in I4.
  assert (JK : IZR j <= IZR k).
  { apply IZR_le. assert (j < k + 1)%Z; [|lia]. apply lt_IZR. rewrite plus_IZR. apply (Rmult_lt_reg_r (B2R q)); [lra|]. rewrite Rmult_plus_distr_r. lra. }
  assert (IK : IZR k <= IZR i).
  { apply IZR_le. assert (k - 1 < i)%Z; [|lia]. apply lt_IZR. rewrite minus_IZR. apply (Rmult_lt_reg_r (B2R q)); [lra|]. rewrite Rmult_minus_distr_r. lra. }
  assert (JQ : IZR j * B2R q <= IZR k * B2R q) by (apply Rmult_le_compat_r; lra). assert (IQ : IZR k * B2R q <= IZR i * B2R q) by (apply Rmult_le_compat_r; lra).
  rewrite Rmult_minus_distr_r in J4. rewrite Rmult_plus_distr_r in I4.
  assert (UM : B2R um <= ln (B2R s) + / 5000000000) by lra. assert (UX : ln (B2R s) - / 5000000000 <= B2R ux) by lra.
  assert (UM6 : B2R um <= 620) by lra. assert (UX6 : B2R ux <= 620) by lra.
  destruct (exp_val L um EA J2 UM6) as (X1 & X2 & X3 & X4). destruct (exp_val L ux EA I2 UX6) as (Y1 & Y2 & Y3 & Y4).
  exists (lm_exp L um), (lm_exp L ux). split; [unfold low_end; fold t; rewrite U1; cbn [bind]; rewrite G1; cbn [bind]; rewrite J1; exact X1|]. split; [unfold high_end; fold t; rewrite U2; cbn [bind]; rewrite H1; cbn [bind]; rewrite I1; exact Y1|].
  split; [exact X2|]. split; [exact Y2|]. split; [exact X3|]. split; [exact Y3|]. split.
  - assert (A : exp (B2R um) <= B2R s * (1 + / 2500000000)).
    { apply Rle_trans with (exp (ln (B2R s) + / 5000000000)); [now apply exp_le|]. rewrite exp_plus, exp_ln by exact C1. apply Rmult_le_compat_l; [lra|]. pose proof (exp_small (/ 5000000000) ltac:(lra)). lra. }
    pose proof (exp_pos (B2R um)). lra.
  - assert (A : B2R s * (1 - / 5000000000) <= exp (B2R ux)).
    { apply Rle_trans with (exp (ln (B2R s) - / 5000000000)); [|now apply exp_le]. unfold Rminus at 2. rewrite exp_plus, exp_ln by exact C1. apply Rmult_le_compat_l; [lra|]. pose proof (exp_at_least (- / 5000000000)). lra. }
    lra.
Qed.
(** C183: two distances seen as the same number differ by at most the uncertainty unquantize_error gives for it, up to
    rounding; seen as 0, unquantize_error raises ValueError. *)
Theorem C183_same_seen_F : forall (L : libm) (d d' q see : F), log_accurate L -> exp_accurate L -> seen_dom d q -> seen_dom d' q -> @quantize_dist F (NumF L) d q = Ok see -> @quantize_dist F (NumF L) d' q = Ok see ->
  (B2R see <= 0 -> @unquantize_error F (NumF L) see q = Raise ValueError) /\
  (0 < B2R see -> exists err, @unquantize_error F (NumF L) see q = Ok err /\ is_finite err = true /\ Rabs (B2R d - B2R d') <= B2R err + / 100000000 * (1 + B2R d + B2R d')).
Proof.
  intros L d d' q see LA EA SD SD' H H'. split.
  - intros Z. destruct (dist_stage L d q LA EA SD) as (s & l & r & e & see' & k & n & _ & _ & _ & _ & QD & _ & _ & _ & _ & _ & _ & _ & _ & _ & _ & _ & _ & _ & N1 & S1 & _ & S3). rewrite H in QD. injection QD as <-. destruct SD as (_ & _ & Fq & Q1 & Q2).
    destruct (tenth_val L) as [T1 T2]. apply (C182_seen_F L d see q LA EA Fq); [split; [apply Rle_trans with (bpow radix2 (-10)); [apply bpow_le; lia|exact Q1]|exact Q2]|exact S1| |rewrite T2; lra].
    apply IZR_le in N1. rewrite abs_IZR in N1. change (2 ^ 30 + 1)%Z with 1073741825%Z in N1. apply Rle_trans with (bpow radix2 40); [|apply bpow_le; lia]. change (bpow radix2 40) with 1099511627776. apply Rabs_le_inv in N1. apply Rabs_le_inv in S3. rewrite T2 in S3. apply Rabs_le. lra.
  - intros P. destruct (ends_bound L d q see LA EA SD H P) as (em & ex & E1 & E2 & F1 & F2 & A1 & A2 & B1 & B2). destruct (ends_bound L d' q see LA EA SD' H' P) as (em' & ex' & E1' & E2' & _ & _ & _ & _ & B1' & B2').
    rewrite E1 in E1'. injection E1' as <-. rewrite E2 in E2'. injection E2' as <-. rewrite (error_ends L see q em ex E1 E2). eexists. split; [reflexivity|].
    destruct (seps_val L) as (S1 & S2 & S3). pose proof (eps_low L) as EL. set (ep := @SERVER_EPS F (NumF L)) in *. destruct SD as (_ & D0 & _). destruct SD' as (_ & D0' & _). change (bpow radix2 20) with 1048576 in D0, D0'.
    assert (BB : forall x : F, is_finite x = true -> Rabs (B2R x) <= bpow radix2 985 -> is_finite (Bminus mode_NE x ep) = true /\ B2R (Bminus mode_NE x ep) = rnd64 (B2R x - B2R ep) /\ Rabs (B2R (Bminus mode_NE x ep)) <= bpow radix2 986).
    { intros x X1 X2. assert (B : Rabs (B2R x - B2R ep) <= bpow radix2 986) by (change 986%Z with (1 + 985)%Z; rewrite (bp2 985); assert (1 <= bpow radix2 985) by (change 1 with (bpow radix2 0); apply bpow_le; lia); apply Rabs_le_inv in X2; apply Rabs_le; lra).
      destruct (rnd_err _ 986 ltac:(lia) B) as [_ R]. destruct (F_sub x ep X1 S1) as [M1 M2]; [apply (finite_lt 986); [lia|exact R]|]. split; [exact M2|]. split; [exact M1|]. rewrite M1. exact R. }
    destruct (BB em F1 A1) as (M1 & M2 & M3). destruct (BB ex F2 A2) as (X1 & X2 & X3). set (mn := Bminus mode_NE em ep) in *. set (mx := Bminus mode_NE ex ep) in *.
    assert (TB : Rabs (B2R mx - B2R mn) <= bpow radix2 987) by (change 987%Z with (1 + 986)%Z; rewrite (bp2 986); apply Rabs_le_inv in M3; apply Rabs_le_inv in X3; apply Rabs_le; lra).
    destruct (rnd_err _ 987 ltac:(lia) TB) as [_ R]. destruct (F_sub mx mn X1 M1) as [V1 V2]; [apply (finite_lt 987); [lia|exact R]|]. split; [now rewrite is_finite_Babs|]. rewrite B2R_Babs, V1.
    assert (UE : u = / 9007199254740992) by reflexivity. assert (TI : 0 <= bpow radix2 (-1075) <= / 1267650600228229401496703205376) by (split; [apply bpow_ge_0|change (/ 1267650600228229401496703205376) with (bpow radix2 (-100)); apply bpow_le; lia]).
    assert (UP : forall y, rnd64 y <= y + / 9007199254740992 * Rabs y + / 1267650600228229401496703205376) by (intros y; pose proof (rnd_rel y) as K; rewrite UE in K; apply Rabs_le_inv in K; lra).
    assert (DN : forall y, y - / 9007199254740992 * Rabs y - / 1267650600228229401496703205376 <= rnd64 y) by (intros y; pose proof (rnd_rel y) as K; rewrite UE in K; apply Rabs_le_inv in K; lra).
    (* the ends against a distance *)
    assert (LOW : forall x, 0 <= x <= 1048576 -> B2R em <= (x + B2R ep) * (1 + / 1000000000) -> B2R mn <= x + / 500000000 * (1 + x)).
    { intros x Hx K. rewrite M2. apply Rle_trans with (rnd64 (x + / 900000000 * (1 + x))); [apply rnd_le; lra|]. eapply Rle_trans; [apply UP|]. rewrite Rabs_pos_eq by lra. lra. }
    assert (HIGH : forall x, 0 <= x <= 1048576 -> (x + B2R ep) * (1 - / 1000000000) <= B2R ex -> x - / 500000000 * (1 + x) <= B2R mx).
    { intros x Hx K. rewrite X2. apply Rle_trans with (rnd64 (x - / 900000000 * (1 + x))); [|apply rnd_le; lra]. eapply Rle_trans; [|apply DN]. assert (Rabs (x - / 900000000 * (1 + x)) <= 1 + x) by (apply Rabs_le; lra). lra. }
    pose proof (LOW _ D0 B1). pose proof (LOW _ D0' B1'). pose proof (HIGH _ D0 B2). pose proof (HIGH _ D0' B2').
    set (w := B2R mx - B2R mn) in *. assert (W : Rabs (B2R d - B2R d') - / 200000000 * (1 + B2R d + B2R d') <= w).
    { unfold w. destruct (Rcase_abs (B2R d - B2R d')) as [K|K]; [rewrite Rabs_left by exact K|rewrite Rabs_right by exact K]; lra. }
    assert (G : w - / 1000000000 * (1 + B2R d + B2R d') <= Rabs (rnd64 w) \/ (1 + B2R d + B2R d') * 2 <= w).
    { destruct (Rle_or_lt ((1 + B2R d + B2R d') * 2) w) as [K|K]; [now right|left]. destruct (Rle_or_lt 0 w) as [K0|K0]; [|pose proof (Rabs_pos (rnd64 w)); lra]. pose proof (DN w) as DW. rewrite (Rabs_pos_eq w) in DW by exact K0. pose proof (Rle_abs (rnd64 w)). lra. }
    destruct G as [G|G]; [lra|]. pose proof (Rle_abs (rnd64 w)) as AW. assert (BD : Rabs (B2R d - B2R d') <= 1 + B2R d + B2R d') by (apply Rabs_le; lra).
    assert (K : (1 + B2R d + B2R d') <= rnd64 w).
    { apply Rle_trans with (rnd64 ((1 + B2R d + B2R d') * 2)); [|now apply rnd_le]. eapply Rle_trans; [|apply DN]. rewrite Rabs_pos_eq by lra. lra. }
    lra.
Qed.

(** What is asked of the C library: log does not decrease, nor does exp where it is far from overflow. *)
Definition log_mono (L : libm) : Prop := forall x y : F, is_finite x = true -> is_finite y = true -> 0 < B2R x -> B2R x <= B2R y -> B2R (lm_log L x) <= B2R (lm_log L y).
Definition exp_mono (L : libm) : Prop := forall x y : F, is_finite x = true -> is_finite y = true -> B2R x <= B2R y -> B2R y <= 620 -> B2R (lm_exp L x) <= B2R (lm_exp L y).
(** C183: a larger distance is never seen smaller. *)
Theorem C183_monotone_F : forall (L : libm) (d d' q : F), log_accurate L -> exp_accurate L -> log_mono L -> exp_mono L -> seen_dom d q -> seen_dom d' q -> B2R d <= B2R d' ->
  exists see see', @quantize_dist F (NumF L) d q = Ok see /\ @quantize_dist F (NumF L) d' q = Ok see' /\ B2R see <= B2R see'.
Proof.
  intros L d d' q LA EA LM EM SD SD' H. destruct (dist_stage L d q LA EA SD) as (s & l & r & e & see & k & n & E1 & E2 & E3 & _ & Q1 & Q2 & Q3 & Q4 & Q5 & C1 & C2 & _ & _ & C3 & _). destruct (dist_stage L d' q LA EA SD') as (s' & l' & r' & e' & see' & k' & n' & E1' & E2' & E3' & _ & Q1' & Q2' & Q3' & Q4' & Q5' & C1' & C2' & _ & _ & C3' & _ & _ & _ & X3' & _).
  exists see, see'. split; [exact Q1|]. split; [exact Q1'|]. destruct (seps_val L) as (S1 & S2 & S3). destruct SD as (Fd & D0 & Fq & Q). destruct SD' as (Fd' & D0' & _). change (bpow radix2 20) with 1048576 in *. assert (QP : 0 < B2R q) by (pose proof (bpow_gt_0 radix2 (-10)); lra).
  assert (SS : B2R s <= B2R s').
  { assert (A : forall x : F, is_finite x = true -> 0 <= B2R x <= 1048576 -> B2R (Bplus mode_NE x (@SERVER_EPS F (NumF L))) = rnd64 (B2R x + B2R (@SERVER_EPS F (NumF L)))).
    { intros x X1 X2. apply F_add; [exact X1|exact S1|]. apply (finite_lt 21); [lia|]. apply rnd_err; [lia|]. change (bpow radix2 21) with 2097152. apply Rabs_le. lra. }
    rewrite E1, E1', !A by assumption. apply rnd_le. lra. }
  assert (LL : B2R l <= B2R l') by (rewrite E2, E2'; now apply LM).
  destruct (C150_monotone_F L 16 l l' q ltac:(lia) Q4 Q4' QP LL) as (a & b & A1 & A2 & _ & _ & A3). rewrite Q2 in A1. rewrite Q2' in A2. injection A1 as <-. injection A2 as <-.
  destruct (tenth_val L) as [T1 T2]. assert (RU : B2R r' <= 620).
  { destruct Q5' as (_ & _ & _ & B). rewrite T2, (Rabs_pos_eq (_ / _)) in B by lra. change (bpow radix2 30) with 1073741824 in B. apply Rabs_le_inv in B. pose proof (exp_pos (B2R r')) as EP. destruct (ln_bpow (exp (B2R r')) 30 ltac:(lia) EP) as [N _]. change (bpow radix2 30) with 1073741824 in N. rewrite ln_exp in N. specialize (N ltac:(lra)). lra. }
  assert (EE : B2R e <= B2R e') by (rewrite E3, E3'; now apply EM).
  destruct (C150_monotone_F L 30 e e' (@nlit F (NumF L) 1 10) ltac:(lia) Q5 Q5' ltac:(lra) EE) as (a & b & A1 & A2 & _ & _ & A4). rewrite Q3 in A1. rewrite Q3' in A2. injection A1 as <-. injection A2 as <-. exact A4.
Qed.

(** ** The hypotheses are met *)
Lemma exact_log_mono : log_mono libm_exact.
Proof.
  intros x y Fx Fy P H. cbn [lm_log libm_exact libm_round].
  assert (B : forall z : F, 0 < B2R z -> Rabs (ln (B2R z)) <= bpow radix2 1000).
  { intros z Z. destruct (ln_bpow (B2R z) 1024 ltac:(lia) Z) as [L1 _]. destruct (ln_bpow (B2R z) 1074 ltac:(lia) Z) as [_ L2]. specialize (L2 (fmt_least _ (fmt_F z) Z)). specialize (L1 ltac:(pose proof (F2R_lt_emax_fin z) as K; apply Rabs_def2 in K; lra)).
    apply Rle_trans with (bpow radix2 11); [change (bpow radix2 11) with 2048; apply Rabs_le; lra|apply bpow_le; lia]. }
  destruct (F_of_R_ok _ (B x P)) as [_ ->]. destruct (F_of_R_ok _ (B y ltac:(lra))) as [_ ->]. apply rnd_le. now apply ln_mono.
Qed.
Lemma exact_exp_mono : exp_mono libm_exact.
Proof.
  intros x y Fx Fy H U. cbn [lm_exp libm_exact libm_round]. assert (B : forall z : F, B2R z <= 620 -> Rabs (exp (B2R z)) <= bpow radix2 1000).
  { intros z Z. pose proof (exp_pos (B2R z)). rewrite Rabs_pos_eq by lra. eapply Rle_trans; [exact (exp_620 _ Z)|apply bpow_le; lia]. }
  destruct (F_of_R_ok _ (B x ltac:(lra))) as [_ ->]. destruct (F_of_R_ok _ (B y U)) as [_ ->]. apply rnd_le. now apply exp_le.
Qed.
(** seen in steps of 1, the distances 1 and 1.25 are the same positive number *)
Example C183_nonvacuous : let L := libm_exact in (log_accurate L /\ exp_accurate L /\ log_mono L /\ exp_mono L) /\ seen_dom (Fd 1 0) (Fd 1 0) /\ seen_dom (Fd 5 (-2)) (Fd 1 0) /\ B2R (Fd 1 0) < B2R (Fd 5 (-2)) /\
  exists see, @quantize_dist F (NumF L) (Fd 1 0) (Fd 1 0) = Ok see /\ @quantize_dist F (NumF L) (Fd 5 (-2)) (Fd 1 0) = Ok see /\ 0 < B2R see.
Proof.
  intros L. assert (V1 : B2R (Fd 1 0) = 1) by (rewrite (Fd_exact 1 0) by lia; change (bpow radix2 0) with 1; lra). assert (V2 : B2R (Fd 5 (-2)) = 5 / 4) by (rewrite (Fd_exact 5 (-2)) by lia; change (bpow radix2 (-2)) with (/ 4); lra).
  assert (F1 : is_finite (Fd 1 0) = true) by (vm_compute; reflexivity). assert (F2 : is_finite (Fd 5 (-2)) = true) by (vm_compute; reflexivity).
  assert (LA : log_accurate L) by exact libm_exact_log. assert (EA : exp_accurate L) by exact libm_exact_exp.
  split; [split; [exact LA|split; [exact EA|split; [exact exact_log_mono|exact exact_exp_mono]]]|].
  assert (A : forall d : F, is_finite d = true -> 1 <= B2R d <= 5 / 4 -> seen_dom d (Fd 1 0)).
  { intros d Hf Hd. split; [exact Hf|]. split; [change (bpow radix2 20) with 1048576; lra|]. split; [exact F1|]. rewrite V1. change (bpow radix2 (-10)) with (/ 1024). lra. }
  split; [apply A; [exact F1|rewrite V1; lra]|]. split; [apply A; [exact F2|rewrite V2; lra]|]. split; [rewrite V1, V2; lra|].
  assert (G : forall d : F, is_finite d = true -> 1 <= B2R d <= 5 / 4 -> exists see, @quantize_dist F (NumF L) d (Fd 1 0) = Ok see /\ @quantize F (NumF L) (lm_exp L (Bmult mode_NE (F_of_Z 0) (Fd 1 0))) (@nlit F (NumF L) 1 10) = Ok see /\ 0 < B2R see).
  { intros d Hf Hd. destruct (dist_stage L d (Fd 1 0) LA EA (A d Hf Hd)) as (s & l & r & e & see & k & n & _ & _ & E3 & _ & Q1 & Q2 & Q3 & Q4 & _ & C1 & C2 & C3 & C4 & _ & _ & _ & _ & C5 & _ & _ & C6 & C7). pose proof (eps_low L) as EL.
    destruct (stage L 16 l (Fd 1 0) ltac:(lia) Q4 ltac:(lra)) as (j & r2 & lo & hi & R1 & _ & _ & R2 & _ & _ & _ & _ & _ & R3 & _). rewrite Q2 in R1. injection R1 as <-. rewrite V1 in R3. change (bpow radix2 (16 - 54)) with (/ 274877906944) in R3.
    set (ep := B2R (@SERVER_EPS F (NumF L))) in *. apply Rabs_le_inv in C3. apply Rabs_le_inv in C4. apply Rabs_le_inv in R3. assert (SB : 1 <= B2R s <= 13 / 10) by lra. pose proof (ln_below _ C1) as LB. assert (L0 : 0 <= ln (B2R s)) by (rewrite <- ln_1; apply ln_mono; lra).
    assert (J : j = 0%Z). { assert (-1 < j < 1)%Z; [|lia]. split; apply lt_IZR; lra. }
    subst j. exists see. split; [exact Q1|]. rewrite R2 in E3. split; [rewrite <- E3; exact Q3|].
    assert (RZ : B2R r = 0). { rewrite R2. destruct (F_of_Z_exact 0 eq_refl) as [Z1 Z2]. destruct (F_mul (F_of_Z 0) (Fd 1 0) Z2 F1) as [M _]; [rewrite Z1, Rmult_0_l, rnd_id by apply generic_format_0; rewrite Rabs_R0; apply bpow_gt_0|]. rewrite M, Z1, Rmult_0_l. apply rnd_id. apply generic_format_0. }
    rewrite RZ, exp_0 in C5. apply Rabs_le_inv in C6. apply Rabs_le_inv in C7. lra. }
  destruct (G (Fd 1 0) F1 ltac:(rewrite V1; lra)) as (see & G1 & G2 & G3). destruct (G (Fd 5 (-2)) F2 ltac:(rewrite V2; lra)) as (see' & G1' & G2' & _). rewrite G2 in G2'. injection G2' as <-. exists see. auto.
Qed.
