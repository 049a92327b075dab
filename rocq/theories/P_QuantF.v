(** * P_QuantF: quantize, unquantize_min and unquantize_max in doubles (C150) *)
From Coq Require Import ZArith List Bool String Reals Lra Lia Psatz.
From Flocq Require Import Core BinarySingleNaN.
From Verif Require Import Base Types NumR NumF R_Tac Spec M_Soccer L_Float P_Float P_Soccer2 P_Robust P_VecF P_MatF P_AngleF3.
Import ListNotations.
Local Open Scope R_scope.

Lemma round_away_mono x y n m : x <= y -> round_away x n -> round_away y m -> (n <= m)%Z.
Proof.
  intros H N M. destruct (Z_le_gt_dec n m) as [C|C]; [exact C|exfalso]. assert (G : (m + 1 <= n)%Z) by lia. apply IZR_le in G. rewrite plus_IZR in G.
  pose proof (proj1 N) as N1. pose proof (proj1 M) as M1. apply Rabs_le_inv in N1. apply Rabs_le_inv in M1.
  assert (E : x = y) by lra. subst y. pose proof (round_away_unique _ _ _ N M). lia.
Qed.
Lemma round_away_near x n : Rabs (IZR n - x) < 1/2 -> round_away x n.
Proof. intros H. split; [lra|]. intros E. lra. Qed.

(** the step is a normal double of moderate size and the value at most 2^m steps *)
Definition quant_dom (m : Z) (v q : F) : Prop :=
  is_finite v = true /\ is_finite q = true /\ bpow radix2 (-900) <= Rabs (B2R q) <= bpow radix2 900 /\ Rabs (B2R v) <= bpow radix2 m * Rabs (B2R q).

Lemma dom_nz m v q : quant_dom m v q -> B2R q <> 0.
Proof. intros (_ & _ & [H _] & _) E. rewrite E, Rabs_R0 in H. pose proof (bpow_gt_0 radix2 (-900)). lra. Qed.
Lemma dom_quot m v q : quant_dom m v q -> Rabs (B2R v / B2R q) <= bpow radix2 m.
Proof.
  intros H. pose proof (dom_nz _ _ _ H) as Q. destruct H as (_ & _ & _ & H). unfold Rdiv. rewrite Rabs_mult, Rabs_inv.
  assert (P : 0 < Rabs (B2R q)) by (apply Rabs_pos_lt; exact Q). apply (Rmult_le_reg_r (Rabs (B2R q))); [exact P|]. rewrite Rmult_assoc, Rinv_l by lra. lra.
Qed.
(** the quotient as computed, and the integer r_int takes from it *)
Lemma quot_step (L : libm) m v q : (0 <= m <= 50)%Z -> quant_dom m v q ->
  exists k, (exists w, @ndiv F (NumF L) v q = Ok w /\ @r_int F (NumF L) w = Ok k) /\ round_away (rnd64 (B2R v / B2R q)) k /\
    Rabs (rnd64 (B2R v / B2R q) - B2R v / B2R q) <= bpow radix2 (m - 54) /\ (Z.abs k <= 2 ^ m + 1)%Z.
Proof.
  intros Hm H. pose proof (dom_nz _ _ _ H) as Q. pose proof (dom_quot _ _ _ H) as B. destruct H as (V1 & Q1 & _ & _).
  destruct (rnd_err _ m ltac:(lia) B) as [E1 E2].
  destruct (F_quot v q V1 Q) as [D1 D2]; [apply (finite_lt m); [lia|exact E2]|].
  assert (BM : bpow radix2 m <= bpow radix2 50) by (apply bpow_le; lia). change (bpow radix2 50) with 1125899906842624 in BM.
  destruct (C93_r_int_F L (Bdiv mode_NE v q) D2) as (k & K1 & K2); [rewrite D1; lra|]. rewrite D1 in K2.
  exists k. split; [exists (Bdiv mode_NE v q); split; [apply fdiv_F; assumption|exact K1]|]. split; [exact K2|]. split; [exact E1|].
  destruct K2 as [K2 _]. assert (KB : Rabs (IZR k) < bpow radix2 m + 2).
  { apply Rabs_le_inv in K2. apply Rabs_le_inv in E2. apply Rabs_def1; lra. }
  replace (bpow radix2 m) with (IZR (2 ^ m)) in KB by (rewrite <- (IZR_Zpower radix2) by lia; reflexivity).
  rewrite <- abs_IZR, <- plus_IZR in KB. apply lt_IZR in KB. lia.
Qed.
Lemma u_eq : u = / 9007199254740992. Proof. unfold u. reflexivity. Qed.
Lemma small_part (q : R) : bpow radix2 (-900) <= Rabs q -> bpow radix2 (-1075) <= bpow radix2 (-175) * Rabs q.
Proof. intros H. replace (bpow radix2 (-1075)) with (bpow radix2 (-175) * bpow radix2 (-900)) by (rewrite <- bpow_plus; reflexivity). apply Rmult_le_compat_l; [apply bpow_ge_0|exact H]. Qed.
(** multiplying an integer or half integer number of steps by the step *)
Lemma times_step (c : F) (q : F) m : (0 <= m <= 51)%Z -> is_finite c = true -> Rabs (B2R c) <= bpow radix2 m -> is_finite q = true -> bpow radix2 (-900) <= Rabs (B2R q) <= bpow radix2 900 ->
  B2R (Bmult mode_NE c q) = rnd64 (B2R c * B2R q) /\ is_finite (Bmult mode_NE c q) = true /\
  Rabs (rnd64 (B2R c * B2R q) - B2R c * B2R q) <= bpow radix2 (m - 53) * Rabs (B2R q) + bpow radix2 (-175) * Rabs (B2R q).
Proof.
  intros Hm C1 C2 Q1 [Q2 Q3].
  assert (B : Rabs (B2R c * B2R q) <= bpow radix2 (m + 900)).
  { rewrite Rabs_mult, bpow_plus. apply Rmult_le_compat; try apply Rabs_pos; assumption. }
  destruct (rnd_err _ (m + 900) ltac:(lia) B) as [_ E2].
  destruct (F_mul c q C1 Q1) as [M1 M2]; [apply (finite_lt (m + 900)); [lia|exact E2]|].
  split; [exact M1|]. split; [exact M2|]. eapply Rle_trans; [apply rnd_rel|]. apply Rplus_le_compat; [|apply small_part; exact Q2].
  rewrite Rabs_mult, <- Rmult_assoc. apply Rmult_le_compat_r; [apply Rabs_pos|]. replace (m - 53)%Z with ((-53) + m)%Z by lia. rewrite bpow_plus. rewrite u_eq. change (bpow radix2 (-53)) with (/ 9007199254740992).
  apply Rmult_le_compat_l; [lra|exact C2].
Qed.
Lemma quantize_eval (L : libm) m v q : (0 <= m <= 50)%Z -> quant_dom m v q ->
  exists k r, @quantize F (NumF L) v q = Ok r /\ r = Bmult mode_NE (F_of_Z k) q /\ round_away (rnd64 (B2R v / B2R q)) k /\
    is_finite r = true /\ B2R r = rnd64 (IZR k * B2R q) /\ (Z.abs k <= 2 ^ m + 1)%Z /\
    Rabs (rnd64 (IZR k * B2R q) - IZR k * B2R q) <= bpow radix2 (m + 1 - 53) * Rabs (B2R q) + bpow radix2 (-175) * Rabs (B2R q).
Proof.
  intros Hm H. destruct (quot_step L m v q Hm H) as (k & (w & W1 & W2) & K & _ & KB). destruct H as (_ & Q1 & Q2 & _).
  exists k, (Bmult mode_NE (F_of_Z k) q). unfold quantize. rewrite W1. cbn [bind]. rewrite W2. cbn [bind nofZ nmul NumF].
  split; [reflexivity|]. split; [reflexivity|]. split; [exact K|].
  assert (P2 : (2 ^ m <= 2 ^ 50)%Z) by (apply Z.pow_le_mono_r; lia). change (2 ^ 50)%Z with 1125899906842624%Z in P2.
  destruct (F_of_Z_exact k) as [Z1 Z2]; [change (2 ^ 53)%Z with 9007199254740992%Z; lia|].
  destruct (times_step (F_of_Z k) q (m + 1) ltac:(lia) Z2) as (T1 & T2 & T3); try assumption.
  { rewrite Z1, <- abs_IZR. replace (bpow radix2 (m + 1)) with (IZR (2 ^ (m + 1))) by (rewrite <- (IZR_Zpower radix2) by lia; reflexivity). apply IZR_le. rewrite Z.pow_add_r by lia. assert (1 <= 2 ^ m)%Z by (apply Z.lt_pred_le, Z.pow_pos_nonneg; lia). lia. }
  rewrite Z1 in *. tauto.
Qed.

Lemma pow_m m : (0 <= m <= 48)%Z -> 0 < bpow radix2 (m - 54) <= / 64 /\ bpow radix2 (m + 1 - 53) = 4 * bpow radix2 (m - 54) /\ bpow radix2 (m - 51) = 8 * bpow radix2 (m - 54) /\ bpow radix2 (-175) <= bpow radix2 (m - 54) * / 64.
Proof.
  intros H. split; [split; [apply bpow_gt_0|change (/ 64) with (bpow radix2 (-6)); apply bpow_le; lia]|].
  split; [replace (m + 1 - 53)%Z with (2 + (m - 54))%Z by lia; rewrite bpow_plus; reflexivity|].
  split; [replace (m - 51)%Z with (3 + (m - 54))%Z by lia; rewrite bpow_plus; reflexivity|].
  change (/ 64) with (bpow radix2 (-6)). rewrite <- bpow_plus. apply bpow_le. lia.
Qed.
(** a value the quantizer returned is quantized to the same integer *)
Lemma again (m : Z) k (q : F) : (0 <= m <= 48)%Z -> (Z.abs k <= 2 ^ m + 1)%Z -> is_finite q = true -> bpow radix2 (-900) <= Rabs (B2R q) <= bpow radix2 900 ->
  let r := Bmult mode_NE (F_of_Z k) q in quant_dom (m + 2) r q /\ round_away (rnd64 (B2R r / B2R q)) k.
Proof.
  intros Hm KB Q1 Q2 r.
  assert (P2 : (2 ^ m <= 2 ^ 48)%Z) by (apply Z.pow_le_mono_r; lia). change (2 ^ 48)%Z with 281474976710656%Z in P2.
  destruct (F_of_Z_exact k) as [Z1 Z2]; [change (2 ^ 53)%Z with 9007199254740992%Z; lia|].
  assert (KM : Rabs (IZR k) <= bpow radix2 (m + 1)).
  { rewrite <- abs_IZR. replace (bpow radix2 (m + 1)) with (IZR (2 ^ (m + 1))) by (rewrite <- (IZR_Zpower radix2) by lia; reflexivity). apply IZR_le. rewrite Z.pow_add_r by lia. assert (1 <= 2 ^ m)%Z by (apply Z.lt_pred_le, Z.pow_pos_nonneg; lia). lia. }
  destruct (times_step (F_of_Z k) q (m + 1) ltac:(lia) Z2) as (T1 & T2 & T3); try assumption; [rewrite Z1; exact KM|]. fold r in T1, T2. rewrite Z1 in *.
  destruct (pow_m m Hm) as (M1 & M2 & M3 & M4). rewrite M2 in T3. set (h := bpow radix2 (m - 54)) in *.
  assert (QP : 0 < Rabs (B2R q)) by (pose proof (bpow_gt_0 radix2 (-900)); lra).
  assert (T : Rabs (rnd64 (IZR k * B2R q) - IZR k * B2R q) <= 5 * h * Rabs (B2R q)).
  { eapply Rle_trans; [exact T3|]. rewrite <- Rmult_plus_distr_r. apply Rmult_le_compat_r; lra. }
  assert (M0 : 1 <= bpow radix2 (m + 1)) by (change 1 with (bpow radix2 0); apply bpow_le; lia).
  assert (D : quant_dom (m + 2) r q).
  { split; [exact T2|]. split; [exact Q1|]. split; [exact Q2|]. rewrite T1.
    replace (m + 2)%Z with (1 + (m + 1))%Z by lia. rewrite bp2.
    replace (rnd64 (IZR k * B2R q)) with (IZR k * B2R q + (rnd64 (IZR k * B2R q) - IZR k * B2R q)) by ring. eapply Rle_trans; [apply Rabs_triang|].
    rewrite Rabs_mult. apply Rle_trans with (bpow radix2 (m + 1) * Rabs (B2R q) + 1 * Rabs (B2R q)).
    - apply Rplus_le_compat; [apply Rmult_le_compat_r; lra|]. eapply Rle_trans; [exact T|]. apply Rmult_le_compat_r; lra.
    - rewrite <- Rmult_plus_distr_r. apply Rmult_le_compat_r; lra. }
  split; [exact D|]. pose proof (dom_quot _ _ _ D) as B. pose proof (dom_nz _ _ _ D) as QN.
  destruct (rnd_err _ (m + 2) ltac:(lia) B) as [E _]. replace (m + 2 - 54)%Z with (2 + (m - 54))%Z in E by lia. rewrite bpow_plus in E. fold h in E. change (bpow radix2 2) with 4 in E.
  apply round_away_near. rewrite T1 in *. set (y := rnd64 (IZR k * B2R q)) in *.
  assert (G : Rabs (y / B2R q - IZR k) <= 5 * h).
  { replace (y / B2R q - IZR k) with ((y - IZR k * B2R q) / B2R q) by (field; exact QN). unfold Rdiv. rewrite Rabs_mult, Rabs_inv.
    apply (Rmult_le_reg_r (Rabs (B2R q))); [exact QP|]. rewrite Rmult_assoc, Rinv_l by lra. lra. }
  apply Rabs_le_inv in G. apply Rabs_le_inv in E. apply Rabs_def1; lra.
Qed.

(** quantize in doubles: an integer number of steps, at most half a step (plus
    rounding) from the value; the nearest one unless the value is within
    rounding of a tie; and quantizing the result again gives the same double. *)
Theorem C150_quantize_F : forall (L : libm) (m : Z) (v q : F), (0 <= m <= 48)%Z -> quant_dom m v q ->
  exists (k : Z) (r : F), @quantize F (NumF L) v q = Ok r /\ is_finite r = true /\ B2R r = rnd64 (IZR k * B2R q) /\
    Rabs (IZR k - B2R v / B2R q) <= 1/2 + bpow radix2 (m - 54) /\
    (forall j : Z, Rabs (IZR j - B2R v / B2R q) < 1/2 - bpow radix2 (m - 54) -> k = j) /\
    Rabs (B2R r - B2R v) <= (1/2 + bpow radix2 (m - 51)) * Rabs (B2R q) /\
    @quantize F (NumF L) r q = Ok r.
Proof.
  intros L m v q Hm H. destruct (quantize_eval L m v q ltac:(lia) H) as (k & r & R1 & R2 & K & R3 & R4 & KB & R5).
  pose proof (dom_quot _ _ _ H) as B. pose proof (dom_nz _ _ _ H) as QN. destruct (rnd_err _ m ltac:(lia) B) as [E _].
  destruct (pow_m m Hm) as (M1 & M2 & M3 & M4). rewrite M2 in R5. rewrite M3. set (h := bpow radix2 (m - 54)) in *.
  destruct H as (V1 & Q1 & Q2 & _). assert (QP : 0 < Rabs (B2R q)) by (apply Rabs_pos_lt; exact QN).
  assert (T : Rabs (rnd64 (IZR k * B2R q) - IZR k * B2R q) <= 5 * h * Rabs (B2R q)).
  { eapply Rle_trans; [exact R5|]. rewrite <- Rmult_plus_distr_r. apply Rmult_le_compat_r; lra. }
  pose proof (proj1 K) as K1. apply Rabs_le_inv in E.
  assert (G : Rabs (IZR k - B2R v / B2R q) <= 1/2 + h) by (apply Rabs_le_inv in K1; apply Rabs_le; lra).
  exists k, r. split; [exact R1|]. split; [exact R3|]. split; [exact R4|]. split; [exact G|]. split; [|split].
  - intros j Hj. apply (round_away_unique (rnd64 (B2R v / B2R q))); [exact K|]. apply round_away_near. apply Rabs_def2 in Hj. apply Rabs_def1; lra.
  - rewrite R4. replace (rnd64 (IZR k * B2R q) - B2R v) with ((rnd64 (IZR k * B2R q) - IZR k * B2R q) + (IZR k - B2R v / B2R q) * B2R q) by (field; exact QN).
    eapply Rle_trans; [apply Rabs_triang|]. rewrite Rabs_mult. apply Rle_trans with (5 * h * Rabs (B2R q) + (1/2 + h) * Rabs (B2R q)).
    + apply Rplus_le_compat; [exact T|]. apply Rmult_le_compat_r; lra.
    + rewrite <- Rmult_plus_distr_r. apply Rmult_le_compat_r; lra.
  - rewrite R2. destruct (again m k q Hm KB Q1 Q2) as [A1 A2]. destruct (quantize_eval L (m + 2) _ q ltac:(lia) A1) as (k' & r' & S1 & S2 & S3 & _).
    rewrite S1, S2. now rewrite (round_away_unique _ _ _ S3 A2).
Qed.

(** a larger value never gets a smaller quantized value *)
Theorem C150_monotone_F : forall (L : libm) (m : Z) (v w q : F), (0 <= m <= 48)%Z -> quant_dom m v q -> quant_dom m w q -> 0 < B2R q -> B2R v <= B2R w ->
  exists r s, @quantize F (NumF L) v q = Ok r /\ @quantize F (NumF L) w q = Ok s /\ is_finite r = true /\ is_finite s = true /\ B2R r <= B2R s.
Proof.
  intros L m v w q Hm H1 H2 Q VW.
  destruct (quantize_eval L m v q ltac:(lia) H1) as (k & r & R1 & _ & K & R3 & R4 & _).
  destruct (quantize_eval L m w q ltac:(lia) H2) as (j & s & S1 & _ & J & S3 & S4 & _).
  exists r, s. repeat (split; [assumption|]). rewrite R4, S4. apply rnd_le. apply Rmult_le_compat_r; [lra|]. apply IZR_le.
  apply (round_away_mono (rnd64 (B2R v / B2R q)) (rnd64 (B2R w / B2R q))); [|exact K|exact J]. apply rnd_le. unfold Rdiv. apply Rmult_le_compat_r; [|exact VW]. left. apply Rinv_0_lt_compat. exact Q.
Qed.

(** an integer plus or minus one half is exact *)
Lemma half_lit L : B2R (@nlit F (NumF L) 1 2) = / 2 /\ is_finite (@nlit F (NumF L) 1 2) = true.
Proof. split; [vm_compute; lra|vm_compute; reflexivity]. Qed.
Lemma half_exact L k : (Z.abs k <= 2 ^ 50)%Z ->
  (B2R (@nsub F (NumF L) (F_of_Z k) (@nlit F (NumF L) 1 2)) = IZR k - /2 /\ is_finite (@nsub F (NumF L) (F_of_Z k) (@nlit F (NumF L) 1 2)) = true) /\
  (B2R (@nadd F (NumF L) (F_of_Z k) (@nlit F (NumF L) 1 2)) = IZR k + /2 /\ is_finite (@nadd F (NumF L) (F_of_Z k) (@nlit F (NumF L) 1 2)) = true).
Proof.
  intros H. change (2 ^ 50)%Z with 1125899906842624%Z in H. destruct (half_lit L) as [H1 H2].
  destruct (F_of_Z_exact k) as [Z1 Z2]; [change (2 ^ 53)%Z with 9007199254740992%Z; lia|].
  assert (KB : -1125899906842624 <= IZR k <= 1125899906842624) by (split; apply IZR_le; lia).
  assert (FM : forall j, (Z.abs j < 9007199254740992)%Z -> fmt64 (IZR j * / 2)).
  { intros j Hj. replace (IZR j * / 2) with (F2R (Float radix2 j (-1))) by (unfold F2R; cbn [Fnum Fexp]; change (bpow radix2 (-1)) with (/2); ring). apply fmt_F2R; [exact Hj|lia]. }
  cbn [nsub nadd NumF]. split.
  - pose proof (F_sub_exact (F_of_Z k) (@nlit F (NumF L) 1 2) 1125899906842625 Z2 H2) as K. rewrite H1, Z1 in K. apply K.
    + replace (IZR k - /2) with (IZR (2 * k - 1) * /2) by (rewrite minus_IZR, mult_IZR; field). apply FM. lia.
    + apply Rabs_le; lra.
    + apply IZR_le. apply Zle_bool_imp_le; reflexivity.
  - pose proof (F_add_exact (F_of_Z k) (@nlit F (NumF L) 1 2) 1125899906842625 Z2 H2) as K. rewrite H1, Z1 in K. apply K.
    + replace (IZR k + /2) with (IZR (2 * k + 1) * /2) by (rewrite plus_IZR, mult_IZR; field). apply FM. lia.
    + apply Rabs_le; lra.
    + apply IZR_le. apply Zle_bool_imp_le; reflexivity.
Qed.

(** unquantize_min and unquantize_max in doubles: the interval around a
    quantized value holds the original value, is one step wide, and everything
    inside it quantizes to the same double - each up to e = 2^(m-49) steps *)
Theorem C150_unquantize_F : forall (L : libm) (m : Z) (v q d : F), (0 <= m <= 48)%Z -> quant_dom m v q -> 0 < B2R q -> @quantize F (NumF L) v q = Ok d ->
  let e := bpow radix2 (m - 49) * B2R q in
  exists lo hi, @unquantize_min F (NumF L) d q = Ok lo /\ @unquantize_max F (NumF L) d q = Ok hi /\ is_finite lo = true /\ is_finite hi = true /\
    B2R lo - e <= B2R v <= B2R hi + e /\ Rabs (B2R hi - B2R lo - B2R q) <= e /\
    forall w : F, is_finite w = true -> B2R lo + e < B2R w < B2R hi - e -> @quantize F (NumF L) w q = Ok d.
Proof.
  intros L m v q d Hm H Q ED e. destruct (quantize_eval L m v q ltac:(lia) H) as (k & r & R1 & R2 & K & R3 & R4 & KB & R5).
  rewrite R1 in ED. injection ED as <-.
  pose proof (dom_quot _ _ _ H) as B. pose proof (dom_nz _ _ _ H) as QN. destruct (rnd_err _ m ltac:(lia) B) as [E _].
  destruct H as (V1 & Q1 & Q2 & VB). destruct (again m k q Hm KB Q1 Q2) as [A1 A2]. rewrite <- R2 in A1, A2.
  destruct (quot_step L (m + 2) r q ltac:(lia) A1) as (k' & (w0 & W1 & W2) & K' & _ & _).
  rewrite (round_away_unique _ _ _ K' A2) in *. clear k' K'.
  unfold unquantize_min, unquantize_max. rewrite W1. cbn [bind]. rewrite W2. cbn [bind]. change (@nofZ F (NumF L) k) with (F_of_Z k).
  assert (P2 : (2 ^ m <= 2 ^ 48)%Z) by (apply Z.pow_le_mono_r; lia). change (2 ^ 48)%Z with 281474976710656%Z in P2.
  destruct (half_exact L k) as [[S1 S2] [P1 P3]]; [change (2 ^ 50)%Z with 1125899906842624%Z; lia|].
  assert (KM : Rabs (IZR k) <= bpow radix2 m + 1).
  { rewrite <- abs_IZR. replace (bpow radix2 m) with (IZR (2 ^ m)) by (rewrite <- (IZR_Zpower radix2) by lia; reflexivity). rewrite <- plus_IZR. apply IZR_le. exact KB. }
  assert (M0 : 1 <= bpow radix2 m) by (change 1 with (bpow radix2 0); apply bpow_le; lia).
  assert (M4 : bpow radix2 (m + 2) = 4 * bpow radix2 m) by (replace (m + 2)%Z with (2 + m)%Z by lia; rewrite bpow_plus; reflexivity).
  apply Rabs_le_inv in KM.
  change (@nmul F (NumF L)) with (Bmult (prec := 53) (emax := 1024) mode_NE).
  destruct (times_step _ q (m + 2) ltac:(lia) S2) as (T1 & T2 & T3); try assumption; [rewrite S1; apply Rabs_le; lra|].
  destruct (times_step _ q (m + 2) ltac:(lia) P3) as (U1 & U2 & U3); try assumption; [rewrite P1; apply Rabs_le; lra|].
  rewrite S1 in T1, T3. rewrite P1 in U1, U3. rewrite (Rabs_pos_eq (B2R q)) in T3, U3 by lra.
  destruct (pow_m m Hm) as (M1 & M2 & M3 & M5). replace (m + 2 - 53)%Z with (3 + (m - 54))%Z in T3, U3 by lia. rewrite bpow_plus in T3, U3. change (bpow radix2 3) with 8 in T3, U3.
  assert (EE : e = 32 * bpow radix2 (m - 54) * B2R q). { unfold e. replace (m - 49)%Z with (5 + (m - 54))%Z by lia. rewrite bpow_plus. reflexivity. }
  set (h := bpow radix2 (m - 54)) in *.
  assert (C : bpow radix2 (-175) * B2R q <= h * / 64 * B2R q) by (apply Rmult_le_compat_r; lra).
  set (lo := Bmult mode_NE _ q) in T1, T2 |- *. set (hi := Bmult mode_NE _ q) in U1, U2 |- *.
  exists lo, hi. do 4 (split; [first [reflexivity|assumption]|]).
  assert (VQ : B2R v = B2R v / B2R q * B2R q) by (field; lra).
  pose proof (proj1 K) as K1. apply Rabs_le_inv in K1. apply Rabs_le_inv in E. apply Rabs_le_inv in T3. apply Rabs_le_inv in U3. rewrite <- T1 in T3. rewrite <- U1 in U3.
  assert (HQ : 0 < h * B2R q) by (apply Rmult_lt_0_compat; lra).
  split; [|split].
  - assert (X1 : (IZR k - 1/2 - h) * B2R q <= B2R v) by (rewrite VQ at 1; apply Rmult_le_compat_r; lra).
    assert (X2 : B2R v <= (IZR k + 1/2 + h) * B2R q) by (rewrite VQ at 1; apply Rmult_le_compat_r; lra). rewrite EE. lra.
  - rewrite EE. apply Rabs_le. lra.
  - intros w Hw [Wl Wh]. rewrite EE in Wl, Wh.
    assert (WQ : B2R w = B2R w / B2R q * B2R q) by (field; lra).
    assert (Y1 : (IZR k - 1/2 + 7 * h) * B2R q < B2R w / B2R q * B2R q) by (rewrite <- WQ; lra).
    assert (Y2 : B2R w / B2R q * B2R q < (IZR k + 1/2 - 7 * h) * B2R q) by (rewrite <- WQ; lra).
    apply Rmult_lt_reg_r in Y1; [|exact Q]. apply Rmult_lt_reg_r in Y2; [|exact Q].
    assert (DW : quant_dom (m + 2) w q).
    { split; [exact Hw|]. split; [exact Q1|]. split; [exact Q2|]. rewrite (Rabs_pos_eq (B2R q)) by lra. rewrite WQ, Rabs_mult, (Rabs_pos_eq (B2R q)) by lra.
      apply Rmult_le_compat_r; [lra|]. apply Rabs_le. lra. }
    destruct (quantize_eval L (m + 2) w q ltac:(lia) DW) as (j & s & -> & -> & J & _).
    pose proof (dom_quot _ _ _ DW) as BW. destruct (rnd_err _ (m + 2) ltac:(lia) BW) as [EW _]. replace (m + 2 - 54)%Z with (2 + (m - 54))%Z in EW by lia. rewrite bpow_plus in EW. fold h in EW. change (bpow radix2 2) with 4 in EW. apply Rabs_le_inv in EW.
    assert (JK : j = k). { apply (round_away_unique _ _ _ J). apply round_away_near. apply Rabs_def1; lra. }
    rewrite JK, R2. reflexivity.
Qed.
Example C150_nonvacuous : forall L, let v := F_of_Z 7 in let q := F_of_Z 2 in
  quant_dom 2 v q /\ 0 < B2R q /\ match @quantize F (NumF L) v q with Ok d => Beqb d (F_of_Z 8) && match @unquantize_min F (NumF L) d q with Ok lo => Beqb lo (F_of_Z 7) | _ => false end | _ => false end = true.
Proof.
  intros L v q. unfold v, q. destruct (F_of_Z_exact 7 eq_refl) as [A1 A2]. destruct (F_of_Z_exact 2 eq_refl) as [B1 B2].
  assert (QD : quant_dom 2 (F_of_Z 7) (F_of_Z 2)).
  { split; [exact A2|]. split; [exact B2|]. rewrite A1, B1. rewrite !Rabs_pos_eq by lra. change (bpow radix2 2) with 4. split; [|lra].
    replace 2 with (bpow radix2 1) by reflexivity. split; apply bpow_le; lia. }
  split; [exact QD|]. split; [rewrite B1; lra|]. vm_compute. reflexivity.
Qed.
