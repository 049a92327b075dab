(** * P_SeriesF: geometric series and the wind in doubles (C184, C185) *)
From Coq Require Import ZArith List Bool String Reals Lra Lia Psatz.
From Flocq Require Import Core BinarySingleNaN.
From Verif Require Import Base Types NumR NumF R_Tac Spec Abs M_Angle M_Vector M_Soccer
  L_Float P_Float P_AngleF P_Soccer2 P_Robust P_Hull2 P_VecF P_TrigF P_LineF P_MatF P_SoccerF P_SafeF P_AngleF3 P_QuantF P_SafeSoccer P_SeenF.
Import ListNotations.
Local Open Scope R_scope.

(** a double below anything that matters here *)
Definition tiny : R := bpow radix2 (-1075).
Lemma rnd_lit x : Rabs (rnd64 x - x) <= / 9007199254740992 * Rabs x + tiny.
Proof. exact (rnd_rel x). Qed.
(** ** The first term *)
Lemma first_core S c c' m w w' f : / 1024 <= c <= 1 -> c <= w <= 1 -> Rabs (c' - c) <= / 18014398509481984 -> Rabs (m - S * c') <= / 9007199254740992 * Rabs (S * c') + tiny ->
  Rabs (w' - w) <= / 2251799813685248 -> Rabs (f - m / w') <= / 9007199254740992 * Rabs (m / w') + tiny -> Rabs (f * w - S * c) <= / 137438953472 * (Rabs S * c) + 8 * tiny.
Proof.
  intros C W HC HM HW HF. assert (T : 0 < tiny) by apply bpow_gt_0. pose proof (Rabs_pos S) as S0. apply Rabs_le_inv in HW. assert (WP : 0 < w') by lra.
  (* the numerator *)
  assert (M1 : Rabs (m - S * c) <= / 8796093022208 * (Rabs S * c) + tiny).
  { replace (m - S * c) with ((m - S * c') + S * (c' - c)) by ring. eapply Rle_trans; [apply Rabs_triang|]. rewrite (Rabs_mult S (c' - c)). rewrite Rabs_mult in HM. assert (C2 : Rabs c' <= 2 * c) by (apply Rabs_le_inv in HC; apply Rabs_le; lra).
    assert (X : Rabs S * Rabs c' <= Rabs S * (2 * c)) by (apply Rmult_le_compat_l; lra). assert (Y : Rabs S * Rabs (c' - c) <= Rabs S * (/ 17592186044416 * c)) by (apply Rmult_le_compat_l; lra). assert (0 <= Rabs S * c) by (apply Rmult_le_pos; lra). lra. }
  assert (M2 : Rabs m <= 2 * (Rabs S * c) + tiny).
  { replace m with ((m - S * c) + S * c) by ring. eapply Rle_trans; [apply Rabs_triang|]. rewrite (Rabs_mult S c), (Rabs_pos_eq c) by lra. assert (0 <= Rabs S * c) by (apply Rmult_le_pos; lra). lra. }
  (* the quotient *)
  assert (F1 : Rabs (f * w' - m) <= / 9007199254740992 * Rabs m + 2 * tiny).
  { replace (f * w' - m) with ((f - m / w') * w') by (field; lra). rewrite Rabs_mult, (Rabs_pos_eq w') by lra. unfold Rdiv in HF at 2. rewrite Rabs_mult, (Rabs_pos_eq (/ w')) in HF by (left; now apply Rinv_0_lt_compat).
    apply Rle_trans with ((/ 9007199254740992 * (Rabs m * / w') + tiny) * w'); [apply Rmult_le_compat_r; [lra|exact HF]|]. rewrite Rmult_plus_distr_r. replace (/ 9007199254740992 * (Rabs m * / w') * w') with (/ 9007199254740992 * Rabs m) by (field; lra). assert (tiny * w' <= tiny * 2) by (apply Rmult_le_compat_l; lra). lra. }
  assert (F2 : Rabs (f * w') <= 2 * Rabs m + 2 * tiny).
  { replace (f * w') with ((f * w' - m) + m) by ring. eapply Rle_trans; [apply Rabs_triang|]. pose proof (Rabs_pos m). lra. }
  assert (F3 : Rabs (f * (w - w')) <= / 1099511627776 * Rabs (f * w')).
  { rewrite !Rabs_mult, (Rabs_pos_eq w') by lra. rewrite (Rmult_comm (Rabs f) w'), <- Rmult_assoc, (Rmult_comm _ (Rabs f)). apply Rmult_le_compat_l; [apply Rabs_pos|]. apply Rabs_le. lra. }
  replace (f * w - S * c) with ((f * w' - m) + (f * (w - w')) + (m - S * c)) by ring. eapply Rle_trans; [apply Rabs_triang|]. eapply Rle_trans; [apply Rplus_le_compat_r, Rabs_triang|].
  assert (0 <= Rabs S * c) by (apply Rmult_le_pos; lra). lra.
Qed.
(** C184: the first term returned gives a series of n terms whose sum is the one asked for, up to the relative error
    2^-37; ratios between 0 and 1 - 2^-10. *)
Theorem C184_first_term_F : forall (L : libm) (sums ratio : F) (n : nat), pow_unit L -> is_finite sums = true -> Rabs (B2R sums) <= bpow radix2 900 -> is_finite ratio = true -> 0 <= B2R ratio <= 1 - bpow radix2 (-10) -> (1 <= n)%nat -> (Z.of_nat n < 2 ^ 53)%Z ->
  exists a, @calc_first_term_geom_series F (NumF L) sums ratio (Z.of_nat n) = Ok a /\ is_finite a = true /\ Rabs (geom_sum (B2R a) (B2R ratio) n - B2R sums) <= bpow radix2 (-37) * Rabs (B2R sums) + bpow radix2 (-1060).
Proof.
  intros L s r n PU Fs Sb Fr Rb N1 NB. destruct (decay_close 10 r (conj Fr Rb)) as ((D1 & D2 & D3) & D4). destruct (one_minus_pow L r n PU Fr ltac:(pose proof (bpow_gt_0 radix2 (-10)); lra) NB) as (p & EP & (W1 & W2 & W3) & W4).
  change (bpow radix2 (-10)) with (/ 1024) in *. change (bpow radix2 (- (10))) with (/ 1024) in D4. change (bpow radix2 (-54)) with (/ 18014398509481984) in D3. change (bpow radix2 (-51)) with (/ 2251799813685248) in W3. change (bpow radix2 0) with 1 in D2. change (bpow radix2 1) with 2 in W2.
  assert (CW : 1 - B2R r <= 1 - B2R r ^ n).
  { destruct n as [|n]; [lia|]. cbn [pow]. assert (B2R r ^ n <= 1) by (rewrite <- (pow1 n); apply pow_incr; lra). assert (B2R r * B2R r ^ n <= B2R r * 1) by (apply Rmult_le_compat_l; lra). lra. }
  set (c' := Bminus mode_NE fone r) in *. set (w' := Bminus mode_NE fone p) in *. set (c := 1 - B2R r) in *. set (w := 1 - B2R r ^ n) in *.
  assert (MB : Rabs (B2R s * B2R c') <= bpow radix2 900) by (rewrite Rabs_mult, <- (Rmult_1_r (bpow radix2 900)); apply Rmult_le_compat; try apply Rabs_pos; assumption).
  destruct (rnd_err _ 900 ltac:(lia) MB) as [_ MR]. destruct (F_mul s c' Fs D1) as [M1 M2]; [apply (finite_lt 900); [lia|exact MR]|]. set (m := Bmult mode_NE s c') in *.
  assert (WP : / 2048 <= B2R w') by (apply Rabs_le_inv in W3; lra).
  assert (QB : Rabs (B2R m / B2R w') <= bpow radix2 911).
  { unfold Rdiv. rewrite Rabs_mult, (Rabs_pos_eq (/ _)) by (left; apply Rinv_0_lt_compat; lra). change 911%Z with (900 + 11)%Z. rewrite bpow_plus. apply Rmult_le_compat; [apply Rabs_pos|left; apply Rinv_0_lt_compat; lra|rewrite M1; exact MR|].
    change (bpow radix2 11) with 2048. replace 2048 with (/ / 2048) by lra. apply Rinv_le; lra. }
  destruct (rnd_err _ 911 ltac:(lia) QB) as [_ QR]. destruct (F_quot m w' M2 ltac:(lra)) as [V1 V2]; [apply (finite_lt 911); [lia|exact QR]|].
  exists (Bdiv mode_NE m w'). split.
  { unfold calc_first_term_geom_series. rewrite EP. cbn [bind]. change (@nlit F (NumF L) 1 1) with fone. change (@nsub F (NumF L) fone r) with c'. change (@nsub F (NumF L) fone p) with w'. change (@nmul F (NumF L) s c') with m. apply fdiv_F; [exact W1|lra]. }
  split; [exact V2|]. set (f := Bdiv mode_NE m w') in *. rewrite geom_closed by (unfold c in *; lra). fold w c.
  assert (K : Rabs (B2R f * w - B2R s * c) <= / 137438953472 * (Rabs (B2R s) * c) + 8 * tiny) by (apply (first_core (B2R s) c (B2R c') (B2R m) w (B2R w') (B2R f)); [lra|lra|exact D3|rewrite M1; apply rnd_lit|exact W3|rewrite V1; apply rnd_lit]).
  replace (B2R f * w / c - B2R s) with ((B2R f * w - B2R s * c) * / c) by (field; lra). assert (CI : 0 < / c) by (apply Rinv_0_lt_compat; lra). rewrite Rabs_mult, (Rabs_pos_eq (/ c)) by lra.
  apply Rle_trans with ((/ 137438953472 * (Rabs (B2R s) * c) + 8 * tiny) * / c); [apply Rmult_le_compat_r; lra|]. rewrite Rmult_plus_distr_r. replace (/ 137438953472 * (Rabs (B2R s) * c) * / c) with (/ 137438953472 * Rabs (B2R s)) by (field; lra). change (bpow radix2 (-37)) with (/ 137438953472). apply Rplus_le_compat_l.
  assert (CL : / c <= 1024) by (replace 1024 with (/ / 1024) by lra; apply Rinv_le; lra). apply Rle_trans with (8 * tiny * 1024); [apply Rmult_le_compat_l; [assert (0 < tiny) by apply bpow_gt_0; lra|exact CL]|]. unfold tiny. replace (8 * bpow radix2 (-1075) * 1024) with (bpow radix2 13 * bpow radix2 (-1075)) by (change (bpow radix2 13) with 8192; ring). rewrite <- bpow_plus. apply bpow_le. lia.
Qed.

(** ** The length *)
(** the sum of the first t terms of a, a r, a r^2, ..., for any real t *)
Definition real_sum (a r t : R) : R := a * (1 - Rpower r t) / (1 - r).
Lemma real_sum_nat a r n : 0 < r -> r <> 1 -> real_sum a r (INR n) = geom_sum a r n.
Proof. intros P N. unfold real_sum. now rewrite Rpower_pow, geom_closed. Qed.
Lemma ln_gap (x : F) : 0 < B2R x -> B2R x <> 1 -> / 18014398509481984 <= Rabs (ln (B2R x)).
Proof.
  intros P E. set (l := ln (B2R x)). assert (GAP : / 9007199254740992 <= Rabs (B2R x - 1)).
  { destruct (Rle_or_lt (/ 2) (B2R x)) as [C|C]; [|rewrite Rabs_left; lra]. destruct (fmt_at (B2R x) (-1) (fmt_F x) ltac:(lia)) as (z & Z); [rewrite Rabs_pos_eq by lra; change (bpow radix2 (-1)) with (/ 2); exact C|].
    change (bpow radix2 (-1 - 52)) with (/ 9007199254740992) in Z. rewrite Z in E |- *. assert (K : (z <> 9007199254740992)%Z) by (intros ->; apply E; lra).
    destruct (Z_lt_le_dec z 9007199254740992) as [M|M]; [assert (N : (z <= 9007199254740991)%Z) by lia; apply IZR_le in N; rewrite Rabs_left by lra; lra|assert (N : (9007199254740993 <= z)%Z) by lia; apply IZR_le in N; rewrite Rabs_right by lra; lra]. }
  destruct (Rlt_or_le (B2R x) 1) as [C|C].
  - rewrite Rabs_left in GAP by lra. pose proof (ln_below _ P) as K. fold l in K. rewrite Rabs_left by lra. lra.
  - rewrite Rabs_right in GAP by lra. assert (IP : 0 < / B2R x) by (now apply Rinv_0_lt_compat). pose proof (ln_below _ IP) as K. rewrite ln_Rinv in K by exact P. fold l in K.
    assert (I1 : / B2R x <= 1 - / 18014398509481984).
    { apply Rle_trans with (/ (1 + / 9007199254740992)); [apply Rinv_le; lra|]. apply (Rmult_le_reg_r (1 + / 9007199254740992)); [lra|]. rewrite Rinv_l by lra. lra. }
    pose proof (Rle_abs l). lra.
Qed.
Lemma quot_core s a d y1 y2 y3 : / 17179869184 <= a -> 0 <= s <= 1099511627776 -> Rabs (y1 - d) <= / 9007199254740992 * Rabs d + tiny -> Rabs (y2 - s * y1) <= / 9007199254740992 * Rabs (s * y1) + tiny ->
  Rabs (y3 - y2 / a) <= / 9007199254740992 * Rabs (y2 / a) + tiny -> Rabs (y3 - s * d / a) <= / 2251799813685248 * Rabs (s * d / a) + bpow radix2 (-900).
Proof.
  intros A S H1 H2 H3. assert (T : 0 < tiny) by apply bpow_gt_0. assert (AI : 0 < / a <= 17179869184) by (split; [apply Rinv_0_lt_compat; lra|replace 17179869184 with (/ / 17179869184) by lra; apply Rinv_le; lra]). unfold Rdiv in *. set (i := / a) in *. clearbody i.
  assert (TB : 18889465931478580854784 * 16 * tiny <= bpow radix2 (-900)) by (unfold tiny; change (18889465931478580854784 * 16) with (IZR (2 ^ 74) * 16); replace (IZR (2 ^ 74) * 16) with (bpow radix2 78) by (change (bpow radix2 78) with (IZR (2 ^ 78)); rewrite <- mult_IZR; reflexivity); rewrite <- bpow_plus; apply bpow_le; lia).
  set (X := Rabs (s * d * i)). assert (X0 : 0 <= X) by apply Rabs_pos.
  assert (SI : 0 <= s * i <= 18889465931478580854784) by (split; [apply Rmult_le_pos; lra|apply Rle_trans with (1099511627776 * 17179869184); [apply Rmult_le_compat; lra|lra]]).
  assert (E1 : Rabs (s * y1 * i - s * d * i) <= / 9007199254740992 * X + 18889465931478580854784 * tiny).
  { replace (s * y1 * i - s * d * i) with ((s * i) * (y1 - d)) by ring. rewrite Rabs_mult, (Rabs_pos_eq (s * i)) by lra. apply Rle_trans with ((s * i) * (/ 9007199254740992 * Rabs d + tiny)); [apply Rmult_le_compat_l; lra|]. rewrite Rmult_plus_distr_l. apply Rplus_le_compat; [|apply Rmult_le_compat_r; lra].
    unfold X. replace (s * d * i) with ((s * i) * d) by ring. rewrite Rabs_mult, (Rabs_pos_eq (s * i)) by lra. right. ring. }
  assert (E2 : Rabs (y2 * i - s * y1 * i) <= / 9007199254740992 * Rabs (s * y1 * i) + 17179869184 * tiny).
  { replace (y2 * i - s * y1 * i) with (i * (y2 - s * y1)) by ring. rewrite Rabs_mult, (Rabs_pos_eq i) by lra. apply Rle_trans with (i * (/ 9007199254740992 * Rabs (s * y1) + tiny)); [apply Rmult_le_compat_l; lra|]. rewrite Rmult_plus_distr_l. apply Rplus_le_compat; [|apply Rmult_le_compat_r; lra].
    rewrite (Rabs_mult (s * y1) i), (Rabs_pos_eq i) by lra. right. ring. }
  assert (A1 : Rabs (s * y1 * i) <= 2 * X + 18889465931478580854784 * tiny) by (replace (s * y1 * i) with ((s * y1 * i - s * d * i) + s * d * i) by ring; eapply Rle_trans; [apply Rabs_triang|]; fold X; lra).
  assert (A2 : Rabs (y2 * i) <= 3 * X + 2 * 18889465931478580854784 * tiny) by (replace (y2 * i) with ((y2 * i - s * y1 * i) + s * y1 * i) by ring; eapply Rle_trans; [apply Rabs_triang|]; lra).
  replace (y3 - s * d * i) with ((y3 - y2 * i) + ((y2 * i - s * y1 * i) + (s * y1 * i - s * d * i))) by ring. eapply Rle_trans; [apply Rabs_triang|]. eapply Rle_trans; [apply Rplus_le_compat_l, Rabs_triang|].
  assert (B1 : / 9007199254740992 * Rabs (s * y1 * i) <= / 9007199254740992 * (/ 9007199254740992 * X + 18889465931478580854784 * tiny + X)).
  { apply Rmult_le_compat_l; [lra|]. replace (s * y1 * i) with ((s * y1 * i - s * d * i) + s * d * i) by ring. eapply Rle_trans; [apply Rabs_triang|]. fold X. lra. }
  assert (B2 : / 9007199254740992 * Rabs (y2 * i) <= / 9007199254740992 * (3 / 2 * X + 2 * 18889465931478580854784 * tiny)).
  { apply Rmult_le_compat_l; [lra|]. replace (y2 * i) with ((y2 * i - s * y1 * i) + (s * y1 * i - s * d * i) + s * d * i) by ring. eapply Rle_trans; [apply Rabs_triang|]. fold X. eapply Rle_trans; [apply Rplus_le_compat_r, Rabs_triang|]. lra. }
  lra.
Qed.
(** C184: for first terms, sums and ratios above SERVER_EPS and at most 2^40, the ratio not 1, the number returned is
    a length for which the series sums up to the sum asked for; or it is -1, and the term after that length would be
    at most SERVER_EPS times the first one, up to rounding (or the series does not reach the sum at all). *)
Theorem C184_length_F : forall (L : libm) (first_term sum_all ratio : F), log_accurate L ->
  let eps := B2R (@SERVER_EPS F (NumF L)) in let ok (x : F) := is_finite x = true /\ eps < B2R x <= bpow radix2 40 in ok first_term -> ok sum_all -> ok ratio -> B2R ratio <> 1 ->
  let a := B2R first_term in let s := B2R sum_all in let r := B2R ratio in
  (@calc_length_geom_series F (NumF L) first_term sum_all ratio = Ok (F_of_Z (-1)) /\ a + s * (r - 1) <= eps * a + bpow radix2 (-50) * (a + s * Rabs (r - 1))) \/
  (exists len, @calc_length_geom_series F (NumF L) first_term sum_all ratio = Ok len /\ is_finite len = true /\ eps * a - bpow radix2 (-50) * (a + s * Rabs (r - 1)) <= a + s * (r - 1) /\
     Rabs (real_sum a r (B2R len) - s) <= bpow radix2 (-39) * (a / Rabs (r - 1) + s)).
Proof.
  intros L fa fs fr LA eps ok (Fa & Ba) (Fs & Bs) (Fr & Br) NR a s r. destruct (seps_val L) as (S1 & S2 & S3). pose proof (eps_low L) as EL. set (ep := @SERVER_EPS F (NumF L)) in *. fold eps in S2, S3, EL. fold a in Ba. fold s in Bs. fold r in Br, NR. change (bpow radix2 40) with 1099511627776 in *. assert (T0 : 0 < tiny) by apply bpow_gt_0.
  destruct one_F as [O1 O2]. assert (TT : tiny <= bpow radix2 (-900) /\ bpow radix2 (-900) <= / 1267650600228229401496703205376) by (split; [apply bpow_le; lia|change (/ 1267650600228229401496703205376) with (bpow radix2 (-100)); apply bpow_le; lia]). destruct TT as [TT TU]. assert (NP := bpow_gt_0 radix2 (-900)).
  (* ratio - 1 *)
  assert (B1 : Rabs (r - 1) <= bpow radix2 41) by (change (bpow radix2 41) with 2199023255552; apply Rabs_le; lra). destruct (rnd_err _ 41 ltac:(lia) B1) as [_ R1]. destruct (F_sub fr fone Fr O2) as [Y1 Y1f]; [rewrite O1; fold r; apply (finite_lt 41); [lia|exact R1]|]. rewrite O1 in Y1. fold r in Y1. set (y1 := Bminus mode_NE fr fone) in *.
  assert (K1 := rnd_lit (r - 1)). rewrite <- Y1 in K1, R1.
  (* the sum times that *)
  assert (B2 : Rabs (s * B2R y1) <= bpow radix2 81) by (rewrite Rabs_mult; change 81%Z with (40 + 41)%Z; rewrite bpow_plus; apply Rmult_le_compat; [apply Rabs_pos|apply Rabs_pos|change (bpow radix2 40) with 1099511627776; apply Rabs_le; lra|exact R1]).
  destruct (rnd_err _ 81 ltac:(lia) B2) as [_ R2]. destruct (F_mul fs y1 Fs Y1f) as [Y2 Y2f]; [fold s; apply (finite_lt 81); [lia|exact R2]|]. fold s in Y2. set (y2 := Bmult mode_NE fs y1) in *. assert (K2 := rnd_lit (s * B2R y1)). rewrite <- Y2 in K2, R2.
  (* over the first term *)
  assert (AI : 0 < / a <= 17179869184) by (split; [apply Rinv_0_lt_compat; lra|replace 17179869184 with (/ / 17179869184) by lra; apply Rinv_le; lra]).
  assert (B3 : Rabs (B2R y2 / a) <= bpow radix2 115) by (unfold Rdiv; rewrite Rabs_mult, (Rabs_pos_eq (/ a)) by lra; change 115%Z with (81 + 34)%Z; rewrite bpow_plus; apply Rmult_le_compat; [apply Rabs_pos|lra|exact R2|change (bpow radix2 34) with 17179869184; lra]).
  destruct (rnd_err _ 115 ltac:(lia) B3) as [_ R3]. destruct (F_quot y2 fa Y2f ltac:(fold a; lra)) as [Y3 Y3f]; [fold a; apply (finite_lt 115); [lia|exact R3]|]. fold a in Y3. set (y3 := Bdiv mode_NE y2 fa) in *. assert (K3 := rnd_lit (B2R y2 / a)). rewrite <- Y3 in K3, R3.
  assert (KX := quot_core s a (r - 1) (B2R y1) (B2R y2) (B2R y3) ltac:(lra) ltac:(lra) K1 K2 K3). set (x := s * (r - 1) / a) in *. set (X := Rabs x) in *. assert (X0 : 0 <= X) by apply Rabs_pos.
  (* plus one *)
  assert (B4 : Rabs (1 + B2R y3) <= bpow radix2 116) by (change 116%Z with (1 + 115)%Z; rewrite (bp2 115); assert (1 <= bpow radix2 115) by (change 1 with (bpow radix2 0); apply bpow_le; lia); apply Rabs_le_inv in R3; apply Rabs_le; lra).
  destruct (rnd_err _ 116 ltac:(lia) B4) as [_ R4]. destruct (F_add fone y3 O2 Y3f) as [Y4 Y4f]; [rewrite O1; apply (finite_lt 116); [lia|exact R4]|]. rewrite O1 in Y4. set (y4 := Bplus mode_NE fone y3) in *. assert (K4 := rnd_lit (1 + B2R y3)). rewrite <- Y4 in K4, R4.
  assert (KT : Rabs (B2R y4 - (1 + x)) <= / 1125899906842624 * (1 + X)).
  { assert (A : Rabs (1 + B2R y3) <= 1 + X + (/ 2251799813685248 * X + bpow radix2 (-900))) by (replace (1 + B2R y3) with (1 + x + (B2R y3 - x)) by ring; eapply Rle_trans; [apply Rabs_triang|]; apply Rplus_le_compat; [eapply Rle_trans; [apply Rabs_triang|]; rewrite Rabs_R1; unfold X; lra|exact KX]).
    replace (B2R y4 - (1 + x)) with ((B2R y4 - (1 + B2R y3)) + (B2R y3 - x)) by ring. eapply Rle_trans; [apply Rabs_triang|]. lra. }
  (* in terms of the series *)
  assert (AX : a * x = s * (r - 1)) by (unfold x; field; lra). assert (AXX : a * X = s * Rabs (r - 1)) by (unfold X, x; unfold Rdiv; rewrite !Rabs_mult, (Rabs_pos_eq s), (Rabs_pos_eq (/ a)) by lra; field; lra).
  assert (DA : a * (1 + x) = a + s * (r - 1)) by lra. assert (DX : a * (1 + X) = a + s * Rabs (r - 1)) by lra. rewrite <- DA, <- DX. change (bpow radix2 (-50)) with (/ 1125899906842624). change (bpow radix2 (-39)) with (/ 549755813888).
  assert (CALC : @calc_length_geom_series F (NumF L) fa fs fr = if Bleb y4 ep then Ok (F_of_Z (-1)) else bind (@nlog F (NumF L) y4) (fun lt => bind (@nlog F (NumF L) fr) (fun lr => @ndiv F (NumF L) lt lr))).
  { unfold calc_length_geom_series. cbn [nleb nltb nmul nsub nadd NumF]. fold ep. change (@nlit F (NumF L) 1 1) with fone. destruct (F_of_Z_exact 0 eq_refl) as [Z1 Z2]. change (@nlit F (NumF L) 0 1) with (F_of_Z 0). change (@nlit F (NumF L) (-1) 1) with (F_of_Z (-1)).
    rewrite !leb_F, ltb_F, Z1 by assumption. fold a s r eps. rewrite (Rle_bool_false a), (Rle_bool_false r), (Rle_bool_false s), (Rlt_bool_false s) by lra. cbn [orb]. rewrite (fdiv_F L _ fa Fa) by (fold a; lra). cbn [bind]. fold y1 y2 y3 y4. rewrite leb_F by assumption. reflexivity. }
  rewrite CALC, leb_F by assumption. fold eps. apply Rabs_le_inv in KT. destruct (Rle_bool_spec (B2R y4) eps) as [C|C].
  - left. split; [reflexivity|]. rewrite (Rmult_comm eps a). replace (a * eps + / 1125899906842624 * (a * (1 + X))) with (a * (eps + / 1125899906842624 * (1 + X))) by ring. apply Rmult_le_compat_l; lra.
  - right. assert (LR : forall z : F, is_finite z = true -> eps < B2R z -> @nlog F (NumF L) z = Ok (lm_log L z)) by (intros z Z1 Z2; apply log_ret; fold ep; rewrite leb_F by assumption; fold eps; now apply Rle_bool_false).
    rewrite (LR y4 Y4f C), (LR fr Fr ltac:(fold r; lra)). cbn [bind]. destruct (LA y4 Y4f ltac:(lra)) as [A1 A2]. destruct (LA fr Fr ltac:(fold r; lra)) as [C1 C2]. fold r in C2. change (bpow radix2 (-52)) with (/ 4503599627370496) in A2, C2.
    set (A := lm_log L y4) in *. set (B := lm_log L fr) in *. set (lt := ln (B2R y4)) in *. set (lr := ln r) in *. pose proof (ln_gap fr ltac:(fold r; lra) NR) as G. fold r lr in G.
    assert (LT : Rabs lt <= 116).
    { destruct (ln_bpow (B2R y4) 116 ltac:(lia) ltac:(lra)) as [N1 _]. destruct (ln_bpow (B2R y4) 34 ltac:(lia) ltac:(lra)) as [_ N2]. change (bpow radix2 (- (34))) with (/ 17179869184) in N2. fold lt in N1, N2. apply Rabs_le_inv in R4. specialize (N1 ltac:(lra)). specialize (N2 ltac:(lra)). apply Rabs_le. lra. }
    assert (LRB : Rabs lr <= 40).
    { destruct (ln_bpow r 40 ltac:(lia) ltac:(lra)) as [N1 _]. destruct (ln_bpow r 34 ltac:(lia) ltac:(lra)) as [_ N2]. change (bpow radix2 (- (34))) with (/ 17179869184) in N2. change (bpow radix2 40) with 1099511627776 in N1. fold lr in N1, N2. specialize (N1 ltac:(lra)). specialize (N2 ltac:(lra)). apply Rabs_le. lra. }
    assert (BB : / 2 * Rabs lr <= Rabs (B2R B) <= 2 * Rabs lr).
    { split; [replace lr with ((lr - B2R B) + B2R B) at 1 by ring|replace (B2R B) with ((B2R B - lr) + lr) by ring]; [|eapply Rle_trans; [apply Rabs_triang|]; lra]. pose proof (Rabs_triang (lr - B2R B) (B2R B)) as K. replace (lr - B2R B + B2R B) with lr in * by ring. rewrite (Rabs_minus_sym lr) in K. lra. }
    assert (AB : Rabs (B2R A) <= 2 * Rabs lt) by (replace (B2R A) with ((B2R A - lt) + lt) by ring; eapply Rle_trans; [apply Rabs_triang|]; pose proof (Rabs_pos lt); lra).
    assert (NB : B2R B <> 0) by (intros K; rewrite K, Rabs_R0 in BB; lra). assert (PB : 0 < Rabs (B2R B)) by (now apply Rabs_pos_lt).
    assert (QB : Rabs (B2R A / B2R B) <= bpow radix2 63).
    { unfold Rdiv. rewrite Rabs_mult, Rabs_inv. change 63%Z with (8 + 55)%Z. rewrite bpow_plus. apply Rmult_le_compat; [apply Rabs_pos|left; now apply Rinv_0_lt_compat|change (bpow radix2 8) with 256; lra|]. change (bpow radix2 55) with 36028797018963968. replace 36028797018963968 with (/ / 36028797018963968) by lra. apply Rinv_le; lra. }
    destruct (rnd_err _ 63 ltac:(lia) QB) as [_ QR]. destruct (F_quot A B A1 NB) as [V1 V2]; [apply (finite_lt 63); [lia|exact QR]|]. exists (Bdiv mode_NE A B). split; [apply fdiv_F; assumption|]. split; [exact V2|]. set (len := Bdiv mode_NE A B) in *. split.
    { rewrite (Rmult_comm eps a). replace (a * eps - / 1125899906842624 * (a * (1 + X))) with (a * (eps - / 1125899906842624 * (1 + X))) by ring. apply Rmult_le_compat_l; lra. }
    (* the logarithm of the power *)
    assert (KL := rnd_lit (B2R A / B2R B)). rewrite <- V1 in KL.
    assert (E1 : Rabs (B2R len * B2R B - B2R A) <= / 9007199254740992 * Rabs (B2R A) + tiny * Rabs (B2R B)).
    { replace (B2R len * B2R B - B2R A) with ((B2R len - B2R A / B2R B) * B2R B) by (field; exact NB). rewrite Rabs_mult. apply Rle_trans with ((/ 9007199254740992 * Rabs (B2R A / B2R B) + tiny) * Rabs (B2R B)); [apply Rmult_le_compat_r; lra|]. right. unfold Rdiv. rewrite Rabs_mult, Rabs_inv. field. lra. }
    assert (TB : tiny * Rabs (B2R B) <= tiny * 80) by (apply Rmult_le_compat_l; lra).
    assert (E2 : Rabs (B2R len * B2R B) <= 2 * Rabs (B2R A) + 80 * tiny) by (replace (B2R len * B2R B) with ((B2R len * B2R B - B2R A) + B2R A) by ring; eapply Rle_trans; [apply Rabs_triang|]; pose proof (Rabs_pos (B2R A)); lra).
    assert (E3 : Rabs (B2R len * (lr - B2R B)) <= / 2251799813685248 * Rabs (B2R len * B2R B)).
    { rewrite !Rabs_mult, (Rabs_minus_sym lr). apply Rle_trans with (Rabs (B2R len) * (/ 2251799813685248 * Rabs (B2R B))); [apply Rmult_le_compat_l; [apply Rabs_pos|lra]|right; ring]. }
    assert (DEL : Rabs (B2R len * lr - lt) <= / 2199023255552).
    { replace (B2R len * lr - lt) with ((B2R len * B2R B - B2R A) + (B2R len * (lr - B2R B) + (B2R A - lt))) by ring. eapply Rle_trans; [apply Rabs_triang|]. eapply Rle_trans; [apply Rplus_le_compat_l, Rabs_triang|]. lra. }
    set (del := B2R len * lr - lt) in *. assert (PW : Rpower r (B2R len) = B2R y4 * exp del).
    { unfold Rpower. fold lr. replace (B2R len * lr) with (lt + del) by (unfold del; ring). rewrite exp_plus. unfold lt. rewrite exp_ln by lra. reflexivity. }
    assert (XD : Rabs (exp del - 1) <= / 1099511627776).
    { apply Rabs_le_inv in DEL. pose proof (exp_at_least del). destruct (Rle_or_lt 0 del) as [P|P]; [pose proof (exp_small del ltac:(lra))|assert (exp del <= 1) by (rewrite <- exp_0; apply exp_le; lra)]; apply Rabs_le; lra. }
    assert (DR : 0 < Rabs (r - 1)) by (apply Rabs_pos_lt; lra). assert (N1 : 1 - r <> 0) by lra.
    assert (PT : Rabs (Rpower r (B2R len) - (1 + x)) <= / 549755813888 * (1 + X)).
    { rewrite PW. replace (B2R y4 * exp del - (1 + x)) with (B2R y4 * (exp del - 1) + (B2R y4 - (1 + x))) by ring. eapply Rle_trans; [apply Rabs_triang|]. rewrite Rabs_mult, (Rabs_pos_eq (B2R y4)) by lra.
      assert (YU : B2R y4 <= (1 + X) * (1 + / 1000000)) by (pose proof (Rle_abs x); fold X in H; lra). assert (P1 : B2R y4 * Rabs (exp del - 1) <= (1 + X) * (1 + / 1000000) * / 1099511627776) by (apply Rmult_le_compat; [lra|apply Rabs_pos|exact YU|exact XD]). assert (P2 : Rabs (B2R y4 - (1 + x)) <= / 1125899906842624 * (1 + X)) by (apply Rabs_le; lra). lra. }
    replace (real_sum a r (B2R len) - s) with (a * (Rpower r (B2R len) - (1 + x)) / (r - 1)).
    2: { unfold real_sum. apply (Rmult_eq_reg_r (r - 1)); [|lra]. replace (a * (Rpower r (B2R len) - (1 + x)) / (r - 1) * (r - 1)) with (a * Rpower r (B2R len) - a * (1 + x)) by (field; lra). rewrite DA. field. exact N1. }
    unfold Rdiv. rewrite !Rabs_mult, (Rabs_pos_eq a), Rabs_inv by lra. replace (a * / Rabs (r - 1) + s) with (a * (1 + X) * / Rabs (r - 1)) by (rewrite DX; field; lra).
    rewrite <- Rmult_assoc. apply Rmult_le_compat_r; [left; now apply Rinv_0_lt_compat|]. replace (/ 549755813888 * (a * (1 + X))) with (a * (/ 549755813888 * (1 + X))) by ring. apply Rmult_le_compat_l; lra.
Qed.
(** C184: the guards, for any doubles. *)
Theorem C184_guards_F : forall (L : libm) (first_term sum_all ratio : F), let eps := @SERVER_EPS F (NumF L) in
  (Bleb first_term eps = true \/ Bltb sum_all (F_of_Z 0) = true \/ Bleb ratio eps = true -> @calc_length_geom_series F (NumF L) first_term sum_all ratio = Ok (F_of_Z (-1))) /\
  (Bleb first_term eps = false -> Bltb sum_all (F_of_Z 0) = false -> Bleb ratio eps = false -> Bleb sum_all eps = true -> @calc_length_geom_series F (NumF L) first_term sum_all ratio = Ok (F_of_Z 0)).
Proof.
  intros L a s r eps. unfold calc_length_geom_series. cbn [nleb nltb NumF]. fold eps. change (@nlit F (NumF L) 0 1) with (F_of_Z 0). change (@nlit F (NumF L) (-1) 1) with (F_of_Z (-1)). split.
  - intros H. replace (Bleb a eps || Bltb s (F_of_Z 0) || Bleb r eps) with true; [reflexivity|]. symmetry. destruct H as [-> |[-> | ->]]; [reflexivity|now rewrite orb_true_r|now rewrite orb_true_r].
  - intros -> -> -> ->. reflexivity.
Qed.
(** the series 1, 1/2, 1/4, ... with the sum 15/8, and one whose terms never reach the sum *)
Example C184_nonvacuous : let L := libm_exact in let eps := B2R (@SERVER_EPS F (NumF L)) in let ok (x : F) := is_finite x = true /\ eps < B2R x <= bpow radix2 40 in
  (pow_unit L /\ log_accurate L) /\ ok (Fd 1 0) /\ ok (Fd 15 (-3)) /\ ok (Fd 1 (-1)) /\ ok (F_of_Z 3) /\ B2R (Fd 1 (-1)) <> 1 /\ 0 <= B2R (Fd 1 (-1)) <= 1 - bpow radix2 (-10) /\ Rabs (B2R (Fd 15 (-3))) <= bpow radix2 900 /\
  geom_sum (B2R (Fd 1 0)) (B2R (Fd 1 (-1))) 4 = B2R (Fd 15 (-3)) /\
  (exists len, @calc_length_geom_series F (NumF L) (Fd 1 0) (Fd 15 (-3)) (Fd 1 (-1)) = Ok len /\ is_finite len = true) /\ @calc_length_geom_series F (NumF L) (Fd 1 0) (F_of_Z 3) (Fd 1 (-1)) = Ok (F_of_Z (-1)).
Proof.
  intros L eps ok. destruct (seps_val L) as (S1 & S2 & S3). fold eps in S2, S3.
  assert (V1 : B2R (Fd 1 0) = 1) by (rewrite (Fd_exact 1 0) by lia; change (bpow radix2 0) with 1; lra). assert (V2 : B2R (Fd 15 (-3)) = 15 / 8) by (rewrite (Fd_exact 15 (-3)) by lia; change (bpow radix2 (-3)) with (/ 8); lra). assert (V3 : B2R (Fd 1 (-1)) = 1 / 2) by (rewrite (Fd_exact 1 (-1)) by lia; change (bpow radix2 (-1)) with (/ 2); lra).
  destruct (F_of_Z_exact 3 eq_refl) as [V4 F4].
  assert (F1 : is_finite (Fd 1 0) = true) by (vm_compute; reflexivity). assert (F2 : is_finite (Fd 15 (-3)) = true) by (vm_compute; reflexivity). assert (F3 : is_finite (Fd 1 (-1)) = true) by (vm_compute; reflexivity).
  assert (LA : log_accurate L) by exact libm_exact_log. change (bpow radix2 40) with 1099511627776 in ok.
  assert (K1 : ok (Fd 1 0)) by (split; [exact F1|rewrite V1; lra]). assert (K2 : ok (Fd 15 (-3))) by (split; [exact F2|rewrite V2; lra]). assert (K3 : ok (Fd 1 (-1))) by (split; [exact F3|rewrite V3; lra]). assert (K4 : ok (F_of_Z 3)) by (split; [exact F4|rewrite V4; lra]).
  split; [split; [apply libm_exact_pow|exact LA]|]. split; [exact K1|]. split; [exact K2|]. split; [exact K3|]. split; [exact K4|]. split; [rewrite V3; lra|]. split; [rewrite V3; change (bpow radix2 (-10)) with (/ 1024); lra|].
  split; [rewrite V2; apply Rle_trans with (bpow radix2 1); [change (bpow radix2 1) with 2; rewrite Rabs_pos_eq; lra|apply bpow_le; lia]|]. split; [rewrite V1, V2, V3; unfold geom_sum; cbn; lra|].
  pose proof (eps_low L) as EL. fold eps in EL. split.
  - destruct (C184_length_F L (Fd 1 0) (Fd 15 (-3)) (Fd 1 (-1)) LA K1 K2 K3 ltac:(rewrite V3; lra)) as [(_ & H)|(len & H1 & H2 & _)]; [exfalso|exists len; auto].
    fold eps in H. rewrite V1, V2, V3 in H. change (bpow radix2 (-50)) with (/ 1125899906842624) in H. rewrite Rabs_left in H by lra. lra.
  - destruct (C184_length_F L (Fd 1 0) (F_of_Z 3) (Fd 1 (-1)) LA K1 K4 K3 ltac:(rewrite V3; lra)) as [(H & _)|(len & _ & _ & H & _)]; [exact H|exfalso].
    fold eps in H. rewrite V1, V4, V3 in H. change (bpow radix2 (-50)) with (/ 1125899906842624) in H. rewrite Rabs_left in H by lra. lra.
Qed.

(** ** The wind *)
(** nothing over a weight *)
Lemma none_over (z w : F) : F_is_zero w = false -> (F_is_zero z = true -> w <> B754_nan -> F_is_zero (Bdiv mode_NE z w) = true) /\ (z = B754_nan \/ w = B754_nan -> Bdiv mode_NE z w = B754_nan).
Proof.
  intros Z. split.
  - intros Hz N. apply zero_iff in Hz. destruct Hz as [t ->]. destruct w as [v|v| |v m e B]; [destruct v; discriminate Z| |now elim N|]; apply zero_iff; eexists; reflexivity.
  - intros [->| ->]; [reflexivity|]. destruct z; reflexivity.
Qed.
Lemma none_times (x : F) t : (is_finite x = true -> F_is_zero (Bmult mode_NE x (B754_zero t)) = true /\ F_is_zero (Bmult mode_NE (B754_zero t) x) = true) /\ (is_finite x = false -> Bmult mode_NE x (B754_zero t) = B754_nan /\ Bmult mode_NE (B754_zero t) x = B754_nan).
Proof. destruct x as [v|v| |v m e B]; split; intros H; try discriminate H; try (split; reflexivity); split; apply zero_iff; eexists; reflexivity. Qed.
(** C185: whenever wind_effect returns, both coordinates are 0 (or -0) if the speed is finite and the product of the
    weights is not NaN, and NaN otherwise; the error vector, if one is given, likewise, the random factor finite too. *)
Theorem C185_wind_F : forall (L : libm) (speed weight force dir wweight rand : F) (err err' : option (vec F)) (p : vec F), @wind_effect F (NumF L) speed weight force dir wweight rand err = Ok (p, err') ->
  let none (v : vec F) := F_is_zero (vx v) = true /\ F_is_zero (vy v) = true in let lost (v : vec F) := vx v = B754_nan /\ vy v = B754_nan in let w := Bmult mode_NE weight wweight in
  (is_finite speed = true -> w <> B754_nan -> none p) /\ (is_finite speed = false \/ w = B754_nan -> lost p) /\
  (err = None -> err' = None) /\
  (err <> None -> exists q, err' = Some q /\ (is_finite speed = true -> is_finite rand = true -> w <> B754_nan -> none q) /\ (is_finite speed = false \/ is_finite rand = false \/ w = B754_nan -> lost q)).
Proof.
  intros L sp wt fo di ww ra err err' p H none lost w. unfold wind_effect in H. destruct (Vector2D_from_polar fo (AN di)) as [v|e]; [|discriminate H]. cbn [bind vx vy V] in H. change (@nlit F (NumF L) 0 1) with (F_of_Z 0) in H. change (F_of_Z 0) with (B754_zero (prec := 53) (emax := 1024) false) in H. cbn [nmul ndiv NumF] in H. fold w in H.
  destruct (F_is_zero w) eqn:Z; [exfalso; unfold F_div in H; rewrite Z in H; destruct err; discriminate H|]. unfold F_div in H. rewrite Z in H. cbn [bind] in H. destruct (none_times sp false) as [T1 T2].
  assert (M : p = V (Bdiv mode_NE (Bmult mode_NE sp (B754_zero false)) w) (Bdiv mode_NE (Bmult mode_NE sp (B754_zero false)) w) /\ err' = match err with Some we => Some (Vector2D_assign we (Bdiv mode_NE (Bmult mode_NE (Bmult mode_NE sp (B754_zero false)) ra) w) (Bdiv mode_NE (Bmult mode_NE (Bmult mode_NE sp (B754_zero false)) ra) w)) | None => None end).
  { destruct err as [we|]; cbn [bind] in H; injection H as <- <-; split; reflexivity. }
  clear H. destruct M as [-> ->]. unfold none, lost. cbn [vx vy V]. split; [|split; [|split]].
  - intros A N. split; apply none_over; try assumption; now apply T1.
  - intros K. assert (E : Bmult mode_NE sp (B754_zero false) = B754_nan \/ w = B754_nan) by (destruct K as [K|K]; [left; now apply T2|now right]). split; apply none_over; assumption.
  - intros ->. reflexivity.
  - destruct err as [we|]; [intros _|intros K; now elim K]. eexists. split; [reflexivity|]. cbn [vx vy V Vector2D_assign]. split.
    + intros A B N. assert (E : F_is_zero (Bmult mode_NE (Bmult mode_NE sp (B754_zero false)) ra) = true) by (destruct (T1 A) as [T _]; apply zero_iff in T; destruct T as [t ->]; now apply none_times). split; apply none_over; assumption.
    + intros K. assert (E : Bmult mode_NE (Bmult mode_NE sp (B754_zero false)) ra = B754_nan \/ w = B754_nan).
      { destruct (is_finite sp) eqn:A; [|left; rewrite (proj1 (T2 eq_refl)); reflexivity]. destruct K as [K|[K|K]]; [discriminate K| |now right]. left. destruct (T1 eq_refl) as [T _]. apply zero_iff in T. destruct T as [t ->]. now apply none_times. }
      split; apply none_over; assumption.
Qed.
Example C185_nonvacuous : let L := libm_exact in (exists r, @wind_effect F (NumF L) (F_of_Z 1) (F_of_Z 2) (F_of_Z 1) (F_of_Z 0) (F_of_Z 3) (F_of_Z 1) (Some (V (F_of_Z 5) (F_of_Z 6))) = Ok r) /\ is_finite (F_of_Z 1) = true /\ Bmult mode_NE (F_of_Z 2) (F_of_Z 3) <> B754_nan /\ is_finite (B754_nan : F) = false.
Proof.
  intros L. split; [|split; [reflexivity|split; [intros K; apply (f_equal B2SF) in K; vm_compute in K; discriminate K|reflexivity]]].
  apply (proj2 (proj2 (C182_wind_F L (F_of_Z 1) (F_of_Z 2) (F_of_Z 1) (F_of_Z 0) (F_of_Z 3) (F_of_Z 1) (Some (V (F_of_Z 5) (F_of_Z 6))) libm_round_trig_sane))); vm_compute; reflexivity.
Qed.
