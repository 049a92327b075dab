(** * P_LenF: set_length and normalize in doubles (C154) *)
From Coq Require Import ZArith List Bool String Reals Lra Lia Psatz.
From Flocq Require Import Core BinarySingleNaN.
From Verif Require Import Base Types NumR NumF R_Tac Spec Spec2 Abs M_Angle M_Vector
  L_Angle P_Vector L_Float P_Float P_Robust P_Hull2 P_VecF P_LineF P_MatF P_SoccerF P_RectF P_SegF P_AngleF3.
Import ListNotations.
Local Open Scope R_scope.
Local Notation u := (bpow radix2 (-53)).

(** one coordinate: x * (l / mag), three roundings *)
Lemma scaled_coord (x l mg : F) (N : R) : is_finite x = true -> is_finite l = true -> is_finite mg = true -> bpow radix2 (-21) <= N <= bpow radix2 500 -> Rabs (B2R x) <= N ->
  Rabs (B2R mg - N) <= 5 * bpow radix2 (-54) * N -> bpow radix2 (-400) <= Rabs (B2R l) <= bpow radix2 400 ->
  let w := Bmult mode_NE x (Bdiv mode_NE l mg) in
  is_finite w = true /\ Rabs (B2R w - B2R x * (B2R l / N)) <= 5 * u * Rabs (B2R x * (B2R l / N)) + bpow radix2 (-1075).
Proof.
  intros Fx Fl Fm [N1 N2] XN MN [L1 L2] w. pose proof u_pos as HU. assert (NP : 0 < N) by (pose proof (bpow_gt_0 radix2 (-21)); lra).
  replace (5 * bpow radix2 (-54)) with (5 / 2 * u) in MN by (change (-53)%Z with (1 + -54)%Z; rewrite bp2; field).
  set (M := B2R mg) in *. set (X := B2R x) in *. set (l' := B2R l) in *.
  assert (MB : N * (1 - 5 / 2 * u) <= M <= N * (1 + 5 / 2 * u)) by (apply Rabs_le_inv in MN; lra).
  assert (U1 : u <= / 1000000000) by (cbn; lra).
  assert (M1 : N * (999 / 1000) <= M) by (assert (N * (999 / 1000) <= N * (1 - 5 / 2 * u)) by (apply Rmult_le_compat_l; lra); lra). assert (MP : 0 < M) by lra.
  set (q := l' / M). set (t := l' / N).
  assert (TN : Rabs t = Rabs l' / N) by (unfold t, Rdiv; rewrite Rabs_mult, Rabs_inv, (Rabs_pos_eq N) by lra; reflexivity).
  assert (LP : 0 < Rabs l') by (pose proof (bpow_gt_0 radix2 (-400)); lra).
  assert (TP : 0 < Rabs t) by (rewrite TN; apply Rdiv_lt_0_compat; lra).
  assert (QT : Rabs (q - t) <= 251 / 100 * u * Rabs t).
  { replace (q - t) with (t * ((N - M) / M)) by (unfold q, t; field; lra). rewrite Rabs_mult, Rmult_comm. apply Rmult_le_compat_r; [apply Rabs_pos|]. unfold Rdiv. rewrite Rabs_mult, Rabs_inv, (Rabs_pos_eq M) by lra.
    apply (Rmult_le_reg_r M); [lra|]. rewrite Rmult_assoc, Rinv_l, Rmult_1_r by lra. rewrite Rabs_minus_sym. eapply Rle_trans; [exact MN|]. assert (u * (N * (999 / 1000)) <= u * M) by (apply Rmult_le_compat_l; lra). assert (0 <= u * N) by (apply Rmult_le_pos; lra). lra. }
  assert (TL : bpow radix2 (-900) <= Rabs t <= bpow radix2 421).
  { rewrite TN. split.
    - apply (Rmult_le_reg_r N); [lra|]. unfold Rdiv. rewrite Rmult_assoc, Rinv_l, Rmult_1_r by lra. eapply Rle_trans; [|exact L1]. replace (bpow radix2 (-400)) with (bpow radix2 (-900) * bpow radix2 500) by (rewrite <- bpow_plus; reflexivity). apply Rmult_le_compat_l; [apply bpow_ge_0|exact N2].
    - apply (Rmult_le_reg_r N); [lra|]. unfold Rdiv. rewrite Rmult_assoc, Rinv_l, Rmult_1_r by lra. eapply Rle_trans; [exact L2|]. replace (bpow radix2 400) with (bpow radix2 421 * bpow radix2 (-21)) by (rewrite <- bpow_plus; reflexivity). apply Rmult_le_compat_l; [apply bpow_ge_0|exact N1]. }
  assert (QB : Rabs q <= (1 + / 1000) * Rabs t). { replace q with (t + (q - t)) by ring. eapply Rle_trans; [apply Rabs_triang|]. assert (251 / 100 * u * Rabs t <= / 1000 * Rabs t) by (apply Rmult_le_compat_r; lra). lra. }
  assert (B422 : bpow radix2 422 = 2 * bpow radix2 421) by (change 422%Z with (1 + 421)%Z; apply bp2). assert (BP := bpow_gt_0 radix2 421).
  assert (Q422 : Rabs q <= bpow radix2 422) by lra.
  destruct (rnd_err q 422 ltac:(lia) Q422) as [_ RQ].
  destruct (F_quot l mg Fl) as [K1 K2]; [fold M; lra|fold M l' q; apply (finite_lt 422); [lia|exact RQ]|]. fold M l' q in K1.
  set (k := Bdiv mode_NE l mg) in *. assert (KE := rnd_rel q). rewrite <- K1 in KE. set (K := B2R k) in *.
  assert (T1075 : bpow radix2 (-1075) <= / 1000 * u * Rabs t).
  { apply Rle_trans with (/ 1024 * u * bpow radix2 (-900)). - change (/ 1024) with (bpow radix2 (-10)). rewrite <- !bpow_plus. apply bpow_le. lia.
    - assert (0 < u * bpow radix2 (-900)) by (apply Rmult_lt_0_compat; apply bpow_gt_0). assert (u * bpow radix2 (-900) <= u * Rabs t) by (apply Rmult_le_compat_l; lra). lra. }
  assert (KT : Rabs (K - t) <= 352 / 100 * u * Rabs t).
  { replace (K - t) with ((K - q) + (q - t)) by ring. eapply Rle_trans; [apply Rabs_triang|]. assert (u * Rabs q <= u * ((1 + / 1000) * Rabs t)) by (apply Rmult_le_compat_l; lra). assert (0 <= u * Rabs t) by (apply Rmult_le_pos; lra). lra. }
  assert (KB : Rabs K <= (1 + / 1000) * Rabs t). { replace K with (t + (K - t)) by ring. eapply Rle_trans; [apply Rabs_triang|]. assert (352 / 100 * u * Rabs t <= / 1000 * Rabs t) by (apply Rmult_le_compat_r; lra). lra. }
  assert (XK : Rabs (X * K) <= (1 + / 1000) * Rabs (X * t)). { rewrite !Rabs_mult. assert (Rabs X * Rabs K <= Rabs X * ((1 + / 1000) * Rabs t)) by (apply Rmult_le_compat_l; [apply Rabs_pos|exact KB]). lra. }
  assert (XT : Rabs (X * t) <= bpow radix2 400). { rewrite Rabs_mult, TN. apply Rle_trans with (N * (Rabs l' / N)). - apply Rmult_le_compat_r; [rewrite <- TN; apply Rabs_pos|exact XN]. - replace (N * (Rabs l' / N)) with (Rabs l') by (field; lra). exact L2. }
  assert (B401 : bpow radix2 401 = 2 * bpow radix2 400) by (change 401%Z with (1 + 400)%Z; apply bp2). assert (BP4 := bpow_gt_0 radix2 400).
  assert (X401 : Rabs (X * K) <= bpow radix2 401) by lra. destruct (rnd_err (X * K) 401 ltac:(lia) X401) as [_ RX].
  destruct (F_mul x k Fx K2) as [W1 W2]; [fold X K; apply (finite_lt 401); [lia|exact RX]|]. fold X K in W1. fold w in W1, W2. split; [exact W2|].
  assert (WE := rnd_rel (X * K)). rewrite <- W1 in WE. fold t.
  assert (XKT : Rabs (X * K - X * t) <= 352 / 100 * u * Rabs (X * t)). { replace (X * K - X * t) with (X * (K - t)) by ring. rewrite !Rabs_mult. assert (Rabs X * Rabs (K - t) <= Rabs X * (352 / 100 * u * Rabs t)) by (apply Rmult_le_compat_l; [apply Rabs_pos|exact KT]). lra. }
  replace (B2R w - X * t) with ((B2R w - X * K) + (X * K - X * t)) by ring. eapply Rle_trans; [apply Rabs_triang|].
  assert (u * Rabs (X * K) <= u * ((1 + / 1000) * Rabs (X * t))) by (apply Rmult_le_compat_l; lra). assert (0 <= u * Rabs (X * t)) by (apply Rmult_le_pos; [lra|apply Rabs_pos]). lra.
Qed.

Lemma abs_le_norm x y : Rabs x <= norm (x, y) /\ Rabs y <= norm (x, y).
Proof.
  unfold norm, norm2, px, py. cbn [fst snd]. pose proof (Rle_0_sqr x) as X. pose proof (Rle_0_sqr y) as Y. unfold Rsqr in X, Y.
  split; (rewrite <- sqrt_Rsqr_abs; apply sqrt_le_1_alt; unfold Rsqr; lra).
Qed.
Lemma norm_scale x y k : norm (x * k, y * k) = Rabs k * norm (x, y).
Proof.
  unfold norm, norm2, px, py. cbn [fst snd]. rewrite <- (sqrt_Rsqr_abs k), <- sqrt_mult; [f_equal; unfold Rsqr; ring|apply Rle_0_sqr|].
  pose proof (Rle_0_sqr x) as X. pose proof (Rle_0_sqr y) as Y. unfold Rsqr in X, Y. lra.
Qed.
(** componentwise relative error gives relative error of the length *)
Lemma norm_rel a b x y e t : 0 <= e -> 0 <= t -> Rabs (a - x) <= e * Rabs x + t -> Rabs (b - y) <= e * Rabs y + t -> Rabs (norm (a, b) - norm (x, y)) <= e * norm (x, y) + 2 * t.
Proof.
  intros He Ht A B.
  assert (D : norm (a - x, b - y) <= e * norm (x, y) + 2 * t).
  { apply Rle_trans with (norm (e * Rabs x + t, e * Rabs y + t)).
    - unfold norm, norm2, px, py. cbn [fst snd]. apply sqrt_le_1_alt. pose proof (Rabs_pos (a - x)). pose proof (Rabs_pos (b - y)).
      assert ((a - x) * (a - x) = Rabs (a - x) * Rabs (a - x)) by (rewrite <- Rabs_mult; symmetry; apply Rabs_pos_eq, Rle_0_sqr). assert ((b - y) * (b - y) = Rabs (b - y) * Rabs (b - y)) by (rewrite <- Rabs_mult; symmetry; apply Rabs_pos_eq, Rle_0_sqr).
      assert (Rabs (a - x) * Rabs (a - x) <= (e * Rabs x + t) * (e * Rabs x + t)) by (apply Rmult_le_compat; assumption). assert (Rabs (b - y) * Rabs (b - y) <= (e * Rabs y + t) * (e * Rabs y + t)) by (apply Rmult_le_compat; assumption). lra.
    - eapply Rle_trans; [apply (norm_triangle (e * Rabs x, e * Rabs y) (t, t))|]. apply Rplus_le_compat.
      + replace (e * Rabs x, e * Rabs y) with (Rabs x * e, Rabs y * e) by (f_equal; ring). rewrite norm_scale, (Rabs_pos_eq e) by exact He. apply Rmult_le_compat_l; [exact He|]. right. unfold norm, norm2, px, py. cbn [fst snd]. rewrite <- !Rabs_mult, !Rabs_pos_eq by apply Rle_0_sqr. reflexivity.
      + unfold norm, norm2, px, py. cbn [fst snd]. rewrite <- (sqrt_square (2 * t)) by lra. apply sqrt_le_1_alt. assert (0 <= t * t) by (apply Rmult_le_pos; exact Ht). lra. }
  assert (T1 := norm_triangle (x, y) (a - x, b - y)). unfold px, py in T1. cbn [fst snd] in T1. replace (x + (a - x)) with a in T1 by ring. replace (y + (b - y)) with b in T1 by ring.
  assert (T2 := norm_triangle (a, b) (x - a, y - b)). unfold px, py in T2. cbn [fst snd] in T2. replace (a + (x - a)) with x in T2 by ring. replace (b + (y - b)) with y in T2 by ring.
  replace (norm (x - a, y - b)) with (norm (a - x, b - y)) in T2 by (unfold norm, norm2, px, py; cbn [fst snd]; f_equal; ring). apply Rabs_le. lra.
Qed.

Theorem C154_set_length_F : forall (L : libm) (v : vec F) (l : F), is_finite (vx v) = true -> is_finite (vy v) = true -> is_finite l = true ->
  let N := norm (fpt v) in let l' := B2R l in
  (1 / 999998 <= N <= bpow radix2 500 -> bpow radix2 (-400) <= Rabs l' <= bpow radix2 400 ->
     exists w, @Vector2D_set_length F (NumF L) v l = Ok w /\ v_valid w = v_valid v /\ is_finite (vx w) = true /\ is_finite (vy w) = true /\
       Rabs (B2R (vx w) - B2R (vx v) * (l' / N)) <= 5 * bpow radix2 (-53) * Rabs (B2R (vx v) * (l' / N)) + bpow radix2 (-1075) /\
       Rabs (B2R (vy w) - B2R (vy v) * (l' / N)) <= 5 * bpow radix2 (-53) * Rabs (B2R (vy v) * (l' / N)) + bpow radix2 (-1075) /\
       Rabs (norm (fpt w) - Rabs l') <= 6 * bpow radix2 (-53) * Rabs l') /\
  (N <= 1 / 1000002 -> @Vector2D_set_length F (NumF L) v l = Ok v).
Proof.
  intros L v l Fx Fy Fl N l'. pose proof u_pos as HU. destruct (eps_F L) as [E1 E2]. destruct (abs_le_norm (B2R (vx v)) (B2R (vy v))) as [XN YN]. change (norm (B2R (vx v), B2R (vy v))) with N in XN, YN. split.
  - intros [N1 N2] LB. assert (NB : bpow radix2 (-21) <= N) by (apply Rle_trans with (1 / 999998); [change (bpow radix2 (-21)) with (/ 2097152); lra|exact N1]).
    assert (N480 : bpow radix2 (-480) <= N) by (eapply Rle_trans; [|exact NB]; apply bpow_le; lia).
    destruct (C135_length_F L v Fx Fy (conj N480 N2)) as (_ & _ & mg & M1 & M2 & M3). change (norm (pt (rvec v))) with N in M3.
    unfold Vector2D_set_length. rewrite M1. cbn [bind].
    assert (MG : 1 / 999999 < B2R mg) by (replace (5 * bpow radix2 (-54)) with (5 / 18014398509481984) in M3 by (cbn; lra); apply Rabs_le_inv in M3; lra).
    assert (TT : @nltb F (NumF L) (@EPSILON F (NumF L)) mg = true) by (cbn [nltb NumF]; rewrite ltb_F by assumption; apply Rlt_bool_true; lra).
    rewrite TT. rewrite fdiv_F by (try exact M2; lra). cbn [bind].
    destruct (scaled_coord (vx v) l mg N Fx Fl M2 (conj NB N2) XN M3 LB) as [W1 W2]. destruct (scaled_coord (vy v) l mg N Fy Fl M2 (conj NB N2) YN M3 LB) as [W3 W4].
    eexists. split; [reflexivity|]. unfold Vector2D_scale. cbn [v_valid vx vy nmul NumF]. fold l' in W2, W4. split; [reflexivity|]. split; [exact W1|]. split; [exact W3|]. split; [exact W2|]. split; [exact W4|].
    assert (NR := norm_rel _ _ _ _ (5 * u) (bpow radix2 (-1075)) ltac:(lra) (bpow_ge_0 radix2 (-1075)) W2 W4).
    rewrite norm_scale in NR. change (norm (B2R (vx v), B2R (vy v))) with N in NR.
    assert (NP : 0 < N) by lra. replace (Rabs (l' / N) * N) with (Rabs l') in NR by (unfold Rdiv; rewrite Rabs_mult, Rabs_inv, (Rabs_pos_eq N) by lra; field; lra).
    change (fpt _) with (B2R (Bmult mode_NE (vx v) (Bdiv mode_NE l mg)), B2R (Bmult mode_NE (vy v) (Bdiv mode_NE l mg))).
    assert (T : 2 * bpow radix2 (-1075) <= u * Rabs l'). { apply Rle_trans with (u * bpow radix2 (-400)); [rewrite <- bp2, <- bpow_plus; apply bpow_le; lia|]. apply Rmult_le_compat_l; lra. } lra.
  - intros NS. unfold Vector2D_set_length.
    assert (BX : fbound (-19) (vx v)) by (split; [exact Fx|]; change (bpow radix2 (-19)) with (/ 524288); lra). assert (BY : fbound (-19) (vy v)) by (split; [exact Fy|]; change (bpow radix2 (-19)) with (/ 524288); lra).
    assert (CX := close_mul (-19) (-19) _ _ _ _ _ _ ltac:(lia) (proj2 BX) (fb_close _ _ BX) (fb_close _ _ BX)). assert (CY := close_mul (-19) (-19) _ _ _ _ _ _ ltac:(lia) (proj2 BY) (fb_close _ _ BY) (fb_close _ _ BY)).
    destruct (close_add (-19 + -19) _ _ _ _ _ _ ltac:(lia) CX CY) as (R1 & _ & R3).
    assert (NN : B2R (vx v) * B2R (vx v) + B2R (vy v) * B2R (vy v) = N * N) by (unfold N; rewrite norm_sq; reflexivity). rewrite NN in R3.
    assert (R2 : 0 <= B2R (@Vector2D_r2 F (NumF L) v)).
    { destruct CX as (MX & _ & _). destruct CY as (MY & _ & _). unfold Vector2D_r2. cbn [nadd nmul NumF] in *.
      assert (SQ : forall x : F, fbound (-19) x -> 0 <= B2R (Bmult mode_NE x x) <= bpow radix2 (-38)).
      { intros x [K1 K2]. assert (XX : Rabs (B2R x * B2R x) <= bpow radix2 (-38)) by (rewrite Rabs_mult; change (-38)%Z with (-19 + -19)%Z; rewrite bpow_plus; apply Rmult_le_compat; try apply Rabs_pos; exact K2).
        destruct (rnd_err _ (-38) ltac:(lia) XX) as [_ G]. destruct (F_mul x x K1 K1) as [-> _]; [apply (finite_lt (-38)); [lia|exact G]|]. split; [apply rnd_nonneg, Rle_0_sqr|]. apply Rabs_le_inv in G. lra. }
      assert (S1 := SQ _ BX). assert (S2 := SQ _ BY).
      assert (SB : Rabs (B2R (Bmult mode_NE (vx v) (vx v)) + B2R (Bmult mode_NE (vy v) (vy v))) <= bpow radix2 (-37)) by (change (-37)%Z with (1 + -38)%Z; rewrite bp2, Rabs_pos_eq; lra).
      destruct (rnd_err _ (-37) ltac:(lia) SB) as [_ G]. destruct (F_add _ _ MX MY) as [-> _]; [apply (finite_lt (-37)); [lia|exact G]|]. apply rnd_nonneg. lra. }
    destruct (F_root L (@Vector2D_r2 F (NumF L) v) R1 R2) as (mg & M1 & M2 & M3). unfold Vector2D_r. rewrite M1. cbn [bind].
    assert (N0 : 0 <= N) by apply norm_nonneg. assert (NQ : N * N <= 1 / 1000002 * (1 / 1000002)) by (apply Rmult_le_compat; lra).
    change (B2R (Bplus mode_NE (Bmult mode_NE (vx v) (vx v)) (Bmult mode_NE (vy v) (vy v)))) with (B2R (@Vector2D_r2 F (NumF L) v)) in R3.
    change (bpow radix2 (-19 + -19 - 54)) with (/ 4951760157141521099596496896) in R3. change (bpow radix2 (-19 + -19 + 1 - 54)) with (/ 2475880078570760549798248448) in R3. rewrite Rmult_0_r in R3.
    assert (QB : B2R (@Vector2D_r2 F (NumF L) v) <= 1 / (1000001 + 6 / 10) * (1 / (1000001 + 6 / 10))) by (apply Rabs_le_inv in R3; lra).
    assert (SQ : sqrt (B2R (@Vector2D_r2 F (NumF L) v)) <= 1 / (1000001 + 6 / 10)) by (rewrite <- (sqrt_square (1 / (1000001 + 6 / 10))) by lra; apply sqrt_le_1_alt; exact QB).
    assert (S0 := sqrt_pos (B2R (@Vector2D_r2 F (NumF L) v))). assert (SB : Rabs (sqrt (B2R (@Vector2D_r2 F (NumF L) v))) <= bpow radix2 (-19)) by (rewrite Rabs_pos_eq by exact S0; change (bpow radix2 (-19)) with (/ 524288); lra).
    destruct (rnd_err _ (-19) ltac:(lia) SB) as [RE _]. rewrite <- M3 in RE. change (bpow radix2 (-19 - 54)) with (/ 9444732965739290427392) in RE.
    assert (TT : @nltb F (NumF L) (@EPSILON F (NumF L)) mg = false) by (cbn [nltb NumF]; rewrite ltb_F by assumption; apply Rlt_bool_false; apply Rabs_le_inv in RE; lra).
    rewrite TT. reflexivity.
Qed.

Theorem C154_normalize_F : forall (L : libm) (v : vec F), is_finite (vx v) = true -> is_finite (vy v) = true -> 1 / 999998 <= norm (fpt v) <= bpow radix2 500 ->
  let N := norm (fpt v) in
  exists w, @Vector2D_normalize F (NumF L) v = Ok w /\ @Vector2D_normalize_vector F (NumF L) v = Ok (mkVec (vx w) (vy w) true) /\ v_valid w = v_valid v /\
    Rabs (norm (fpt w) - 1) <= 6 * bpow radix2 (-53) /\
    Rabs (cross (fpt v) (fpt w)) <= 11 * bpow radix2 (-53) * N /\ dot (fpt v) (fpt w) >= N / 2.
Proof.
  intros L v Fx Fy HN N. destruct (F_of_Z_exact 1 eq_refl) as [O1 O2]. destruct (C154_set_length_F L v (F_of_Z 1) Fx Fy O2) as [H _]. fold N in H, HN. rewrite O1 in H.
  destruct H as (w & W1 & W2 & W3 & W4 & W5 & W6 & W7); [exact HN| |].
  { rewrite Rabs_pos_eq by lra. change 1 with (bpow radix2 0). split; apply bpow_le; lia. }
  assert (NP : 0 < N) by lra. pose proof u_pos as HU.
  exists w. split; [exact W1|]. split.
  { unfold Vector2D_normalize_vector. unfold Vector2D_set_length, Vector2D_r, Vector2D_r2, Vector2D_scale in *. cbn [V vx vy v_valid] in *.
    change (@nlit F (NumF L) 1 1) with (F_of_Z 1). destruct (nsqrt _) as [mg|]; [|discriminate]. cbn [bind] in *. destruct (nltb _ mg).
    - destruct (ndiv _ _) as [k|]; [|discriminate]. cbn [bind] in *. injection W1 as <-. reflexivity.
    - injection W1 as <-. unfold V. reflexivity. }
  split; [exact W2|]. rewrite (Rabs_pos_eq 1) in W7 by lra. split; [lra|].
  unfold cross, dot, fpt, px, py. cbn [fst snd]. set (x := B2R (vx v)) in *. set (y := B2R (vy v)) in *. set (a := B2R (vx w)) in *. set (b := B2R (vy w)) in *.
  assert (NN : x * x + y * y = N * N) by (unfold N; rewrite norm_sq; reflexivity).
  destruct (abs_le_norm x y) as [XN YN]. change (norm (x, y)) with N in XN, YN.
  assert (XT : Rabs (x * (1 / N)) <= 1). { rewrite Rabs_mult. unfold Rdiv. rewrite Rmult_1_l, Rabs_inv, (Rabs_pos_eq N) by lra. apply (Rmult_le_reg_r N); [lra|]. rewrite Rmult_assoc, Rinv_l by lra. lra. }
  assert (YT : Rabs (y * (1 / N)) <= 1). { rewrite Rabs_mult. unfold Rdiv. rewrite Rmult_1_l, Rabs_inv, (Rabs_pos_eq N) by lra. apply (Rmult_le_reg_r N); [lra|]. rewrite Rmult_assoc, Rinv_l by lra. lra. }
  assert (T : bpow radix2 (-1075) <= / 10 * u) by (change u with (bpow radix2 (-53)); apply Rle_trans with (/ 16 * bpow radix2 (-53)); [change (/ 16) with (bpow radix2 (-4)); rewrite <- bpow_plus; apply bpow_le; lia|lra]).
  set (da := a - x * (1 / N)) in *. set (db := b - y * (1 / N)) in *.
  assert (DA : Rabs da <= 51 / 10 * u) by (assert (5 * u * Rabs (x * (1 / N)) <= 5 * u * 1) by (apply Rmult_le_compat_l; lra); lra).
  assert (DB : Rabs db <= 51 / 10 * u) by (assert (5 * u * Rabs (y * (1 / N)) <= 5 * u * 1) by (apply Rmult_le_compat_l; lra); lra).
  assert (P1 : Rabs (x * db) <= N * (51 / 10 * u)) by (rewrite Rabs_mult; apply Rmult_le_compat; try apply Rabs_pos; assumption). assert (P2 : Rabs (y * da) <= N * (51 / 10 * u)) by (rewrite Rabs_mult; apply Rmult_le_compat; try apply Rabs_pos; assumption).
  assert (P3 : Rabs (x * da) <= N * (51 / 10 * u)) by (rewrite Rabs_mult; apply Rmult_le_compat; try apply Rabs_pos; assumption). assert (P4 : Rabs (y * db) <= N * (51 / 10 * u)) by (rewrite Rabs_mult; apply Rmult_le_compat; try apply Rabs_pos; assumption).
  assert (0 <= N * u <= N / 1000) by (split; [apply Rmult_le_pos; lra|unfold Rdiv; apply Rmult_le_compat_l; lra]).
  split.
  - replace (x * b - y * a) with (x * db - y * da) by (unfold da, db; field; lra). apply Rabs_le_inv in P1, P2. apply Rabs_le. lra.
  - replace (x * a + y * b) with ((x * x + y * y) / N + (x * da + y * db)) by (unfold da, db; field; lra). rewrite NN. replace (N * N / N) with N by (field; lra). apply Rabs_le_inv in P3, P4. lra.
Qed.
Example C154_nonvacuous : is_finite (vx (fv 3 4)) = true /\ norm (fpt (fv 3 4)) = 5 /\ (1 / 999998 <= 5 <= bpow radix2 500) /\ bpow radix2 (-400) <= Rabs (B2R (F_of_Z 7)) <= bpow radix2 400 /\ norm (fpt (fv 0 0)) <= 1 / 1000002.
Proof.
  rewrite !fpt_fv by (cbn; lia). split; [apply F_of_Z_exact; reflexivity|].
  assert (H : norm (3, 4) = 5) by (unfold norm, norm2, px, py; cbn [fst snd]; replace (3 * 3 + 4 * 4) with (5 * 5) by ring; apply sqrt_square; lra).
  split; [exact H|]. split; [split; [lra|]; apply Rle_trans with (bpow radix2 3); [change (bpow radix2 3) with 8; lra|apply bpow_le; lia]|].
  destruct (F_of_Z_exact 7 eq_refl) as [-> _]. rewrite Rabs_pos_eq by lra.
  split; [split; [apply Rle_trans with (bpow radix2 0); [apply bpow_le; lia|change (bpow radix2 0) with 1; lra]|apply Rle_trans with (bpow radix2 3); [change (bpow radix2 3) with 8; lra|apply bpow_le; lia]]|].
  replace (norm (0, 0)) with 0; [lra|]. unfold norm, norm2, px, py. cbn [fst snd]. replace (0 * 0 + 0 * 0) with 0 by ring. symmetry. apply sqrt_0.
Qed.
