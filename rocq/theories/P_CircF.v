(** * P_CircF: circle and line in doubles (C152), get_x and get_y in doubles (C153) *)
From Coq Require Import ZArith List Bool String Reals Lra Lia Psatz.
From Flocq Require Import Core BinarySingleNaN.
From Verif Require Import Base Types NumR NumF R_Tac Spec Spec2 Abs M_Angle M_Vector M_Line M_Circle
  L_Angle P_Vector P_Line P_Circle L_Float P_Float P_Robust P_Hull2 P_VecF P_LineF P_MatF P_SoccerF P_RectF P_AngleF3 P_QuadF.
Import ListNotations.
Local Open Scope R_scope.

Lemma sqrt_diff x y t : 0 <= x -> 0 < y -> Rabs (x - y) <= t -> Rabs (sqrt x - sqrt y) <= t / sqrt y.
Proof.
  intros X Y H. assert (SP : 0 < sqrt y) by (apply sqrt_lt_R0; exact Y). pose proof (sqrt_pos x) as SX.
  apply (Rmult_le_reg_r (sqrt y)); [exact SP|]. unfold Rdiv. rewrite Rmult_assoc, Rinv_l, Rmult_1_r by lra.
  apply Rle_trans with (Rabs (sqrt x - sqrt y) * (sqrt x + sqrt y)).
  - apply Rmult_le_compat_l; [apply Rabs_pos|lra].
  - rewrite <- (Rabs_pos_eq (sqrt x + sqrt y)) by lra. rewrite <- Rabs_mult. replace ((sqrt x - sqrt y) * (sqrt x + sqrt y)) with (sqrt x * sqrt x - sqrt y * sqrt y) by ring. rewrite !sqrt_sqrt by lra. exact H.
Qed.
Lemma prod_diff x y x' y' tx ty bx by' : Rabs (x - x') <= tx -> Rabs (y - y') <= ty -> Rabs x <= bx -> Rabs y' <= by' -> Rabs (x * y - x' * y') <= bx * ty + by' * tx.
Proof.
  intros X Y BX BY. replace (x * y - x' * y') with (x * (y - y') + y' * (x - x')) by ring. eapply Rle_trans; [apply Rabs_triang|]. rewrite !Rabs_mult.
  apply Rplus_le_compat; apply Rmult_le_compat; try apply Rabs_pos; assumption.
Qed.
Lemma pow_close L j t d x : pow_accurate L -> (-400 <= j <= 400)%Z -> Rabs d <= bpow radix2 j -> close j t d x ->
  exists q, @npowi F (NumF L) x 2 = Ok q /\ close (2 * j + 1) (bpow radix2 (j + 1) * t + 5 * bpow radix2 (2 * j - 54)) (d * d) q.
Proof.
  intros PA Hj HD (X1 & X2 & X3). cbn [npowi NumF]. unfold F_powi. change (is_finite (F_of_Z 2)) with true. rewrite X1.
  destruct (PA x X1) as (Q1 & Q2 & _); [eapply Rle_trans; [exact X2|]; apply bpow_le; lia|]. cbv zeta in Q1, Q2. set (q := lm_pow L x (F_of_Z 2)) in *.
  assert (N1 : is_nan q = false) by (destruct q; easy). assert (N2 : F_is_inf q = false) by (destruct q; easy). rewrite N1, N2. exists q. split; [reflexivity|].
  assert (J2 : bpow radix2 (2 * j) = bpow radix2 j * bpow radix2 j) by (rewrite <- bpow_plus; f_equal; lia).
  pose proof (bpow_gt_0 radix2 j) as PJ. set (b := bpow radix2 j) in *.
  assert (XX : 0 <= B2R x * B2R x <= b * b).
  { split; [apply Rle_0_sqr|]. rewrite <- (Rabs_pos_eq (B2R x * B2R x)) by apply Rle_0_sqr. rewrite Rabs_mult. apply Rmult_le_compat; try apply Rabs_pos; exact X2. }
  assert (E1 : bpow radix2 (-52) * (B2R x * B2R x) + bpow radix2 (-1074) <= 5 * bpow radix2 (2 * j - 54)).
  { replace (5 * bpow radix2 (2 * j - 54)) with (4 * bpow radix2 (2 * j - 54) + bpow radix2 (2 * j - 54)) by ring. apply Rplus_le_compat; [|apply bpow_le; lia].
    change 4 with (bpow radix2 2). rewrite <- bpow_plus. replace (2 + (2 * j - 54))%Z with ((-52) + 2 * j)%Z by lia. rewrite bpow_plus, J2. apply Rmult_le_compat_l; [apply bpow_ge_0|lra]. }
  assert (SQ : Rabs (B2R x * B2R x - d * d) <= bpow radix2 (j + 1) * t).
  { rewrite Z.add_comm, bp2. fold b. replace (2 * b * t) with (b * t + b * t) by ring. apply prod_diff; assumption. }
  assert (W : 5 * bpow radix2 (2 * j - 54) <= b * b).
  { rewrite <- J2. replace (2 * j)%Z with (54 + (2 * j - 54))%Z at 2 by lia. rewrite (bpow_plus radix2 54). pose proof (bpow_gt_0 radix2 (2 * j - 54)). apply Rmult_le_compat_r; [lra|]. change (bpow radix2 54) with 18014398509481984. lra. }
  split; [exact Q1|]. split.
  - rewrite Z.add_comm, bp2, J2. apply Rabs_le_inv in Q2. apply Rabs_le. lra.
  - apply Rabs_le_inv in Q2. apply Rabs_le_inv in SQ. apply Rabs_le. lra.
Qed.

(** solving A y^2 + B y + C = 0 when the coefficients carry rounding errors *)
Lemma quad_stage L k p (A B C : R) (a b c : F) : (0 <= p <= 20)%Z -> (-90 <= k <= 90)%Z -> 1 <= A -> Rabs B <= bpow radix2 (k + p + 3) -> Rabs C <= bpow radix2 (2 * k + 3) ->
  close (2 * p + 1) (5 * bpow radix2 (2 * p - 54)) A a -> close (k + p + 3) (30 * bpow radix2 (k + p - 54)) B b -> close (2 * k + 5) (90 * bpow radix2 (2 * k - 54)) C c ->
  let D := B * B - 4 * A * C in let m := bpow radix2 (2 * k + 2 * p - 42) in let res := @quadratic_f F (NumF L) a b c in
  (1 / 999999 + m <= D -> forall y1 y2, 2 * A * y1 = - B + sqrt D -> 2 * A * y2 = - B - sqrt D -> Rabs y1 <= bpow radix2 (k + 2) -> Rabs y2 <= bpow radix2 (k + 2) ->
     exists s1 s2, res = Ok (Some (s1, s2)) /\ is_finite s1 = true /\ is_finite s2 = true /\
       Rabs (B2R s1 - y1) <= 2 * m / sqrt D + bpow radix2 (k + 2 * p - 45) /\ Rabs (B2R s2 - y2) <= 2 * m / sqrt D + bpow radix2 (k + 2 * p - 45)) /\
  (D + m <= - (1 / 999999) -> res = Ok None) /\
  (Rabs D + m < 1 / 1000001 -> forall y, 2 * A * y = - B -> Rabs y <= bpow radix2 (k + 2) ->
     exists s, res = Ok (Some (s, s)) /\ is_finite s = true /\ Rabs (B2R s - y) <= bpow radix2 (k + 2 * p - 45)).
Proof.
  intros Hp Hk A1 BB CB (Fa & Ma & Ea) (Fb & Mb & Eb) (Fc & Mc & Ec) D m res.
  assert (Q := C151_quadratic_F L (2 * p + 1) (k + p + 3) a b c ltac:(lia) ltac:(lia) (conj Fa Ma) (conj Fb Mb)).
  replace (2 * (k + p + 3) - (2 * p + 1))%Z with (2 * k + 5)%Z in Q by lia. specialize (Q (conj Fc Mc)). cbv zeta in Q. fold res in Q.
  set (Dc := B2R b * B2R b - 4 * B2R a * B2R c) in *.
  set (W := bpow radix2 (2 * k + 2 * p - 54)). assert (WP : 0 < W) by apply bpow_gt_0.
  set (v := bpow radix2 (k + 2 * p - 54)). assert (VP : 0 < v) by apply bpow_gt_0.
  assert (EW : bpow radix2 (2 * (k + p + 3) - 49) = 2048 * W) by (replace (2 * (k + p + 3) - 49)%Z with (11 + (2 * k + 2 * p - 54))%Z by lia; rewrite bpow_plus; reflexivity).
  assert (EM : m = 4096 * W) by (unfold m; replace (2 * k + 2 * p - 42)%Z with (12 + (2 * k + 2 * p - 54))%Z by lia; rewrite bpow_plus; reflexivity).
  assert (EJ : bpow radix2 (k + p + 3 - 49) <= 256 * v). { replace (256 * v) with (bpow radix2 8 * bpow radix2 (k + 2 * p - 54)) by reflexivity. rewrite <- bpow_plus. apply bpow_le. lia. }
  assert (EV : bpow radix2 (k + 2 * p - 45) = 512 * v) by (replace (k + 2 * p - 45)%Z with (9 + (k + 2 * p - 54))%Z by lia; rewrite bpow_plus; reflexivity).
  assert (EKP : 30 * bpow radix2 (k + p - 54) <= 30 * v) by (apply Rmult_le_compat_l; [lra|]; unfold v; apply bpow_le; lia).
  rewrite EW in Q. rewrite EV, EM.
  assert (DB : Rabs (Dc - D) <= 1360 * W).
  { assert (X1 : Rabs (B2R b * B2R b - B * B) <= 480 * W).
    { eapply Rle_trans; [apply (prod_diff _ _ _ _ _ _ _ _ Eb Eb Mb BB)|]. right. replace (bpow radix2 (k + p + 3) * (30 * bpow radix2 (k + p - 54))) with (30 * (bpow radix2 3 * W)); [change (bpow radix2 3) with 8; ring|].
      unfold W. rewrite <- bpow_plus. rewrite (Rmult_comm (bpow radix2 (k + p + 3))), Rmult_assoc, <- bpow_plus. do 2 f_equal. lia. }
    assert (X2 : Rabs (B2R a * B2R c - A * C) <= 220 * W).
    { eapply Rle_trans; [apply (prod_diff _ _ _ _ _ _ _ _ Ea Ec Ma CB)|]. right.
      replace (bpow radix2 (2 * p + 1) * (90 * bpow radix2 (2 * k - 54))) with (90 * (bpow radix2 1 * W)) by (unfold W; rewrite <- bpow_plus, (Rmult_comm (bpow radix2 (2 * p + 1))), Rmult_assoc, <- bpow_plus; do 2 f_equal; lia).
      replace (bpow radix2 (2 * k + 3) * (5 * bpow radix2 (2 * p - 54))) with (5 * (bpow radix2 3 * W)) by (unfold W; rewrite <- bpow_plus, (Rmult_comm (bpow radix2 (2 * k + 3))), Rmult_assoc, <- bpow_plus; do 2 f_equal; lia).
      change (bpow radix2 3) with 8. change (bpow radix2 1) with 2. ring. }
    apply Rabs_le_inv in X1. apply Rabs_le_inv in X2. unfold Dc, D. apply Rabs_le. lra. }
  assert (AE : 5 * bpow radix2 (2 * p - 54) <= / 1024).
  { apply Rle_trans with (5 * bpow radix2 (-14)); [apply Rmult_le_compat_l; [lra|]; apply bpow_le; lia|]. change (bpow radix2 (-14)) with (/ 16384). lra. }
  pose proof Ea as Ea'. apply Rabs_le_inv in Ea'. assert (AP : 1 - / 1024 <= B2R a) by lra.
  destruct Q as [_ Q]. destruct Q as (Q1 & Q2 & Q3).
  { rewrite Rabs_pos_eq by lra. apply Rle_trans with (bpow radix2 (-1)); [apply bpow_le; lia|]. change (bpow radix2 (-1)) with (/ 2). lra. }
  (** from 2 a s to s *)
  assert (Conv' : forall (s : F) y N t, Rabs (2 * B2R a * B2R s - N) <= t -> Rabs y <= bpow radix2 (k + 2) -> Rabs (B2R s - y) <= t + Rabs (N - 2 * A * y) + 40 * v).
  { intros s y N t Hs Hy.
    assert (Y1 : Rabs (2 * (A - B2R a) * y) <= 40 * v).
    { rewrite !Rabs_mult, (Rabs_pos_eq 2) by lra. replace (40 * v) with (2 * (5 * bpow radix2 (2 * p - 54)) * bpow radix2 (k + 2)).
      - apply Rmult_le_compat; [|apply Rabs_pos| |exact Hy]; [apply Rmult_le_pos; [lra|apply Rabs_pos]|]. rewrite Rabs_minus_sym. lra.
      - unfold v. replace (k + 2 * p - 54)%Z with ((2 * p - 54) + k)%Z by lia. rewrite !bpow_plus. change (bpow radix2 2) with 4. ring. }
    assert (T : Rabs (2 * B2R a * (B2R s - y)) <= t + Rabs (N - 2 * A * y) + 40 * v).
    { replace (2 * B2R a * (B2R s - y)) with ((2 * B2R a * B2R s - N) + (N - 2 * A * y) + 2 * (A - B2R a) * y) by ring.
      eapply Rle_trans; [apply Rabs_triang|]. apply Rplus_le_compat; [|exact Y1]. eapply Rle_trans; [apply Rabs_triang|]. apply Rplus_le_compat; [exact Hs|apply Rle_refl]. }
    eapply Rle_trans; [|exact T]. rewrite Rabs_mult, (Rabs_pos_eq (2 * B2R a)) by lra. rewrite <- (Rmult_1_l (Rabs (B2R s - y))) at 1. apply Rmult_le_compat_r; [apply Rabs_pos|lra]. }
  pose proof DB as DB'. apply Rabs_le_inv in DB'. pose proof Eb as Eb'. apply Rabs_le_inv in Eb'.
  split; [|split].
  - intros HD y1 y2 R1 R2 Y1 Y2. destruct Q1 as (s1 & s2 & E & F1 & F2 & G1 & G2); [lra|]. exists s1, s2. split; [exact E|]. split; [exact F1|]. split; [exact F2|].
    assert (SP : 0 < sqrt D) by (apply sqrt_lt_R0; lra). assert (SC : 0 < sqrt Dc) by (apply sqrt_lt_R0; lra).
    assert (S2 : sqrt D <= 2 * sqrt Dc). { replace 2 with (sqrt 4) by (replace 4 with (2 * 2) by ring; apply sqrt_square; lra). rewrite <- sqrt_mult by lra. apply sqrt_le_1_alt. lra. }
    assert (IQ : 2048 * W / sqrt Dc <= 4096 * W / sqrt D).
    { apply (Rmult_le_reg_r (sqrt Dc * sqrt D)); [apply Rmult_lt_0_compat; assumption|]. replace (2048 * W / sqrt Dc * (sqrt Dc * sqrt D)) with (2048 * W * sqrt D) by (field; lra). replace (4096 * W / sqrt D * (sqrt Dc * sqrt D)) with (2048 * W * (2 * sqrt Dc)) by (field; lra). apply Rmult_le_compat_l; lra. }
    assert (SD := sqrt_diff Dc D (1360 * W) ltac:(lra) ltac:(lra) DB). pose proof SD as SD'. apply Rabs_le_inv in SD'.
    assert (WD : 0 <= W / sqrt D) by (apply Rlt_le, Rdiv_lt_0_compat; lra).
    replace (1360 * W / sqrt D) with (1360 * (W / sqrt D)) in SD' by (unfold Rdiv; ring).
    replace (4096 * W / sqrt D) with (4096 * (W / sqrt D)) in IQ by (unfold Rdiv; ring).
    replace (2 * (4096 * W) / sqrt D) with (8192 * (W / sqrt D)) by (unfold Rdiv; ring).
    assert (G1' := Conv' _ y1 _ _ G1 Y1). assert (G2' := Conv' _ y2 _ _ G2 Y2). rewrite R1 in G1'. rewrite R2 in G2'.
    assert (N1 : Rabs (- B2R b + sqrt Dc - (- B + sqrt D)) <= 30 * v + 1360 * (W / sqrt D)) by (apply Rabs_le; lra).
    assert (N2 : Rabs (- B2R b - sqrt Dc - (- B - sqrt D)) <= 30 * v + 1360 * (W / sqrt D)) by (apply Rabs_le; lra).
    split; lra.
  - intros HD. apply Q2. lra.
  - intros HD y R1 Y1. destruct Q3 as (s & E & F1 & G1).
    { replace Dc with (D + (Dc - D)) by ring. eapply Rle_lt_trans; [apply Rplus_le_compat_r, Rabs_triang|]. lra. }
    exists s. split; [exact E|]. split; [exact F1|]. replace (2 * B2R a * B2R s + B2R b) with (2 * B2R a * B2R s - (- B2R b)) in G1 by ring.
    assert (G1' := Conv' _ y _ _ G1 Y1). rewrite R1 in G1'. assert (N1 : Rabs (- B2R b - - B) <= 30 * v) by (apply Rabs_le; lra). lra.
Qed.

(** - (b y + c) / a *)
Lemma solve_F L t (a b c y : F) : (-200 <= t <= 200)%Z -> is_finite a = true -> is_finite b = true -> is_finite c = true -> is_finite y = true ->
  1 / 999999 <= Rabs (B2R a) <= bpow radix2 200 -> Rabs (B2R b * B2R y) <= bpow radix2 t * Rabs (B2R a) -> Rabs (B2R c) <= bpow radix2 t * Rabs (B2R a) ->
  exists x, @ndiv F (NumF L) (@nneg F (NumF L) (@nadd F (NumF L) (@nmul F (NumF L) b y) c)) a = Ok x /\ is_finite x = true /\
    Rabs (B2R x - (- (B2R b * B2R y + B2R c) / B2R a)) <= bpow radix2 (t - 49).
Proof.
  intros Ht Fa Fb Fc Fy [A1 A2] BY CC. cbn [nneg nadd nmul NumF].
  set (M := bpow radix2 t * Rabs (B2R a)) in *. pose proof (bpow_gt_0 radix2 t) as TP.
  assert (AN : B2R a <> 0) by (intros E; rewrite E, Rabs_R0 in A1; lra).
  assert (MP : 0 < M) by (apply Rmult_lt_0_compat; [exact TP|lra]).
  assert (MB : M <= bpow radix2 (t + 200)) by (unfold M; rewrite bpow_plus; apply Rmult_le_compat_l; lra).
  assert (UP : 0 < u) by apply bpow_gt_0.
  assert (TU : bpow radix2 (-1075) <= u * bpow radix2 t * / 1048576).
  { change (/ 1048576) with (bpow radix2 (-20)). rewrite <- !bpow_plus. apply bpow_le. lia. }
  assert (UT : 0 < u * bpow radix2 t) by (apply Rmult_lt_0_compat; lra).
  assert (UM : u * bpow radix2 t * / 1048576 <= u * M).
  { unfold M. rewrite <- Rmult_assoc. apply Rmult_le_compat_l; [|lra]. lra. }
  assert (UM0 : 0 < u * M) by (apply Rmult_lt_0_compat; lra).
  assert (U1 : u <= / 1048576) by (change (/ 1048576) with (bpow radix2 (-20)); apply bpow_le; lia).
  assert (UM1 : u * M <= M * / 1048576) by (rewrite Rmult_comm; apply Rmult_le_compat_l; lra).
  assert (B1 : Rabs (B2R b * B2R y) <= bpow radix2 (t + 200)) by lra.
  destruct (rnd_err _ (t + 200) ltac:(lia) B1) as [_ R1]. destruct (F_mul b y Fb Fy) as [V1 V2]; [apply (finite_lt (t + 200)); [lia|exact R1]|].
  pose proof (rnd_rel (B2R b * B2R y)) as E1. set (v1 := Bmult mode_NE b y) in *. rewrite <- V1 in E1, R1.
  assert (E1' : Rabs (B2R v1 - B2R b * B2R y) <= 2 * (u * M)). { eapply Rle_trans; [exact E1|]. assert (u * Rabs (B2R b * B2R y) <= u * M) by (apply Rmult_le_compat_l; lra). lra. }
  assert (S1 : Rabs (B2R v1 + B2R c) <= 3 * M). { apply Rabs_le_inv in E1'. apply Rabs_le_inv in BY. apply Rabs_le_inv in CC. apply Rabs_le. lra. }
  assert (S2 : Rabs (B2R v1 + B2R c) <= bpow radix2 (t + 202)). { replace (t + 202)%Z with (2 + (t + 200))%Z by lia. rewrite bpow_plus. change (bpow radix2 2) with 4. lra. }
  destruct (rnd_err _ (t + 202) ltac:(lia) S2) as [_ R2]. destruct (F_add v1 c V2 Fc) as [W1 W2]; [apply (finite_lt (t + 202)); [lia|exact R2]|].
  pose proof (rnd_rel (B2R v1 + B2R c)) as E2. set (v2 := Bplus mode_NE v1 c) in *. rewrite <- W1 in E2.
  assert (E2' : Rabs (B2R v2 - (B2R b * B2R y + B2R c)) <= 6 * (u * M)).
  { assert (u * Rabs (B2R v1 + B2R c) <= 3 * (u * M)) by (replace (3 * (u * M)) with (u * (3 * M)) by ring; apply Rmult_le_compat_l; lra).
    apply Rabs_le_inv in E1'. apply Rabs_le_inv in E2. apply Rabs_le. lra. }
  assert (S3 : Rabs (B2R v2) <= 3 * M). { apply Rabs_le_inv in E2'. apply Rabs_le_inv in BY. apply Rabs_le_inv in CC. apply Rabs_le. lra. }
  assert (QB : Rabs (- B2R v2 / B2R a) <= 3 * bpow radix2 t).
  { unfold Rdiv. rewrite Rabs_mult, Rabs_Ropp, Rabs_inv. apply (Rmult_le_reg_r (Rabs (B2R a))); [apply Rabs_pos_lt; exact AN|]. rewrite Rmult_assoc, Rinv_l, Rmult_1_r by (apply Rabs_no_R0; exact AN). unfold M in S3. lra. }
  assert (QB2 : Rabs (- B2R v2 / B2R a) <= bpow radix2 (t + 2)) by (rewrite Z.add_comm, bpow_plus; change (bpow radix2 2) with 4; lra).
  destruct (rnd_err _ (t + 2) ltac:(lia) QB2) as [_ R3].
  destruct (F_quot (Bopp v2) a) as [Q1 Q2]; [rewrite is_finite_Bopp; exact W2|exact AN|rewrite B2R_Bopp; apply (finite_lt (t + 2)); [lia|exact R3]|].
  rewrite fdiv_F by assumption. eexists. split; [reflexivity|]. split; [exact Q2|]. rewrite Q1, B2R_Bopp.
  pose proof (rnd_rel (- B2R v2 / B2R a)) as E3.
  assert (E3' : Rabs (rnd64 (- B2R v2 / B2R a) - (- B2R v2 / B2R a)) <= 4 * (u * bpow radix2 t)).
  { eapply Rle_trans; [exact E3|]. assert (u * Rabs (- B2R v2 / B2R a) <= u * (3 * bpow radix2 t)) by (apply Rmult_le_compat_l; lra). lra. }
  assert (E4 : Rabs (- B2R v2 / B2R a - - (B2R b * B2R y + B2R c) / B2R a) <= 6 * (u * bpow radix2 t)).
  { replace (- B2R v2 / B2R a - - (B2R b * B2R y + B2R c) / B2R a) with (- (B2R v2 - (B2R b * B2R y + B2R c)) / B2R a) by (field; exact AN).
    unfold Rdiv. rewrite Rabs_mult, Rabs_Ropp, Rabs_inv. apply (Rmult_le_reg_r (Rabs (B2R a))); [apply Rabs_pos_lt; exact AN|]. rewrite Rmult_assoc, Rinv_l, Rmult_1_r by (apply Rabs_no_R0; exact AN). unfold M in E2'. lra. }
  replace (t - 49)%Z with (4 + (-53 + t))%Z by lia. rewrite (bpow_plus radix2 4), (bpow_plus radix2 (-53)). change (bpow radix2 4) with 16.
  apply Rabs_le_inv in E3'. apply Rabs_le_inv in E4. apply Rabs_le. lra.
Qed.
Definition fline (l : line F) : point -> Prop := on_line (B2R (l_a l)) (B2R (l_b l)) (B2R (l_c l)).
Definition finite_line (l : line F) : Prop := is_finite (l_a l) = true /\ is_finite (l_b l) = true /\ is_finite (l_c l) = true.

Lemma eps_test L (a : F) : is_finite a = true ->
  (1 / 999999 <= Rabs (B2R a) -> @nltb F (NumF L) (@nabs F (NumF L) a) (@EPSILON F (NumF L)) = false) /\
  (Rabs (B2R a) < 1 / 1000001 -> @nltb F (NumF L) (@nabs F (NumF L) a) (@EPSILON F (NumF L)) = true).
Proof.
  intros H. destruct (eps_F L) as [P1 P2]. cbn [nltb nabs NumF]. rewrite ltb_F by (rewrite ?is_finite_Babs; assumption). rewrite B2R_Babs.
  split; intros G; [apply Rlt_bool_false|apply Rlt_bool_true]; lra.
Qed.

(** C153: get_x and get_y return the coordinate of the point of the line *)
Theorem C153_get_x_F : forall (L : libm) (t : Z) (l : line F) (y : F), (-200 <= t <= 200)%Z -> finite_line l -> is_finite y = true ->
  (1 / 999999 <= Rabs (B2R (l_a l)) <= bpow radix2 200 -> Rabs (B2R (l_b l) * B2R y) <= bpow radix2 t * Rabs (B2R (l_a l)) -> Rabs (B2R (l_c l)) <= bpow radix2 t * Rabs (B2R (l_a l)) ->
   exists x, @Line2D_get_x F (NumF L) l y = Ok x /\ is_finite x = true /\ forall q, fline l q -> py q = B2R y -> Rabs (B2R x - px q) <= bpow radix2 (t - 49)) /\
  (Rabs (B2R (l_a l)) < 1 / 1000001 -> @Line2D_get_x F (NumF L) l y = Ok (@ERROR_VALUE F (NumF L))).
Proof.
  intros L t l y Ht (Fa & Fb & Fc) Fy. unfold Line2D_get_x. destruct (eps_test L (l_a l) Fa) as [T1 T2]. split.
  - intros A B C. rewrite T1 by lra. destruct (solve_F L t _ _ _ _ Ht Fa Fb Fc Fy A B C) as (x & -> & X1 & X2). exists x. split; [reflexivity|]. split; [exact X1|].
    intros q Q1 Q2. unfold fline, on_line in Q1. replace (px q) with (- (B2R (l_b l) * B2R y + B2R (l_c l)) / B2R (l_a l)); [exact X2|].
    assert (AN : B2R (l_a l) <> 0) by (intros E; rewrite E, Rabs_R0 in A; lra). rewrite <- Q2. apply (Rmult_eq_reg_r (B2R (l_a l))); [|exact AN]. unfold Rdiv. rewrite Rmult_assoc, Rinv_l, Rmult_1_r by exact AN. lra.
  - intros A. rewrite T2 by exact A. reflexivity.
Qed.
Theorem C153_get_y_F : forall (L : libm) (t : Z) (l : line F) (x : F), (-200 <= t <= 200)%Z -> finite_line l -> is_finite x = true ->
  (1 / 999999 <= Rabs (B2R (l_b l)) <= bpow radix2 200 -> Rabs (B2R (l_a l) * B2R x) <= bpow radix2 t * Rabs (B2R (l_b l)) -> Rabs (B2R (l_c l)) <= bpow radix2 t * Rabs (B2R (l_b l)) ->
   exists y, @Line2D_get_y F (NumF L) l x = Ok y /\ is_finite y = true /\ forall q, fline l q -> px q = B2R x -> Rabs (B2R y - py q) <= bpow radix2 (t - 49)) /\
  (Rabs (B2R (l_b l)) < 1 / 1000001 -> @Line2D_get_y F (NumF L) l x = Ok (@ERROR_VALUE F (NumF L))).
Proof.
  intros L t l x Ht (Fa & Fb & Fc) Fx. unfold Line2D_get_y. destruct (eps_test L (l_b l) Fb) as [T1 T2]. split.
  - intros A B C. rewrite T1 by lra. destruct (solve_F L t _ _ _ _ Ht Fb Fa Fc Fx A B C) as (y & -> & X1 & X2). exists y. split; [reflexivity|]. split; [exact X1|].
    intros q Q1 Q2. unfold fline, on_line in Q1. replace (py q) with (- (B2R (l_a l) * B2R x + B2R (l_c l)) / B2R (l_b l)); [exact X2|].
    assert (AN : B2R (l_b l) <> 0) by (intros E; rewrite E, Rabs_R0 in A; lra). rewrite <- Q2. apply (Rmult_eq_reg_r (B2R (l_b l))); [|exact AN]. unfold Rdiv. rewrite Rmult_assoc, Rinv_l, Rmult_1_r by exact AN. lra.
  - intros A. rewrite T2 by exact A. reflexivity.
Qed.
Example C153_nonvacuous : forall L, let l := mkLine (F_of_Z 2) (F_of_Z (-1)) (F_of_Z 3) in let y := F_of_Z 7 in
  finite_line l /\ 1 / 999999 <= Rabs (B2R (l_a l)) <= bpow radix2 200 /\ Rabs (B2R (l_b l) * B2R y) <= bpow radix2 2 * Rabs (B2R (l_a l)) /\ Rabs (B2R (l_c l)) <= bpow radix2 2 * Rabs (B2R (l_a l)) /\
  fline l (2, 7) /\ match @Line2D_get_x F (NumF L) l y with Ok x => Beqb x (F_of_Z 2) | _ => false end = true.
Proof.
  intros L l y. destruct (F_of_Z_exact 2 eq_refl) as [A1 A2]. destruct (F_of_Z_exact (-1) eq_refl) as [B1 B2]. destruct (F_of_Z_exact 3 eq_refl) as [C1 C2]. destruct (F_of_Z_exact 7 eq_refl) as [D1 D2].
  unfold l, y, finite_line, fline, on_line, px, py. cbn [l_a l_b l_c fst snd]. rewrite A1, B1, C1, D1. change (bpow radix2 2) with 4. rewrite (Rabs_pos_eq 2), (Rabs_pos_eq 3) by lra. replace (Rabs (-1 * 7)) with 7 by (rewrite Rabs_left; lra).
  split; [tauto|]. split; [split; [lra|]; change 2 with (bpow radix2 1) at 1; apply bpow_le; lia|]. split; [lra|]. split; [lra|]. split; [lra|]. vm_compute. reflexivity.
Qed.
