(** * P_SectorF: point in sector in doubles (C157) *)
From Coq Require Import ZArith List Bool String Reals Lra Lia Psatz.
From Flocq Require Import Core BinarySingleNaN.
From Verif Require Import Base Types NumR NumF R_Tac Spec Abs M_Angle M_Vector M_Sector L_Angle P_Angle L_Float P_AngleF P_AngleF2 P_Float P_Robust P_Hull2 P_VecF P_TrigF P_LineF P_LenF P_BisF.
Import ListNotations.
Local Open Scope R_scope.

(** The tests of C133 read as turns: the window of 2^-46 below half a circle
    is the only difference from the ideal rule. *)
Lemma rule_turn (x y t : R) : -180 <= x <= 180 -> -180 <= y <= 180 -> turn x y t -> y - x < 360 -> (left_equal_rule (y - x) <-> t < 180 - bpow radix2 (-46)).
Proof.
  intros X Y [T1 [k T2]] D. assert (P : 0 < bpow radix2 (-46)) by apply bpow_gt_0. assert (P1 : bpow radix2 (-46) <= 1) by (apply (bpow_le radix2 (-46) 0); lia). unfold left_equal_rule.
  destruct (Rle_lt_dec 0 (y - x)) as [S|S].
  - assert (k = 0)%Z as ->. { assert (-1 < IZR k < 1) by lra. assert (-1 < k < 1)%Z by (split; apply lt_IZR; lra). lia. } split; intros K; lra.
  - destruct (Req_dec (y - x) (-360)) as [Q|Q].
    + assert (k = 1)%Z as ->. { assert (0 < IZR k < 2) by lra. assert (0 < k < 2)%Z by (split; apply lt_IZR; lra). lia. } split; intros K; lra.
    + assert (k = 1)%Z as ->. { assert (0 < IZR k < 2) by lra. assert (0 < k < 2)%Z by (split; apply lt_IZR; lra). lia. } split; intros K; lra.
Qed.
Lemma within_turn L (x l r : angle F) tx tr : good_degree (a_degree x) -> good_degree (a_degree l) -> good_degree (a_degree r) ->
  turn (B2R (a_degree l)) (B2R (a_degree x)) tx -> turn (B2R (a_degree l)) (B2R (a_degree r)) tr ->
  exists w, @AngleDeg_is_within F (NumF L) x (AA l) (AA r) = Ok w /\
    (0 < tx < tr -> tr <= 360 - bpow radix2 (-44) -> w = true) /\
    (tr < tx -> tr = 0 -> B2R (a_degree r) - B2R (a_degree l) <> 360 -> w = false) /\ (0 < tr < tx -> w = false).
Proof.
  intros X LL RR TX TR. destruct (C133_is_within_F L x l r X LL RR) as (w & E & W). exists w. split; [exact E|]. cbn zeta in W.
  set (dx := B2R (a_degree x)) in *. set (dl := B2R (a_degree l)) in *. set (dr := B2R (a_degree r)) in *. set (h := bpow radix2 (-46)) in *.
  assert (HP : 0 < h) by apply bpow_gt_0. assert (H4 : bpow radix2 (-44) = 4 * h) by (unfold h; change (-44)%Z with (1 + (1 + -46))%Z; rewrite !bp2; ring). rewrite H4. assert (P1 : h <= 1) by (apply (bpow_le radix2 (-46) 0); lia).
  destruct X as [_ X], LL as [_ LL], RR as [_ RR]. fold dx in X. fold dl in LL. fold dr in RR.
  assert (TXR : tx <= tr -> turn dx dr (tr - tx)). { intros K. destruct TX as [B1 [k1 E1]], TR as [B2 [k2 E2]]. split; [lra|]. exists (k2 - k1)%Z. rewrite minus_IZR. lra. }
  assert (TXR' : tr < tx -> turn dx dr (tr - tx + 360)). { intros K. destruct TX as [B1 [k1 E1]], TR as [B2 [k2 E2]]. split; [lra|]. exists (k2 - k1 + 1)%Z. rewrite plus_IZR, minus_IZR. lra. }
  assert (LX : 0 < tx -> (left_equal_rule (dx - dl) <-> tx < 180 - h)).
  { intros K. apply rule_turn; try assumption. destruct TX as [B1 [k1 E1]]. assert (dx - dl <> 360); [|destruct (Rtotal_order (dx - dl) 360) as [|[|]]; [assumption|contradiction|lra]]. intros Q. assert (E2 : tx = 360 * IZR (k1 + 1)) by (rewrite plus_IZR; lra).
    assert (0 < IZR (k1 + 1) < 1) by lra. assert (0 < k1 + 1 < 1)%Z by (split; apply lt_IZR; lra). lia. }
  assert (LR : 0 < tr -> (left_equal_rule (dr - dl) <-> tr < 180 - h)).
  { intros K. apply rule_turn; try assumption. destruct TR as [B1 [k1 E1]]. assert (dr - dl <> 360); [|destruct (Rtotal_order (dr - dl) 360) as [|[|]]; [assumption|contradiction|lra]]. intros Q. assert (E2 : tr = 360 * IZR (k1 + 1)) by (rewrite plus_IZR; lra).
    assert (0 < IZR (k1 + 1) < 1) by lra. assert (0 < k1 + 1 < 1)%Z by (split; apply lt_IZR; lra). lia. }
  assert (XR : forall t, 0 < t -> turn dx dr t -> (left_equal_rule (dr - dx) <-> t < 180 - h)).
  { intros t K T. apply rule_turn; try assumption. destruct T as [B1 [k1 E1]]. assert (dr - dx <> 360); [|destruct (Rtotal_order (dr - dx) 360) as [|[|]]; [assumption|contradiction|lra]]. intros Q. assert (E2 : t = 360 * IZR (k1 + 1)) by (rewrite plus_IZR; lra).
    assert (0 < IZR (k1 + 1) < 1) by lra. assert (0 < k1 + 1 < 1)%Z by (split; apply lt_IZR; lra). lia. }
  split; [|split].
  - intros [K1 K2] K3. specialize (LX K1). specialize (LR ltac:(lra)). specialize (XR (tr - tx) ltac:(lra) (TXR ltac:(lra))). apply W. rewrite LX, LR, XR. lra.
  - intros K1 K2 K3. specialize (LX ltac:(lra)). destruct w; [|reflexivity]. exfalso. destruct TX as [B1 TX], TR as [B2 TR].
    specialize (XR (tr - tx + 360) ltac:(lra) (TXR' K1)). rewrite LX, XR in W.
    assert (LR0 : left_equal_rule (dr - dl)) by (apply (rule_turn dl dr tr LL RR (conj B2 TR)); [destruct (Rtotal_order (dr - dl) 360) as [|[|]]; [assumption|contradiction|lra]|fold h; lra]). destruct (proj1 W eq_refl) as [K|K]; [|tauto]. lra.
  - intros [K1 K2]. specialize (LX ltac:(lra)). specialize (LR ltac:(lra)). destruct w; [|reflexivity]. exfalso.
    destruct TX as [B1 TX], TR as [B2 TR]. specialize (XR (tr - tx + 360) ltac:(lra) (TXR' ltac:(lra))). rewrite LX, XR, LR in W. pose proof (proj1 W eq_refl). lra.
Qed.

(** A small cross product between vectors of positive dot product bounds the
    difference of their directions. *)
Lemma sin_half z : 0 <= z <= PI / 2 -> sin z <= 1 / 2 -> z / 2 <= sin z.
Proof.
  intros [Z0 Z1] S. pose proof PI_RGT_0 as PP. destruct Z0 as [Z0|<-]; [|rewrite sin_0; lra].
  assert (ZL : z <= PI / 3). { destruct (Rle_lt_dec z (PI / 3)) as [|K]; [assumption|exfalso]. assert (sin (PI / 6) < sin z) by (apply sin_increasing_1; lra). rewrite sin_PI6 in *. lra. }
  destruct (MVT_cor2 sin cos 0 z Z0 (fun c _ => derivable_pt_lim_sin c)) as (c & E & C). rewrite sin_0 in E.
  assert (cos (PI / 3) <= cos c) by (apply cos_decr_1; lra). rewrite cos_PI3 in *. replace (sin z) with (cos c * z) by lra. nra.
Qed.
Lemma reduce180 w : exists k : Z, -180 <= w - 360 * IZR k <= 180.
Proof. exists (up (w / 360 - 1 / 2)). destruct (archimed (w / 360 - 1 / 2)) as [A1 A2]. set (n := IZR (up (w / 360 - 1 / 2))) in *. lra. Qed.
Lemma dir_close (X Y x y a b s : R) : X = norm (X, Y) * cos (rad a) -> Y = norm (X, Y) * sin (rad a) -> x = norm (x, y) * cos (rad b) -> y = norm (x, y) * sin (rad b) ->
  0 < X * x + Y * y -> Rabs (X * y - Y * x) <= s * (norm (X, Y) * norm (x, y)) -> s <= 1 / 2 -> 0 < norm (X, Y) * norm (x, y) ->
  exists k : Z, Rabs (b - a - 360 * IZR k) <= 120 * s.
Proof.
  intros E1 E2 E3 E4 DP CR S NP. destruct (reduce180 (b - a)) as [k K]. exists k. set (w := b - a - 360 * IZR k) in *. pose proof pi_bounds as PB.
  assert (W : rad b - rad a = rad (b - a)) by (unfold rad; ring). destruct (cos_cong (b - a) w ltac:(exists k; unfold w; ring)) as [W1 W2]. set (N := norm (X, Y)) in *. set (n := norm (x, y)) in *.
  assert (EC : X * x + Y * y = N * n * cos (rad w)). { rewrite E1, E2, E3, E4. transitivity (N * n * cos (rad b - rad a)); [rewrite cos_minus; ring|]. f_equal. now rewrite W. }
  assert (ES : X * y - Y * x = N * n * sin (rad w)). { rewrite E1, E2, E3, E4. transitivity (N * n * sin (rad b - rad a)); [rewrite sin_minus; ring|]. f_equal. now rewrite W. }
  rewrite EC in DP. rewrite ES, Rabs_mult, (Rabs_pos_eq (N * n)) in CR by lra.
  assert (CP : 0 < cos (rad w)). { apply Rmult_lt_reg_l with (N * n); lra. }
  assert (SB : Rabs (sin (rad w)) <= s). { apply Rmult_le_reg_l with (N * n); [exact NP|]. lra. }
  assert (RW : - PI <= rad w <= PI). { unfold rad. split; apply Rmult_le_reg_r with (/ PI); try (apply Rinv_0_lt_compat; lra); [replace (- PI * / PI) with (-1) by (field; lra)|replace (PI * / PI) with 1 by (field; lra)]; replace (w * (PI / 180) * / PI) with (w / 180) by (field; lra); lra. }
  assert (RW2 : - (PI / 2) < rad w < PI / 2).
  { split; apply Rnot_le_lt; intros Q.
    - assert (cos (rad w) <= 0); [|lra]. rewrite <- cos_neg. apply cos_le_0; lra.
    - assert (cos (rad w) <= 0); [|lra]. apply cos_le_0; lra. }
  assert (RB : Rabs (rad w) <= 2 * s).
  { destruct (Rle_lt_dec 0 (rad w)) as [P|P].
    - rewrite Rabs_pos_eq by exact P. assert (0 <= sin (rad w)) by (apply sin_ge_0; lra). rewrite Rabs_pos_eq in SB by assumption. pose proof (sin_half (rad w) ltac:(lra) ltac:(lra)). lra.
    - rewrite Rabs_left by exact P. assert (0 <= sin (- rad w)) by (apply sin_ge_0; lra). rewrite <- Rabs_Ropp, <- sin_neg, Rabs_pos_eq in SB by assumption. pose proof (sin_half (- rad w) ltac:(lra) ltac:(lra)). lra. }
  unfold rad in RB. rewrite Rabs_mult, (Rabs_pos_eq (PI / 180)) in RB by lra. pose proof (Rabs_pos w). nra.
Qed.

Section Rel.
  Context (L : libm) (c p : vec F).
  Hypothesis C1 : is_finite (vx c) = true. Hypothesis C2 : is_finite (vy c) = true.
  Hypothesis P1 : is_finite (vx p) = true. Hypothesis P2 : is_finite (vy p) = true.
  Notation X := (B2R (vx p) - B2R (vx c)). Notation Y := (B2R (vy p) - B2R (vy c)).
  Notation D := (norm (X, Y)).
  Hypothesis D1 : bpow radix2 (-18) <= D. Hypothesis D2 : D <= bpow radix2 499.
  Notation rel := (@Vector2D_sub F (NumF L) p c).
  Lemma rel_fin : is_finite (vx rel) = true /\ is_finite (vy rel) = true /\
    Rabs (B2R (vx rel) - X) <= u * Rabs X + bpow radix2 (-1075) /\ Rabs (B2R (vy rel) - Y) <= u * Rabs Y + bpow radix2 (-1075).
  Proof.
    destruct (abs_le_norm X Y) as [A1 A2].
    assert (B1 : Rabs X <= bpow radix2 499) by lra. assert (B2 : Rabs Y <= bpow radix2 499) by lra.
    change (vx rel) with (Bminus mode_NE (vx p) (vx c)). change (vy rel) with (Bminus mode_NE (vy p) (vy c)).
    destruct (F_sub (vx p) (vx c) P1 C1) as [E1 E2]; [apply (finite_lt 499); [lia|]; apply rnd_err; [lia|exact B1]|].
    destruct (F_sub (vy p) (vy c) P2 C2) as [E3 E4]; [apply (finite_lt 499); [lia|]; apply rnd_err; [lia|exact B2]|].
    rewrite E1, E3. split; [exact E2|]. split; [exact E4|]. split; apply rnd_rel.
  Qed.
  Lemma tiny : 64 * bpow radix2 (-1075) <= u * D /\ 0 < bpow radix2 (-1075) /\ 0 < D.
  Proof.
    assert (0 < bpow radix2 (-18)) by apply bpow_gt_0. split; [|split; [apply bpow_gt_0|lra]]. pose proof u_pos.
    apply Rle_trans with (u * bpow radix2 (-18)); [|apply Rmult_le_compat_l; lra]. change 64 with (bpow radix2 6). rewrite <- !bpow_plus. apply bpow_le. lia.
  Qed.
  Lemma rel_norm : Rabs (norm (fpt rel) - D) <= 2 * u * D.
  Proof.
    destruct rel_fin as (_ & _ & E1 & E2). destruct tiny as (T1 & T2 & T3). pose proof u_pos.
    pose proof (norm_rel _ _ _ _ u (bpow radix2 (-1075)) ltac:(lra) ltac:(lra) E1 E2) as K. change (norm (fpt rel)) with (norm (B2R (vx rel), B2R (vy rel))). lra.
  Qed.
  Lemma rel_r2 : is_finite (@Vector2D_r2 F (NumF L) rel) = true /\ Rabs (B2R (@Vector2D_r2 F (NumF L) rel) - D * D) <= 8 * u * (D * D).
  Proof.
    destruct rel_fin as (F1 & F2 & _). pose proof rel_norm as RN. destruct tiny as (T1 & T2 & T3). pose proof u_pos as UP. apply Rabs_le_inv in RN.
    assert (U1 : u <= 1 / 1000) by (change u with (/ 9007199254740992); lra). assert (B : 0 <= u * D <= 1 / 1000 * D) by (split; [apply Rmult_le_pos; lra|apply Rmult_le_compat_r; lra]).
    destruct (C135_length_F L rel F1 F2) as (G1 & G2 & _).
    { change (pt (rvec rel)) with (fpt rel). split.
      - apply Rle_trans with (bpow radix2 (-18) / 2); [|lra]. replace (bpow radix2 (-18) / 2) with (bpow radix2 (-19)) by (change (-18)%Z with (1 + -19)%Z; rewrite bp2; lra). apply bpow_le. lia.
      - apply Rle_trans with (2 * bpow radix2 499); [lra|]. rewrite <- bp2. apply bpow_le. lia. }
    split; [exact G1|]. change (pt (rvec rel)) with (fpt rel) in G2. set (N := norm (fpt rel)) in *. set (q := B2R (@Vector2D_r2 F (NumF L) rel)) in *.
    assert (NN : Rabs (N * N - D * D) <= 4 * u * (D * D) + 4 * u * u * (D * D)).
    { replace (N * N - D * D) with ((N - D) * (2 * D + (N - D))) by ring. rewrite Rabs_mult.
      apply Rle_trans with ((2 * u * D) * (2 * D + 2 * u * D)); [|lra]. apply Rmult_le_compat; try apply Rabs_pos; apply Rabs_le; lra. }
    assert (DD : 0 < D * D) by now apply Rmult_lt_0_compat. assert (UD : 0 <= u * (D * D)) by (apply Rmult_le_pos; lra). assert (UUD : u * u * (D * D) <= 1 / 1000 * (u * (D * D))) by (rewrite (Rmult_assoc u u); apply Rmult_le_compat_r; lra).
    apply Rabs_le_inv in NN, G2. change (bpow radix2 (-53)) with u in G2.
    assert (N2 : 3 * u * (N * N) <= 3 * u * (D * D + (4 * u * (D * D) + 4 * u * u * (D * D)))) by (apply Rmult_le_compat_l; lra).
    assert (UU2 : u * (4 * u * (D * D) + 4 * u * u * (D * D)) <= 1 / 1000 * (4 * u * (D * D) + 4 * u * u * (D * D))).
    { apply Rmult_le_compat_r; [|exact U1]. assert (0 <= u * u * (D * D)) by (rewrite Rmult_assoc; apply Rmult_le_pos; lra). lra. }
    apply Rabs_le. lra.
  Qed.
  (** the direction of the rounded difference *)
  Lemma rel_dir t : atan2_accurate L -> X = D * cos (rad t) -> Y = D * sin (rad t) ->
    exists a, @Vector2D_th F (NumF L) rel = Ok a /\ good_degree (a_degree a) /\ exists y, cong360 (B2R (a_degree a)) y /\ Rabs (y - t) <= bpow radix2 (-43).
  Proof.
    intros AT E1 E2. destruct rel_fin as (F1 & F2 & R1 & R2). pose proof rel_norm as RN. destruct tiny as (T1 & T2 & T3). pose proof u_pos as UP. apply Rabs_le_inv in RN.
    assert (U1 : u <= 1 / 1000) by (change u with (/ 9007199254740992); lra). assert (B : 0 <= u * D <= 1 / 1000 * D) by (split; [apply Rmult_le_pos; lra|apply Rmult_le_compat_r; lra]).
    destruct (C143_th_F L rel AT F1 F2) as (a & b & A1 & A2 & A3 & y & Y1 & Y2).
    { destruct (Rle_lt_dec (1 / 999999) (Rabs (B2R (vx rel)))) as [|K1]; [now left|]. destruct (Rle_lt_dec (1 / 999999) (Rabs (B2R (vy rel)))) as [|K2]; [now right|]. exfalso.
      pose proof (P_LineF.norm_le (B2R (vx rel)) (B2R (vy rel)) (1 / 999999) ltac:(lra) ltac:(lra)) as NL. change (norm (B2R (vx rel), B2R (vy rel))) with (norm (fpt rel)) in NL.
      change (bpow radix2 (-18)) with (/ 262144) in D1. lra. }
    exists a. split; [exact A1|]. split; [exact A2|].
    assert (A4 : B2R (vx rel) = norm (fpt rel) * cos (rad b) /\ B2R (vy rel) = norm (fpt rel) * sin (rad b)). { unfold fpt in A3 |- *. set (nn := norm _) in *. injection A3 as I1 I2. now split. } destruct A4 as [A4 A5].
    set (N := norm (fpt rel)) in *. set (x := B2R (vx rel)) in *. set (z := B2R (vy rel)) in *. assert (EN : norm (x, z) = N) by reflexivity.
    destruct (abs_le_norm X Y) as [AX AY].
    assert (DX : Rabs X * Rabs X + Rabs Y * Rabs Y = D * D). { rewrite <- !Rabs_mult, !Rabs_pos_eq by apply Rle_0_sqr. unfold norm. rewrite sqrt_sqrt; [reflexivity|]. unfold norm2, px, py; cbn [fst snd]. apply Rplus_le_le_0_compat; apply Rle_0_sqr. }
    set (e := bpow radix2 (-1075)) in *. assert (XY : 2 * (Rabs X * Rabs Y) <= D * D) by (pose proof (Rle_0_sqr (Rabs X - Rabs Y)); unfold Rsqr in *; lra).
    assert (NN : 0 < D * N) by (apply Rmult_lt_0_compat; lra). assert (DN : D * D <= 101 / 100 * (D * N)). { replace (101 / 100 * (D * N)) with (D * (101 / 100 * N)) by ring. apply Rmult_le_compat_l; lra. }
    assert (PX : 0 <= Rabs X) by apply Rabs_pos. assert (PY : 0 <= Rabs Y) by apply Rabs_pos.
    assert (TE : e * Rabs X + e * Rabs Y <= u * D * D / 32). { apply Rle_trans with (e * D + e * D); [apply Rplus_le_compat; apply Rmult_le_compat_l; lra|]. assert (64 * e * D <= u * D * D) by (apply Rmult_le_compat_r; lra). lra. }
    destruct (dir_close X Y x z t b (5 / 4 * u)) as [k K]; try assumption.
    - assert (Q1 : X * x + Y * z = D * D + (X * (x - X) + Y * (z - Y))) by (rewrite <- DX, <- !Rabs_mult, !Rabs_pos_eq by apply Rle_0_sqr; ring).
      assert (Q2 : Rabs (X * (x - X)) <= Rabs X * (u * Rabs X + e)) by (rewrite Rabs_mult; apply Rmult_le_compat_l; assumption).
      assert (Q3 : Rabs (Y * (z - Y)) <= Rabs Y * (u * Rabs Y + e)) by (rewrite Rabs_mult; apply Rmult_le_compat_l; assumption).
      assert (UD : u * (D * D) <= 1 / 1000 * (D * D)) by (apply Rmult_le_compat_r; [apply Rle_0_sqr|exact U1]). assert (0 < D * D) by now apply Rmult_lt_0_compat.
      assert (Q4 : u * (Rabs X * Rabs X) + u * (Rabs Y * Rabs Y) = u * (D * D)) by (rewrite <- DX; ring). apply Rabs_le_inv in Q2, Q3. lra.
    - rewrite EN. replace (X * z - Y * x) with (X * (z - Y) - Y * (x - X)) by ring. eapply Rle_trans; [apply Rabs_triang|]. rewrite Rabs_Ropp, !Rabs_mult.
      assert (Q2 : Rabs Y * Rabs (x - X) <= Rabs Y * (u * Rabs X + e)) by (apply Rmult_le_compat_l; assumption).
      assert (Q3 : Rabs X * Rabs (z - Y) <= Rabs X * (u * Rabs Y + e)) by (apply Rmult_le_compat_l; assumption).
      assert (Q4 : u * (2 * (Rabs X * Rabs Y)) <= u * (D * D)) by (apply Rmult_le_compat_l; lra). assert (Q5 : u * (D * D) <= u * (101 / 100 * (D * N))) by (apply Rmult_le_compat_l; lra). assert (0 <= u * (D * N)) by (apply Rmult_le_pos; lra). lra.
    - lra.
    - exists (y - 360 * IZR k). split. { destruct Y1 as [m Y1]. exists (m + k)%Z. rewrite plus_IZR. lra. }
      assert (K2 : 120 * (5 / 4 * u) <= bpow radix2 (-44)). { change (-44)%Z with (9 + -53)%Z. rewrite bpow_plus. change (bpow radix2 9) with 512. lra. }
      change (-43)%Z with (1 + -44)%Z. rewrite bp2. apply Rabs_le_inv in K, Y2. apply Rabs_le. lra.
  Qed.
End Rel.

(** the ring test: squares of the radii against the squared distance *)
Lemma ring_le (m q : F) (D : R) : is_finite m = true -> is_finite q = true -> Rabs (B2R m) <= bpow radix2 500 -> 64 * bpow radix2 (-1075) <= u * D -> bpow radix2 (-18) <= D -> Rabs (B2R q - D * D) <= 8 * u * (D * D) ->
  (Rabs (B2R m) * (1 + bpow radix2 (-50)) <= D -> Bleb (Bmult mode_NE m m) q = true /\ (Bleb q (Bmult mode_NE m m) = false)) /\
  (D <= Rabs (B2R m) * (1 - bpow radix2 (-50)) -> Bleb (Bmult mode_NE m m) q = false /\ Bleb q (Bmult mode_NE m m) = true).
Proof.
  intros F1 F2 BM T1 D1 Q. pose proof u_pos as UP. assert (T0 : 0 < bpow radix2 (-1075)) by apply bpow_gt_0. assert (DP : 0 < D) by (pose proof (bpow_gt_0 radix2 (-18)); lra).
  assert (MM : Rabs (B2R m) * Rabs (B2R m) = B2R m * B2R m) by (rewrite <- Rabs_mult; apply Rabs_pos_eq, Rle_0_sqr).
  assert (M2 : B2R m * B2R m <= bpow radix2 1002). { rewrite <- MM. apply Rle_trans with (bpow radix2 (500 + 500)); [|apply bpow_le; lia]. rewrite bpow_plus. apply Rmult_le_compat; try apply Rabs_pos; assumption. }
  destruct (mul_self m F1 M2) as [S1 S2]. rewrite !leb_F by assumption. rewrite <- MM in S2. set (a := Rabs (B2R m)) in *. assert (A0 : 0 <= a) by apply Rabs_pos.
  replace (bpow radix2 (-50)) with (8 * u) by (change (-50)%Z with (3 + -53)%Z; rewrite bpow_plus; reflexivity). apply Rabs_le_inv in S2, Q. set (b := B2R (Bmult mode_NE m m)) in *. set (d := B2R q) in *.
  assert (U1 : u <= 1 / 1000) by (change u with (/ 9007199254740992); lra). assert (DD : 0 < D * D) by now apply Rmult_lt_0_compat.
  assert (TE : bpow radix2 (-1075) <= u * (D * D)).
  { assert (E : bpow radix2 (-1075) <= u * bpow radix2 (-36)) by (rewrite <- bpow_plus; apply bpow_le; lia). eapply Rle_trans; [exact E|]. apply Rmult_le_compat_l; [lra|]. change (-36)%Z with (-18 + -18)%Z. rewrite bpow_plus. apply Rmult_le_compat; try apply bpow_ge_0; assumption. }
  assert (UDD : 0 < u * (D * D)) by (apply Rmult_lt_0_compat; lra).
  split; intros K.
  - assert (K2 : a * a * ((1 + 8 * u) * (1 + 8 * u)) <= D * D). { replace (a * a * ((1 + 8 * u) * (1 + 8 * u))) with ((a * (1 + 8 * u)) * (a * (1 + 8 * u))) by ring. apply Rmult_le_compat; try assumption; apply Rmult_le_pos; lra. }
    assert (AA0 : 0 <= a * a) by now apply Rmult_le_pos. assert (AA1 : a * a * (1 + 16 * u) <= D * D). { eapply Rle_trans; [|exact K2]. apply Rmult_le_compat_l; [exact AA0|]. assert (0 <= u * u) by (apply Rmult_le_pos; lra). lra. }
    (* a*a <= D*D / (1+16u) <= D*D (1 - 15u) *)
    assert (AA2 : a * a <= D * D * (1 - 15 * u)).
    { apply Rmult_le_reg_r with (1 + 16 * u); [lra|]. eapply Rle_trans; [exact AA1|]. rewrite Rmult_assoc. rewrite <- (Rmult_1_r (D * D)) at 1. apply Rmult_le_compat_l; [lra|]. assert (u * u <= 1 / 1000 * u) by (apply Rmult_le_compat_r; lra). lra. }
    assert (AU : u * (a * a) <= u * (D * D)). { apply Rmult_le_compat_l; [lra|]. assert (0 <= D * D * (15 * u)) by (apply Rmult_le_pos; lra). lra. }
    assert (b < d) by lra. split; [apply Rle_bool_true; lra|apply Rle_bool_false; lra].
  - assert (K2 : D * D <= a * a * ((1 - 8 * u) * (1 - 8 * u))). { replace (a * a * ((1 - 8 * u) * (1 - 8 * u))) with ((a * (1 - 8 * u)) * (a * (1 - 8 * u))) by ring. apply Rmult_le_compat; lra. }
    assert (AA0 : 0 <= a * a) by now apply Rmult_le_pos. assert (AA1 : D * D <= a * a * (1 - 15 * u)). { eapply Rle_trans; [exact K2|]. apply Rmult_le_compat_l; [exact AA0|]. assert (u * u <= 1 / 1000 * u) by (apply Rmult_le_compat_r; lra). lra. }
    assert (UA : 0 <= u * (a * a)) by (apply Rmult_le_pos; lra). assert (AU : u * (D * D) <= u * (a * a)). { apply Rmult_le_compat_l; [lra|]. lra. }
    assert (d < b) by lra. split; [apply Rle_bool_false; lra|apply Rle_bool_true; lra].
Qed.

(** C157: a point of the plane and a stored sector in doubles.  [t] is any
    reading of the direction of the point from the centre, [tp] and [te] the
    clockwise turns from the start direction to the point and to the end. *)
Theorem C157_contains_F : forall (L : libm) (s : sector F) (p : vec F) (t tp te : R), atan2_accurate L ->
  is_finite (vx (sec_center s)) = true -> is_finite (vy (sec_center s)) = true -> is_finite (vx p) = true -> is_finite (vy p) = true ->
  is_finite (sec_min_r s) = true -> is_finite (sec_max_r s) = true -> good_degree (a_degree (sec_start s)) -> good_degree (a_degree (sec_end s)) ->
  let D := norm (psub (fpt p) (fpt (sec_center s))) in let m := Rabs (B2R (sec_min_r s)) in let M := Rabs (B2R (sec_max_r s)) in
  let ds := B2R (a_degree (sec_start s)) in let de := B2R (a_degree (sec_end s)) in
  bpow radix2 (-18) <= D <= bpow radix2 499 -> m <= bpow radix2 500 -> M <= bpow radix2 500 ->
  psub (fpt p) (fpt (sec_center s)) = (D * cos (rad t), D * sin (rad t)) -> turn ds t tp -> turn ds de te ->
  exists b, @Sector2D_contains F (NumF L) s p = Ok b /\
    (m * (1 + bpow radix2 (-50)) <= D -> D <= M * (1 - bpow radix2 (-50)) -> bpow radix2 (-42) <= tp <= te - bpow radix2 (-42) -> te <= 360 - bpow radix2 (-42) -> b = true) /\
    (D <= m * (1 - bpow radix2 (-50)) -> b = false) /\ (M * (1 + bpow radix2 (-50)) <= D -> b = false) /\
    (te + bpow radix2 (-42) <= tp <= 360 - bpow radix2 (-42) -> ~ (ds = -180 /\ de = 180) -> b = false).
Proof.
  intros L s p t tp te AT C1 C2 P1 P2 R1 R2 GS GE D m M ds de [D1 D2] BM1 BM2 HT TP TE.
  set (c := sec_center s) in *. assert (ED : D = norm (B2R (vx p) - B2R (vx c), B2R (vy p) - B2R (vy c))) by reflexivity.
  assert (HX : B2R (vx p) - B2R (vx c) = D * cos (rad t) /\ B2R (vy p) - B2R (vy c) = D * sin (rad t)) by (split; [exact (f_equal fst HT)|exact (f_equal snd HT)]). destruct HX as [HX HY].
  destruct (rel_r2 L c p C1 C2 P1 P2 D1 D2) as [Q1 Q2]. destruct (tiny c p D1) as (T1 & _ & T3). rewrite <- ED in Q2, T1, T3.
  destruct (rel_dir L c p C1 C2 P1 P2 D1 D2 t AT HX HY) as (a & A1 & A2 & y & [k Y1] & Y2).
  assert (HM : bpow radix2 (-42) = 2 * bpow radix2 (-43)) by (change (-42)%Z with (1 + -43)%Z; apply bp2). set (h := bpow radix2 (-43)) in *. assert (HP : 0 < h) by apply bpow_gt_0. assert (H1 : h <= 1) by (apply (bpow_le radix2 (-43) 0); lia).
  destruct (ring_le (sec_min_r s) _ D R1 Q1 BM1 T1 D1 Q2) as [I1 I2]. destruct (ring_le (sec_max_r s) _ D R2 Q1 BM2 T1 D1 Q2) as [O1 O2].
  unfold Sector2D_contains. cbn [nleb nmul NumF]. fold c. set (rel := @Vector2D_sub F (NumF L) p c) in *. fold m in I1, I2. fold M in O1, O2.
  set (b1 := Bleb (Bmult mode_NE (sec_min_r s) (sec_min_r s)) (@Vector2D_r2 F (NumF L) rel)) in *. set (b2 := Bleb (@Vector2D_r2 F (NumF L) rel) (Bmult mode_NE (sec_max_r s) (sec_max_r s))) in *.
  rewrite A1. cbn [bind]. apply Rabs_le_inv in Y2.
  assert (TA : h < tp < 360 - h -> turn ds (B2R (a_degree a)) (tp + (y - t))). { intros K. destruct TP as [_ [j TP]]. split; [lra|]. exists (j - k)%Z. rewrite minus_IZR. lra. }
  destruct (b1 && b2) eqn:BB.
  - destruct (Rlt_le_dec h tp) as [K1|K1]; [destruct (Rlt_le_dec tp (360 - h)) as [K2|K2]|].
    + destruct (within_turn L a (sec_start s) (sec_end s) (tp + (y - t)) te A2 GS GE (TA (conj K1 K2)) TE) as (w & EW & W1 & W2 & W3). exists w. split; [exact EW|].
      rewrite HM. fold ds de in W2. split; [|split; [|split]].
      * intros _ _ B1 B2. apply W1; [lra|]. assert (bpow radix2 (-44) <= h) by (apply bpow_le; lia). lra.
      * intros K. destruct (I2 K) as [E _]. rewrite E in BB. discriminate.
      * intros K. destruct (O1 K) as [_ E]. rewrite E, andb_false_r in BB. discriminate.
      * intros B1 B2. destruct (Req_dec te 0) as [Z|Z]; [apply W2; [lra|exact Z|]|apply W3; destruct TE; lra].
        intros K. apply B2. destruct GS as [_ GS], GE as [_ GE]. fold ds in GS. fold de in GE. lra.
    + destruct (C133_is_within_F L a (sec_start s) (sec_end s) A2 GS GE) as (w & EW & _). exists w. split; [exact EW|]. rewrite HM. split; [|split; [|split]].
      * intros _ _ B1 B2. lra.
      * intros K. destruct (I2 K) as [E _]. rewrite E in BB. discriminate.
      * intros K. destruct (O1 K) as [_ E]. rewrite E, andb_false_r in BB. discriminate.
      * intros B1 B2. lra.
    + destruct (C133_is_within_F L a (sec_start s) (sec_end s) A2 GS GE) as (w & EW & _). exists w. split; [exact EW|]. rewrite HM. split; [|split; [|split]].
      * intros _ _ B1 B2. lra.
      * intros K. destruct (I2 K) as [E _]. rewrite E in BB. discriminate.
      * intros K. destruct (O1 K) as [_ E]. rewrite E, andb_false_r in BB. discriminate.
      * intros B1 B2. destruct TE. lra.
  - exists false. split; [reflexivity|]. split; [|easy]. intros K1 K2. destruct (I1 K1) as [E1 _]. destruct (O2 K2) as [_ E2]. rewrite E1, E2 in BB. discriminate.
Qed.

Lemma of_arg_F L x : arg_ok x -> exists a, @AngleDeg_of_arg F (NumF L) x = Ok a /\ good_degree (a_degree a) /\ cong360 (B2R (a_degree a)) (arg_val x).
Proof.
  destruct x as [b|y]; cbn [arg_ok arg_val]; intros H; [|exact (of_num_rnd L y H)].
  exists b. split; [apply (of_arg_good L b H)|]. split; [exact H|apply cong360_refl].
Qed.
(** The same for a sector made by the constructor.  The inner radius it is
    given is not kept (C66): all that is inside the outer radius counts. *)
Theorem C157_constructed_F : forall (L : libm) (c p : vec F) (mn mx : F) (st en : ang_arg F) (t tp te : R), atan2_accurate L ->
  is_finite (vx c) = true -> is_finite (vy c) = true -> is_finite (vx p) = true -> is_finite (vy p) = true ->
  is_finite mn = true -> is_finite mx = true -> arg_ok st -> arg_ok en ->
  let D := norm (psub (fpt p) (fpt c)) in
  bpow radix2 (-18) <= D <= bpow radix2 499 -> 0 <= B2R mn <= B2R mx -> B2R mx <= bpow radix2 500 ->
  psub (fpt p) (fpt c) = (D * cos (rad t), D * sin (rad t)) -> turn (arg_val st) t tp -> turn (arg_val st) (arg_val en) te ->
  exists s b, @Sector2D_init F (NumF L) c mn mx st en = Ok s /\ @Sector2D_contains F (NumF L) s p = Ok b /\
    (D <= B2R mx * (1 - bpow radix2 (-50)) -> bpow radix2 (-42) <= tp <= te - bpow radix2 (-42) -> te <= 360 - bpow radix2 (-42) -> b = true) /\
    (B2R mx * (1 + bpow radix2 (-50)) <= D -> b = false) /\
    (0 < te -> te + bpow radix2 (-42) <= tp <= 360 - bpow radix2 (-42) -> b = false).
Proof.
  intros L c p mn mx st en t tp te AT C1 C2 P1 P2 R1 R2 GS GE D HD HM BM HT TP TE. unfold Sector2D_init.
  destruct (of_arg_F L st GS) as (s & -> & S1 & S2). destruct (of_arg_F L en GE) as (e & -> & E1 & E2). cbn [bind]. eexists.
  destruct (F_of_Z_exact 0 eq_refl) as [Z1 Z2].
  assert (M0 : is_finite (@nmin F (NumF L) (@nlit F (NumF L) 0 1) mn) = true /\ B2R (@nmin F (NumF L) (@nlit F (NumF L) 0 1) mn) = 0).
  { unfold nmin. change (@nlit F (NumF L) 0 1) with (F_of_Z 0). cbn [nltb NumF]. rewrite ltb_F by assumption. rewrite Z1, Rlt_bool_false by lra. now split. }
  assert (M1 : is_finite (@nmax F (NumF L) mn mx) = true /\ B2R (@nmax F (NumF L) mn mx) = B2R mx).
  { unfold nmax. cbn [nltb NumF]. rewrite ltb_F by assumption. destruct (Rlt_bool_spec (B2R mn) (B2R mx)); split; try assumption; try reflexivity; lra. }
  destruct M0 as [M0 V0], M1 as [M1 V1].
  assert (TT : forall x y, cong360 x (arg_val st) -> turn (arg_val st) y tp -> turn x y tp) by (intros x z [k K] [B [j J]]; split; [exact B|]; exists (j + k)%Z; rewrite plus_IZR; lra).
  assert (TT' : forall x y, cong360 x (arg_val st) -> cong360 y (arg_val en) -> turn x y te) by (intros x z [k K] [l Q]; destruct TE as [B [j J]]; split; [exact B|]; exists (j + k - l)%Z; rewrite minus_IZR, plus_IZR; lra).
  destruct (C157_contains_F L (mkSector (Vector2D_of_vec c) (@nmin F (NumF L) (@nlit F (NumF L) 0 1) mn) (@nmax F (NumF L) mn mx) s e) p t tp te AT) as (b & EB & B1 & _ & B3 & B4); cbn [sec_center sec_min_r sec_max_r sec_start sec_end]; try assumption.
  - rewrite V0, Rabs_R0. apply bpow_ge_0.
  - rewrite V1, Rabs_pos_eq by lra. exact BM.
  - apply TT; assumption.
  - apply TT'; assumption.
  - cbn [sec_center sec_min_r sec_max_r sec_start sec_end] in *. rewrite V0, V1, Rabs_R0, Rabs_pos_eq in * by lra. change (norm (psub (fpt p) (fpt (Vector2D_of_vec c)))) with D in *.
    exists b. split; [reflexivity|]. split; [exact EB|]. split; [|split].
    + intros K1 K2 K3. apply B1; try assumption. rewrite Rmult_0_l. pose proof (bpow_ge_0 radix2 (-18)). lra.
    + exact B3.
    + intros K1 K2. apply B4; [exact K2|]. intros [Q1 Q2]. specialize (TT' _ _ S2 E2). rewrite Q1, Q2 in TT'. destruct TT' as [B [j J]].
      assert (te = 360 * IZR (j + 1)) by (rewrite plus_IZR; lra). assert (0 < IZR (j + 1) < 1) by lra. assert (0 < j + 1 < 1)%Z by (split; apply lt_IZR; lra). lia.
Qed.
Example C157_nonvacuous : atan2_accurate libm_round /\ arg_ok (AN (F_of_Z 30)) /\ arg_ok (AN (F_of_Z (-60))) /\
  (let D := norm (psub (fpt (fv (-3) 0)) (fpt (fv 0 0))) in D = 3 /\ psub (fpt (fv (-3) 0)) (fpt (fv 0 0)) = (D * cos (rad 180), D * sin (rad 180))) /\
  turn 30 180 150 /\ turn 30 (-60) 270 /\ bpow radix2 (-42) <= 150 <= 270 - bpow radix2 (-42) /\ 270 <= 360 - bpow radix2 (-42).
Proof.
  split; [exact libm_round_atan2|]. split; [apply (F_of_Z_exact 30 eq_refl)|]. split; [apply (F_of_Z_exact (-60) eq_refl)|].
  assert (P1 : bpow radix2 (-42) <= 1) by (apply (bpow_le radix2 (-42) 0); lia). split; [|split; [split; [lra|exists 0%Z; lra]|split; [split; [lra|exists 1%Z; lra]|lra]]].
  assert (E : psub (fpt (fv (-3) 0)) (fpt (fv 0 0)) = (-3, 0)).
  { unfold psub, fpt, px, py, fv; cbn [vx vy fst snd]. rewrite (proj1 (F_of_Z_exact (-3) eq_refl)), (proj1 (F_of_Z_exact 0 eq_refl)). f_equal; ring. }
  rewrite E. assert (N : norm (-3, 0) = 3). { unfold norm, norm2, px, py; cbn [fst snd]. replace (-3 * -3 + 0 * 0) with (3 * 3) by ring. apply sqrt_square. lra. }
  cbv zeta. rewrite N. split; [reflexivity|]. unfold rad. replace (180 * (PI / 180)) with PI by field. rewrite cos_PI, sin_PI. f_equal; ring.
Qed.
