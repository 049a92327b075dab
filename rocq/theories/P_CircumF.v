(** * P_CircumF: perpendicular bisectors, the circumcenter and the circumscribed
    circle in doubles (C159) *)
From Coq Require Import ZArith List Bool String Reals Lra Lia Psatz.
From Flocq Require Import Core BinarySingleNaN.
From Verif Require Import Base Types NumR NumF R_Tac Spec Spec2 Abs M_Angle M_Vector M_Line M_Triangle M_Segment M_Circle
  L_Angle P_Vector P_Line L_Float P_Float P_Robust P_Hull2 P_VecF P_LineF P_SegF P_QuantF.
Import ListNotations.
Local Open Scope R_scope.

(** two points that differ by more than the library's 1e-6 in some coordinate *)
Definition apart (p q : point) : Prop := 1 / 999999 <= Rabs (px q - px p) \/ 1 / 999999 <= Rabs (py q - py p).

Lemma eps_gap L k (x y : F) : (-200 <= k <= 200)%Z -> is_finite x = true -> is_finite y = true -> Rabs (B2R x) <= bpow radix2 k -> Rabs (B2R y) <= bpow radix2 k -> 1 / 999999 <= Rabs (B2R x - B2R y) ->
  @nltb F (NumF L) (@nabs F (NumF L) (@nsub F (NumF L) x y)) (@EPSILON F (NumF L)) = false.
Proof.
  intros Hk X Y BX BY H. destruct (eps_F L) as [F1 F2]. destruct (within_sub k x y ltac:(lia) X Y BX BY) as [_ B]. destruct (rnd_err _ (k + 1) ltac:(lia) B) as [_ R2].
  destruct (F_sub x y X Y) as [S1 S2]; [apply (finite_lt (k + 1)); [lia|exact R2]|]. cbn [nltb nabs nsub NumF].
  rewrite ltb_F by (rewrite ?is_finite_Babs; assumption). rewrite B2R_Babs, S1. apply Rlt_bool_false.
  set (d := B2R x - B2R y) in *. rewrite <- (rnd_id (B2R (@EPSILON F (NumF L)))) by apply fmt_F.
  destruct (Rle_lt_dec 0 d) as [C|C].
  - rewrite Rabs_pos_eq in H by exact C. rewrite (Rabs_pos_eq (rnd64 d)) by now apply rnd_nonneg. apply rnd_le. lra.
  - rewrite Rabs_left in H by exact C. rewrite <- Rabs_Ropp, <- rnd_opp. rewrite (Rabs_pos_eq (rnd64 (- d))) by (apply rnd_nonneg; lra). apply rnd_le. lra.
Qed.

(** ** The perpendicular bisector *)
Lemma mhalf_lit L : is_finite (@nlit F (NumF L) (-1) 2) = true /\ B2R (@nlit F (NumF L) (-1) 2) = - / 2.
Proof. split; [vm_compute; reflexivity|vm_compute; lra]. Qed.
Lemma lclose_pbis L k p q : (-200 <= k <= 200)%Z -> within k p -> within k q -> apart (fpt p) (fpt q) ->
  lclose k (px (fpt q) - px (fpt p)) (py (fpt q) - py (fpt p)) ((px (fpt q) * px (fpt q) - px (fpt p) * px (fpt p) + py (fpt q) * py (fpt q) - py (fpt p) * py (fpt p)) * - / 2) (@Line2D_perpendicular_bisector F (NumF L) p q).
Proof.
  intros Hk (P1 & P2 & P3 & P4) (Q1 & Q2 & Q3 & Q4) AP. unfold apart, fpt, px, py in *. cbn [fst snd] in *.
  destruct (within_sub k (vy q) (vy p) ltac:(lia) Q2 P2 Q4 P4) as [A1 A2]. destruct (within_sub k (vx q) (vx p) ltac:(lia) Q1 P1 Q3 P3) as [B1 B2].
  unfold Line2D_perpendicular_bisector.
  assert (E : @nltb F (NumF L) (@nabs F (NumF L) (@nsub F (NumF L) (vx q) (vx p))) (@EPSILON F (NumF L)) && @nltb F (NumF L) (@nabs F (NumF L) (@nsub F (NumF L) (vy q) (vy p))) (@EPSILON F (NumF L)) = false).
  { apply andb_false_iff. destruct AP as [H|H]; [left|right]; now apply (eps_gap L k). }
  rewrite E. unfold lclose. cbn [l_a l_b l_c nsub nmul nadd NumF]. destruct (mhalf_lit L) as [M1 M2]. set (mh := @nlit F (NumF L) (-1) 2) in *.
  assert (SQ : forall x : F, is_finite x = true -> Rabs (B2R x) <= bpow radix2 k -> close (2 * k) (bpow radix2 (2 * k - 54)) (B2R x * B2R x) (Bmult mode_NE x x)).
  { intros x X BX. replace (2 * k)%Z with (k + k)%Z by lia. eapply close_weaken; [|apply close_mul; [lia|exact BX|apply close_exact; assumption|apply close_exact; assumption]]. lra. }
  assert (UP : forall j t d x, close j t d x -> close (j + 1) t d x).
  { intros j t d x (U1 & U2 & U3). split; [exact U1|]. split; [|exact U3]. eapply Rle_trans; [exact U2|]. apply bpow_le. lia. }
  assert (S1 := close_sub (2 * k) _ _ _ _ _ _ ltac:(lia) (SQ _ Q1 Q3) (SQ _ P1 P3)).
  assert (S2 := close_add (2 * k + 1) _ _ _ _ _ _ ltac:(lia) S1 (UP _ _ _ _ (SQ _ Q2 Q4))).
  assert (S3 := close_sub (2 * k + 1 + 1) _ _ _ _ _ _ ltac:(lia) S2 (UP _ _ _ _ (UP _ _ _ _ (SQ _ P2 P4)))).
  assert (HD : Rabs (B2R (vx q) * B2R (vx q) - B2R (vx p) * B2R (vx p) + B2R (vy q) * B2R (vy q) - B2R (vy p) * B2R (vy p)) <= bpow radix2 (2 * k + 1 + 1 + 1)).
  { assert (SB : forall x, Rabs x <= bpow radix2 k -> 0 <= x * x <= bpow radix2 (2 * k)). { intros x Hx. split; [apply Rle_0_sqr|]. replace (2 * k)%Z with (k + k)%Z by lia. rewrite bpow_plus. now apply sq_le. }
    pose proof (SB _ Q3). pose proof (SB _ P3). pose proof (SB _ Q4). pose proof (SB _ P4). replace (2 * k + 1 + 1 + 1)%Z with (3 + 2 * k)%Z by lia. rewrite bpow_plus. change (bpow radix2 3) with 8. apply Rabs_le. lra. }
  assert (CM : close (-1) 0 (- / 2) mh). { rewrite <- M2. apply close_exact; [exact M1|]. rewrite M2. change (bpow radix2 (-1)) with (/ 2). rewrite Rabs_Ropp, Rabs_pos_eq; lra. }
  assert (S4 := close_mul (2 * k + 1 + 1 + 1) (-1) _ _ _ _ _ _ ltac:(lia) HD S3 CM).
  split; [exact B1|]. split; [exact A1|]. split; [|split; [exact B2|split; [exact A2|]]].
  - replace (2 * k + 2)%Z with (2 * k + 1 + 1 + 1 + -1)%Z by lia. eapply close_weaken; [|exact S4].
    set (e := bpow radix2 (2 * k - 54)). replace (2 * k + 1 + 1 + 1 + -1 - 54)%Z with (2 + (2 * k - 54))%Z by lia. replace (2 * k + 1 + 1 + 1 - 54)%Z with (3 + (2 * k - 54))%Z by lia. replace (2 * k + 1 + 1 - 54)%Z with (2 + (2 * k - 54))%Z by lia.
    replace (2 * k + 1 - 54)%Z with (1 + (2 * k - 54))%Z by lia. replace (2 * k - 50)%Z with (4 + (2 * k - 54))%Z by lia. rewrite !(bpow_plus radix2 _ (2 * k - 54)). fold e. assert (0 < e) by apply bpow_gt_0.
    change (bpow radix2 4) with 16. change (bpow radix2 3) with 8. change (bpow radix2 2) with 4. change (bpow radix2 1) with 2. change (bpow radix2 (-1)) with (/ 2). lra.
  - rewrite Rabs_mult, Rabs_Ropp, (Rabs_pos_eq (/ 2)) by lra. replace (2 * k + 1 + 1 + 1)%Z with (1 + (2 * k + 2))%Z in HD by lia. rewrite bp2 in HD. lra.
Qed.

(** the line function a x + b y + c of the returned line is half the difference
    of the squared distances to the two points *)
Theorem C159_bisector_F : forall (L : libm) (k n : Z) (p1 p2 : vec F) (r : point), (-200 <= k <= 200)%Z -> (k <= n <= 500)%Z -> within k p1 -> within k p2 -> apart (fpt p1) (fpt p2) ->
  Rabs (px r) <= bpow radix2 n -> Rabs (py r) <= bpow radix2 n ->
  let l := @Line2D_perpendicular_bisector F (NumF L) p1 p2 in is_finite (l_a l) = true /\ is_finite (l_b l) = true /\ is_finite (l_c l) = true /\
  Rabs (B2R (l_a l) * px r + B2R (l_b l) * py r + B2R (l_c l) - (norm2 (psub r (fpt p1)) - norm2 (psub r (fpt p2))) / 2) <= bpow radix2 (n + k - 49).
Proof.
  intros L k n p1 p2 r Hk Hn W1 W2 AP RX RY l. destruct (lclose_pbis L k p1 p2 Hk W1 W2 AP) as (A1 & B1 & C1 & A2 & B2 & C2). fold l in A1, B1, C1.
  destruct A1 as (X1 & X2 & X3). destruct B1 as (Y1 & Y2 & Y3). destruct C1 as (Z1 & Z2 & Z3). split; [exact X1|]. split; [exact Y1|]. split; [exact Z1|].
  set (A := px (fpt p2) - px (fpt p1)) in *. set (B := py (fpt p2) - py (fpt p1)) in *. set (C := _ * - / 2) in *.
  replace ((norm2 (psub r (fpt p1)) - norm2 (psub r (fpt p2))) / 2) with (A * px r + B * py r + C) by (unfold A, B, C, norm2, psub, px, py; cbn [fst snd]; field).
  replace (B2R (l_a l) * px r + B2R (l_b l) * py r + B2R (l_c l) - (A * px r + B * py r + C)) with ((B2R (l_a l) - A) * px r + (B2R (l_b l) - B) * py r + (B2R (l_c l) - C)) by ring.
  set (e := bpow radix2 (n + k - 53)). assert (PX : Rabs ((B2R (l_a l) - A) * px r) <= e) by (unfold e; replace (n + k - 53)%Z with (k - 53 + n)%Z by lia; now apply mul_abs).
  assert (PY : Rabs ((B2R (l_b l) - B) * py r) <= e) by (unfold e; replace (n + k - 53)%Z with (k - 53 + n)%Z by lia; now apply mul_abs).
  assert (PC : bpow radix2 (2 * k - 50) <= 8 * e) by (unfold e; change 8 with (bpow radix2 3); rewrite <- bpow_plus; apply bpow_le; lia).
  replace (n + k - 49)%Z with (4 + (n + k - 53))%Z by lia. rewrite bpow_plus. fold e. change (bpow radix2 4) with 16. apply Rabs_le_inv in PX, PY, Z3. apply Rabs_le. lra.
Qed.

(** ** The circumcenter *)
Lemma mulinv_close n tN tD N D q L (x y : F) : (-900 <= n <= 900)%Z -> is_finite x = true -> is_finite y = true -> Rabs (B2R x - N) <= tN -> Rabs (B2R y - D) <= tD ->
  N = q * (2 * D) -> Rabs q <= bpow radix2 n -> bpow radix2 (-30) <= Rabs D <= bpow radix2 450 -> 2 * tD <= Rabs D -> tN + bpow radix2 n * (2 * tD) <= bpow radix2 n * Rabs D ->
  exists i, F_div (@nlit F (NumF L) 1 2) y = Ok i /\ let z := Bmult mode_NE i x in
    is_finite z = true /\ Rabs (B2R z - q) <= (tN + bpow radix2 n * (2 * tD)) / Rabs D + bpow radix2 (n - 50) /\ Rabs (B2R z) <= bpow radix2 (n + 2).
Proof.
  intros Hn X Y XN YD E Q [D0 D1] TD TT. set (b := bpow radix2 n) in *. assert (PB : 0 < b) by apply bpow_gt_0. assert (PD : 0 < Rabs D) by (pose proof (bpow_gt_0 radix2 (-30)); lra).
  assert (TD0 : 0 <= tD) by (pose proof (Rabs_pos (B2R y - D)); lra). assert (TN0 : 0 <= tN) by (pose proof (Rabs_pos (B2R x - N)); lra).
  assert (YA : Rabs D / 2 <= Rabs (B2R y) <= 2 * Rabs D).
  { pose proof (Rabs_triang_inv D (D - B2R y)) as T. replace (D - (D - B2R y)) with (B2R y) in T by ring. pose proof (Rabs_triang (B2R y - D) D) as T'. replace (B2R y - D + D) with (B2R y) in T' by ring. assert (YD' : Rabs (D - B2R y) <= tD) by (now rewrite Rabs_minus_sym). pose proof (Rabs_triang (B2R y) (D - B2R y)) as T2. replace (B2R y + (D - B2R y)) with D in T2 by ring. lra. }
  assert (Y0 : B2R y <> 0) by (intros Z; rewrite Z, Rabs_R0 in YA; lra).
  set (t := B2R x / (2 * B2R y)).
  assert (G : Rabs (t - q) <= (tN + b * (2 * tD)) / Rabs D).
  { unfold t. replace (B2R x / (2 * B2R y) - q) with ((B2R x - N - q * (2 * (B2R y - D))) / (2 * B2R y)) by (rewrite E; field; exact Y0).
    unfold Rdiv at 1. rewrite Rabs_mult, Rabs_inv, (Rabs_mult 2), (Rabs_pos_eq 2) by lra.
    assert (NU : Rabs (B2R x - N - q * (2 * (B2R y - D))) <= tN + b * (2 * tD)).
    { unfold Rminus at 1. eapply Rle_trans; [apply Rabs_triang|]. rewrite Rabs_Ropp, Rabs_mult. apply Rplus_le_compat; [exact XN|]. apply Rmult_le_compat; try apply Rabs_pos; [assumption|]. rewrite Rabs_mult, (Rabs_pos_eq 2) by lra. lra. }
    unfold Rdiv. apply Rmult_le_compat; [apply Rabs_pos|left; apply Rinv_0_lt_compat; lra|exact NU|]. apply Rinv_le; lra. }
  assert (G2 : Rabs (t - q) <= b).
  { eapply Rle_trans; [exact G|]. apply (Rmult_le_reg_r (Rabs D)); [exact PD|]. replace ((tN + b * (2 * tD)) / Rabs D * Rabs D) with (tN + b * (2 * tD)) by (field; lra). exact TT. }
  assert (TB : Rabs t <= 2 * b) by (apply Rabs_le_inv in G2, Q; apply Rabs_le; lra).
  destruct (half_lit L) as [H1 H2]. set (h := @nlit F (NumF L) 1 2) in *.
  set (v := / 2 / B2R y). assert (AV : Rabs v = / (2 * Rabs (B2R y))) by (unfold v, Rdiv; rewrite Rabs_mult, (Rabs_pos_eq (/ 2)), Rabs_inv by lra; field; now apply Rabs_no_R0).
  assert (PY : 0 < Rabs (B2R y)) by lra.
  assert (VB : bpow radix2 (-500) <= Rabs v <= bpow radix2 40).
  { rewrite AV. split.
    - change (-500)%Z with (Z.opp 500). rewrite bpow_opp. apply Rinv_le; [lra|]. assert (4 * bpow radix2 450 <= bpow radix2 500) by (change 4 with (bpow radix2 2); rewrite <- bpow_plus; apply bpow_le; lia). lra.
    - assert (E40 : bpow radix2 40 = / bpow radix2 (-40)) by (rewrite <- bpow_opp; reflexivity). rewrite E40. apply Rinv_le; [apply bpow_gt_0|]. assert (bpow radix2 (-40) <= bpow radix2 (-30)) by (apply bpow_le; lia). lra. }
  destruct (rnd_err v 40 ltac:(lia) ltac:(apply VB)) as [_ V2].
  destruct (F_quot h y H2 Y0) as [I1 I2]; [rewrite H1; fold v; apply (finite_lt 40); [lia|exact V2]|]. rewrite H1 in I1. fold v in I1.
  exists (Bdiv mode_NE h y). split.
  { unfold F_div, F_is_zero. rewrite eqb_F by (try assumption; reflexivity). replace (B2R (F_of_Z 0)) with 0 by reflexivity. now rewrite Req_bool_false. }
  set (i := Bdiv mode_NE h y) in *. pose proof (rnd_rel v) as RV. rewrite <- I1 in RV. pose proof u_pos as UP.
  assert (RV2 : Rabs (B2R i - v) <= 2 * u * Rabs v).
  { assert (bpow radix2 (-1075) <= u * Rabs v). { apply Rle_trans with (u * bpow radix2 (-500)); [rewrite <- bpow_plus; apply bpow_le; lia|]. apply Rmult_le_compat_l; lra. } lra. }
  assert (TV : t = v * B2R x) by (unfold t, v; field; exact Y0).
  assert (PR : Rabs (B2R i * B2R x - t) <= 4 * u * b).
  { rewrite TV. replace (B2R i * B2R x - v * B2R x) with ((B2R i - v) * B2R x) by ring. rewrite Rabs_mult. apply Rle_trans with (2 * u * Rabs v * Rabs (B2R x)); [apply Rmult_le_compat_r; [apply Rabs_pos|exact RV2]|].
    rewrite Rmult_assoc, <- Rabs_mult, <- TV. replace (4 * u * b) with (2 * u * (2 * b)) by ring. apply Rmult_le_compat_l; [lra|exact TB]. }
  assert (UB : 4 * u * b <= b) by (apply Rle_trans with (1 * b); [apply Rmult_le_compat_r; lra|lra]).
  assert (PB4 : Rabs (B2R i * B2R x) <= bpow radix2 (n + 2)).
  { replace (n + 2)%Z with (2 + n)%Z by lia. rewrite bpow_plus. fold b. change (bpow radix2 2) with 4. apply Rabs_le_inv in PR, TB. apply Rabs_le. lra. }
  destruct (rnd_err _ (n + 2) ltac:(lia) PB4) as [R1 R2]. destruct (F_mul i x I2 X) as [Z1 Z2]; [apply (finite_lt (n + 2)); [lia|exact R2]|].
  cbv zeta. split; [exact Z2|]. rewrite Z1. split; [|exact R2].
  replace (rnd64 (B2R i * B2R x) - q) with ((rnd64 (B2R i * B2R x) - B2R i * B2R x) + ((B2R i * B2R x - t) + (t - q))) by ring.
  eapply Rle_trans; [apply Rabs_triang|]. eapply Rle_trans; [apply Rplus_le_compat_l, Rabs_triang|].
  assert (E1 : bpow radix2 (n + 2 - 54) = 2 * (u * b)) by (unfold b; rewrite <- bpow_plus, <- bp2; f_equal; lia). assert (E2 : bpow radix2 (n - 50) = 8 * (u * b)) by (unfold b; change 8 with (bpow radix2 3); rewrite <- !bpow_plus; f_equal; lia).
  rewrite E1 in R1. rewrite E2. assert (0 < u * b) by (apply Rmult_lt_0_compat; lra). lra.
Qed.
Lemma ten_lit L : is_finite (@nlit F (NumF L) 1 10000000000) = true /\ 1 / 10000000001 <= B2R (@nlit F (NumF L) 1 10000000000) <= 1 / 9999999999.
Proof. split; [vm_compute; reflexivity|vm_compute; lra]. Qed.
Lemma cc_det L k (a b c : vec F) : (-200 <= k <= 200)%Z -> within k a -> within k b -> within k c ->
  close (2 * k + 3) (bpow radix2 (2 * k - 49)) (cross (psub (fpt b) (fpt a)) (psub (fpt c) (fpt a))) (@Vector2D_outer_product F (NumF L) (@Vector2D_sub F (NumF L) b a) (@Vector2D_sub F (NumF L) c a)).
Proof.
  intros Hk WA WB WC. exact (outer_close L k b c a ltac:(lia) WB WC WA).
Qed.
Lemma cc_len2 L k (a b : vec F) : (-200 <= k <= 200)%Z -> within k a -> within k b ->
  close (2 * k + 3) (bpow radix2 (2 * k - 49)) (norm2 (psub (fpt b) (fpt a))) (@Vector2D_r2 F (NumF L) (@Vector2D_sub F (NumF L) b a)) /\ Rabs (norm2 (psub (fpt b) (fpt a))) <= bpow radix2 (2 * k + 3).
Proof.
  intros Hk (A1 & A2 & A3 & A4) (B1 & B2 & B3 & B4).
  destruct (within_sub k _ _ ltac:(lia) B1 A1 B3 A3) as [P1 Q1]. destruct (within_sub k _ _ ltac:(lia) B2 A2 B4 A4) as [P2 Q2].
  pose proof (within_prod k _ _ _ _ ltac:(lia) Q1 P1 P1) as M1. pose proof (within_prod k _ _ _ _ ltac:(lia) Q2 P2 P2) as M2.
  assert (S := close_add (2 * k + 2) _ _ _ _ _ _ ltac:(lia) M1 M2). split.
  - replace (2 * k + 3)%Z with (2 * k + 2 + 1)%Z by lia. refine (close_weaken _ _ _ _ _ _ S).
    replace (2 * k + 2 + 1 - 54)%Z with (1 + (2 * k - 52))%Z by lia. replace (2 * k - 49)%Z with (1 + (1 + (1 + (2 * k - 52))))%Z by lia. rewrite !bp2. pose proof (bpow_ge_0 radix2 (2 * k - 52)). lra.
  - unfold norm2, psub, fpt, px, py. cbn [fst snd]. apply sq_le in Q1, Q2. rewrite <- bpow_plus in Q1, Q2. replace (2 * k + 3)%Z with (1 + (k + 1 + (k + 1)))%Z by lia. rewrite bp2.
    rewrite Rabs_pos_eq; [lra|]. pose proof (Rle_0_sqr (B2R (vx b) - B2R (vx a))). pose proof (Rle_0_sqr (B2R (vy b) - B2R (vy a))). unfold Rsqr in *. lra.
Qed.
(** one of the two numerators *)
Lemma cc_num k (M1 M2 d1 d2 : R) (m1 m2 e1 e2 : F) : (-200 <= k <= 200)%Z -> Rabs M1 <= bpow radix2 (2 * k + 3) -> Rabs M2 <= bpow radix2 (2 * k + 3) ->
  close (2 * k + 3) (bpow radix2 (2 * k - 49)) M1 m1 -> close (2 * k + 3) (bpow radix2 (2 * k - 49)) M2 m2 ->
  close (k + 1) (bpow radix2 (k - 53)) d1 e1 -> close (k + 1) (bpow radix2 (k - 53)) d2 e2 ->
  close (3 * k + 5) (56 * bpow radix2 (3 * k - 52)) (M1 * d1 - M2 * d2) (Bminus mode_NE (Bmult mode_NE m1 e1) (Bmult mode_NE m2 e2)).
Proof.
  intros Hk B1 B2 C1 C2 E1 E2. assert (X := close_mul (2 * k + 3) (k + 1) _ _ _ _ _ _ ltac:(lia) B1 C1 E1). assert (Y := close_mul (2 * k + 3) (k + 1) _ _ _ _ _ _ ltac:(lia) B2 C2 E2).
  assert (S := close_sub (2 * k + 3 + (k + 1)) _ _ _ _ _ _ ltac:(lia) X Y). replace (3 * k + 5)%Z with (2 * k + 3 + (k + 1) + 1)%Z by lia. refine (close_weaken _ _ _ _ _ _ S).
  rewrite <- !bpow_plus. replace (2 * k + 3 + (k - 53))%Z with (2 + (3 * k - 52))%Z by lia. replace (k + 1 + (2 * k - 49))%Z with (4 + (3 * k - 52))%Z by lia. replace (2 * k + 3 + (k + 1) - 54)%Z with (2 + (3 * k - 52))%Z by lia.
  replace (2 * k + 3 + (k + 1) + 1 - 54)%Z with (3 + (3 * k - 52))%Z by lia. rewrite !(bpow_plus radix2 _ (3 * k - 52)). change (bpow radix2 2) with 4. change (bpow radix2 3) with 8. change (bpow radix2 4) with 16. lra.
Qed.
Section Circ.
  Context (L : libm) (k n : Z) (a b c : vec F) (q : point).
  Hypothesis Hk : (-200 <= k <= 200)%Z. Hypothesis Hn : (k <= n <= 400)%Z. Hypothesis WA : within k a. Hypothesis WB : within k b. Hypothesis WC : within k c.
  Notation D := (cross (psub (fpt b) (fpt a)) (psub (fpt c) (fpt a))).
  Hypothesis D1 : bpow radix2 (2 * k - 45) <= Rabs D.
  Hypothesis EA : edist q (fpt a) = edist q (fpt b). Hypothesis EB : edist q (fpt a) = edist q (fpt c).
  Hypothesis QX : Rabs (px q) <= bpow radix2 n. Hypothesis QY : Rabs (py q) <= bpow radix2 n.
  Lemma equi (u v : point) : edist q u = edist q v -> norm2 (psub q u) = norm2 (psub q v).
  Proof. unfold edist, norm. intros H. apply sqrt_inj in H; [exact H|apply norm2_nonneg|apply norm2_nonneg]. Qed.
  Lemma formula_F : 1 / 9999999 <= Rabs D -> exists v, @tri_circumcenter_formula F (NumF L) a b c = Ok v /\ v_valid v = true /\ is_finite (vx v) = true /\ is_finite (vy v) = true /\
    Rabs (px (fpt v) - px q) <= bpow radix2 (n + 2 * k - 44) / Rabs D /\ Rabs (py (fpt v) - py q) <= bpow radix2 (n + 2 * k - 44) / Rabs D.
  Proof.
    intros D2. assert (CD := cc_det L k a b c Hk WA WB WC). destruct (cc_len2 L k a b Hk WA WB) as [L1 L2]. destruct (cc_len2 L k a c Hk WA WC) as [M1 M2].
    assert (NA := equi _ _ EA). assert (NC := equi _ _ EB). clear EA EB.
    destruct WA as (A1 & A2 & A3 & A4), WB as (B1 & B2 & B3 & B4), WC as (C1 & C2 & C3 & C4).
    destruct (within_sub k _ _ ltac:(lia) B1 A1 B3 A3) as [P1 Q1]. destruct (within_sub k _ _ ltac:(lia) B2 A2 B4 A4) as [P2 Q2]. destruct (within_sub k _ _ ltac:(lia) C1 A1 C3 A3) as [P3 Q3]. destruct (within_sub k _ _ ltac:(lia) C2 A2 C4 A4) as [P4 Q4].
    unfold tri_circumcenter_formula. set (tmp := @Vector2D_outer_product F (NumF L) _ _) in *. destruct CD as (T1 & T2 & T3). set (d := D) in *.
    set (e := bpow radix2 (2 * k - 52)). assert (PE : 0 < e) by apply bpow_gt_0. set (bn := bpow radix2 n) in *. assert (PB : 0 < bn) by apply bpow_gt_0.
    assert (ED : bpow radix2 (2 * k - 49) = 8 * e) by (replace (2 * k - 49)%Z with (3 + (2 * k - 52))%Z by lia; now rewrite bpow_plus). rewrite ED in T3.
    assert (EL : bpow radix2 (2 * k - 45) = 128 * e) by (replace (2 * k - 45)%Z with (7 + (2 * k - 52))%Z by lia; now rewrite bpow_plus). rewrite EL in D1.
    assert (AT : Rabs d / 2 <= Rabs (B2R tmp)). { pose proof (Rabs_triang (B2R tmp) (d - B2R tmp)) as T. replace (B2R tmp + (d - B2R tmp)) with d in T by ring. rewrite (Rabs_minus_sym d) in T. lra. }
    destruct (ten_lit L) as [F1 F2].
    assert (E0 : @nltb F (NumF L) (@nabs F (NumF L) tmp) (@nlit F (NumF L) 1 10000000000) = false).
    { cbn [nltb nabs NumF]. rewrite ltb_F by (rewrite ?is_finite_Babs; assumption). rewrite B2R_Babs. apply Rlt_bool_false. lra. }
    rewrite E0.
    assert (PK : bpow radix2 k <= bn) by (apply bpow_le; lia).
    assert (DU : Rabs d <= 32 * 1 * (e * bpow radix2 50)).
    { unfold d, cross, psub, fpt, px, py. cbn [fst snd]. eapply sum_abs; [apply (mul_abs _ _ (k + 1) (k + 1)); eassumption|apply (mul_abs _ _ (k + 1) (k + 1)); eassumption|]. unfold e. rewrite <- bpow_plus.
      replace (k + 1 + (k + 1))%Z with (4 + (2 * k - 52 + 50))%Z by lia. rewrite (bpow_plus radix2 4). change (bpow radix2 4) with 16. lra. }
    assert (DR : bpow radix2 (-30) <= Rabs d <= bpow radix2 450).
    { split; [apply Rle_trans with (1 / 9999999); [cbn; lra|exact D2]|]. eapply Rle_trans; [exact DU|]. unfold e. replace (32 * 1) with (bpow radix2 5) by (cbn; lra). rewrite <- !bpow_plus. apply bpow_le. lia. }
    assert (E3 : bpow radix2 (3 * k - 52) <= bn * e) by (unfold bn, e; rewrite <- bpow_plus; apply bpow_le; lia).
    assert (NX := cc_num k _ _ _ _ _ _ _ _ Hk L2 M2 L1 M1 P4 P2). assert (NY := cc_num k _ _ _ _ _ _ _ _ Hk M2 L2 M1 L1 P1 P3).
    destruct NX as (NX1 & _ & NX3). destruct NY as (NY1 & _ & NY3).
    assert (PBE : 0 < bn * e) by (apply Rmult_lt_0_compat; assumption). assert (BE : bn * (128 * e) <= bn * Rabs d) by (apply Rmult_le_compat_l; lra).
    assert (EN1 : bpow radix2 (n + 1) = 2 * bn) by (unfold bn; rewrite <- bp2; f_equal; lia).
    assert (QA : forall x y, Rabs x <= bn -> Rabs y <= bpow radix2 k -> Rabs (x - y) <= bpow radix2 (n + 1)). { intros x y X Y. rewrite EN1. apply Rabs_le_inv in X, Y. apply Rabs_le. lra. }
    assert (TT : 56 * bpow radix2 (3 * k - 52) + bpow radix2 (n + 1) * (2 * (8 * e)) <= bpow radix2 (n + 1) * Rabs d) by (rewrite EN1; lra).
    assert (SA : norm2 (psub (fpt b) (fpt a)) = 2 * ((px q - px (fpt a)) * (px (fpt b) - px (fpt a)) + (py q - py (fpt a)) * (py (fpt b) - py (fpt a)))) by (unfold norm2, psub, px, py in NA |- *; cbn [fst snd] in NA |- *; lra).
    assert (SC : norm2 (psub (fpt c) (fpt a)) = 2 * ((px q - px (fpt a)) * (px (fpt c) - px (fpt a)) + (py q - py (fpt a)) * (py (fpt c) - py (fpt a)))) by (unfold norm2, psub, px, py in NC |- *; cbn [fst snd] in NC |- *; lra).
    destruct (mulinv_close (n + 1) (56 * bpow radix2 (3 * k - 52)) (8 * e) _ d (px q - px (fpt a)) L _ tmp ltac:(lia) NX1 T1 NX3 T3) as (i & I1 & U1 & U2 & U3); try assumption; try lra.
    { rewrite SA, SC. unfold d, cross, psub, fpt, px, py. cbn [fst snd]. ring. }
    { apply QA; [exact QX|exact A3]. }
    destruct (mulinv_close (n + 1) (56 * bpow radix2 (3 * k - 52)) (8 * e) _ d (py q - py (fpt a)) L _ tmp ltac:(lia) NY1 T1 NY3 T3) as (j & J1 & W1 & W2 & W3); try assumption; try lra.
    { rewrite SA, SC. unfold d, cross, psub, fpt, px, py. cbn [fst snd]. ring. }
    { apply QA; [exact QY|exact A4]. }
    rewrite I1 in J1. injection J1 as <-. cbn [ndiv NumF]. rewrite I1. cbn [bind]. eexists. split; [reflexivity|].
    cbn [vx vy v_valid V]. cbn [nadd nmul nsub NumF Vector2D_sub V vx vy] in U1, U2, U3, W1, W2, W3 |- *.
    match type of U1 with is_finite ?z = true => set (zx := z) in * end.
    assert (ZY : Bmult mode_NE i (Bminus mode_NE (Bmult mode_NE (Bminus mode_NE (vx b) (vx a)) (@Vector2D_r2 F (NumF L) (@Vector2D_sub F (NumF L) c a))) (Bmult mode_NE (Bminus mode_NE (vx c) (vx a)) (@Vector2D_r2 F (NumF L) (@Vector2D_sub F (NumF L) b a)))) =
      Bmult mode_NE i (Bminus mode_NE (Bmult mode_NE (@Vector2D_r2 F (NumF L) (@Vector2D_sub F (NumF L) c a)) (Bminus mode_NE (vx b) (vx a))) (Bmult mode_NE (@Vector2D_r2 F (NumF L) (@Vector2D_sub F (NumF L) b a)) (Bminus mode_NE (vx c) (vx a))))).
    { f_equal. f_equal; apply Bmult_comm. }
    rewrite ZY. clear ZY. match type of W1 with is_finite ?z = true => set (zy := z) in * end.
    assert (FIN : forall (w z : F) r, is_finite w = true -> Rabs (B2R w) <= bpow radix2 k -> is_finite z = true -> Rabs (B2R z) <= bpow radix2 (n + 1 + 2) ->
      Rabs (B2R z - (r - B2R w)) <= (56 * bpow radix2 (3 * k - 52) + bpow radix2 (n + 1) * (2 * (8 * e))) / Rabs d + bpow radix2 (n + 1 - 50) ->
      is_finite (Bplus mode_NE w z) = true /\ Rabs (B2R (Bplus mode_NE w z) - r) <= bpow radix2 (n + 2 * k - 44) / Rabs d).
    { intros w z r FW BW FZ BZ HZ. assert (E8 : bpow radix2 (n + 1 + 2) = 8 * bn) by (unfold bn; change 8 with (bpow radix2 3); rewrite <- bpow_plus; f_equal; lia). rewrite E8 in BZ.
      assert (B16 : Rabs (B2R w + B2R z) <= bpow radix2 (n + 4)). { replace (n + 4)%Z with (4 + n)%Z by lia. rewrite bpow_plus. fold bn. change (bpow radix2 4) with 16. apply Rabs_le_inv in BW, BZ. apply Rabs_le. lra. }
      destruct (rnd_err _ (n + 4) ltac:(lia) B16) as [R1 R2]. destruct (F_add w z FW FZ) as [S1 S2]; [apply (finite_lt (n + 4)); [lia|exact R2]|]. split; [exact S2|]. rewrite S1.
      replace (rnd64 (B2R w + B2R z) - r) with ((rnd64 (B2R w + B2R z) - (B2R w + B2R z)) + (B2R z - (r - B2R w))) by ring. eapply Rle_trans; [apply Rabs_triang|].
      eapply Rle_trans; [apply Rplus_le_compat; [exact R1|exact HZ]|].
      replace (bpow radix2 (n + 2 * k - 44)) with (bn * (256 * e)) by (unfold bn, e; change 256 with (bpow radix2 8); rewrite <- !bpow_plus; f_equal; lia).
      assert (PD : 0 < Rabs d) by lra. apply (Rmult_le_reg_r (Rabs d)); [exact PD|]. rewrite !Rmult_plus_distr_r. unfold Rdiv. rewrite !(Rmult_assoc _ (/ Rabs d) (Rabs d)), Rinv_l, !Rmult_1_r by lra.
      assert (S : forall m, (0 <= m)%R -> bpow radix2 (-53) * m * Rabs d <= 4 * (m * e)).
      { intros m Hm. rewrite (Rmult_comm (bpow radix2 (-53))), Rmult_assoc, <- (Rmult_assoc 4), (Rmult_comm 4), Rmult_assoc. apply Rmult_le_compat_l; [exact Hm|]. change (bpow radix2 50) with 1125899906842624 in DU. change (bpow radix2 (-53)) with (/ 9007199254740992). lra. }
      assert (E4 : bpow radix2 (n + 4 - 54) = bpow radix2 (-53) * (8 * bn)) by (unfold bn; change 8 with (bpow radix2 3); rewrite <- !bpow_plus; f_equal; lia). assert (E5 : bpow radix2 (n + 1 - 50) = bpow radix2 (-53) * (16 * bn)) by (unfold bn; change 16 with (bpow radix2 4); rewrite <- !bpow_plus; f_equal; lia).
      rewrite E4, E5, EN1. pose proof (S (8 * bn) ltac:(lra)). pose proof (S (16 * bn) ltac:(lra)). lra. }
    destruct (FIN (vx a) zx (px q) A1 A3 U1 U3 U2) as [G1 G2]. destruct (FIN (vy a) zy (py q) A2 A4 W1 W3 W2) as [K1 K2].
    split; [reflexivity|]. split; [exact G1|]. split; [exact K1|]. split; [exact G2|exact K2].
  Qed.
End Circ.

Lemma pbis_on (p r q : point) : edist q p = edist q r -> on_line (px r - px p) (py r - py p) ((px r * px r - px p * px p + py r * py r - py p * py p) * - / 2) q.
Proof.
  intros H. apply (equi q) in H. unfold on_line. unfold norm2, psub, px, py in *. cbn [fst snd] in *. lra.
Qed.
Lemma tri_cc {T} {N : Num T} (a b c : vec T) : Triangle2D_circumcenter (Triangle2D_of_points a b c) = tri_circumcenter a b c.
Proof. destruct a, b, c. reflexivity. Qed.
(** C159: the circumcenter, for corners that are apart and not nearly in line *)
Theorem C159_circumcenter_F : forall (L : libm) (k n : Z) (a b c : vec F) (q : point), (-200 <= k <= 200)%Z -> (k <= n <= 400)%Z -> within k a -> within k b -> within k c ->
  apart (fpt a) (fpt b) -> apart (fpt b) (fpt c) ->
  let D := cross (psub (fpt b) (fpt a)) (psub (fpt c) (fpt a)) in bpow radix2 (2 * k - 45) <= Rabs D -> 2 / 999999 <= Rabs D ->
  edist q (fpt a) = edist q (fpt b) -> edist q (fpt a) = edist q (fpt c) -> Rabs (px q) <= bpow radix2 n -> Rabs (py q) <= bpow radix2 n ->
  exists v, @Triangle2D_circumcenter F (NumF L) (Triangle2D_of_points a b c) = Ok v /\ @tri_circumcenter F (NumF L) a b c = Ok v /\ v_valid v = true /\ is_finite (vx v) = true /\ is_finite (vy v) = true /\
    Rabs (px (fpt v) - px q) <= bpow radix2 (n + 2 * k - 44) / Rabs D /\ Rabs (py (fpt v) - py q) <= bpow radix2 (n + 2 * k - 44) / Rabs D.
Proof.
  intros L k n a b c q Hk Hn WA WB WC AB BC D D1 D2 EA EB QX QY.
  assert (X := lclose_pbis L k a b Hk WA WB AB). assert (Y := lclose_pbis L k b c Hk WB WC BC).
  assert (IC := inter_close L k n _ _ _ _ _ _ _ _ q Hk ltac:(lia) X Y). cbv zeta in IC.
  match type of IC with _ <= Rabs ?d -> _ => assert (ED : d = D) by (unfold D, cross, psub, px, py; cbn [fst snd]; ring) end. rewrite ED in IC.
  destruct IC as (s & S1 & S2 & _); try assumption; [now apply pbis_on|apply pbis_on; congruence|].
  destruct (formula_F L k n a b c q Hk Hn WA WB WC D1 EA EB QX QY ltac:(fold D; lra)) as (v & V1 & V2). fold D in V2.
  assert (E : @tri_circumcenter F (NumF L) a b c = Ok v) by (unfold tri_circumcenter; rewrite S1; cbn [bind]; rewrite S2; exact V1).
  exists v. split; [rewrite tri_cc; exact E|]. split; [exact E|exact V2].
Qed.

(** C159: the circumscribed circle *)
Theorem C159_circum_circle_F : forall (L : libm) (k n : Z) (a b c : vec F) (q : point), pow_square L -> (-200 <= k <= 200)%Z -> (k <= n <= 400)%Z -> within k a -> within k b -> within k c ->
  apart (fpt a) (fpt b) -> apart (fpt b) (fpt c) ->
  let D := cross (psub (fpt b) (fpt a)) (psub (fpt c) (fpt a)) in bpow radix2 (2 * k - 45) <= Rabs D -> 2 / 999999 <= Rabs D ->
  edist q (fpt a) = edist q (fpt b) -> edist q (fpt a) = edist q (fpt c) -> Rabs (px q) <= bpow radix2 n -> Rabs (py q) <= bpow radix2 n ->
  exists ci, @Circle2D_circum_circle F (NumF L) a b c = Ok ci /\ is_finite (c_radius ci) = true /\
    Rabs (px (fpt (c_center ci)) - px q) <= bpow radix2 (n + 2 * k - 44) / Rabs D /\ Rabs (py (fpt (c_center ci)) - py q) <= bpow radix2 (n + 2 * k - 44) / Rabs D /\
    Rabs (B2R (c_radius ci) - edist q (fpt a)) <= bpow radix2 (n + 2 * k - 42) / Rabs D.
Proof.
  intros L k n a b c q PW Hk Hn WA WB WC AB BC D D1 D2 EA EB QX QY.
  destruct (C159_circumcenter_F L k n a b c q Hk Hn WA WB WC AB BC D1 D2 EA EB QX QY) as (v & _ & V1 & V2 & V3 & V4 & V5 & V6). fold D in V5, V6.
  set (t := bpow radix2 (n + 2 * k - 44) / Rabs D) in *.
  assert (DU : Rabs D <= bpow radix2 (2 * k + 3)).
  { destruct WA as (A1 & A2 & A3 & A4), WB as (B1 & B2 & B3 & B4), WC as (C1 & C2 & C3 & C4).
    destruct (within_sub k _ _ ltac:(lia) B1 A1 B3 A3) as [_ Q1]. destruct (within_sub k _ _ ltac:(lia) B2 A2 B4 A4) as [_ Q2]. destruct (within_sub k _ _ ltac:(lia) C1 A1 C3 A3) as [_ Q3]. destruct (within_sub k _ _ ltac:(lia) C2 A2 C4 A4) as [_ Q4].
    unfold D, cross, psub, fpt, px, py. cbn [fst snd]. eapply sum_abs; [apply (mul_abs _ _ (k + 1) (k + 1)); eassumption|apply (mul_abs _ _ (k + 1) (k + 1)); eassumption|]. replace (2 * k + 3)%Z with (1 + (k + 1 + (k + 1)))%Z by lia. rewrite bp2. lra. }
  assert (PD : 0 < Rabs D) by lra. set (b0 := bpow radix2 (n - 47)).
  assert (TL : b0 <= t).
  { unfold t, b0. apply (Rmult_le_reg_r (Rabs D)); [exact PD|]. unfold Rdiv. rewrite Rmult_assoc, Rinv_l, Rmult_1_r by lra. apply Rle_trans with (bpow radix2 (n - 47) * bpow radix2 (2 * k + 3)); [apply Rmult_le_compat_l; [apply bpow_ge_0|exact DU]|]. rewrite <- bpow_plus. apply bpow_le. lia. }
  assert (TU : t <= 8 * bpow radix2 n).
  { unfold t. apply (Rmult_le_reg_r (Rabs D)); [exact PD|]. unfold Rdiv. rewrite Rmult_assoc, Rinv_l, Rmult_1_r by lra. apply Rle_trans with (8 * bpow radix2 n * bpow radix2 (2 * k - 45)); [|apply Rmult_le_compat_l; [pose proof (bpow_ge_0 radix2 n); lra|exact D1]].
    change 8 with (bpow radix2 3). rewrite <- !bpow_plus. apply bpow_le. lia. }
  assert (P0 : 0 < b0) by apply bpow_gt_0.
  assert (ED : edist (fpt v) q <= 2 * t) by (unfold edist, psub; apply norm_le; assumption).
  assert (DV := edist_triangle (fpt v) q (fpt a)). assert (DV' := edist_triangle q (fpt v) (fpt a)). rewrite (edist_sym q (fpt v)) in DV'.
  assert (RQ : edist q (fpt a) <= 4 * bpow radix2 n). { destruct WA as (A1 & A2 & A3 & A4). apply edist_box; try assumption; eapply Rle_trans; try eassumption; apply bpow_le; lia. }
  assert (RV : edist (fpt v) (fpt a) <= 20 * bpow radix2 n) by lra.
  destruct (dist2_pos L v a PW V3 V4 (proj1 WA) (proj1 (proj2 WA))) as (g & G1 & G2 & G3 & G4).
  { change (edist (fpt v) (fpt a) <= bpow radix2 500). eapply Rle_trans; [exact RV|]. apply Rle_trans with (bpow radix2 5 * bpow radix2 n); [change (bpow radix2 5) with 32; pose proof (bpow_ge_0 radix2 n); lra|]. rewrite <- bpow_plus. apply bpow_le. lia. }
  change (edist (pt (rvec v)) (pt (rvec a))) with (edist (fpt v) (fpt a)) in G4. assert (G5 := sqrt_acc _ _ G3 (edist_nonneg _ _) G4).
  destruct (F_root L g G2 G3) as (r & R1 & R2 & R3). rewrite <- R3 in G5.
  exists (@Circle2D_init F (NumF L) v r). split.
  { unfold Circle2D_circum_circle. rewrite V1. cbn [bind]. rewrite V2. cbn [negb]. unfold Vector2D_dist. rewrite G1. cbn [bind]. rewrite R1. reflexivity. }
  assert (T4 : bpow radix2 (n + 2 * k - 42) / Rabs D = 4 * t) by (unfold t; change 4 with (bpow radix2 2); unfold Rdiv; rewrite <- Rmult_assoc, <- bpow_plus; do 2 f_equal; lia). rewrite T4.
  assert (EE : bpow radix2 (-50) * edist (fpt v) (fpt a) <= b0 / 2 + t / 8).
  { assert (H : edist (fpt v) (fpt a) <= 4 * bpow radix2 n + 2 * t) by lra. apply Rle_trans with (bpow radix2 (-50) * (4 * bpow radix2 n + 2 * t)); [apply Rmult_le_compat_l; [apply bpow_ge_0|exact H]|].
    rewrite Rmult_plus_distr_l. apply Rplus_le_compat.
    - unfold b0. replace (n - 47)%Z with (3 + (-50 + n))%Z by lia. rewrite (bpow_plus radix2 3), (bpow_plus radix2 (-50)). change (bpow radix2 3) with 8. lra.
    - change (bpow radix2 (-50)) with (/ 1125899906842624). lra. }
  assert (EZ : bpow radix2 (-490) <= b0 / 8). { apply Rle_trans with (bpow radix2 (-3 + (n - 47))); [apply bpow_le; lia|]. rewrite bpow_plus. fold b0. change (bpow radix2 (-3)) with (/ 8). lra. }
  unfold Circle2D_init. cbn [c_radius c_center].
  assert (RN : @nltb F (NumF L) r (@nlit F (NumF L) 0 1) = false). { destruct (F_of_Z_exact 0 eq_refl) as [Z1 Z2]. cbn [nltb NumF]. rewrite num0_F, ltb_F by assumption. apply Rlt_bool_false. rewrite Z1, R3. apply rnd_nonneg, sqrt_pos. }
  rewrite RN. split; [exact R2|]. split; [exact V5|]. split; [exact V6|].
  apply Rabs_le_inv in G5. apply Rabs_le. lra.
Qed.

(** C159: nearly collinear corners have no circumcenter and the circle is the
    empty default one *)
Theorem C159_collinear_F : forall (L : libm) (k : Z) (a b c : vec F), (-200 <= k <= 200)%Z -> within k a -> within k b -> within k c ->
  apart (fpt a) (fpt b) -> apart (fpt b) (fpt c) -> apart (fpt c) (fpt a) ->
  Rabs (cross (psub (fpt b) (fpt a)) (psub (fpt c) (fpt a))) + bpow radix2 (2 * k - 49) < 1 / 10000000001 ->
  @Triangle2D_circumcenter F (NumF L) (Triangle2D_of_points a b c) = Ok (@Vector2D_invalid F (NumF L)) /\ @Circle2D_circum_circle F (NumF L) a b c = Ok (@Circle2D_default F (NumF L)).
Proof.
  intros L k a b c Hk WA WB WC AB BC CA S. set (D := cross _ _) in S.
  assert (X := lclose_pbis L k a b Hk WA WB AB). assert (Y := lclose_pbis L k b c Hk WB WC BC). assert (Z := lclose_pbis L k c a Hk WC WA CA).
  destruct (eps_F L) as [F1 F2]. destruct (ten_lit L) as [F3 F4].
  assert (I : forall l1 l2 A1 B1 C1 A2 B2 C2, lclose k A1 B1 C1 l1 -> lclose k A2 B2 C2 l2 -> Rabs (A1 * B2 - B1 * A2) = Rabs D -> @Line2D_intersection F (NumF L) l1 l2 = Ok (@Vector2D_invalid F (NumF L))).
  { intros l1 l2 A1 B1 C1 A2 B2 C2 U V E. assert (DD := inter_det L k l1 l2 _ _ _ _ _ _ Hk U V). unfold Line2D_intersection. set (tmp := @nsub F (NumF L) _ _) in *. destruct DD as (T1 & T2 & T3).
    assert (E0 : @nltb F (NumF L) (@nabs F (NumF L) tmp) (@EPSILON F (NumF L)) = true); [|now rewrite E0].
    cbn [nltb nabs NumF]. rewrite ltb_F by (rewrite ?is_finite_Babs; assumption). rewrite B2R_Babs. apply Rlt_bool_true. set (d := A1 * B2 - B1 * A2) in *.
    pose proof (Rabs_triang (B2R tmp - d) d) as T. replace (B2R tmp - d + d) with (B2R tmp) in T by ring. lra. }
  assert (I1 := I _ _ _ _ _ _ _ _ X Y). assert (I2 := I _ _ _ _ _ _ _ _ X Z). assert (I3 := I _ _ _ _ _ _ _ _ Y Z).
  assert (CD := cc_det L k a b c Hk WA WB WC). fold D in CD.
  assert (E : @tri_circumcenter F (NumF L) a b c = Ok (@Vector2D_invalid F (NumF L))).
  { unfold tri_circumcenter. rewrite I1 by (f_equal; unfold D, cross, psub, px, py; cbn [fst snd]; ring). cbn [bind]. change (v_valid (@Vector2D_invalid F (NumF L))) with false. cbn [negb].
    rewrite I2 by (rewrite <- Rabs_Ropp; f_equal; unfold D, cross, psub, px, py; cbn [fst snd]; ring). cbn [bind]. change (v_valid (@Vector2D_invalid F (NumF L))) with false. cbv iota.
    rewrite I3 by (f_equal; unfold D, cross, psub, px, py; cbn [fst snd]; ring). cbn [bind]. change (v_valid (@Vector2D_invalid F (NumF L))) with false. cbv iota.
    unfold tri_circumcenter_formula. set (tmp := @Vector2D_outer_product F (NumF L) _ _) in *. destruct CD as (T1 & T2 & T3).
    assert (E0 : @nltb F (NumF L) (@nabs F (NumF L) tmp) (@nlit F (NumF L) 1 10000000000) = true); [|now rewrite E0].
    cbn [nltb nabs NumF]. rewrite ltb_F by (rewrite ?is_finite_Babs; assumption). rewrite B2R_Babs. apply Rlt_bool_true.
    pose proof (Rabs_triang (B2R tmp - D) D) as T. replace (B2R tmp - D + D) with (B2R tmp) in T by ring. lra. }
  split; [rewrite tri_cc; exact E|]. unfold Circle2D_circum_circle. rewrite E. reflexivity.
Qed.

(** ** Is a point inside the circumscribed circle? *)
Lemma within_add k x y : (-500 <= k <= 480)%Z -> is_finite x = true -> is_finite y = true -> Rabs (B2R x) <= bpow radix2 k -> Rabs (B2R y) <= bpow radix2 k ->
  close (k + 1) (bpow radix2 (k - 53)) (B2R x + B2R y) (Bplus mode_NE x y) /\ Rabs (B2R x + B2R y) <= bpow radix2 (k + 1).
Proof.
  intros Hk X Y BX BY. split.
  - eapply close_weaken; [|apply close_add; [lia|apply (close_exact k); assumption|apply (close_exact k); assumption]]. replace (k + 1 - 54)%Z with (k - 53)%Z by lia. lra.
  - rewrite Z.add_comm, bp2. apply Rabs_le. apply Rabs_le_inv in BX, BY. lra.
Qed.
Lemma avg_close k (a b : vec F) : (-200 <= k <= 200)%Z -> within k a -> within k b ->
  let M := (B2R (vx b) - B2R (vx a)) * (B2R (vx a) + B2R (vx b)) + (B2R (vy b) - B2R (vy a)) * (B2R (vy a) + B2R (vy b)) in
  close (2 * k + 3) (bpow radix2 (2 * k - 49)) M (Bplus mode_NE (Bmult mode_NE (Bminus mode_NE (vx b) (vx a)) (Bplus mode_NE (vx a) (vx b))) (Bmult mode_NE (Bminus mode_NE (vy b) (vy a)) (Bplus mode_NE (vy a) (vy b)))) /\ Rabs M <= bpow radix2 (2 * k + 3).
Proof.
  intros Hk (A1 & A2 & A3 & A4) (B1 & B2 & B3 & B4) M.
  destruct (within_sub k _ _ ltac:(lia) B1 A1 B3 A3) as [P1 Q1]. destruct (within_sub k _ _ ltac:(lia) B2 A2 B4 A4) as [P2 Q2]. destruct (within_add k _ _ ltac:(lia) A1 B1 A3 B3) as [P3 Q3]. destruct (within_add k _ _ ltac:(lia) A2 B2 A4 B4) as [P4 Q4].
  pose proof (within_prod k _ _ _ _ ltac:(lia) Q1 P1 P3) as M1. pose proof (within_prod k _ _ _ _ ltac:(lia) Q2 P2 P4) as M2.
  assert (S := close_add (2 * k + 2) _ _ _ _ _ _ ltac:(lia) M1 M2). split.
  - replace (2 * k + 3)%Z with (2 * k + 2 + 1)%Z by lia. refine (close_weaken _ _ _ _ _ _ S).
    replace (2 * k + 2 + 1 - 54)%Z with (1 + (2 * k - 52))%Z by lia. replace (2 * k - 49)%Z with (1 + (1 + (1 + (2 * k - 52))))%Z by lia. rewrite !bp2. pose proof (bpow_ge_0 radix2 (2 * k - 52)). lra.
  - unfold M. assert (X := mul_abs _ _ _ _ Q1 Q3). assert (Y := mul_abs _ _ _ _ Q2 Q4). replace (2 * k + 3)%Z with (1 + (k + 1 + (k + 1)))%Z by lia. rewrite bp2. apply Rabs_le_inv in X, Y. apply Rabs_le. lra.
Qed.
Lemma eps2_F L : is_finite (@nmul F (NumF L) (@EPSILON F (NumF L)) (@EPSILON F (NumF L))) = true /\ 99 / 100000000000000 <= B2R (@nmul F (NumF L) (@EPSILON F (NumF L)) (@EPSILON F (NumF L))) <= 101 / 100000000000000.
Proof. split; [vm_compute; reflexivity|vm_compute; lra]. Qed.
(** C159: with S the difference of the squared distances from the circumcenter *)
Theorem C159_contains_F : forall (L : libm) (k n : Z) (p a b c : vec F) (q : point), pow_accurate L -> (-200 <= k <= 200)%Z -> (Z.max k 0 <= n <= 400)%Z -> within k p -> within k a -> within k b -> within k c ->
  let D := cross (psub (fpt b) (fpt a)) (psub (fpt c) (fpt a)) in bpow radix2 (2 * k - 45) <= Rabs D -> 1 / 9999999999 <= Rabs D ->
  edist q (fpt a) = edist q (fpt b) -> edist q (fpt a) = edist q (fpt c) -> Rabs (px q) <= bpow radix2 n -> Rabs (py q) <= bpow radix2 n ->
  let M := bpow radix2 (n + 3 * k - 42) / Rabs D + bpow radix2 (2 * n - 44) in
  exists r, @Circle2D_circum_circle_contains F (NumF L) p a b c = Ok r /\
    (norm2 (psub q (fpt p)) + M + 101 / 100000000000000 < norm2 (psub q (fpt a)) -> r = true) /\ (norm2 (psub q (fpt a)) + M - 99 / 100000000000000 < norm2 (psub q (fpt p)) -> r = false).
Proof.
  intros L k n p a b c q PA Hk Hn WP WA WB WC D D1 D2 EA EB QX QY M.
  assert (NA := equi q _ _ EA). assert (NC := equi q _ _ EB). destruct (avg_close k a b Hk WA WB) as [G1 G2]. destruct (avg_close k a c Hk WA WC) as [H1 H2].
  destruct WA as (A1 & A2 & A3 & A4), WB as (B1 & B2 & B3 & B4), WC as (C1 & C2 & C3 & C4).
  destruct (within_sub k _ _ ltac:(lia) B1 A1 B3 A3) as [P1 Q1]. destruct (within_sub k _ _ ltac:(lia) B2 A2 B4 A4) as [P2 Q2]. destruct (within_sub k _ _ ltac:(lia) C1 A1 C3 A3) as [P3 Q3]. destruct (within_sub k _ _ ltac:(lia) C2 A2 C4 A4) as [P4 Q4].
  destruct (within_sub k _ _ ltac:(lia) C1 B1 C3 B3) as [P5 Q5]. destruct (within_sub k _ _ ltac:(lia) C2 B2 C4 B4) as [P6 Q6].
  assert (NX := cc_num k _ _ _ _ _ _ _ _ Hk G2 H2 G1 H1 P4 P2). assert (NY := cc_num k _ _ _ _ _ _ _ _ Hk H2 G2 H1 G1 P1 P3).
  rewrite (Bmult_comm _ (Bminus mode_NE (vy c) (vy a))), (Bmult_comm _ (Bminus mode_NE (vy b) (vy a))) in NX. rewrite (Bmult_comm _ (Bminus mode_NE (vx c) (vx a))), (Bmult_comm _ (Bminus mode_NE (vx b) (vx a))) in NY.
  destruct NX as (NX1 & _ & NX3). destruct NY as (NY1 & _ & NY3).
  set (e := bpow radix2 (2 * k - 52)). assert (PE : 0 < e) by apply bpow_gt_0. set (bn := bpow radix2 n) in *. assert (PB : 0 < bn) by apply bpow_gt_0.
  assert (EL : bpow radix2 (2 * k - 45) = 128 * e) by (replace (2 * k - 45)%Z with (7 + (2 * k - 52))%Z by lia; now rewrite bpow_plus). rewrite EL in D1.
  assert (DD : close (2 * k + 4) (20 * e) (2 * D) (@nmul F (NumF L) (F_of_Z 2) (@nsub F (NumF L) (@nmul F (NumF L) (@nsub F (NumF L) (vx b) (vx a)) (@nsub F (NumF L) (vy c) (vy b))) (@nmul F (NumF L) (@nsub F (NumF L) (vy b) (vy a)) (@nsub F (NumF L) (vx c) (vx b)))))).
  { cbn [nmul nsub NumF]. assert (X := within_prod k _ _ _ _ ltac:(lia) Q1 P1 P6). assert (Y := within_prod k _ _ _ _ ltac:(lia) Q2 P2 P5).
    assert (S := close_sub (2 * k + 2) _ _ _ _ _ _ ltac:(lia) X Y). destruct (F_of_Z_exact 2 eq_refl) as [Z1 Z2].
    assert (T2 : close 1 0 (B2R (F_of_Z 2)) (F_of_Z 2)) by (apply close_exact; [exact Z2|rewrite Z1; change (bpow radix2 1) with 2; rewrite Rabs_pos_eq; lra]). rewrite Z1 in T2.
    assert (TB2 : Rabs 2 <= bpow radix2 1) by (change (bpow radix2 1) with 2; rewrite Rabs_pos_eq; lra). assert (R := close_mul 1 (2 * k + 2 + 1) _ _ _ _ _ _ ltac:(lia) TB2 T2 S).
    replace (2 * k + 4)%Z with (1 + (2 * k + 2 + 1))%Z by lia. replace (2 * D) with (2 * ((B2R (vx b) - B2R (vx a)) * (B2R (vy c) - B2R (vy b)) - (B2R (vy b) - B2R (vy a)) * (B2R (vx c) - B2R (vx b)))) by (unfold D, cross, psub, fpt, px, py; cbn [fst snd]; ring).
    refine (close_weaken _ _ _ _ _ _ R). fold e. replace (1 + (2 * k + 2 + 1) - 54)%Z with (2 + (2 * k - 52))%Z by lia. replace (2 * k + 2 + 1 - 54)%Z with (1 + (2 * k - 52))%Z by lia. rewrite !(bpow_plus radix2 _ (2 * k - 52)). fold e. change (bpow radix2 2) with 4. change (bpow radix2 1) with 2. lra. }
  assert (DU : Rabs D <= 32 * 1 * (e * bpow radix2 50)).
  { unfold D, cross, psub, fpt, px, py. cbn [fst snd]. eapply sum_abs; [apply (mul_abs _ _ (k + 1) (k + 1)); eassumption|apply (mul_abs _ _ (k + 1) (k + 1)); eassumption|]. unfold e. rewrite <- bpow_plus.
    replace (k + 1 + (k + 1))%Z with (4 + (2 * k - 52 + 50))%Z by lia. rewrite (bpow_plus radix2 4). change (bpow radix2 4) with 16. lra. }
  assert (A2D : Rabs (2 * D) = 2 * Rabs D) by (rewrite Rabs_mult, (Rabs_pos_eq 2); lra).
  unfold Circle2D_circum_circle_contains. change (@nlit F (NumF L) 2 1) with (F_of_Z 2). set (area := @nmul F (NumF L) (F_of_Z 2) _) in *. destruct DD as (T1 & T2 & T3).
  assert (AT : Rabs D <= Rabs (B2R area)). { pose proof (Rabs_triang (B2R area) (2 * D - B2R area)) as T. replace (B2R area + (2 * D - B2R area)) with (2 * D) in T by ring. rewrite (Rabs_minus_sym (2 * D)), A2D in T. lra. }
  destruct (ten_lit L) as [F1 F2].
  assert (E0 : @nltb F (NumF L) (@nabs F (NumF L) area) (@nlit F (NumF L) 1 10000000000) = false).
  { cbn [nltb nabs NumF]. rewrite ltb_F by (rewrite ?is_finite_Babs; assumption). rewrite B2R_Babs. apply Rlt_bool_false. lra. }
  rewrite E0.
  assert (PK : bpow radix2 k <= bn) by (apply bpow_le; lia). assert (E3 : bpow radix2 (3 * k - 52) <= bn * e) by (unfold bn, e; rewrite <- bpow_plus; apply bpow_le; lia).
  assert (PBE : 0 < bn * e) by (apply Rmult_lt_0_compat; assumption). assert (BE : bn * (128 * e) <= bn * Rabs D) by (apply Rmult_le_compat_l; lra). assert (PD : 0 < Rabs D) by lra.
  assert (SA : (B2R (vx b) - B2R (vx a)) * (B2R (vx a) + B2R (vx b)) + (B2R (vy b) - B2R (vy a)) * (B2R (vy a) + B2R (vy b)) = 2 * (px q * (B2R (vx b) - B2R (vx a)) + py q * (B2R (vy b) - B2R (vy a)))) by (unfold norm2, psub, fpt, px, py in NA |- *; cbn [fst snd] in NA |- *; lra).
  assert (SC : (B2R (vx c) - B2R (vx a)) * (B2R (vx a) + B2R (vx c)) + (B2R (vy c) - B2R (vy a)) * (B2R (vy a) + B2R (vy c)) = 2 * (px q * (B2R (vx c) - B2R (vx a)) + py q * (B2R (vy c) - B2R (vy a)))) by (unfold norm2, psub, fpt, px, py in NC |- *; cbn [fst snd] in NC |- *; lra).
  rewrite SA, SC in NX3, NY3.
  destruct (quot_close n (56 * bpow radix2 (3 * k - 52)) (20 * e) _ (2 * D) (px q) _ area ltac:(lia) NX1 T1 NX3 T3) as (x & U1 & U2 & U3 & _); fold bn; rewrite ?A2D; try assumption; try lra.
  { unfold D, cross, psub, fpt, px, py. cbn [fst snd]. ring. }
  destruct (quot_close n (56 * bpow radix2 (3 * k - 52)) (20 * e) _ (2 * D) (py q) _ area ltac:(lia) NY1 T1 NY3 T3) as (y & W1 & W2 & W3 & _); fold bn; rewrite ?A2D; try assumption; try lra.
  { unfold D, cross, psub, fpt, px, py. cbn [fst snd]. ring. }
  cbn [ndiv nsub nmul nadd NumF]. rewrite U1. cbn [bind]. rewrite W1. cbn [bind]. set (v := V x y).
  set (t := bpow radix2 (n + 2 * k - 45) / Rabs D).
  assert (FIN : forall z r : R, Rabs (z - r) <= 2 * (56 * bpow radix2 (3 * k - 52) + bpow radix2 n * (20 * e)) / Rabs (2 * D) + bpow radix2 (n - 53) -> Rabs (z - r) <= t).
  { intros z r H. eapply Rle_trans; [exact H|]. unfold t. replace (bpow radix2 (n + 2 * k - 45)) with (bn * (128 * e)) by (rewrite <- EL; unfold bn; rewrite <- bpow_plus; f_equal; lia). rewrite A2D. fold bn.
    apply (Rmult_le_reg_r (Rabs D)); [exact PD|]. rewrite Rmult_plus_distr_r. replace (2 * (56 * bpow radix2 (3 * k - 52) + bn * (20 * e)) / (2 * Rabs D) * Rabs D) with (56 * bpow radix2 (3 * k - 52) + bn * (20 * e)) by (field; lra). unfold Rdiv. rewrite (Rmult_assoc _ (/ Rabs D) (Rabs D)), Rinv_l, Rmult_1_r by lra.
    assert (S : bpow radix2 (n - 53) * Rabs D <= 4 * (bn * e)).
    { replace (n - 53)%Z with (n + -53)%Z by lia. rewrite bpow_plus. fold bn. rewrite Rmult_assoc, <- Rmult_assoc, (Rmult_comm 4), !Rmult_assoc. apply Rmult_le_compat_l; [lra|].
      change (bpow radix2 50) with 1125899906842624 in DU. change (bpow radix2 (-53)) with (/ 9007199254740992). lra. }
    clear - E3 S PBE. lra. }
  apply FIN in U3, W3. clear FIN.
  assert (TU : t <= bn). { unfold t. apply (Rmult_le_reg_r (Rabs D)); [exact PD|]. unfold Rdiv. rewrite Rmult_assoc, Rinv_l, Rmult_1_r by lra. replace (n + 2 * k - 45)%Z with (n + (2 * k - 45))%Z by lia. rewrite bpow_plus, EL. exact BE. }
  assert (ED : edist (fpt v) q <= 2 * t) by (unfold edist, psub; apply norm_le; assumption).
  assert (RD : forall w : vec F, within k w -> exists g, @Vector2D_dist2 F (NumF L) v w = Ok g /\ is_finite g = true /\ Rabs (B2R g - norm2 (psub (fpt v) (fpt w))) <= 217 * (u * (bn * bn)) /\ 0 <= norm2 (psub (fpt v) (fpt w)) <= 36 * (bn * bn)).
  { intros w (X1 & X2 & X3 & X4). assert (TR := edist_triangle (fpt v) q (fpt w)).
    assert (RQ : edist q (fpt w) <= 4 * bn) by (apply edist_box; try assumption; eapply Rle_trans; try eassumption).
    assert (R6 : edist (fpt v) (fpt w) <= 6 * bn) by lra. assert (R0 := edist_nonneg (fpt v) (fpt w)).
    destruct (dist2_abs L v w PA U2 W2 X1 X2) as (g & I1 & I2 & I3).
    { change (edist (fpt v) (fpt w) <= bpow radix2 500). apply (Rle_trans _ _ _ R6). apply Rle_trans with (bpow radix2 3 * bn); [change (bpow radix2 3) with 8; lra|]. unfold bn. rewrite <- bpow_plus. apply bpow_le. lia. }
    change (edist (pt (rvec v)) (pt (rvec w))) with (edist (fpt v) (fpt w)) in I3. assert (SS : edist (fpt v) (fpt w) * edist (fpt v) (fpt w) = norm2 (psub (fpt v) (fpt w))) by (unfold edist, norm; apply sqrt_sqrt, norm2_nonneg).
    assert (S36 : edist (fpt v) (fpt w) * edist (fpt v) (fpt w) <= 6 * bn * (6 * bn)) by (apply Rmult_le_compat; assumption). rewrite SS in I3, S36.
    exists g. split; [exact I1|]. split; [exact I2|]. split; [|split; [apply norm2_nonneg|lra]]. eapply Rle_trans; [exact I3|]. pose proof u_pos.
    assert (6 * u * norm2 (psub (fpt v) (fpt w)) <= 6 * u * (6 * bn * (6 * bn))) by (apply Rmult_le_compat_l; lra). assert (bpow radix2 (-1070) <= u * (bn * bn)) by (unfold bn; rewrite <- !bpow_plus; apply bpow_le; lia). lra. }
  assert (WA' : within k a) by (repeat split; assumption). destruct (RD p WP) as (g & I1 & I2 & I3 & I4). destruct (RD a WA') as (g0 & J1 & J2 & J3 & J4). rewrite I1. cbn [bind]. rewrite J1. cbn [bind]. clear RD.
  eexists. split; [reflexivity|]. destruct (eps2_F L) as [X1 X2]. cbn [nmul NumF] in X1, X2. set (c2 := Bmult mode_NE (@EPSILON F (NumF L)) (@EPSILON F (NumF L))) in *.
  set (m := bn * bn) in *. assert (PM : 1 <= m). { unfold m, bn. rewrite <- bpow_plus. change 1 with (bpow radix2 0). apply bpow_le. lia. } pose proof u_pos as UP.
  assert (UM : 217 * (u * m) <= m). { rewrite <- Rmult_assoc. rewrite <- (Rmult_1_l m) at 2. apply Rmult_le_compat_r; lra. }
  assert (B0 : Rabs (B2R g0 - B2R c2) <= bpow radix2 (2 * n + 6)). { replace (2 * n + 6)%Z with (6 + (n + n))%Z by lia. rewrite !bpow_plus. fold bn. fold m. change (bpow radix2 6) with 64. apply Rabs_le_inv in J3. apply Rabs_le. lra. }
  destruct (rnd_err _ (2 * n + 6) ltac:(lia) B0) as [R1 R2]. destruct (F_sub g0 c2 J2 X1) as [S1 S2]; [apply (finite_lt (2 * n + 6)); [lia|exact R2]|].
  cbn [nltb NumF]. rewrite ltb_F by assumption. rewrite S1.
  assert (R1' : bpow radix2 (2 * n + 6 - 54) = 32 * (u * m)) by (unfold m, bn; rewrite <- !bpow_plus; change 32 with (bpow radix2 5); rewrite <- bpow_plus; f_equal; lia). rewrite R1' in R1.
  assert (M0 : bpow radix2 (2 * n - 44) = 512 * (u * m)) by (unfold m, bn; rewrite <- !bpow_plus; change 512 with (bpow radix2 9); rewrite <- bpow_plus; f_equal; lia).
  assert (M1 : bpow radix2 (n + 3 * k - 42) / Rabs D = 8 * (bpow radix2 k * t)). { unfold t. change 8 with (bpow radix2 3). unfold Rdiv. rewrite <- !Rmult_assoc, <- !bpow_plus. do 2 f_equal. lia. }
  assert (LIN : Rabs ((norm2 (psub (fpt v) (fpt p)) - norm2 (psub (fpt v) (fpt a))) - (norm2 (psub q (fpt p)) - norm2 (psub q (fpt a)))) <= 8 * (bpow radix2 k * t)).
  { replace ((norm2 (psub (fpt v) (fpt p)) - norm2 (psub (fpt v) (fpt a))) - (norm2 (psub q (fpt p)) - norm2 (psub q (fpt a)))) with (2 * ((px (fpt v) - px q) * (px (fpt a) - px (fpt p)) + (py (fpt v) - py q) * (py (fpt a) - py (fpt p)))) by (unfold norm2, psub, px, py; cbn [fst snd]; ring).
    destruct WP as (Y1 & Y2 & Y3 & Y4). assert (K1 : Rabs (px (fpt a) - px (fpt p)) <= 2 * bpow radix2 k) by (unfold fpt, px; cbn [fst]; eapply sum_abs; [exact A3|exact Y3|lra]). assert (K2 : Rabs (py (fpt a) - py (fpt p)) <= 2 * bpow radix2 k) by (unfold fpt, py; cbn [snd]; eapply sum_abs; [exact A4|exact Y4|lra]).
    rewrite Rabs_mult, (Rabs_pos_eq 2) by lra. eapply Rle_trans; [apply Rmult_le_compat_l; [lra|apply Rabs_triang]|]. rewrite !Rabs_mult.
    assert (Z1 : Rabs (px (fpt v) - px q) * Rabs (px (fpt a) - px (fpt p)) <= t * (2 * bpow radix2 k)) by (apply Rmult_le_compat; try apply Rabs_pos; [exact U3|exact K1]).
    assert (Z2 : Rabs (py (fpt v) - py q) * Rabs (py (fpt a) - py (fpt p)) <= t * (2 * bpow radix2 k)) by (apply Rmult_le_compat; try apply Rabs_pos; [exact W3|exact K2]). lra. }
  unfold M. rewrite M0, M1. assert (PUM : 0 < u * m) by (apply Rmult_lt_0_compat; lra). apply Rabs_le_inv in I3, J3, R1, LIN.
  split; intros H; [apply Rlt_bool_true|apply Rlt_bool_false]; lra.
Qed.

(** The 6-8-10 triangle with a corner moved by 2^-60, and three corners in line. *)
Example C159_nonvacuous :
  let tiny : F := @B754_finite 53 1024 false 4503599627370496 (-112) eq_refl in
  let a : vec F := mkVec tiny (F_of_Z 0) true in let b := fv 6 0 in let c := mkVec tiny (F_of_Z 8) true in let q := ((px (fpt a) + 6) / 2, 4) in
  pow_square libm_sq /\ within 4 a /\ within 4 b /\ within 4 c /\ apart (fpt a) (fpt b) /\ apart (fpt b) (fpt c) /\ 40 <= cross (psub (fpt b) (fpt a)) (psub (fpt c) (fpt a)) /\
  edist q (fpt a) = edist q (fpt b) /\ edist q (fpt a) = edist q (fpt c) /\ Rabs (px q) <= bpow radix2 4 /\ Rabs (py q) <= bpow radix2 4 /\
  cross (psub (fpt (fv 1 1)) (fpt (fv 0 0))) (psub (fpt (fv 2 2)) (fpt (fv 0 0))) = 0 /\ apart (fpt (fv 0 0)) (fpt (fv 1 1)) /\
  within 4 (fv 3 3) /\ norm2 (psub q (fpt (fv 3 3))) + 1 < norm2 (psub q (fpt a)) /\ bpow radix2 (4 + 3 * 4 - 42) / 40 + bpow radix2 (2 * 4 - 44) <= 1 / 2.
Proof.
  intros tiny a b c q. split; [exact pow_square_sq|].
  destruct (F_of_Z_exact 0 eq_refl) as [Z0 Y0]. destruct (F_of_Z_exact 6 eq_refl) as [Z6 Y6]. destruct (F_of_Z_exact 8 eq_refl) as [Z8 Y8]. destruct (F_of_Z_exact 1 eq_refl) as [Z1 _]. destruct (F_of_Z_exact 2 eq_refl) as [Z2 _]. destruct (F_of_Z_exact 3 eq_refl) as [Z3 Y3].
  assert (TV : B2R tiny = bpow radix2 (-60)). { unfold tiny. cbn [B2R cond_Zopp]. unfold F2R; cbn [Fnum Fexp]. change (IZR 4503599627370496) with (bpow radix2 52). rewrite <- bpow_plus. reflexivity. }
  assert (T : 0 < B2R tiny <= 1 / 1000). { rewrite TV. split; [apply bpow_gt_0|]. change (bpow radix2 (-60)) with (/ 1152921504606846976). lra. } clear TV. assert (B4 : bpow radix2 4 = 16) by reflexivity. assert (TF : is_finite tiny = true) by reflexivity. clearbody tiny.
  unfold within, apart, cross, q, a, b, c, fv, fpt, px, py, psub. cbn [fst snd vx vy]. rewrite Z0, Z6, Z8, Z1, Z2, Z3, B4. unfold edist, norm, norm2, psub, px, py. cbn [fst snd].
  split; [repeat split; try assumption; apply Rabs_le; lra|]. split; [repeat split; try assumption; apply Rabs_le; lra|]. split; [repeat split; try assumption; apply Rabs_le; lra|].
  split; [left; rewrite Rabs_pos_eq; lra|]. split; [right; rewrite Rabs_pos_eq; lra|]. split; [lra|]. split; [f_equal; field|]. split; [f_equal; field|]. split; [apply Rabs_le; lra|]. split; [apply Rabs_le; lra|]. split; [ring|]. split; [left; rewrite Rabs_pos_eq; lra|].
  split; [repeat split; try assumption; apply Rabs_le; lra|]. set (z := B2R tiny) in *. clearbody z. split; [nra|].
  change (bpow radix2 (4 + 3 * 4 - 42)) with (/ 67108864). change (bpow radix2 (2 * 4 - 44)) with (/ 68719476736). lra.
Qed.
