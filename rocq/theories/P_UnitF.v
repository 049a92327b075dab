(** * P_UnitF: changing the unit of length by a power of two (C199) *)
From Coq Require Import ZArith List Bool String Reals Lra Lia.
From Flocq Require Import Core BinarySingleNaN.
From Verif Require Import Base Types NumR NumF R_Tac Spec Abs M_Angle M_Vector M_Line M_Ray M_Triangle M_Segment M_Circle M_Sector M_Rect M_Polygon L_Float P_Float P_VecF P_RectF.
Import ListNotations.
Local Open Scope R_scope.

(** ** Specification *)
(** A coordinate between 2^-180 and 2^180 in size, all its bits above 2^-180, or zero. *)
Definition usual (x : F) : Prop := is_finite x = true /\ Rabs (B2R x) <= bpow radix2 180 /\ exists n : Z, B2R x = IZR n * bpow radix2 (-180).
(** [y] is [x] in a unit 2^-j times as long *)
Definition times2 (j : Z) (x y : F) : Prop := is_finite x = true /\ is_finite y = true /\ B2R y = B2R x * bpow radix2 j.
(** two points with the same position, measured in the two units *)
Definition same_point (j : Z) (v w : vec F) : Prop :=
  (usual (vx v) /\ usual (vy v)) /\ (usual (vx w) /\ usual (vy w)) /\ times2 j (vx v) (vx w) /\ times2 j (vy v) (vy w).

(** ** Rounding and powers of two *)
Lemma flx_scale r j : r <> 0 -> round radix2 (FLX_exp 53) ZnearestE (r * bpow radix2 j) = round radix2 (FLX_exp 53) ZnearestE r * bpow radix2 j.
Proof.
  intros H. unfold round, scaled_mantissa, cexp, FLX_exp. rewrite mag_mult_bpow by exact H. unfold F2R. cbn [Fnum Fexp].
  replace (mag radix2 r + j - 53)%Z with (mag radix2 r - 53 + j)%Z by lia.
  replace (r * bpow radix2 j * bpow radix2 (- (mag radix2 r - 53 + j))) with (r * bpow radix2 (- (mag radix2 r - 53))).
  - rewrite (bpow_plus radix2 (mag radix2 r - 53) j). ring.
  - rewrite Rmult_assoc, <- bpow_plus. f_equal. f_equal. lia.
Qed.
Lemma rnd_scale r j : r = 0 \/ (bpow radix2 (-1022) <= Rabs r /\ bpow radix2 (-1022) <= Rabs (r * bpow radix2 j)) -> rnd64 (r * bpow radix2 j) = rnd64 r * bpow radix2 j.
Proof.
  unfold rnd64. intros [-> |[H1 H2]]; [rewrite Rmult_0_l, round_0 by apply valid_rnd_N; ring|].
  assert (NZ : r <> 0). { intros ->. rewrite Rabs_R0 in H1. pose proof (bpow_gt_0 radix2 (-1022)). lra. }
  rewrite !round_FLT_FLX by assumption. now apply flx_scale.
Qed.
Lemma rnd_multiple e r : (-1074 <= e)%Z -> (exists n, r = IZR n * bpow radix2 e) -> exists n, rnd64 r = IZR n * bpow radix2 e.
Proof.
  intros He [n Hn]. unfold rnd64. destruct (Z_le_gt_dec e (cexp radix2 (FLT_exp (-1074) 53) r)) as [L|L].
  - unfold round, F2R. cbn [Fnum Fexp]. set (c := cexp _ _ _) in *. exists (ZnearestE (scaled_mantissa radix2 (FLT_exp (-1074) 53) r) * 2 ^ (c - e))%Z.
    rewrite mult_IZR. change 2%Z with (radix_val radix2). rewrite IZR_Zpower by lia. rewrite Rmult_assoc, <- bpow_plus. f_equal. f_equal. lia.
  - exists n. rewrite round_generic; [exact Hn|apply valid_rnd_N|]. apply (generic_format_F2R' _ _ _ (Float radix2 n e)); [unfold F2R; cbn; auto|]. cbn [Fexp]. lia.
Qed.
Lemma multiple_low e r : (exists n, r = IZR n * bpow radix2 e) -> r = 0 \/ bpow radix2 e <= Rabs r.
Proof.
  intros [n ->]. destruct (Z.eq_dec n 0) as [->|N]; [left; ring|right]. rewrite Rabs_mult, (Rabs_pos_eq (bpow _ _)) by apply bpow_ge_0.
  rewrite <- (Rmult_1_l (bpow radix2 e)) at 1. apply Rmult_le_compat_r; [apply bpow_ge_0|]. rewrite <- abs_IZR. apply IZR_le. lia.
Qed.
(** a double of size at least 2^e is a multiple of 2^(e-52) *)
Lemma fmt_multiple e r : (-1022 <= e)%Z -> fmt64 r -> r = 0 \/ bpow radix2 e <= Rabs r -> exists n, r = IZR n * bpow radix2 (e - 52).
Proof.
  intros He Fm [-> |H]; [exists 0%Z; ring|]. unfold fmt64, generic_format in Fm. unfold F2R in Fm. cbn [Fnum Fexp] in Fm.
  set (m := Ztrunc _) in Fm. set (c := cexp _ _ _) in Fm.
  assert (C : (e - 52 <= c)%Z). { unfold c, cexp, FLT_exp. pose proof (mag_ge_bpow radix2 r (e + 1)). replace (e + 1 - 1)%Z with e in H0 by lia. specialize (H0 H). lia. }
  exists (m * 2 ^ (c - (e - 52)))%Z. rewrite mult_IZR. change 2%Z with (radix_val radix2). rewrite IZR_Zpower by lia. rewrite Rmult_assoc, <- bpow_plus. rewrite Fm at 1. f_equal. f_equal. lia.
Qed.
Lemma multiple_weak e e' r : (e' <= e)%Z -> (exists n, r = IZR n * bpow radix2 e) -> exists n, r = IZR n * bpow radix2 e'.
Proof. intros H [n ->]. exists (n * 2 ^ (e - e'))%Z. rewrite mult_IZR. change 2%Z with (radix_val radix2). rewrite IZR_Zpower by lia. rewrite Rmult_assoc, <- bpow_plus. f_equal. f_equal. lia. Qed.
Lemma fmt_bpow e : (-1074 <= e)%Z -> fmt64 (bpow radix2 e).
Proof. intros H. apply generic_format_bpow. unfold FLT_exp. lia. Qed.
Lemma rnd_up r m : (-1074 <= m)%Z -> Rabs r <= bpow radix2 m -> Rabs (rnd64 r) <= bpow radix2 m.
Proof. intros H A. apply Rabs_le. apply Rabs_le_inv in A. apply rnd_between; [apply fmt_opp|..|lra]; now apply fmt_bpow. Qed.

(** ** Related numbers *)
Definition win (e m : Z) (x : F) : Prop := is_finite x = true /\ Rabs (B2R x) <= bpow radix2 m /\ exists n, B2R x = IZR n * bpow radix2 e.
Definition rel (j e m : Z) (x y : F) : Prop := win e m x /\ win e m y /\ B2R y = B2R x * bpow radix2 j.
Lemma win_weak e m e' m' x : (e' <= e)%Z -> (m <= m')%Z -> win e m x -> win e' m' x.
Proof. intros E M (A & B & C). split; [easy|]. split; [eapply Rle_trans; [exact B|now apply bpow_le]|now apply (multiple_weak e)]. Qed.
Lemma rel_weak j e m e' m' x y : (e' <= e)%Z -> (m <= m')%Z -> rel j e m x y -> rel j e' m' x y.
Proof. intros E M (A & B & C). split; [|split]; auto; eapply win_weak; eauto. Qed.
Lemma rel_fin j e m x y : rel j e m x y -> is_finite x = true /\ is_finite y = true.
Proof. intros ((A & _) & (B & _) & _). auto. Qed.
Ltac lowb H := let L := fresh in destruct (multiple_low _ _ H) as [L|L]; [now left|right].
(** rounding two exact results that correspond *)
Lemma rel_round j e m (z z' : F) r : (-1022 <= e)%Z -> (-1074 <= m)%Z ->
  is_finite z = true -> is_finite z' = true -> B2R z = rnd64 r -> B2R z' = rnd64 (r * bpow radix2 j) ->
  Rabs r <= bpow radix2 m -> Rabs (r * bpow radix2 j) <= bpow radix2 m ->
  (exists n, r = IZR n * bpow radix2 e) -> (exists n, r * bpow radix2 j = IZR n * bpow radix2 e) -> rel j e m z z'.
Proof.
  intros He Hm F1 F2 E1 E2 U1 U2 M1 M2. split; [|split].
  - split; [easy|]. rewrite E1. split; [now apply rnd_up|]. apply rnd_multiple; [lia|easy].
  - split; [easy|]. rewrite E2. split; [now apply rnd_up|]. apply rnd_multiple; [lia|easy].
  - rewrite E1, E2. apply rnd_scale. pose proof (bpow_le radix2 (-1022) e He).
    destruct (multiple_low _ _ M1) as [Z1|L1]; [now left|]. destruct (multiple_low _ _ M2) as [Z2|L2].
    + left. apply Rmult_integral in Z2. destruct Z2 as [Z2|Z2]; [easy|]. pose proof (bpow_gt_0 radix2 j). lra.
    + right. split; lra.
Qed.
Lemma rnd_max r m : (-1074 <= m <= 1023)%Z -> Rabs r <= bpow radix2 m -> Rabs (rnd64 r) < bpow radix2 1024.
Proof. intros H A. eapply Rle_lt_trans; [apply (rnd_up _ m); [lia|exact A]|]. apply bpow_lt. lia. Qed.
Lemma bpow_double m : bpow radix2 m + bpow radix2 m = bpow radix2 (m + 1).
Proof. rewrite bpow_plus. cbn. lra. Qed.
Lemma mult_add e a b : (exists n, a = IZR n * bpow radix2 e) -> (exists n, b = IZR n * bpow radix2 e) -> exists n, a + b = IZR n * bpow radix2 e.
Proof. intros [n ->] [k ->]. exists (n + k)%Z. rewrite plus_IZR. ring. Qed.
Lemma mult_opp e a : (exists n, a = IZR n * bpow radix2 e) -> exists n, - a = IZR n * bpow radix2 e.
Proof. intros [n ->]. exists (- n)%Z. rewrite opp_IZR. ring. Qed.
Lemma mult_mul e f a b : (exists n, a = IZR n * bpow radix2 e) -> (exists n, b = IZR n * bpow radix2 f) -> exists n, a * b = IZR n * bpow radix2 (e + f).
Proof. intros [n ->] [k ->]. exists (n * k)%Z. rewrite mult_IZR, bpow_plus. ring. Qed.
Lemma rel_add j e m x x' y y' : (-1022 <= e)%Z -> (-1075 <= m <= 1022)%Z -> rel j e m x x' -> rel j e m y y' -> rel j e (m + 1) (Bplus mode_NE x y) (Bplus mode_NE x' y').
Proof.
  intros He Hm ((A1 & A2 & A3) & (B1 & B2 & B3) & AB) ((C1 & C2 & C3) & (D1 & D2 & D3) & CD).
  assert (U : Rabs (B2R x + B2R y) <= bpow radix2 (m + 1)) by (rewrite <- bpow_double; eapply Rle_trans; [apply Rabs_triang|lra]).
  assert (U' : Rabs (B2R x' + B2R y') <= bpow radix2 (m + 1)) by (rewrite <- bpow_double; eapply Rle_trans; [apply Rabs_triang|lra]).
  destruct (F_add x y A1 C1 (rnd_max _ (m + 1) ltac:(lia) U)) as [E1 E2]. destruct (F_add x' y' B1 D1 (rnd_max _ (m + 1) ltac:(lia) U')) as [E3 E4].
  assert (S : B2R x' + B2R y' = (B2R x + B2R y) * bpow radix2 j) by (rewrite AB, CD; ring).
  apply (rel_round j e (m + 1) _ _ (B2R x + B2R y)); try assumption; try lia; try (rewrite <- S; assumption); [now apply mult_add|]. rewrite <- S. now apply mult_add.
Qed.
Lemma rel_sub j e m x x' y y' : (-1022 <= e)%Z -> (-1075 <= m <= 1022)%Z -> rel j e m x x' -> rel j e m y y' -> rel j e (m + 1) (Bminus mode_NE x y) (Bminus mode_NE x' y').
Proof.
  intros He Hm ((A1 & A2 & A3) & (B1 & B2 & B3) & AB) ((C1 & C2 & C3) & (D1 & D2 & D3) & CD).
  assert (U : Rabs (B2R x - B2R y) <= bpow radix2 (m + 1)) by (rewrite <- bpow_double; eapply Rle_trans; [apply Rabs_triang|rewrite Rabs_Ropp; lra]).
  assert (U' : Rabs (B2R x' - B2R y') <= bpow radix2 (m + 1)) by (rewrite <- bpow_double; eapply Rle_trans; [apply Rabs_triang|rewrite Rabs_Ropp; lra]).
  destruct (F_sub x y A1 C1 (rnd_max _ (m + 1) ltac:(lia) U)) as [E1 E2]. destruct (F_sub x' y' B1 D1 (rnd_max _ (m + 1) ltac:(lia) U')) as [E3 E4].
  assert (S : B2R x' - B2R y' = (B2R x - B2R y) * bpow radix2 j) by (rewrite AB, CD; ring).
  apply (rel_round j e (m + 1) _ _ (B2R x - B2R y)); try assumption; try lia; try (rewrite <- S; assumption); [apply mult_add; [easy|now apply mult_opp]|]. rewrite <- S. apply mult_add; [easy|now apply mult_opp].
Qed.
Lemma abs_mult_le a b m n : Rabs a <= bpow radix2 m -> Rabs b <= bpow radix2 n -> Rabs (a * b) <= bpow radix2 (m + n).
Proof. intros A B. rewrite Rabs_mult, bpow_plus. apply Rmult_le_compat; auto using Rabs_pos. Qed.
Lemma rel_mul j k e f m n x x' y y' : (-1022 <= e + f)%Z -> (-1074 <= m + n <= 1023)%Z -> rel j e m x x' -> rel k f n y y' -> rel (j + k) (e + f) (m + n) (Bmult mode_NE x y) (Bmult mode_NE x' y').
Proof.
  intros He Hm ((A1 & A2 & A3) & (B1 & B2 & B3) & AB) ((C1 & C2 & C3) & (D1 & D2 & D3) & CD).
  pose proof (abs_mult_le _ _ _ _ A2 C2) as U. pose proof (abs_mult_le _ _ _ _ B2 D2) as U'.
  destruct (F_mul x y A1 C1 (rnd_max _ (m + n) ltac:(lia) U)) as [E1 E2]. destruct (F_mul x' y' B1 D1 (rnd_max _ (m + n) ltac:(lia) U')) as [E3 E4].
  assert (S : B2R x' * B2R y' = (B2R x * B2R y) * bpow radix2 (j + k)) by (rewrite AB, CD, bpow_plus; ring).
  apply (rel_round (j + k) (e + f) (m + n) _ _ (B2R x * B2R y)); try assumption; try lia; try (rewrite <- S; assumption); [now apply mult_mul|]. rewrite <- S. now apply mult_mul.
Qed.
Lemma rel_abs j e m x x' : rel j e m x x' -> rel j e m (Babs x) (Babs x').
Proof.
  intros ((A1 & A2 & A3) & (B1 & B2 & B3) & AB).
  assert (G : forall y, win e m y -> win e m (Babs y)).
  { intros y (P1 & P2 & P3). split; [now rewrite is_finite_Babs|]. rewrite B2R_Babs. split; [now rewrite Rabs_Rabsolu|]. unfold Rabs. destruct (Rcase_abs _); [now apply mult_opp|easy]. }
  split; [|split]; [apply G; split; auto|apply G; split; auto|]. rewrite !B2R_Babs, AB, Rabs_mult, (Rabs_pos_eq (bpow _ _)) by apply bpow_ge_0. reflexivity.
Qed.
(** comparisons *)
Lemma lt_scale a b j : Rlt_bool (a * bpow radix2 j) (b * bpow radix2 j) = Rlt_bool a b.
Proof. pose proof (bpow_gt_0 radix2 j). destruct (Rlt_bool_spec a b); [apply Rlt_bool_true|apply Rlt_bool_false]; [now apply Rmult_lt_compat_r|]. apply Rmult_le_compat_r; lra. Qed.
Lemma rel_ltb j e m f n x x' y y' : rel j e m x x' -> rel j f n y y' -> Bltb x' y' = Bltb x y.
Proof. intros ((A1 & _) & (B1 & _) & AB) ((C1 & _) & (D1 & _) & CD). rewrite !ltb_F, AB, CD by assumption. apply lt_scale. Qed.
Lemma rel_leb j e m f n x x' y y' : rel j e m x x' -> rel j f n y y' -> Bleb x' y' = Bleb x y.
Proof.
  intros ((A1 & _) & (B1 & _) & AB) ((C1 & _) & (D1 & _) & CD). rewrite !leb_F, AB, CD by assumption.
  pose proof (bpow_gt_0 radix2 j). destruct (Rle_bool_spec (B2R x) (B2R y)); [apply Rle_bool_true|apply Rle_bool_false]; [apply Rmult_le_compat_r; lra|now apply Rmult_lt_compat_r].
Qed.
Lemma rel_eqb j e m f n x x' y y' : rel j e m x x' -> rel j f n y y' -> Beqb x' y' = Beqb x y.
Proof.
  intros ((A1 & _) & (B1 & _) & AB) ((C1 & _) & (D1 & _) & CD). rewrite !eqb_F, AB, CD by assumption.
  pose proof (bpow_gt_0 radix2 j). destruct (Req_bool_spec (B2R x) (B2R y)) as [E|E]; [rewrite E; now apply Req_bool_true|apply Req_bool_false]. intros H1. apply E. apply Rmult_eq_reg_r in H1; lra.
Qed.
Lemma rel_zero L j e m : rel j e m (@nlit F (NumF L) 0 1) (@nlit F (NumF L) 0 1).
Proof.
  destruct (num_F L 0 eq_refl) as [E1 E2]. assert (W : win e m (@nlit F (NumF L) 0 1)). { split; [easy|]. rewrite E1. split; [rewrite Rabs_R0; apply bpow_ge_0|]. exists 0%Z. ring. }
  split; [easy|]. split; [easy|]. rewrite E1. ring.
Qed.
Lemma rel_lit (x : F) e m n : is_finite x = true -> B2R x = IZR n * bpow radix2 e -> Rabs (B2R x) <= bpow radix2 m -> rel 0 e m x x.
Proof. intros A B C. assert (W : win e m x) by (split; [easy|split; [easy|eauto]]). split; [easy|]. split; [easy|]. cbn [bpow]. ring. Qed.
(** square root *)
Lemma rel_sqrt L j e m x x' : (-970 <= e)%Z -> (0 <= m <= 500)%Z -> 0 <= B2R x -> rel (j + j) (e + e) (m + m) x x' ->
  exists r r', @nsqrt F (NumF L) x = Ok r /\ @nsqrt F (NumF L) x' = Ok r' /\ 0 <= B2R r /\ rel j (e - 52) m r r'.
Proof.
  intros He Hm X0 ((A1 & A2 & A3) & (B1 & B2 & B3) & AB).
  assert (X0' : 0 <= B2R x') by (rewrite AB; apply Rmult_le_pos; [easy|apply bpow_ge_0]).
  destruct (F_root L x A1 X0) as (r & -> & R1 & R2). destruct (F_root L x' B1 X0') as (r' & -> & R1' & R2').
  exists r, r'. split; [reflexivity|]. split; [reflexivity|].
  assert (SQ : forall k, sqrt (bpow radix2 (k + k)) = bpow radix2 k) by (intros k; rewrite bpow_plus; apply sqrt_square, bpow_ge_0).
  assert (S : sqrt (B2R x') = sqrt (B2R x) * bpow radix2 j) by (rewrite AB, sqrt_mult by (try easy; apply bpow_ge_0); now rewrite SQ).
  assert (LO : forall y, 0 <= y -> (exists n, y = IZR n * bpow radix2 (e + e)) -> sqrt y = 0 \/ bpow radix2 e <= Rabs (sqrt y)).
  { intros y Y0 M. destruct (multiple_low _ _ M) as [-> |L1]; [left; apply sqrt_0|right]. rewrite Rabs_pos_eq by apply sqrt_pos. rewrite Rabs_pos_eq in L1 by easy. rewrite <- (SQ e). now apply sqrt_le_1_alt. }
  assert (UP : forall y, 0 <= y -> Rabs y <= bpow radix2 (m + m) -> Rabs (sqrt y) <= bpow radix2 m).
  { intros y Y0 U. rewrite Rabs_pos_eq by apply sqrt_pos. rewrite Rabs_pos_eq in U by easy. rewrite <- (SQ m). now apply sqrt_le_1_alt. }
  assert (RM : forall y, 0 <= y -> (exists n, y = IZR n * bpow radix2 (e + e)) -> exists n, rnd64 (sqrt y) = IZR n * bpow radix2 (e - 52)).
  { intros y Y0 M. apply fmt_multiple; [lia|apply fmt_rnd|]. destruct (LO y Y0 M) as [-> |L1]; [left; unfold rnd64; apply round_0, valid_rnd_N|right].
    rewrite Rabs_pos_eq in L1 by apply sqrt_pos. apply Rle_trans with (rnd64 (sqrt y)); [|apply Rle_abs]. rewrite <- (rnd_id (bpow radix2 e)) by (apply fmt_bpow; lia). now apply rnd_le. }
  split. { rewrite R2. rewrite <- (rnd_id 0) by (unfold fmt64; apply generic_format_0). apply rnd_le, sqrt_pos. }
  split; [|split].
  - split; [easy|]. rewrite R2. split; [apply rnd_up; [lia|auto]|auto].
  - split; [easy|]. rewrite R2'. split; [apply rnd_up; [lia|auto]|auto].
  - rewrite R2, R2', S. apply rnd_scale. pose proof (bpow_le radix2 (-1022) e ltac:(lia)).
    destruct (LO _ X0 A3) as [Z1|L1]; [now left|]. destruct (LO _ X0' B3) as [Z2|L2].
    + left. rewrite S in Z2. apply Rmult_integral in Z2. destruct Z2 as [Z2|Z2]; [easy|]. pose proof (bpow_gt_0 radix2 j). lra.
    + right. rewrite S in L2. split; lra.
Qed.
(** quotient *)
Lemma rel_div L j k e f m n x x' y y' : (-970 <= e - n)%Z -> (-1074 <= m - f <= 1023)%Z -> B2R y <> 0 -> rel j e m x x' -> rel k f n y y' ->
  exists q q', @ndiv F (NumF L) x y = Ok q /\ @ndiv F (NumF L) x' y' = Ok q' /\ rel (j - k) (e - n - 52) (m - f) q q'.
Proof.
  intros He Hm Y0 ((A1 & A2 & A3) & (B1 & B2 & B3) & AB) ((C1 & C2 & C3) & (D1 & D2 & D3) & CD).
  assert (Y0' : B2R y' <> 0). { rewrite CD. intros Z0. apply Rmult_integral in Z0. destruct Z0; [easy|]. pose proof (bpow_gt_0 radix2 k). lra. }
  assert (UP : forall a b, Rabs a <= bpow radix2 m -> b <> 0 -> (exists n0, b = IZR n0 * bpow radix2 f) -> Rabs (a / b) <= bpow radix2 (m - f)).
  { intros a b U NZ M. destruct (multiple_low _ _ M) as [Z0|L0]; [contradiction|]. unfold Rdiv. rewrite Rabs_mult, Rabs_inv by easy. unfold Zminus. rewrite bpow_plus, bpow_opp.
    apply Rmult_le_compat; [apply Rabs_pos|left; apply Rinv_0_lt_compat; now apply Rabs_pos_lt|easy|]. apply Rinv_le; [apply bpow_gt_0|easy]. }
  assert (LO : forall a b, (exists n0, a = IZR n0 * bpow radix2 e) -> b <> 0 -> Rabs b <= bpow radix2 n -> a / b = 0 \/ bpow radix2 (e - n) <= Rabs (a / b)).
  { intros a b M NZ U. destruct (multiple_low _ _ M) as [-> |L0]; [left; unfold Rdiv; ring|right]. unfold Rdiv. rewrite Rabs_mult, Rabs_inv by easy. unfold Zminus. rewrite bpow_plus, bpow_opp.
    apply Rmult_le_compat; [apply bpow_ge_0|left; apply Rinv_0_lt_compat, bpow_gt_0|easy|]. apply Rinv_le; [now apply Rabs_pos_lt|easy]. }
  assert (RM : forall a b, (exists n0, a = IZR n0 * bpow radix2 e) -> b <> 0 -> Rabs b <= bpow radix2 n -> exists n0, rnd64 (a / b) = IZR n0 * bpow radix2 (e - n - 52)).
  { intros a b M NZ U. apply fmt_multiple; [lia|apply fmt_rnd|]. destruct (LO a b M NZ U) as [-> |L1]; [left; unfold rnd64; apply round_0, valid_rnd_N|right].
    pose proof (rnd_id (bpow radix2 (e - n)) ltac:(apply fmt_bpow; lia)) as I. unfold Rabs in L1. destruct (Rcase_abs (a / b)).
    - rewrite <- Rabs_Ropp. rewrite <- rnd_opp. eapply Rle_trans; [|apply Rle_abs]. rewrite <- I. now apply rnd_le.
    - eapply Rle_trans; [|apply Rle_abs]. rewrite <- I. now apply rnd_le. }
  cbn [ndiv NumF]. unfold F_div.
  assert (ZY : forall z : F, is_finite z = true -> B2R z <> 0 -> F_is_zero z = false) by (intros z Hz Nz; unfold F_is_zero; destruct (F_of_Z_exact 0 eq_refl) as [Q1 Q2]; rewrite eqb_F, Q1 by assumption; now apply Req_bool_false).
  rewrite (ZY y C1 Y0), (ZY y' D1 Y0'). eexists _, _. split; [reflexivity|]. split; [reflexivity|].
  pose proof (UP _ _ A2 Y0 C3) as U. pose proof (UP _ _ B2 Y0' D3) as U'.
  destruct (F_quot x y A1 Y0 (rnd_max _ (m - f) ltac:(lia) U)) as [E1 E2]. destruct (F_quot x' y' B1 Y0' (rnd_max _ (m - f) ltac:(lia) U')) as [E3 E4].
  assert (S : B2R x' / B2R y' = B2R x / B2R y * bpow radix2 (j - k)).
  { rewrite AB, CD. unfold Zminus. rewrite bpow_plus, bpow_opp. pose proof (bpow_gt_0 radix2 k). field. repeat split; try assumption; lra. }
  split; [|split].
  - split; [easy|]. rewrite E1. split; [apply rnd_up; [lia|auto]|auto].
  - split; [easy|]. rewrite E3. split; [apply rnd_up; [lia|auto]|auto].
  - rewrite E1, E3, S. apply rnd_scale. pose proof (bpow_le radix2 (-1022) (e - n) ltac:(lia)).
    destruct (LO _ _ A3 Y0 C2) as [Z1|L1]; [now left|]. destruct (LO _ _ B3 Y0' D2) as [Z2|L2].
    + left. rewrite S in Z2. apply Rmult_integral in Z2. destruct Z2 as [Z2|Z2]; [easy|]. pose proof (bpow_gt_0 radix2 (j - k)). lra.
    + right. rewrite S in L2. split; lra.
Qed.

(** ** Related points, segments and rectangles *)
Definition vrel (j e m : Z) (v w : vec F) : Prop := rel j e m (vx v) (vx w) /\ rel j e m (vy v) (vy w).
Definition srel (j e m : Z) (s t : seg F) : Prop := vrel j e m (s_origin s) (s_origin t) /\ vrel j e m (s_terminal s) (s_terminal t).
Definition brel (j e m : Z) (r s : rect F) : Prop := vrel j e m (r_top_left r) (r_top_left s) /\ rel j e m (sz_length (r_size r)) (sz_length (r_size s)) /\ rel j e m (sz_width (r_size r)) (sz_width (r_size s)).
Lemma vrel_weak j e m e' m' v w : (e' <= e)%Z -> (m <= m')%Z -> vrel j e m v w -> vrel j e' m' v w.
Proof. intros A B [C D]. split; eapply rel_weak; eauto. Qed.
Lemma vrel_eq L j e m f n v v' w w' : vrel j e m v v' -> vrel j f n w w' -> @Vector2D_eq F (NumF L) v' w' = @Vector2D_eq F (NumF L) v w.
Proof. intros [A B] [C D]. unfold Vector2D_eq. cbn [neqb NumF]. now rewrite (rel_eqb _ _ _ _ _ _ _ _ _ A C), (rel_eqb _ _ _ _ _ _ _ _ _ B D). Qed.
Ltac z := lia.
Section Shapes.
  Variable L : libm.
  Notation A3 := (@double_signed_area_st F (NumF L)).
  (** the window may be wide: [2e-2 >= -511], [m <= 250] leaves room for a product of two areas *)
  Lemma rel_area j e m a a' b b' c c' : (-500 <= e)%Z -> (-500 <= m <= 250)%Z -> vrel j e m a a' -> vrel j e m b b' -> vrel j e m c c' -> rel (j + j) (e + e) (m + m + 3) (A3 a b c) (A3 a' b' c').
  Proof.
    intros He Hm [Xa Ya] [Xb Yb] [Xc Yc]. unfold double_signed_area_st. cbn [nsub nmul nadd NumF].
    replace (m + m + 3)%Z with ((m + 1) + (m + 1) + 1)%Z by lia. apply rel_add; [z|z|apply rel_mul; try z; apply rel_sub; try z; assumption|apply rel_mul; try z; apply rel_sub; try z; assumption].
  Qed.
  Lemma on_line_rel j e m s s' p p' : srel j e m s s' -> vrel j e m p p' -> @check_intersects_on_line F (NumF L) s' p' = @check_intersects_on_line F (NumF L) s p.
  Proof.
    intros [[A1 A2] [B1 B2]] [C1 C2]. unfold check_intersects_on_line. cbn [neqb nleb NumF].
    rewrite (rel_eqb _ _ _ _ _ _ _ _ _ A1 B1), (rel_leb _ _ _ _ _ _ _ _ _ A2 C2), (rel_leb _ _ _ _ _ _ _ _ _ C2 B2), (rel_leb _ _ _ _ _ _ _ _ _ B2 C2), (rel_leb _ _ _ _ _ _ _ _ _ C2 A2),
      (rel_leb _ _ _ _ _ _ _ _ _ A1 C1), (rel_leb _ _ _ _ _ _ _ _ _ C1 B1), (rel_leb _ _ _ _ _ _ _ _ _ B1 C1), (rel_leb _ _ _ _ _ _ _ _ _ C1 A1). reflexivity.
  Qed.
  Lemma on_segment_rel j e m s s' p p' : (-500 <= e)%Z -> (-500 <= m <= 250)%Z -> srel j e m s s' -> vrel j e m p p' -> @Segment2D_on_segment F (NumF L) s' p' = @Segment2D_on_segment F (NumF L) s p.
  Proof.
    intros He Hm S P. unfold Segment2D_on_segment. rewrite (on_line_rel _ _ _ _ _ _ _ S P). cbn [neqb NumF].
    pose proof (rel_area _ _ _ _ _ _ _ _ _ He Hm (proj1 S) (proj2 S) P) as A. now rewrite (rel_eqb _ _ _ _ _ _ _ _ _ A (rel_zero L (j + j) 0 0)).
  Qed.
  (** products of two areas: [4e >= -1022], [4m+6 <= 1023] *)
  Lemma prod_rel k e m x x' y y' : (-511 <= e)%Z -> (0 <= m <= 511)%Z -> rel k e m x x' -> rel k e m y y' -> @nltb F (NumF L) (Bmult mode_NE x' y') (@nlit F (NumF L) 0 1) = @nltb F (NumF L) (Bmult mode_NE x y) (@nlit F (NumF L) 0 1).
  Proof. intros He Hm X Y. cbn [nltb NumF]. pose proof (rel_mul k k e e m m _ _ _ _ ltac:(lia) ltac:(lia) X Y) as P. apply (rel_ltb _ _ _ _ _ _ _ _ _ P (rel_zero L (k + k) 0 0)). Qed.
  Lemma meet_rel j e m s s' o o' : (-255 <= e)%Z -> (0 <= m <= 250)%Z -> srel j e m s s' -> srel j e m o o' -> @Segment2D_exist_intersection_seg F (NumF L) s' o' = @Segment2D_exist_intersection_seg F (NumF L) s o.
  Proof.
    intros He Hm S O. destruct S as [S1 S2] eqn:ES. destruct O as [O1 O2] eqn:EO. clear ES EO.
    assert (H1 : (-500 <= e)%Z) by lia. assert (H2 : (-500 <= m <= 250)%Z) by lia.
    pose proof (rel_area _ _ _ _ _ _ _ _ _ H1 H2 S1 S2 O1) as a0. pose proof (rel_area _ _ _ _ _ _ _ _ _ H1 H2 S1 S2 O2) as a1.
    pose proof (rel_area _ _ _ _ _ _ _ _ _ H1 H2 O1 O2 S1) as b0. pose proof (rel_area _ _ _ _ _ _ _ _ _ H1 H2 O1 O2 S2) as b1.
    unfold Segment2D_exist_intersection_seg. cbn [nmul NumF].
    rewrite (prod_rel (j + j) (e + e) (m + m + 3) _ _ _ _ ltac:(lia) ltac:(lia) a0 a1), (prod_rel (j + j) (e + e) (m + m + 3) _ _ _ _ ltac:(lia) ltac:(lia) b0 b1).
    cbn [neqb NumF]. rewrite (rel_eqb _ _ _ _ _ _ _ _ _ a0 (rel_zero L (j + j) 0 0)), (rel_eqb _ _ _ _ _ _ _ _ _ a1 (rel_zero L (j + j) 0 0)), (rel_eqb _ _ _ _ _ _ _ _ _ b0 (rel_zero L (j + j) 0 0)), (rel_eqb _ _ _ _ _ _ _ _ _ b1 (rel_zero L (j + j) 0 0)).
    rewrite (vrel_eq L _ _ _ _ _ _ _ _ _ S1 S2), (vrel_eq L _ _ _ _ _ _ _ _ _ O1 O2), (vrel_eq L _ _ _ _ _ _ _ _ _ S1 O1).
    rewrite (on_line_rel j e m o o' _ _ (conj O1 O2) S1), (on_line_rel j e m o o' _ _ (conj O1 O2) S2), (on_line_rel j e m s s' _ _ (conj S1 S2) O1), (on_line_rel j e m s s' _ _ (conj S1 S2) O2). reflexivity.
  Qed.
  Lemma tri_rel j e m a a' b b' c c' p p' : (-500 <= e)%Z -> (-500 <= m <= 250)%Z -> vrel j e m a a' -> vrel j e m b b' -> vrel j e m c c' -> vrel j e m p p' -> @tri_contains F (NumF L) a' b' c' p' = @tri_contains F (NumF L) a b c p.
  Proof.
    intros He Hm A B C P.
    assert (O : forall v v' w w', vrel j e m v v' -> vrel j e m w w' -> rel (j + j) (e + e) (m + m + 3) (@Vector2D_outer_product F (NumF L) (Vector2D_of_vec (@Vector2D_sub F (NumF L) v p)) (Vector2D_of_vec (@Vector2D_sub F (NumF L) w p)))
      (@Vector2D_outer_product F (NumF L) (Vector2D_of_vec (@Vector2D_sub F (NumF L) v' p')) (Vector2D_of_vec (@Vector2D_sub F (NumF L) w' p')))).
    { intros v v' w w' [V1 V2] [W1 W2]. destruct P as [P1 P2]. unfold Vector2D_outer_product, Vector2D_of_vec, Vector2D_sub, V. cbn [vx vy nsub nmul NumF].
      replace (m + m + 3)%Z with ((m + 1) + (m + 1) + 1)%Z by lia. apply rel_sub; [z|z|apply rel_mul; try z; apply rel_sub; try z; assumption|apply rel_mul; try z; apply rel_sub; try z; assumption]. }
    unfold tri_contains. cbn [nleb NumF]. pose proof (rel_zero L (j + j) 0 0) as Z0.
    pose proof (O _ _ _ _ A B) as o1. pose proof (O _ _ _ _ B C) as o2. pose proof (O _ _ _ _ C A) as o3.
    now rewrite (rel_leb _ _ _ _ _ _ _ _ _ Z0 o1), (rel_leb _ _ _ _ _ _ _ _ _ Z0 o2), (rel_leb _ _ _ _ _ _ _ _ _ Z0 o3), (rel_leb _ _ _ _ _ _ _ _ _ o1 Z0), (rel_leb _ _ _ _ _ _ _ _ _ o2 Z0), (rel_leb _ _ _ _ _ _ _ _ _ o3 Z0).
  Qed.
  Lemma rect_rel j e m r r' p p' : (-1000 <= e)%Z -> (0 <= m <= 1000)%Z -> brel j e m r r' -> vrel j e m p p' -> @Rect2D_contains F (NumF L) r' p' = @Rect2D_contains F (NumF L) r p.
  Proof.
    intros He Hm ([A1 A2] & A3 & A4) [P1 P2]. unfold Rect2D_contains, Rect2D_right, Rect2D_bottom, Rect2D_left, Rect2D_top. cbn [nleb nadd NumF].
    pose proof (rel_add j e m _ _ _ _ ltac:(lia) ltac:(lia) A1 A3) as R. pose proof (rel_add j e m _ _ _ _ ltac:(lia) ltac:(lia) A2 A4) as B.
    now rewrite (rel_leb _ _ _ _ _ _ _ _ _ A1 P1), (rel_leb _ _ _ _ _ _ _ _ _ P1 R), (rel_leb _ _ _ _ _ _ _ _ _ A2 P2), (rel_leb _ _ _ _ _ _ _ _ _ P2 B).
  Qed.
  (** *** Polygons *)
  Definition orel j e m (a b : option F) : Prop := match a, b with Some x, Some y => rel j e m x y | None, None => True | _, _ => False end.
  Lemma extent_rel j e m (proj : vec F -> F) (upd : option F -> F -> option F) vs ws :
    (forall a b x y, orel j e m a b -> rel j e m x y -> orel j e m (upd a x) (upd b y)) ->
    Forall2 (fun v w => rel j e m (proj v) (proj w)) vs ws -> orel j e m (bbox_extent vs upd proj) (bbox_extent ws upd proj).
  Proof.
    intros U F2. unfold bbox_extent. assert (G : forall a b, orel j e m a b -> orel j e m (fold_left (fun m p => upd m (proj p)) vs a) (fold_left (fun m p => upd m (proj p)) ws b)).
    { induction F2 as [|v w vs ws H F2 IH]; intros a b O; [exact O|]. cbn [fold_left]. apply IH. now apply U. }
    apply G. exact I.
  Qed.
  Lemma min_rel j e m a b x y : orel j e m a b -> rel j e m x y -> orel j e m (@upd_min F (NumF L) a x) (@upd_min F (NumF L) b y).
  Proof. intros O X. destruct a as [a|], b as [b|]; try contradiction; [|exact X]. cbn [upd_min nltb NumF]. rewrite (rel_ltb _ _ _ _ _ _ _ _ _ X O). destruct (Bltb x a); assumption. Qed.
  Lemma max_rel j e m a b x y : orel j e m a b -> rel j e m x y -> orel j e m (@upd_max F (NumF L) a x) (@upd_max F (NumF L) b y).
  Proof. intros O X. destruct a as [a|], b as [b|]; try contradiction; [|exact X]. cbn [upd_max nltb NumF]. rewrite (rel_ltb _ _ _ _ _ _ _ _ _ O X). destruct (Bltb a x); assumption. Qed.
  Lemma box_rel j e m vs ws : (-1000 <= e)%Z -> (0 <= m <= 1000)%Z -> vs <> [] -> Forall2 (vrel j e m) vs ws ->
    exists r s, @Polygon2D_get_bounding_box F (NumF L) vs = Ok r /\ @Polygon2D_get_bounding_box F (NumF L) ws = Ok s /\ brel j e (m + 1) r s.
  Proof.
    intros He Hm NE F2.
    assert (FX : Forall2 (fun v w => rel j e m (vx v) (vx w)) vs ws) by (clear NE; induction F2 as [|v w vs ws [X _] F2 IH]; constructor; auto).
    assert (FY : Forall2 (fun v w => rel j e m (vy v) (vy w)) vs ws) by (clear NE FX; induction F2 as [|v w vs ws [_ X] F2 IH]; constructor; auto).
    pose proof (extent_rel j e m (@vx F) (@upd_min F (NumF L)) vs ws (min_rel j e m) FX) as O1. pose proof (extent_rel j e m (@vx F) (@upd_max F (NumF L)) vs ws (max_rel j e m) FX) as O2.
    pose proof (extent_rel j e m (@vy F) (@upd_min F (NumF L)) vs ws (min_rel j e m) FY) as O3. pose proof (extent_rel j e m (@vy F) (@upd_max F (NumF L)) vs ws (max_rel j e m) FY) as O4.
    assert (S : forall proj upd, (forall a x, upd a x <> None) -> bbox_extent vs upd proj <> @None F).
    { intros proj upd U. destruct vs as [|v vs0]; [easy|]. unfold bbox_extent. cbn [fold_left]. generalize (U None (proj v)). generalize (upd None (proj v)). clear - U. induction vs0 as [|w vs0 IH]; intros o N; [exact N|]. cbn [fold_left]. apply IH, U. }
    assert (UM : forall a x, @upd_min F (NumF L) a x <> None) by (intros [a|] x; cbn; [destruct (Bltb x a); discriminate|discriminate]).
    assert (UX : forall a x, @upd_max F (NumF L) a x <> None) by (intros [a|] x; cbn; [destruct (Bltb a x); discriminate|discriminate]).
    pose proof (S (@vx F) _ UM) as N1. pose proof (S (@vx F) _ UX) as N2. pose proof (S (@vy F) _ UM) as N3. pose proof (S (@vy F) _ UX) as N4.
    unfold Polygon2D_get_bounding_box.
    destruct (bbox_extent vs _ (@vx F)) as [x0|]; [|congruence]. destruct (bbox_extent ws _ (@vx F)) as [x0'|]; [|contradiction].
    destruct (bbox_extent vs _ (@vx F)) as [x1|]; [|congruence]. destruct (bbox_extent ws _ (@vx F)) as [x1'|]; [|contradiction].
    destruct (bbox_extent vs _ (@vy F)) as [y0|]; [|congruence]. destruct (bbox_extent ws _ (@vy F)) as [y0'|]; [|contradiction].
    destruct (bbox_extent vs _ (@vy F)) as [y1|]; [|congruence]. destruct (bbox_extent ws _ (@vy F)) as [y1'|]; [|contradiction].
    cbn in O1, O2, O3, O4. eexists _, _. split; [reflexivity|]. split; [reflexivity|]. split; [|split]; cbn [r_top_left r_size Rect2D_of_vec_size Vector2D_of_vec V vx vy sz_length sz_width Size2D_init nabs nsub NumF].
    - split; cbn; [eapply rel_weak; [..|exact O1]; lia|eapply rel_weak; [..|exact O3]; lia].
    - apply rel_abs, rel_sub; try lia; assumption.
    - apply rel_abs, rel_sub; try lia; assumption.
  Qed.
  Lemma r2_rel j e m v v' : (-511 <= e)%Z -> (0 <= m <= 500)%Z -> vrel j e m v v' -> 0 <= B2R (@Vector2D_r2 F (NumF L) v) /\ rel (j + j) (e + e) (m + m + 1) (@Vector2D_r2 F (NumF L) v) (@Vector2D_r2 F (NumF L) v').
  Proof.
    intros He Hm [X Y]. pose proof (rel_mul j j e e m m _ _ _ _ ltac:(lia) ltac:(lia) X X) as P. pose proof (rel_mul j j e e m m _ _ _ _ ltac:(lia) ltac:(lia) Y Y) as Q.
    unfold Vector2D_r2. cbn [nmul nadd NumF]. pose proof (rel_add (j + j) (e + e) (m + m) _ _ _ _ ltac:(lia) ltac:(lia) P Q) as S. split; [|exact S].
    assert (SQ : forall x x', rel j e m x x' -> is_finite (Bmult mode_NE x x) = true /\ 0 <= B2R (Bmult mode_NE x x) /\ Rabs (B2R (Bmult mode_NE x x)) <= bpow radix2 (m + m)).
    { intros x x' W. pose proof (rel_mul j j e e m m _ _ _ _ ltac:(lia) ltac:(lia) W W) as ((W1 & W2 & _) & _ & _). split; [easy|]. split; [|easy]. destruct W as ((A1 & A2 & _) & _).
      destruct (F_mul x x A1 A1 (rnd_max _ (m + m) ltac:(lia) (abs_mult_le _ _ _ _ A2 A2))) as [-> _]. rewrite <- (rnd_id 0) by (unfold fmt64; apply generic_format_0). apply rnd_le. nra. }
    destruct (SQ _ _ X) as (A1 & A2 & A3). destruct (SQ _ _ Y) as (B1 & B2 & B3).
    destruct (F_add _ _ A1 B1) as [-> _]. { apply (rnd_max _ (m + m + 1)); [lia|]. rewrite <- bpow_double. eapply Rle_trans; [apply Rabs_triang|lra]. }
    rewrite <- (rnd_id 0) by (unfold fmt64; apply generic_format_0). apply rnd_le. lra.
  Qed.
  Lemma sub_rel j e m v v' w w' : (-1022 <= e)%Z -> (0 <= m <= 1000)%Z -> vrel j e m v v' -> vrel j e m w w' -> vrel j e (m + 1) (@Vector2D_sub F (NumF L) v w) (@Vector2D_sub F (NumF L) v' w').
  Proof. intros He Hm [A B] [C D]. unfold Vector2D_sub, V. split; cbn [vx vy nsub NumF]; apply rel_sub; try lia; assumption. Qed.
  Lemma add_rel j e m v v' w w' : (-1022 <= e)%Z -> (0 <= m <= 1000)%Z -> vrel j e m v v' -> vrel j e m w w' -> vrel j e (m + 1) (@Vector2D_add F (NumF L) v w) (@Vector2D_add F (NumF L) v' w').
  Proof. intros He Hm [A B] [C D]. unfold Vector2D_add, V. split; cbn [vx vy nadd NumF]; apply rel_add; try lia; assumption. Qed.
  Lemma r_rel j e m v v' : (-490 <= e)%Z -> (0 <= m <= 490)%Z -> vrel j e m v v' -> exists r r', @Vector2D_r F (NumF L) v = Ok r /\ @Vector2D_r F (NumF L) v' = Ok r' /\ rel j (e - 52) (m + 1) r r'.
  Proof.
    intros He Hm W. destruct (r2_rel j e m v v' ltac:(lia) ltac:(lia) W) as [P R].
    destruct (rel_sqrt L j e (m + 1) _ _ ltac:(lia) ltac:(lia) P (rel_weak (j + j) (e + e) (m + m + 1) (e + e) (m + 1 + (m + 1)) _ _ (Z.le_refl _) ltac:(lia) R)) as (r & r' & E1 & E2 & _ & E3). eauto.
  Qed.
  Lemma three_rel : rel 0 0 2 (@nlit F (NumF L) 3 1) (@nlit F (NumF L) 3 1).
  Proof. destruct (num_F L 3 eq_refl) as [E1 E2]. apply (rel_lit _ 0 2 3); [easy|rewrite E1; cbn; ring|]. rewrite E1, Rabs_pos_eq by lra. cbn. lra. Qed.
  Lemma half_rel : rel 0 (-1) 0 (@nlit F (NumF L) 1 2) (@nlit F (NumF L) 1 2).
  Proof.
    destruct (P_RectF.half_F L) as [E1 E2]. apply (rel_lit _ (-1) 0 1); [easy|rewrite E1; cbn; lra|]. rewrite E1, Rabs_pos_eq by lra. cbn. lra.
  Qed.
  Lemma half_line_rel j e m v v' p p' r s : (-250 <= e)%Z -> (0 <= m <= 240)%Z -> vrel j e m v v' -> vrel j e m p p' -> brel j e (m + 1) r s ->
    exists h h', @half_line F (NumF L) v p r = Ok h /\ @half_line F (NumF L) v' p' s = Ok h' /\ srel j (e - 52) (m + 9) h h'.
  Proof.
    intros He Hm W P ([B1 B2] & B3 & B4). destruct (r_rel j e (m + 1) _ _ ltac:(lia) ltac:(lia) (sub_rel j e m _ _ _ _ ltac:(lia) ltac:(lia) W P)) as (d & d' & E1 & E2 & E3).
    unfold half_line. rewrite E1, E2. cbn [bind]. eexists _, _. split; [reflexivity|]. split; [reflexivity|].
    split; cbn [s_origin s_terminal Segment2D_of_points Vector2D_of_vec vx vy V]; [eapply vrel_weak; [..|exact P]; lia|].
    split; cbn [vx vy V s_origin s_terminal Segment2D_of_points Vector2D_of_vec]; [|destruct P as [_ P2]; eapply rel_weak; [..|exact P2]; lia].
    unfold Rect2D_right, Rect2D_bottom, Rect2D_left, Rect2D_top. cbn [nadd nsub nmul NumF].
    replace (m + 9)%Z with (m + 8 + 1)%Z by lia. apply rel_add; [lia|lia|destruct P as [P1 _]; eapply rel_weak; [..|exact P1]; lia|].
    replace j with (j + 0)%Z by lia. replace (e - 52)%Z with (e - 52 + 0)%Z by lia. replace (m + 8)%Z with (m + 6 + 2)%Z by lia.
    apply rel_mul; [lia|lia| |exact three_rel].
    replace (m + 6)%Z with (m + 5 + 1)%Z by lia. apply rel_add; [lia|lia| |eapply rel_weak; [..|exact E3]; lia].
    apply rel_weak with (e := e) (m := (m + 5)%Z); [lia|lia|].
    replace (m + 5)%Z with (m + 4 + 1)%Z by lia. apply rel_sub; [lia|lia| |eapply rel_weak; [..|exact B2]; lia].
    replace (m + 4)%Z with (m + 3 + 1)%Z by lia. apply rel_add; [lia|lia| |].
    - apply rel_weak with (e := e) (m := (m + 2 + 1)%Z); [lia|lia|]. apply rel_sub; [lia|lia| |eapply rel_weak; [..|exact B1]; lia].
      replace (m + 2)%Z with (m + 1 + 1)%Z by lia. apply rel_add; [lia|lia|exact B1|exact B3].
    - apply rel_weak with (e := e) (m := (m + 1 + 1)%Z); [lia|lia|]. apply rel_add; [lia|lia|exact B2|exact B4].
  Qed.
  Lemma pairs_rel {A B} (P : A -> B -> Prop) vs ws : Forall2 P vs ws -> Forall2 (fun p q => P (fst p) (fst q) /\ P (snd p) (snd q)) (cyc_pairs vs) (cyc_pairs ws).
  Proof.
    intros F2. destruct F2 as [|a b vs ws H F2]; [constructor|]. cbn [cyc_pairs].
    assert (G : forall x y z t, P x y -> P z t -> Forall2 (fun p q => P (fst p) (fst q) /\ P (snd p) (snd q)) (path_pairs x vs z) (path_pairs y ws t)).
    { induction F2 as [|c d vs ws K F2 IH]; intros x y z t X Z0; cbn [path_pairs]; [constructor; [auto|constructor]|]. constructor; [auto|]. now apply IH. }
    now apply G.
  Qed.
  Lemma loop_rel j e m h h' p p' allow : (-255 <= e)%Z -> (0 <= m <= 250)%Z -> srel j e m h h' -> vrel j e m p p' -> forall es es', Forall2 (fun a b => vrel j e m (fst a) (fst b) /\ vrel j e m (snd a) (snd b)) es es' ->
    forall i, @contains_loop F (NumF L) h' p' allow es' i = @contains_loop F (NumF L) h p allow es i.
  Proof.
    intros He Hm H P es es' F2. induction F2 as [|[a b] [a' b'] es es' [A B] F2 IH]; intros i; [reflexivity|]. cbn [fst snd] in A, B. cbn [contains_loop].
    assert (S : srel j e m (Segment2D_of_points a b) (Segment2D_of_points a' b')) by (split; [exact A|exact B]).
    rewrite (on_segment_rel j e m _ _ _ _ ltac:(lia) ltac:(lia) S P), (vrel_eq L _ _ _ _ _ _ _ _ _ P A), (meet_rel j e m _ _ _ _ He Hm H S). cbn [neqb nltb NumF].
    destruct A as [_ A2], B as [_ B2], P as [P1 P2]. rewrite (rel_eqb _ _ _ _ _ _ _ _ _ A2 P2), (rel_eqb _ _ _ _ _ _ _ _ _ B2 P2), (rel_eqb _ _ _ _ _ _ _ _ _ A2 B2), (rel_ltb _ _ _ _ _ _ _ _ _ A2 P2), (rel_ltb _ _ _ _ _ _ _ _ _ B2 P2).
    now rewrite !IH.
  Qed.
  Lemma Forall2_weak {A B} (P Q : A -> B -> Prop) vs ws : (forall a b, P a b -> Q a b) -> Forall2 P vs ws -> Forall2 Q vs ws.
  Proof. intros H F2. induction F2; constructor; auto. Qed.
  Lemma contains_rel j e m vs ws p p' allow : (-200 <= e)%Z -> (0 <= m <= 240)%Z -> Forall2 (vrel j e m) vs ws -> vrel j e m p p' -> @Polygon2D_contains F (NumF L) ws p' allow = @Polygon2D_contains F (NumF L) vs p allow.
  Proof.
    intros He Hm F2 P. destruct F2 as [|v w vs ws W F2]; [reflexivity|]. destruct F2 as [|v1 w1 vs ws W1 F2].
    - cbn. now rewrite (vrel_eq L _ _ _ _ _ _ _ _ _ W P).
    - cbn [Polygon2D_contains]. assert (FF : Forall2 (vrel j e m) (v :: v1 :: vs) (w :: w1 :: ws)) by (repeat (constructor; [assumption|]); assumption).
      destruct (box_rel j e m (v :: v1 :: vs) (w :: w1 :: ws) ltac:(lia) ltac:(lia) ltac:(discriminate) FF) as (r & s & -> & -> & BR). cbn [bind].
      rewrite (rect_rel j e (m + 1) _ _ _ _ ltac:(lia) ltac:(lia) BR (vrel_weak j e m e (m + 1) _ _ (Z.le_refl _) ltac:(lia) P)). destruct (negb _); [reflexivity|].
      destruct (half_line_rel j e m _ _ _ _ _ _ ltac:(lia) Hm W P BR) as (h & h' & -> & -> & HR). cbn [bind]. f_equal.
      apply (loop_rel j (e - 52) (m + 9)); [lia|lia|exact HR|eapply vrel_weak; [..|exact P]; lia|]. apply pairs_rel. eapply Forall2_weak; [|exact FF]. intros a b. apply vrel_weak; lia.
  Qed.
  Lemma term_rel j e m a b : (-500 <= e)%Z -> (0 <= m <= 500)%Z -> vrel j e m (fst a) (fst b) /\ vrel j e m (snd a) (snd b) -> rel (j + j) (e + e) (m + m + 1) (@edge_term F (NumF L) a) (@edge_term F (NumF L) b).
  Proof. intros He Hm [[A1 A2] [B1 B2]]. unfold edge_term. cbn [nsub nmul NumF]. apply rel_sub; [lia|lia|apply rel_mul; try lia; assumption|apply rel_mul; try lia; assumption]. Qed.
  (** sums of up to 2^52 terms *)
  Definition bsum (j e : Z) (k : nat) (M : Z) (x y : F) : Prop :=
    (is_finite x = true /\ Rabs (B2R x) <= INR k * bpow radix2 M /\ exists n, B2R x = IZR n * bpow radix2 e) /\
    (is_finite y = true /\ Rabs (B2R y) <= INR k * bpow radix2 M /\ exists n, B2R y = IZR n * bpow radix2 e) /\ B2R y = B2R x * bpow radix2 j.
  Lemma bsum_step j e k M x x' y y' : (-1022 <= e)%Z -> (-1000 <= M <= 960)%Z -> (Z.of_nat (S k) < 2 ^ 53)%Z -> bsum j e k M x x' -> rel j e M y y' -> bsum j e (S k) M (Bplus mode_NE x y) (Bplus mode_NE x' y').
  Proof.
    intros He HM Hk ((A1 & A2 & A3) & (B1 & B2 & B3) & AB) ((C1 & C2 & C3) & (D1 & D2 & D3) & CD).
    assert (U : Rabs (B2R x + B2R y) <= INR (S k) * bpow radix2 M) by (rewrite S_INR; eapply Rle_trans; [apply Rabs_triang|lra]).
    assert (U' : Rabs (B2R x' + B2R y') <= INR (S k) * bpow radix2 M) by (rewrite S_INR; eapply Rle_trans; [apply Rabs_triang|lra]).
    assert (FB : fmt64 (INR (S k) * bpow radix2 M)). { rewrite INR_IZR_INZ. apply (fmt_F2R (Z.of_nat (S k)) M); lia. }
    assert (RU : forall r, Rabs r <= INR (S k) * bpow radix2 M -> Rabs (rnd64 r) <= INR (S k) * bpow radix2 M).
    { intros r A. apply Rabs_le. apply Rabs_le_inv in A. apply rnd_between; [now apply fmt_opp|easy|lra]. }
    assert (BIG : INR (S k) * bpow radix2 M < bpow radix2 1024).
    { apply Rlt_le_trans with (bpow radix2 53 * bpow radix2 M); [|rewrite <- bpow_plus; apply bpow_le; lia]. apply Rmult_lt_compat_r; [apply bpow_gt_0|]. rewrite INR_IZR_INZ. change (bpow radix2 53) with (IZR (2 ^ 53)). now apply IZR_lt. }
    destruct (F_add x y A1 C1 ltac:(eapply Rle_lt_trans; [now apply RU|exact BIG])) as [E1 E2]. destruct (F_add x' y' B1 D1 ltac:(eapply Rle_lt_trans; [now apply RU|exact BIG])) as [E3 E4].
    assert (S : B2R x' + B2R y' = (B2R x + B2R y) * bpow radix2 j) by (rewrite AB, CD; ring).
    pose proof (mult_add _ _ _ A3 C3) as M1. pose proof (mult_add _ _ _ B3 D3) as M2.
    split; [|split].
    - split; [easy|]. rewrite E1. split; [auto|]. apply rnd_multiple; [lia|easy].
    - split; [easy|]. rewrite E3. split; [auto|]. apply rnd_multiple; [lia|easy].
    - rewrite E1, E3, S. apply rnd_scale. pose proof (bpow_le radix2 (-1022) e He). rewrite S in M2.
      destruct (multiple_low _ _ M1) as [Z1|L1]; [now left|]. destruct (multiple_low _ _ M2) as [Z2|L2].
      + left. apply Rmult_integral in Z2. destruct Z2 as [Z2|Z2]; [easy|]. pose proof (bpow_gt_0 radix2 j). lra.
      + right. split; lra.
  Qed.
  Lemma path_len {A} (l : list A) : forall a z, List.length (path_pairs a l z) = S (List.length l).
  Proof. induction l as [|b l IH]; intros a z; cbn [path_pairs List.length]; [reflexivity|]. now rewrite IH. Qed.
  Lemma cyc_len {A} (l : list A) : List.length (cyc_pairs l) = List.length l.
  Proof. destruct l; [reflexivity|]. apply path_len. Qed.
  Lemma poly_area_rel j e m vs ws : (-500 <= e)%Z -> (0 <= m <= 400)%Z -> (Z.of_nat (List.length vs) <= 2 ^ 52)%Z -> Forall2 (vrel j e m) vs ws ->
    rel (j + j) (e + e) (m + m + 53) (@Polygon2D_double_signed_area F (NumF L) vs) (@Polygon2D_double_signed_area F (NumF L) ws).
  Proof.
    intros He Hm Hl F2. unfold Polygon2D_double_signed_area.
    assert (G : rel (j + j) (e + e) (m + m + 53) (fold_left (fun s e0 => @nadd F (NumF L) s (@edge_term F (NumF L) e0)) (cyc_pairs vs) (@nlit F (NumF L) 0 1)) (fold_left (fun s e0 => @nadd F (NumF L) s (@edge_term F (NumF L) e0)) (cyc_pairs ws) (@nlit F (NumF L) 0 1))).
    { pose proof (pairs_rel _ _ _ F2) as PR. rewrite <- cyc_len in Hl. revert PR Hl. generalize (cyc_pairs vs) (cyc_pairs ws). intros es es' PR Hl. cbn [nadd NumF].
      assert (B : forall k s s', (Z.of_nat (k + List.length es) <= 2 ^ 52)%Z -> bsum (j + j) (e + e) k (m + m + 1) s s' ->
        bsum (j + j) (e + e) (k + List.length es) (m + m + 1) (fold_left (fun s e0 => Bplus mode_NE s (@edge_term F (NumF L) e0)) es s) (fold_left (fun s e0 => Bplus mode_NE s (@edge_term F (NumF L) e0)) es' s')).
      { clear Hl. induction PR as [|a b es es' AB PR IH]; intros k s s' Hk Bs; [now rewrite Nat.add_0_r|]. cbn [fold_left List.length]. cbn [List.length] in Hk. rewrite Nat.add_succ_r, <- Nat.add_succ_l. apply IH; [lia|].
        apply bsum_step; [lia|lia|lia|exact Bs|now apply term_rel; [lia|lia|]]. }
      specialize (B 0%nat (@nlit F (NumF L) 0 1) (@nlit F (NumF L) 0 1)). cbn [Nat.add] in B. specialize (B Hl).
      destruct B as ((A1 & A2 & A3) & (B1 & B2 & B3) & AB).
      { destruct (num_F L 0 eq_refl) as [E1 E2]. unfold bsum. rewrite E1. cbn [INR]. rewrite Rabs_R0. repeat split; try easy; try lra; exists 0%Z; ring. }
      assert (U : INR (List.length es) * bpow radix2 (m + m + 1) <= bpow radix2 (m + m + 53)).
      { replace (m + m + 53)%Z with (52 + (m + m + 1))%Z by lia. rewrite (bpow_plus radix2 52). apply Rmult_le_compat_r; [apply bpow_ge_0|]. rewrite INR_IZR_INZ. change (bpow radix2 52) with (IZR (2 ^ 52)). now apply IZR_le. }
      split; [|split]; [split; [easy|split; [lra|easy]]|split; [easy|split; [lra|easy]]|exact AB]. }
    destruct F2 as [|a a' vs ws H1 F2]; [apply rel_zero|]. destruct F2 as [|b b' vs ws H2 F2]; [apply rel_zero|]. destruct F2 as [|c c' vs ws H3 F2]; [apply rel_zero|]. exact G.
  Qed.
  Lemma nearest_rel j e m s s' p p' : (-180 <= e <= 0)%Z -> (0 <= m <= 180)%Z -> srel j e m s s' -> vrel j e m p p' ->
    exists q q', @Segment2D_nearest_point F (NumF L) s p = Ok q /\ @Segment2D_nearest_point F (NumF L) s' p' = Ok q' /\ vrel j (-960) 920 q q'.
  Proof.
    intros He Hm [O T] P. unfold Segment2D_nearest_point.
    pose proof (sub_rel j e m _ _ _ _ ltac:(lia) ltac:(lia) T O) as TR. pose proof (sub_rel j e m _ _ _ _ ltac:(lia) ltac:(lia) P O) as PR.
    destruct (r2_rel j e (m + 1) _ _ ltac:(lia) ltac:(lia) TR) as [L0 LR]. set (t := @Vector2D_sub F (NumF L) (s_terminal s) (s_origin s)) in *. set (t' := @Vector2D_sub F (NumF L) (s_terminal s') (s_origin s')) in *.
    assert (IR : rel (j + j) (e + e) (m + 1 + (m + 1) + 1) (@Vector2D_inner_product F (NumF L) t (@Vector2D_sub F (NumF L) p (s_origin s))) (@Vector2D_inner_product F (NumF L) t' (@Vector2D_sub F (NumF L) p' (s_origin s')))).
    { destruct TR as [T1 T2], PR as [P1 P2]. unfold Vector2D_inner_product. cbn [nmul nadd NumF]. apply rel_add; [lia|lia|apply rel_mul; try lia; assumption|apply rel_mul; try lia; assumption]. }
    set (i := @Vector2D_inner_product F (NumF L) t _) in *. set (i' := @Vector2D_inner_product F (NumF L) t' _) in *. set (l := @Vector2D_r2 F (NumF L) t) in *. set (l' := @Vector2D_r2 F (NumF L) t') in *.
    pose proof (rel_zero L (j + j) 0 0) as Z0. cbn [neqb nleb NumF]. rewrite (rel_eqb _ _ _ _ _ _ _ _ _ LR Z0), (rel_leb _ _ _ _ _ _ _ _ _ IR Z0), (rel_leb _ _ _ _ _ _ _ _ _ LR IR).
    destruct (Beqb l _) eqn:EL; [eexists _, _; split; [reflexivity|split; [reflexivity|]]; eapply vrel_weak; [..|exact O]; lia|].
    destruct (Bleb i _); [eexists _, _; split; [reflexivity|split; [reflexivity|]]; eapply vrel_weak; [..|exact O]; lia|].
    destruct (Bleb l i); [eexists _, _; split; [reflexivity|split; [reflexivity|]]; eapply vrel_weak; [..|exact T]; lia|].
    assert (NZ : B2R l <> 0). { intros E. destruct LR as ((FL & _) & _). destruct (num_F L 0 eq_refl) as [Q1 Q2]. rewrite eqb_F, Q1, E, Req_bool_true in EL by easy. discriminate. }
    unfold Vector2D_truediv, Vector2D_mul, V. cbn [vx vy nmul NumF]. destruct TR as [T1 T2].
    assert (W : (e + (e + e) - (m + 1 + (m + 1) + 1) >= -970)%Z) by lia.
    pose proof (rel_mul j (j + j) e (e + e) (m + 1) (m + 1 + (m + 1) + 1) _ _ _ _ ltac:(lia) ltac:(lia) T1 IR) as X. pose proof (rel_mul j (j + j) e (e + e) (m + 1) (m + 1 + (m + 1) + 1) _ _ _ _ ltac:(lia) ltac:(lia) T2 IR) as Y.
    destruct (rel_div L (j + (j + j)) (j + j) (e + (e + e)) (e + e) (m + 1 + (m + 1 + (m + 1) + 1)) (m + 1 + (m + 1) + 1) _ _ _ _ ltac:(lia) ltac:(lia) NZ X LR) as (qx & qx' & EX1 & EX2 & RX).
    destruct (rel_div L (j + (j + j)) (j + j) (e + (e + e)) (e + e) (m + 1 + (m + 1 + (m + 1) + 1)) (m + 1 + (m + 1) + 1) _ _ _ _ ltac:(lia) ltac:(lia) NZ Y LR) as (qy & qy' & EY1 & EY2 & RY).
    rewrite EX1, EX2. cbn [bind]. rewrite EY1, EY2. cbn [bind]. eexists _, _. split; [reflexivity|]. split; [reflexivity|].
    replace (j + (j + j) - (j + j))%Z with j in RX, RY by lia. replace 920%Z with (919 + 1)%Z by lia. apply add_rel; [lia|lia|eapply vrel_weak; [..|exact O]; lia|].
    split; [eapply rel_weak; [..|exact RX]; lia|eapply rel_weak; [..|exact RY]; lia].
  Qed.
End Shapes.

(** ** Theorems *)
Lemma point_rel j v w : same_point j v w -> vrel j (-180) 180 v w.
Proof. intros ((A & B) & (C & D) & (_ & _ & E) & (_ & _ & G)). split; (split; [assumption|split; assumption]). Qed.
Lemma rel_times j e m x y : rel j e m x y -> times2 j x y.
Proof. intros ((A & _) & (B & _) & C). now repeat split. Qed.
Definition times2v (j : Z) (v w : vec F) : Prop := times2 j (vx v) (vx w) /\ times2 j (vy v) (vy w).

(** Sums, differences, products, lengths and areas of points measured in two units
    are the same quantities in the two units, exactly. *)
Theorem C199_measures_F : forall (L : libm) (j : Z) (a b c a' b' c' : vec F),
  same_point j a a' -> same_point j b b' -> same_point j c c' ->
  times2v j (@Vector2D_add F (NumF L) a b) (@Vector2D_add F (NumF L) a' b') /\
  times2v j (@Vector2D_sub F (NumF L) a b) (@Vector2D_sub F (NumF L) a' b') /\
  times2 (j + j) (@Vector2D_inner_product F (NumF L) a b) (@Vector2D_inner_product F (NumF L) a' b') /\
  times2 (j + j) (@Vector2D_outer_product F (NumF L) a b) (@Vector2D_outer_product F (NumF L) a' b') /\
  times2 (j + j) (@Vector2D_r2 F (NumF L) a) (@Vector2D_r2 F (NumF L) a') /\
  (exists r r', @Vector2D_r F (NumF L) a = Ok r /\ @Vector2D_r F (NumF L) a' = Ok r' /\ times2 j r r') /\
  times2 (j + j) (@double_signed_area_st F (NumF L) a b c) (@double_signed_area_st F (NumF L) a' b' c') /\
  times2 (j + j) (@Triangle2D_area F (NumF L) (mkTri a b c)) (@Triangle2D_area F (NumF L) (mkTri a' b' c')).
Proof.
  intros L j a b c a' b' c' PA PB PC. apply point_rel in PA, PB, PC. 
  pose proof (rel_area L j (-180) 180 _ _ _ _ _ _ ltac:(lia) ltac:(lia) PA PB PC) as AR.
  split. { destruct (add_rel L j (-180) 180 _ _ _ _ ltac:(lia) ltac:(lia) PA PB) as [X Y]. split; eapply rel_times; eassumption. }
  split. { destruct (sub_rel L j (-180) 180 _ _ _ _ ltac:(lia) ltac:(lia) PA PB) as [X Y]. split; eapply rel_times; eassumption. }
  destruct (PA) as [A1 A2], (PB) as [B1 B2].
  split. { unfold Vector2D_inner_product. cbn [nmul nadd NumF]. eapply rel_times. apply rel_add with (e := (-180 + -180)%Z) (m := (180 + 180)%Z); [lia|lia|apply rel_mul; try lia; assumption|apply rel_mul; try lia; assumption]. }
  split. { unfold Vector2D_outer_product. cbn [nmul nsub NumF]. eapply rel_times. apply rel_sub with (e := (-180 + -180)%Z) (m := (180 + 180)%Z); [lia|lia|apply rel_mul; try lia; assumption|apply rel_mul; try lia; assumption]. }
  split. { eapply rel_times, r2_rel; [..|exact PA]; lia. }
  split. { destruct (r_rel L j (-180) 180 a a' ltac:(lia) ltac:(lia) PA) as (r & r' & E1 & E2 & E3). exists r, r'. split; [easy|]. split; [easy|]. eapply rel_times, E3. }
  split. { eapply rel_times, AR. }
  unfold Triangle2D_area. cbn [t_a t_b t_c].
  destruct (sub_rel L j (-180) 180 _ _ _ _ ltac:(lia) ltac:(lia) PB PA) as [S1 S2]. destruct (sub_rel L j (-180) 180 _ _ _ _ ltac:(lia) ltac:(lia) PC PA) as [T1 T2].
  replace (j + j)%Z with (j + j + 0)%Z by lia. eapply rel_times. cbn [nmul nabs NumF].
  apply rel_mul with (e := (-360)%Z) (m := 363%Z) (f := (-1)%Z) (n := 0%Z); [lia|lia| |apply half_rel]. apply rel_abs.
  unfold Vector2D_outer_product. cbn [nmul nsub NumF]. apply rel_sub with (e := (-180 + -180)%Z) (m := (180 + 1 + (180 + 1))%Z); [lia|lia|apply rel_mul; try lia; assumption|apply rel_mul; try lia; assumption].
Qed.
(** The tests that use no tolerance answer alike in both units. *)
Theorem C199_tests_F : forall (L : libm) (j : Z) (a b c d a' b' c' d' : vec F),
  same_point j a a' -> same_point j b b' -> same_point j c c' -> same_point j d d' ->
  @Vector2D_eq F (NumF L) a' b' = @Vector2D_eq F (NumF L) a b /\
  @tri_ccw F (NumF L) a' b' c' = @tri_ccw F (NumF L) a b c /\
  @Triangle2D_contains F (NumF L) (mkTri a' b' c') d' = @Triangle2D_contains F (NumF L) (mkTri a b c) d /\
  @Segment2D_on_segment F (NumF L) (Segment2D_of_points a' b') c' = @Segment2D_on_segment F (NumF L) (Segment2D_of_points a b) c /\
  @Segment2D_exist_intersection_seg F (NumF L) (Segment2D_of_points a' b') (Segment2D_of_points c' d') = @Segment2D_exist_intersection_seg F (NumF L) (Segment2D_of_points a b) (Segment2D_of_points c d) /\
  @Segment2D_exist_intersection_except_endpoint F (NumF L) (Segment2D_of_points a' b') (Segment2D_of_points c' d') = @Segment2D_exist_intersection_except_endpoint F (NumF L) (Segment2D_of_points a b) (Segment2D_of_points c d) /\
  (forall l w l' w' : F, usual l -> usual w -> usual l' -> usual w' -> times2 j l l' -> times2 j w w' ->
    @Rect2D_contains F (NumF L) (@Rect2D_of_vec_nums F (NumF L) a' l' w') b' = @Rect2D_contains F (NumF L) (@Rect2D_of_vec_nums F (NumF L) a l w) b).
Proof.
  intros L j a b c d a' b' c' d' PA PB PC PD. apply point_rel in PA, PB, PC, PD.
  split; [apply (vrel_eq L _ _ _ _ _ _ _ _ _ PA PB)|].
  split. { unfold tri_ccw. cbn [nltb NumF]. apply (rel_ltb _ _ _ _ _ _ _ _ _ (rel_zero L (j + j) 0 0) (rel_area L j (-180) 180 _ _ _ _ _ _ ltac:(lia) ltac:(lia) PA PB PC)). }
  split; [apply (tri_rel L j (-180) 180); try lia; assumption|].
  assert (S1 : srel j (-180) 180 (Segment2D_of_points a b) (Segment2D_of_points a' b')) by (split; assumption).
  assert (S2 : srel j (-180) 180 (Segment2D_of_points c d) (Segment2D_of_points c' d')) by (split; assumption).
  split; [apply (on_segment_rel L j (-180) 180); try lia; assumption|].
  split; [apply (meet_rel L j (-180) 180); try lia; assumption|].
  split.
  { pose proof (rel_area L j (-180) 180 _ _ _ _ _ _ ltac:(lia) ltac:(lia) PA PB PC) as a0. pose proof (rel_area L j (-180) 180 _ _ _ _ _ _ ltac:(lia) ltac:(lia) PA PB PD) as a1.
    pose proof (rel_area L j (-180) 180 _ _ _ _ _ _ ltac:(lia) ltac:(lia) PC PD PA) as b0. pose proof (rel_area L j (-180) 180 _ _ _ _ _ _ ltac:(lia) ltac:(lia) PC PD PB) as b1.
    unfold Segment2D_exist_intersection_except_endpoint. cbn [s_origin s_terminal Segment2D_of_points Vector2D_of_vec].
    f_equal; cbn [nmul NumF]; [apply (prod_rel L (j + j) (-360) 363 _ _ _ _ ltac:(lia) ltac:(lia) a0 a1)|apply (prod_rel L (j + j) (-360) 363 _ _ _ _ ltac:(lia) ltac:(lia) b0 b1)]. }
  intros l w l' w' Ul Uw Ul' Uw' (_ & _ & El) (_ & _ & Ew). apply (rect_rel L j (-180) 180); try lia; [|exact PB].
  split; [exact PA|]. split; cbn [Rect2D_of_vec_nums r_size Size2D_init sz_length sz_width nabs NumF]; apply rel_abs; (split; [assumption|split; assumption]).
Qed.
(** Polygons: containment is unchanged, areas and bounding boxes correspond. *)
Theorem C199_polygon_F : forall (L : libm) (j : Z) (vs ws : list (vec F)) (p q : vec F) (allow : bool),
  Forall2 (same_point j) vs ws -> same_point j p q ->
  @Polygon2D_contains F (NumF L) ws q allow = @Polygon2D_contains F (NumF L) vs p allow /\
  ((Z.of_nat (List.length vs) <= 2 ^ 52)%Z ->
    times2 (j + j) (@Polygon2D_area F (NumF L) vs) (@Polygon2D_area F (NumF L) ws) /\
    @Polygon2D_is_counter_clockwise F (NumF L) ws = @Polygon2D_is_counter_clockwise F (NumF L) vs /\
    @Polygon2D_is_clockwise F (NumF L) ws = @Polygon2D_is_clockwise F (NumF L) vs) /\
  (vs <> [] -> exists r s, @Polygon2D_get_bounding_box F (NumF L) vs = Ok r /\ @Polygon2D_get_bounding_box F (NumF L) ws = Ok s /\
    times2v j (r_top_left r) (r_top_left s) /\ times2 j (sz_length (r_size r)) (sz_length (r_size s)) /\ times2 j (sz_width (r_size r)) (sz_width (r_size s))).
Proof.
  intros L j vs ws p q allow F2 P. apply point_rel in P. apply (Forall2_weak _ (vrel j (-180) 180) _ _ (point_rel j)) in F2.
  split; [apply (contains_rel L j (-180) 180); try lia; assumption|]. split.
  - intros Hl. pose proof (poly_area_rel L j (-180) 180 _ _ ltac:(lia) ltac:(lia) Hl F2) as A. split; [|split].
    + unfold Polygon2D_area. cbn [nabs nmul NumF]. eapply rel_times, rel_abs. replace (j + j)%Z with (j + j + 0)%Z by lia.
      apply rel_mul with (e := (-360)%Z) (m := 413%Z) (f := (-1)%Z) (n := 0%Z); [lia|lia|exact A|apply half_rel].
    + unfold Polygon2D_is_counter_clockwise. cbn [nltb NumF]. apply (rel_ltb _ _ _ _ _ _ _ _ _ (rel_zero L (j + j) 0 0) A).
    + unfold Polygon2D_is_clockwise. cbn [nltb NumF]. apply (rel_ltb _ _ _ _ _ _ _ _ _ A (rel_zero L (j + j) 0 0)).
  - intros NE. destruct (box_rel L j (-180) 180 vs ws ltac:(lia) ltac:(lia) NE F2) as (r & s & E1 & E2 & [B1 B2] & B3 & B4).
    exists r, s. split; [easy|]. split; [easy|]. split; [split; eapply rel_times; eassumption|]. split; eapply rel_times; eassumption.
Qed.
(** The nearest point of a segment is the same point. *)
Theorem C199_nearest_F : forall (L : libm) (j : Z) (a b p a' b' p' : vec F),
  same_point j a a' -> same_point j b b' -> same_point j p p' ->
  exists q q', @Segment2D_nearest_point F (NumF L) (Segment2D_of_points a b) p = Ok q /\ @Segment2D_nearest_point F (NumF L) (Segment2D_of_points a' b') p' = Ok q' /\ times2v j q q'.
Proof.
  intros L j a b p a' b' p' PA PB PP. apply point_rel in PA, PB, PP.
  destruct (nearest_rel L j (-180) 180 (Segment2D_of_points a b) (Segment2D_of_points a' b') p p' ltac:(lia) ltac:(lia) (conj PA PB) PP) as (q & q' & E1 & E2 & [Q1 Q2]).
  exists q, q'. split; [easy|]. split; [easy|]. split; eapply rel_times; eassumption.
Qed.
(** Tests with a tolerance depend on the unit: two points that equals_weakly
    calls equal are told apart when the unit is 1024 times as short. *)
Definition p2 (k : Z) : F := binary_normalize 53 1024 eq_refl eq_refl mode_NE 1 k false.
Lemma p2_val k : (-1000 <= k <= 1000)%Z -> B2R (p2 k) = bpow radix2 k /\ is_finite (p2 k) = true.
Proof.
  intros H. assert (E : F2R (Float radix2 1 k) = bpow radix2 k) by (unfold F2R; cbn [Fnum Fexp]; ring).
  destruct (normalize_exact 1 k false) as [A B]; [rewrite E; apply fmt_bpow; lia|rewrite E, Rabs_pos_eq by apply bpow_ge_0; apply bpow_lt; lia|]. rewrite E in A. split; [exact A|exact B].
Qed.
Lemma p2_usual k : (-180 <= k <= 180)%Z -> usual (p2 k).
Proof.
  intros H. destruct (p2_val k ltac:(lia)) as [A B]. split; [easy|]. rewrite A. split; [rewrite Rabs_pos_eq by apply bpow_ge_0; apply bpow_le; lia|].
  exists (2 ^ (k + 180))%Z. change 2%Z with (radix_val radix2). rewrite IZR_Zpower by lia. rewrite <- bpow_plus. f_equal. lia.
Qed.
Lemma zero_usual : usual (F_of_Z 0).
Proof. destruct (F_of_Z_exact 0 eq_refl) as [A B]. split; [easy|]. rewrite A. split; [rewrite Rabs_R0; apply bpow_ge_0|]. exists 0%Z. ring. Qed.
Lemma p2_times k j : (-180 <= k <= 180)%Z -> (-180 <= k + j <= 180)%Z -> times2 j (p2 k) (p2 (k + j)).
Proof. intros H K. destruct (p2_val k ltac:(lia)) as [A B]. destruct (p2_val (k + j) ltac:(lia)) as [C D]. split; [easy|]. split; [easy|]. now rewrite A, C, bpow_plus. Qed.
Lemma zero_times j : times2 j (F_of_Z 0) (F_of_Z 0).
Proof. destruct (F_of_Z_exact 0 eq_refl) as [A B]. split; [easy|]. split; [easy|]. rewrite A. ring. Qed.
Definition on_x (x : F) : vec F := mkVec x (F_of_Z 0) true.
Lemma on_x_same k j : (-180 <= k <= 180)%Z -> (-180 <= k + j <= 180)%Z -> same_point j (on_x (p2 k)) (on_x (p2 (k + j))).
Proof. intros H K. repeat split; cbn [vx vy on_x]; try (apply p2_usual; assumption); try apply zero_usual; try apply (p2_times k j H K); try apply zero_times. Qed.
Lemma origin_same j : same_point j (on_x (F_of_Z 0)) (on_x (F_of_Z 0)).
Proof. repeat split; cbn [vx vy on_x]; try apply zero_usual; try apply (zero_times j). Qed.
Theorem C199_tolerance_refuted_F : forall L : libm, ~ (forall (j : Z) (a b a' b' : vec F), same_point j a a' -> same_point j b b' ->
  @Vector2D_equals_weakly F (NumF L) a' b' = @Vector2D_equals_weakly F (NumF L) a b).
Proof.
  intros L H. specialize (H 10%Z (on_x (p2 (-21))) (on_x (F_of_Z 0)) (on_x (p2 (-21 + 10))) (on_x (F_of_Z 0)) (on_x_same (-21) 10 ltac:(lia) ltac:(lia)) (origin_same _)).
  vm_compute in H. discriminate.
Qed.
Lemma p2_same k l j : (-180 <= k <= 180)%Z -> (-180 <= l <= 180)%Z -> (-180 <= k + j <= 180)%Z -> (-180 <= l + j <= 180)%Z -> same_point j (mkVec (p2 k) (p2 l) true) (mkVec (p2 (k + j)) (p2 (l + j)) true).
Proof. intros. split; [split; now apply p2_usual|]. split; [split; now apply p2_usual|]. split; now apply p2_times. Qed.
(** The hypotheses are met: the triangle (0,0), (2^4,0), (2^4,2^3) and a point in it, in two units. *)
Example C199_nonvacuous : forall L : libm, let t := fun k => [on_x (F_of_Z 0); on_x (p2 (4 + k)); mkVec (p2 (4 + k)) (p2 (3 + k)) true] in let q := fun k => mkVec (p2 (3 + k)) (p2 k) true in
  Forall2 (same_point 20) (t 0%Z) (t 20%Z) /\ same_point 20 (q 0%Z) (q 20%Z) /\ @Polygon2D_contains F (NumF L) (t 20%Z) (q 20%Z) true = Ok true.
Proof.
  intros L t q.
  assert (A : Forall2 (same_point 20) (t 0%Z) (t 20%Z)).
  { constructor; [apply origin_same|]. constructor; [apply (on_x_same 4 20); lia|]. constructor; [|constructor]. apply (p2_same 4 3 20); lia. }
  assert (B : same_point 20 (q 0%Z) (q 20%Z)) by (apply (p2_same 3 0 20); lia).
  split; [exact A|]. split; [exact B|]. rewrite (proj1 (C199_polygon_F L 20 (t 0%Z) (t 20%Z) (q 0%Z) (q 20%Z) true A B)). vm_compute. reflexivity.
Qed.

(** ** Distances, when pow(x, 2) is x*x rounded once *)
Definition pow_rounds (L : libm) : Prop := forall x : F, is_finite x = true -> Rabs (B2R x) <= bpow radix2 500 -> lm_pow L x (F_of_Z 2) = Bmult mode_NE x x.
Section Dist.
  Variable L : libm.
  Hypothesis PW : pow_rounds L.
  Lemma pow_is x : is_finite x = true -> Rabs (B2R x) <= bpow radix2 500 -> @npowi F (NumF L) x 2 = Ok (Bmult mode_NE x x).
  Proof.
    intros A B. cbn [npowi NumF]. unfold F_powi. rewrite (PW x A B), A. change (is_finite (F_of_Z 2)) with true. cbn [negb].
    destruct (F_mul x x A A (rnd_max _ (500 + 500) ltac:(lia) (abs_mult_le _ _ _ _ B B))) as [_ FI]. destruct (Bmult mode_NE x x); try discriminate; reflexivity.
  Qed.
  Lemma dist2_is e m a b : (-1022 <= e)%Z -> (0 <= m <= 400)%Z -> vrel 0 e m a a -> vrel 0 e m b b -> @Vector2D_dist2 F (NumF L) a b = Ok (@Vector2D_r2 F (NumF L) (@Vector2D_sub F (NumF L) a b)).
  Proof.
    intros He Hm A B. destruct (sub_rel L 0 e m a a b b He ltac:(lia) A B) as [((X1 & X2 & _) & _) ((Y1 & Y2 & _) & _)]. unfold Vector2D_dist2, Vector2D_r2.
    change (@nsub F (NumF L) (vx a) (vx b)) with (vx (@Vector2D_sub F (NumF L) a b)). change (@nsub F (NumF L) (vy a) (vy b)) with (vy (@Vector2D_sub F (NumF L) a b)).
    rewrite !pow_is; [reflexivity|assumption| |assumption|]; (eapply Rle_trans; [eassumption|apply bpow_le; lia]).
  Qed.
  Lemma vrel_self j e m a b : vrel j e m a b -> vrel 0 e m a a /\ vrel 0 e m b b.
  Proof. intros [(A & B & _) (C & D & _)]. split; (split; (split; [assumption|split; [assumption|cbn; ring]])). Qed.
  Lemma dist2_rel j e m a a' b b' : (-511 <= e)%Z -> (0 <= m <= 400)%Z -> vrel j e m a a' -> vrel j e m b b' ->
    exists d d', @Vector2D_dist2 F (NumF L) a b = Ok d /\ @Vector2D_dist2 F (NumF L) a' b' = Ok d' /\ 0 <= B2R d /\ rel (j + j) (e + e) (m + m + 3) d d'.
  Proof.
    intros He Hm A B. destruct (vrel_self _ _ _ _ _ A) as [A0 A1]. destruct (vrel_self _ _ _ _ _ B) as [B0 B1].
    rewrite (dist2_is e m a b), (dist2_is e m a' b') by (try lia; assumption). eexists _, _. split; [reflexivity|]. split; [reflexivity|].
    replace (m + m + 3)%Z with (m + 1 + (m + 1) + 1)%Z by lia. apply r2_rel; [lia|lia|]. apply sub_rel; try lia; assumption.
  Qed.
  Lemma dist_rel j e m a a' b b' : (-490 <= e)%Z -> (0 <= m <= 400)%Z -> vrel j e m a a' -> vrel j e m b b' ->
    exists d d', @Vector2D_dist F (NumF L) a b = Ok d /\ @Vector2D_dist F (NumF L) a' b' = Ok d' /\ 0 <= B2R d /\ rel j (e - 52) (m + 2) d d'.
  Proof.
    intros He Hm A B. destruct (dist2_rel j e m a a' b b' ltac:(lia) Hm A B) as (d & d' & E1 & E2 & P & R). unfold Vector2D_dist. rewrite E1, E2. cbn [bind].
    destruct (rel_sqrt L j e (m + 2) d d' ltac:(lia) ltac:(lia) P) as (r & r' & R1 & R2 & R3 & R4); [eapply rel_weak; [..|exact R]; lia|]. exists r, r'. auto.
  Qed.
  Lemma seg_dist_rel j e m s s' p p' : (-180 <= e <= 0)%Z -> (0 <= m <= 180)%Z -> srel j e m s s' -> vrel j e m p p' ->
    exists d d', @Segment2D_dist_point F (NumF L) s p = Ok d /\ @Segment2D_dist_point F (NumF L) s' p' = Ok d' /\ rel j (-960) 920 d d'.
  Proof.
    intros He Hm [O T] P. unfold Segment2D_dist_point, Segment2D_length.
    destruct (dist_rel j e m _ _ _ _ ltac:(lia) ltac:(lia) O T) as (l & l' & -> & -> & LP & LR). cbn [bind].
    cbn [neqb NumF]. rewrite (rel_eqb _ _ _ _ _ _ _ _ _ LR (rel_zero L j 0 0)).
    destruct (Beqb l _) eqn:EL.
    { destruct (dist_rel j e m _ _ _ _ ltac:(lia) ltac:(lia) O P) as (d & d' & E1 & E2 & _ & DR). exists d, d'. split; [easy|]. split; [easy|]. eapply rel_weak; [..|exact DR]; lia. }
    pose proof (sub_rel L j e m _ _ _ _ ltac:(lia) ltac:(lia) T O) as [T1 T2]. pose proof (sub_rel L j e m _ _ _ _ ltac:(lia) ltac:(lia) P O) as [P1 P2].
    set (t := @Vector2D_sub F (NumF L) (s_terminal s) (s_origin s)) in *. set (t' := @Vector2D_sub F (NumF L) (s_terminal s') (s_origin s')) in *.
    assert (IR : rel (j + j) (e + e) (m + 1 + (m + 1) + 1) (@Vector2D_inner_product F (NumF L) t (@Vector2D_sub F (NumF L) p (s_origin s))) (@Vector2D_inner_product F (NumF L) t' (@Vector2D_sub F (NumF L) p' (s_origin s')))).
    { unfold Vector2D_inner_product. cbn [nmul nadd NumF]. apply rel_add; [lia|lia|apply rel_mul; try lia; assumption|apply rel_mul; try lia; assumption]. }
    pose proof (rel_mul j j (e - 52) (e - 52) (m + 2) (m + 2) _ _ _ _ ltac:(lia) ltac:(lia) LR LR) as LL.
    cbn [nleb nmul NumF]. rewrite (rel_leb _ _ _ _ _ _ _ _ _ (rel_zero L (j + j) 0 0) IR), (rel_leb _ _ _ _ _ _ _ _ _ IR LL).
    destruct (_ && _).
    - assert (NZ : B2R l <> 0). { intros E. destruct LR as ((FL & _) & _). destruct (num_F L 0 eq_refl) as [Q1 Q2]. rewrite eqb_F, Q1, E, Req_bool_true in EL by easy. discriminate. }
      pose proof (rel_area L j e m _ _ _ _ _ _ ltac:(lia) ltac:(lia) O T P) as AR.
      destruct (rel_div L (j + j) j (e + e) (e - 52) (m + m + 3) (m + 2) _ _ _ _ ltac:(lia) ltac:(lia) NZ AR LR) as (q & q' & -> & -> & QR). cbn [bind]. eexists _, _. split; [reflexivity|]. split; [reflexivity|].
      cbn [nabs NumF]. apply rel_abs. replace (j + j - j)%Z with j in QR by lia. eapply rel_weak; [..|exact QR]; lia.
    - destruct (dist2_rel j e m _ _ _ _ ltac:(lia) ltac:(lia) O P) as (d1 & d1' & -> & -> & N1 & R1). destruct (dist2_rel j e m _ _ _ _ ltac:(lia) ltac:(lia) T P) as (d2 & d2' & -> & -> & N2 & R2). cbn [bind].
      unfold nmin. cbn [nltb NumF]. rewrite (rel_ltb _ _ _ _ _ _ _ _ _ R2 R1).
      destruct (Bltb d2 d1).
      + destruct (rel_sqrt L j e (m + 2) d2 d2' ltac:(lia) ltac:(lia) N2) as (r & r' & E1 & E2 & _ & RR); [eapply rel_weak; [..|exact R2]; lia|]. exists r, r'. split; [easy|]. split; [easy|]. eapply rel_weak; [..|exact RR]; lia.
      + destruct (rel_sqrt L j e (m + 2) d1 d1' ltac:(lia) ltac:(lia) N1) as (r & r' & E1 & E2 & _ & RR); [eapply rel_weak; [..|exact R1]; lia|]. exists r, r'. split; [easy|]. split; [easy|]. eapply rel_weak; [..|exact RR]; lia.
  Qed.
End Dist.
Theorem C199_distance_F : forall (L : libm) (j : Z) (a b p a' b' p' : vec F) (r r' : F), pow_rounds L ->
  same_point j a a' -> same_point j b b' -> same_point j p p' -> usual r -> usual r' -> times2 j r r' ->
  (exists d d', @Vector2D_dist F (NumF L) a b = Ok d /\ @Vector2D_dist F (NumF L) a' b' = Ok d' /\ times2 j d d') /\
  (exists d d', @Segment2D_dist_point F (NumF L) (Segment2D_of_points a b) p = Ok d /\ @Segment2D_dist_point F (NumF L) (Segment2D_of_points a' b') p' = Ok d' /\ times2 j d d') /\
  @Circle2D_contains F (NumF L) (mkCircle a' r') p' = @Circle2D_contains F (NumF L) (mkCircle a r) p.
Proof.
  intros L j a b p a' b' p' r r' PW PA PB PP Ur Ur' (_ & _ & Er). apply point_rel in PA, PB, PP. split; [|split].
  - destruct (dist_rel L PW j (-180) 180 _ _ _ _ ltac:(lia) ltac:(lia) PA PB) as (d & d' & E1 & E2 & _ & R). exists d, d'. split; [easy|]. split; [easy|]. eapply rel_times, R.
  - destruct (seg_dist_rel L PW j (-180) 180 (Segment2D_of_points a b) (Segment2D_of_points a' b') p p' ltac:(lia) ltac:(lia) (conj PA PB) PP) as (d & d' & E1 & E2 & R). exists d, d'. split; [easy|]. split; [easy|]. eapply rel_times, R.
  - unfold Circle2D_contains. cbn [c_center c_radius]. destruct (dist2_rel L PW j (-180) 180 _ _ _ _ ltac:(lia) ltac:(lia) PA PP) as (d & d' & -> & -> & _ & R). cbn [bind]. f_equal. cbn [nltb nmul NumF].
    assert (RR : rel j (-180) 180 r r') by (split; [assumption|split; assumption]).
    apply (rel_ltb _ _ _ _ _ _ _ _ _ R (rel_mul j j (-180) (-180) 180 180 _ _ _ _ ltac:(lia) ltac:(lia) RR RR)).
Qed.
Example C199_distance_nonvacuous : pow_rounds libm_sq /\ same_point 7 (on_x (F_of_Z 0)) (on_x (F_of_Z 0)) /\ same_point 7 (on_x (p2 3)) (on_x (p2 10)) /\ usual (p2 4) /\ usual (p2 11) /\ times2 7 (p2 4) (p2 11).
Proof.
  split; [intros x _ _; reflexivity|]. split; [apply origin_same|]. split; [apply (on_x_same 3 7); lia|]. split; [apply p2_usual; lia|]. split; [apply p2_usual; lia|]. apply (p2_times 4 7); lia.
Qed.
