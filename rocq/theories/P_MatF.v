(** * P_MatF: matrices in doubles (C146) *)
From Coq Require Import ZArith List Bool String Reals Lra Lia Psatz.
From Flocq Require Import Core BinarySingleNaN.
From Verif Require Import Base Types NumR NumF R_Tac Spec Spec2 Abs M_Angle M_Vector M_Matrix
  L_Angle P_Vector P_Matrix P_AngleF L_Float P_Float P_Robust P_Hull2 P_VecF P_TrigF P_LineF.
Import ListNotations.
Local Open Scope R_scope.

(** the matrix of numbers a matrix of doubles holds *)
Definition rmat (m : matrix F) : matrix R := mkMat (B2R (m11 m)) (B2R (m12 m)) (B2R (m21 m)) (B2R (m22 m)) (B2R (mdx m)) (B2R (mdy m)).
Definition fbound (k : Z) (x : F) : Prop := is_finite x = true /\ Rabs (B2R x) <= bpow radix2 k.
(** finite, linear part up to 2^m, translation up to 2^d *)
Definition mat_within (m d : Z) (M : matrix F) : Prop :=
  fbound m (m11 M) /\ fbound m (m12 M) /\ fbound m (m21 M) /\ fbound m (m22 M) /\ fbound d (mdx M) /\ fbound d (mdy M).
(** finite coordinates, each within e of those of p *)
Definition coords_near (e : R) (v : vec F) (p : point) : Prop :=
  is_finite (vx v) = true /\ is_finite (vy v) = true /\ Rabs (B2R (vx v) - px p) <= e /\ Rabs (B2R (vy v) - py p) <= e.

Lemma fb_close k x : fbound k x -> close k 0 (B2R x) x.
Proof. intros [A B]. now apply close_exact. Qed.
Lemma close_up j i t d x : (j <= i)%Z -> close j t d x -> close i t d x.
Proof. intros H (A & B & C). split; [exact A|]. split; [|exact C]. eapply Rle_trans; [exact B|]. now apply bpow_le. Qed.
(** a x + b y and a x + b y + c *)
Lemma lin_close i j ta tx (A B X Y : R) (a b x y : F) : (-900 <= i + j <= 900)%Z -> Rabs A <= bpow radix2 i -> Rabs B <= bpow radix2 i ->
  close i ta A a -> close i ta B b -> close j tx X x -> close j tx Y y ->
  close (i + j + 1) (2 * (bpow radix2 i * tx + bpow radix2 j * ta) + 4 * bpow radix2 (i + j - 54)) (A * X + B * Y) (Bplus mode_NE (Bmult mode_NE a x) (Bmult mode_NE b y)).
Proof.
  intros H HA HB CA CB CX CY. assert (P := close_mul i j ta A tx X a x ltac:(lia) HA CA CX). assert (Q := close_mul i j ta B tx Y b y ltac:(lia) HB CB CY).
  eapply close_weaken; [|apply close_add; [lia|exact P|exact Q]]. replace (i + j + 1 - 54)%Z with (1 + (i + j - 54))%Z by lia. rewrite bp2. lra.
Qed.
Lemma lin_close_m i j ta tx (A B X Y : R) (a b x y : F) : (-900 <= i + j <= 900)%Z -> Rabs A <= bpow radix2 i -> Rabs B <= bpow radix2 i ->
  close i ta A a -> close i ta B b -> close j tx X x -> close j tx Y y ->
  close (i + j + 1) (2 * (bpow radix2 i * tx + bpow radix2 j * ta) + 4 * bpow radix2 (i + j - 54)) (A * X - B * Y) (Bminus mode_NE (Bmult mode_NE a x) (Bmult mode_NE b y)).
Proof.
  intros H HA HB CA CB CX CY. assert (P := close_mul i j ta A tx X a x ltac:(lia) HA CA CX). assert (Q := close_mul i j ta B tx Y b y ltac:(lia) HB CB CY).
  eapply close_weaken; [|apply close_sub; [lia|exact P|exact Q]]. replace (i + j + 1 - 54)%Z with (1 + (i + j - 54))%Z by lia. rewrite bp2. lra.
Qed.
Lemma aff_close i j ta tx tc (A B C X Y : R) (a b c x y : F) : (-900 <= i + j <= 900)%Z -> Rabs A <= bpow radix2 i -> Rabs B <= bpow radix2 i ->
  close i ta A a -> close i ta B b -> close j tx X x -> close j tx Y y -> close (i + j + 1) tc C c ->
  close (i + j + 2) (2 * (bpow radix2 i * tx + bpow radix2 j * ta) + tc + 8 * bpow radix2 (i + j - 54)) (A * X + B * Y + C)
    (Bplus mode_NE (Bplus mode_NE (Bmult mode_NE a x) (Bmult mode_NE b y)) c).
Proof.
  intros H HA HB CA CB CX CY CC. assert (P := lin_close i j ta tx A B X Y a b x y H HA HB CA CB CX CY).
  replace (i + j + 2)%Z with (i + j + 1 + 1)%Z by lia. eapply close_weaken; [|apply close_add; [lia|exact P|exact CC]].
  replace (i + j + 1 + 1 - 54)%Z with (2 + (i + j - 54))%Z by lia. rewrite (bpow_plus radix2 2). change (bpow radix2 2) with 4. lra.
Qed.

(** C146: transform is the affine map up to rounding *)
Theorem C146_transform_F : forall (L : libm) (m k : Z) (M : matrix F) (v : vec F), (-200 <= m <= 200)%Z -> (-200 <= k <= 200)%Z -> mat_within m (m + k) M -> within k v ->
  coords_near (bpow radix2 (m + k - 51)) (@Matrix2D_transform F (NumF L) M v) (affine (rmat M) (fpt v)) /\
  coords_near (bpow radix2 (m + k - 51)) (@Matrix2D_transform_vec F (NumF L) M v) (affine (rmat M) (fpt v)).
Proof.
  intros L m k M v Hm Hk (M11 & M12 & M21 & M22 & DX & DY) (V1 & V2 & V3 & V4).
  assert (X := close_exact k _ V1 V3). assert (Y := close_exact k _ V2 V4).
  assert (A := aff_close m k 0 0 0 _ _ _ _ _ _ _ _ _ _ ltac:(lia) (proj2 M11) (proj2 M12) (fb_close _ _ M11) (fb_close _ _ M12) X Y (close_up (m + k) (m + k + 1) _ _ _ ltac:(lia) (fb_close _ _ DX))).
  assert (B := aff_close m k 0 0 0 _ _ _ _ _ _ _ _ _ _ ltac:(lia) (proj2 M21) (proj2 M22) (fb_close _ _ M21) (fb_close _ _ M22) X Y (close_up (m + k) (m + k + 1) _ _ _ ltac:(lia) (fb_close _ _ DY))).
  assert (E : 2 * (bpow radix2 m * 0 + bpow radix2 k * 0) + 0 + 8 * bpow radix2 (m + k - 54) = bpow radix2 (m + k - 51)).
  { replace (m + k - 51)%Z with (3 + (m + k - 54))%Z by lia. rewrite (bpow_plus radix2 3). change (bpow radix2 3) with 8. ring. }
  rewrite E in A, B. destruct A as (A1 & _ & A2), B as (B1 & _ & B2). split; (split; [exact A1|split; [exact B1|split; [exact A2|exact B2]]]).
Qed.

(** C146: the product of two matrices, applied to a point *)
Theorem C146_product_F : forall (L : libm) (a b k : Z) (A B : matrix F) (v : vec F), (-200 <= a <= 200)%Z -> (-200 <= b <= 200)%Z -> (-200 <= k <= 200)%Z ->
  mat_within a (a + b + k) A -> mat_within b (b + k) B -> within k v ->
  coords_near (bpow radix2 (a + b + k - 49)) (@Matrix2D_transform F (NumF L) (@Matrix2D_imul F (NumF L) A B) v) (affine (rmat A) (affine (rmat B) (fpt v))).
Proof.
  intros L a b k A B v Ha Hb Hk (A11 & A12 & A21 & A22 & AX & AY) (B11 & B12 & B21 & B22 & BX & BY) (V1 & V2 & V3 & V4).
  assert (X := close_exact k _ V1 V3). assert (Y := close_exact k _ V2 V4).
  set (e := bpow radix2 (a + b + k - 54)). assert (PE : 0 < e) by apply bpow_gt_0.
  assert (EL : 2 * (bpow radix2 a * 0 + bpow radix2 b * 0) + 4 * bpow radix2 (a + b - 54) = 4 * bpow radix2 (a + b - 54)) by ring.
  assert (ED : 2 * (bpow radix2 a * 0 + bpow radix2 (b + k) * 0) + 0 + 8 * bpow radix2 (a + (b + k) - 54) = 8 * e) by (unfold e; replace (a + (b + k) - 54)%Z with (a + b + k - 54)%Z by lia; ring).
  assert (LB : forall (p q r s : F), fbound a p -> fbound a q -> fbound b r -> fbound b s -> Rabs (B2R p * B2R r + B2R q * B2R s) <= bpow radix2 (a + b + 1) /\
    close (a + b + 1) (4 * bpow radix2 (a + b - 54)) (B2R p * B2R r + B2R q * B2R s) (Bplus mode_NE (Bmult mode_NE p r) (Bmult mode_NE q s))).
  { intros p q r s P Q R' S. split.
    - replace (a + b + 1)%Z with (1 + (a + b))%Z by lia. rewrite bp2. pose proof (mul_abs _ _ _ _ (proj2 P) (proj2 R')). pose proof (mul_abs _ _ _ _ (proj2 Q) (proj2 S)). eapply Rle_trans; [apply Rabs_triang|]. lra.
    - rewrite <- EL. apply lin_close; [lia|apply P|apply Q|now apply fb_close|now apply fb_close|now apply fb_close|now apply fb_close]. }
  assert (LD : forall p q c : F, fbound a p -> fbound a q -> fbound (a + b + k) c ->
    close (a + b + k + 2) (8 * e) (B2R p * B2R (mdx B) + B2R q * B2R (mdy B) + B2R c) (Bplus mode_NE (Bplus mode_NE (Bmult mode_NE p (mdx B)) (Bmult mode_NE q (mdy B))) c)).
  { intros p q c P Q C. rewrite <- ED. replace (a + b + k + 2)%Z with (a + (b + k) + 2)%Z by lia. apply aff_close; [lia|apply P|apply Q|now apply fb_close|now apply fb_close|now apply fb_close|now apply fb_close|]. apply (close_up (a + b + k)); [lia|]. now apply fb_close. }
  assert (G : forall p q c : F, fbound a p -> fbound a q -> fbound (a + b + k) c ->
    close (a + b + k + 3) (32 * e) ((B2R p * B2R (m11 B) + B2R q * B2R (m21 B)) * B2R (vx v) + (B2R p * B2R (m12 B) + B2R q * B2R (m22 B)) * B2R (vy v) + (B2R p * B2R (mdx B) + B2R q * B2R (mdy B) + B2R c))
      (Bplus mode_NE (Bplus mode_NE (Bmult mode_NE (Bplus mode_NE (Bmult mode_NE p (m11 B)) (Bmult mode_NE q (m21 B))) (vx v)) (Bmult mode_NE (Bplus mode_NE (Bmult mode_NE p (m12 B)) (Bmult mode_NE q (m22 B))) (vy v)))
        (Bplus mode_NE (Bplus mode_NE (Bmult mode_NE p (mdx B)) (Bmult mode_NE q (mdy B))) c))).
  { intros p q c P Q C. destruct (LB p q (m11 B) (m21 B)) as [L1 L2]; try assumption. destruct (LB p q (m12 B) (m22 B)) as [L3 L4]; try assumption. assert (L5 := LD p q c P Q C).
    replace (a + b + k + 3)%Z with (a + b + 1 + k + 2)%Z by lia. eapply close_weaken; [|apply (aff_close (a + b + 1) k (4 * bpow radix2 (a + b - 54)) 0 (8 * e)); [lia|exact L1|exact L3|exact L2|exact L4|exact X|exact Y|]].
    - replace (a + b + 1 + k - 54)%Z with (1 + (a + b + k - 54))%Z by lia. rewrite bp2. fold e. assert (bpow radix2 k * (4 * bpow radix2 (a + b - 54)) = 4 * e) by (unfold e; replace (a + b + k - 54)%Z with (k + (a + b - 54))%Z by lia; rewrite (bpow_plus radix2 k); ring). lra.
    - replace (a + b + 1 + k + 1)%Z with (a + b + k + 2)%Z by lia. exact L5. }
  destruct (G _ _ _ A11 A12 AX) as (X1 & _ & X2). destruct (G _ _ _ A21 A22 AY) as (Y1 & _ & Y2).
  assert (EE : bpow radix2 (a + b + k - 49) = 32 * e) by (unfold e; replace (a + b + k - 49)%Z with (5 + (a + b + k - 54))%Z by lia; now rewrite (bpow_plus radix2 5)).
  rewrite EE. split; [exact X1|]. split; [exact Y1|]. unfold affine, rmat. cbn [m11 m12 m21 m22 mdx mdy]. unfold px, py. cbn [fst snd fpt]. split; [eapply Rle_trans; [|exact X2]|eapply Rle_trans; [|exact Y2]]; (right; f_equal; unfold Matrix2D_transform, Matrix2D_transform_xy, Matrix2D_imul; cbn [m11 m12 m21 m22 mdx mdy vx vy V nadd nmul NumF]; ring).
Qed.

(** C146: translate and scale, applied to a point *)
Theorem C146_translate_F : forall (L : libm) (m k : Z) (M : matrix F) (x y : F) (v : vec F), (-200 <= m <= 200)%Z -> (-200 <= k <= 200)%Z -> mat_within m (m + k) M -> within k v ->
  fbound (m + k) x -> fbound (m + k) y -> let p := affine (rmat M) (fpt v) in
  coords_near (bpow radix2 (m + k - 50)) (@Matrix2D_transform F (NumF L) (@Matrix2D_translate F (NumF L) M x y) v) (px p + B2R x, py p + B2R y).
Proof.
  intros L m k M x y v Hm Hk (M11 & M12 & M21 & M22 & DX & DY) (V1 & V2 & V3 & V4) HX HY p.
  assert (X := close_exact k _ V1 V3). assert (Y := close_exact k _ V2 V4). assert (P : 0 < bpow radix2 (m + k - 54)) by apply bpow_gt_0.
  assert (E : bpow radix2 (m + k - 50) = 16 * bpow radix2 (m + k - 54)) by (replace (m + k - 50)%Z with (4 + (m + k - 54))%Z by lia; now rewrite (bpow_plus radix2 4)).
  assert (SX := close_add (m + k) 0 _ 0 _ _ _ ltac:(lia) (fb_close _ _ DX) (fb_close _ _ HX)). assert (SY := close_add (m + k) 0 _ 0 _ _ _ ltac:(lia) (fb_close _ _ DY) (fb_close _ _ HY)).
  replace (m + k + 1 - 54)%Z with (1 + (m + k - 54))%Z in SX, SY by lia. rewrite bp2 in SX, SY.
  assert (A := aff_close m k 0 0 _ _ _ _ _ _ _ _ _ _ _ ltac:(lia) (proj2 M11) (proj2 M12) (fb_close _ _ M11) (fb_close _ _ M12) X Y SX).
  assert (B := aff_close m k 0 0 _ _ _ _ _ _ _ _ _ _ _ ltac:(lia) (proj2 M21) (proj2 M22) (fb_close _ _ M21) (fb_close _ _ M22) X Y SY).
  destruct A as (A1 & _ & A2), B as (B1 & _ & B2). rewrite E. split; [exact A1|]. split; [exact B1|]. unfold p, affine, rmat. cbn [m11 m12 m21 m22 mdx mdy]. unfold px, py. cbn [fst snd fpt].
  split; [eapply Rle_trans; [eapply Rle_trans; [|exact A2]|]|eapply Rle_trans; [eapply Rle_trans; [|exact B2]|]]; try lra;
    (right; f_equal; unfold Matrix2D_transform, Matrix2D_transform_xy, Matrix2D_translate; cbn [m11 m12 m21 m22 mdx mdy vx vy V nadd nmul NumF]; ring).
Qed.
Theorem C146_scale_F : forall (L : libm) (m k s : Z) (M : matrix F) (sx sy : F) (v : vec F), (-200 <= m <= 200)%Z -> (-200 <= k <= 200)%Z -> (-200 <= s <= 200)%Z -> mat_within m (m + k) M -> within k v ->
  fbound s sx -> fbound s sy -> let p := affine (rmat M) (fpt v) in
  coords_near (bpow radix2 (m + s + k - 50)) (@Matrix2D_transform F (NumF L) (@Matrix2D_scale F (NumF L) M sx sy) v) (B2R sx * px p, B2R sy * py p).
Proof.
  intros L m k s M x y v Hm Hk Hs (M11 & M12 & M21 & M22 & DX & DY) (V1 & V2 & V3 & V4) HX HY p.
  assert (X := close_exact k _ V1 V3). assert (Y := close_exact k _ V2 V4). set (e := bpow radix2 (m + s + k - 54)). assert (P : 0 < e) by apply bpow_gt_0.
  assert (E : bpow radix2 (m + s + k - 50) = 16 * e) by (unfold e; replace (m + s + k - 50)%Z with (4 + (m + s + k - 54))%Z by lia; now rewrite (bpow_plus radix2 4)).
  assert (EK : bpow radix2 k * bpow radix2 (m + s - 54) = e) by (unfold e; rewrite <- bpow_plus; f_equal; lia).
  assert (PR : forall i (c d : F), (-900 <= i + s <= 900)%Z -> fbound i c -> fbound s d -> Rabs (B2R c * B2R d) <= bpow radix2 (i + s) /\ close (i + s) (bpow radix2 (i + s - 54)) (B2R c * B2R d) (Bmult mode_NE c d)).
  { intros i c d Hi C D. split; [apply mul_abs; [apply C|apply D]|]. eapply close_weaken; [|apply close_mul; [lia|apply C|apply fb_close, C|apply fb_close, D]]. lra. }
  assert (G : forall a b c d : F, fbound m a -> fbound m b -> fbound (m + k) c -> fbound s d ->
    close (m + s + k + 2) (16 * e) (B2R a * B2R d * B2R (vx v) + B2R b * B2R d * B2R (vy v) + B2R c * B2R d)
      (Bplus mode_NE (Bplus mode_NE (Bmult mode_NE (Bmult mode_NE a d) (vx v)) (Bmult mode_NE (Bmult mode_NE b d) (vy v))) (Bmult mode_NE c d))).
  { intros a b c d A B C D. destruct (PR m a d ltac:(lia) A D) as [A1 A2]. destruct (PR m b d ltac:(lia) B D) as [B1 B2]. destruct (PR (m + k)%Z c d ltac:(lia) C D) as [_ C2].
    replace (m + k + s)%Z with (m + s + k)%Z in C2 by lia. fold e in C2. eapply close_weaken; [|apply (aff_close (m + s) k (bpow radix2 (m + s - 54)) 0 e); [lia|exact A1|exact B1|exact A2|exact B2|exact X|exact Y|]].
    - rewrite EK. fold e. lra.
    - apply (close_up (m + s + k)); [lia|exact C2]. }
  destruct (G _ _ _ _ M11 M12 DX HX) as (A1 & _ & A2). destruct (G _ _ _ _ M21 M22 DY HY) as (B1 & _ & B2). rewrite E. split; [exact A1|]. split; [exact B1|]. unfold p, affine, rmat. cbn [m11 m12 m21 m22 mdx mdy]. unfold px, py. cbn [fst snd fpt].
  split; [eapply Rle_trans; [|exact A2]|eapply Rle_trans; [|exact B2]];
    (right; f_equal; unfold Matrix2D_transform, Matrix2D_transform_xy, Matrix2D_scale; cbn [m11 m12 m21 m22 mdx mdy vx vy V nadd nmul NumF]; ring).
Qed.

(** C146: make_rotation rotates *)
Theorem C146_rotation_F : forall (L : libm) (k : Z) (a : angle F) (v : vec F), trig_accurate L -> (-200 <= k <= 200)%Z -> good_degree (a_degree a) -> within k v ->
  exists M, @make_rotation F (NumF L) a = Ok M /\ coords_near (bpow radix2 (k - 47)) (@Matrix2D_transform F (NumF L) M v) (rot (fpt v) (B2R (a_degree a))).
Proof.
  intros L k a v TA Hk G (V1 & V2 & V3 & V4). destruct (trig_close L (a_degree a) TA (proj1 G) (good_512 _ G)) as ((c & C1 & C2) & (s & S1 & S2)).
  unfold make_rotation, AngleDeg_cos, AngleDeg_sin. rewrite C1. cbn [bind]. rewrite S1. cbn [bind]. eexists. split; [reflexivity|].
  assert (X := close_exact k _ V1 V3). assert (Y := close_exact k _ V2 V4).
  assert (KC : Rabs (cos (rad (B2R (a_degree a)))) <= bpow radix2 1) by (change (bpow radix2 1) with 2; pose proof (COS_bound (rad (B2R (a_degree a)))); apply Rabs_le; lra).
  assert (KS : Rabs (sin (rad (B2R (a_degree a)))) <= bpow radix2 1) by (change (bpow radix2 1) with 2; pose proof (SIN_bound (rad (B2R (a_degree a)))); apply Rabs_le; lra).
  assert (KN : Rabs (- sin (rad (B2R (a_degree a)))) <= bpow radix2 1) by (rewrite Rabs_Ropp; exact KS).
  assert (Z0 : close (1 + k + 1) 0 0 (F_of_Z 0)) by (destruct (F_of_Z_exact 0 ltac:(lia)) as [Z1 Z2]; rewrite <- Z1 at 1; apply close_exact; [exact Z2|rewrite Z1, Rabs_R0; apply bpow_ge_0]).
  assert (A := aff_close 1 k _ 0 0 _ _ _ _ _ _ _ _ _ _ ltac:(lia) KC KN C2 (close_opp _ _ _ _ S2) X Y Z0).
  assert (B := aff_close 1 k _ 0 0 _ _ _ _ _ _ _ _ _ _ ltac:(lia) KS KC S2 C2 X Y Z0).
  assert (EK : bpow radix2 k * bpow radix2 (-49) = 32 * bpow radix2 (k - 54)) by (rewrite <- bpow_plus; replace (k + -49)%Z with (5 + (k - 54))%Z by lia; now rewrite (bpow_plus radix2 5)).
  assert (E : bpow radix2 (k - 47) = 128 * bpow radix2 (k - 54)) by (replace (k - 47)%Z with (7 + (k - 54))%Z by lia; now rewrite (bpow_plus radix2 7)). pose proof (bpow_gt_0 radix2 (k - 54)) as P.
  rewrite Rmult_0_r, EK in A, B. replace (1 + k - 54)%Z with (1 + (k - 54))%Z in A, B by lia. rewrite bp2 in A, B.
  destruct A as (A1 & _ & A2), B as (B1 & _ & B2). rewrite E. split; [exact A1|]. split; [exact B1|]. unfold rot. unfold px, py. cbn [fst snd fpt].
  set (d := rad (B2R (a_degree a))) in *. replace (B2R (vx v) * cos d - B2R (vy v) * sin d) with (cos d * B2R (vx v) + - sin d * B2R (vy v) + 0) by ring.
  replace (B2R (vx v) * sin d + B2R (vy v) * cos d) with (sin d * B2R (vx v) + cos d * B2R (vy v) + 0) by ring. split; [eapply Rle_trans; [exact A2|]|eapply Rle_trans; [exact B2|]]; lra.
Qed.

(** C146: the inverse takes a point back to where the matrix brought it from *)
Theorem C146_inverse_F : forall (L : libm) (m k d : Z) (M : matrix F) (v : vec F) (q : point), (-100 <= m <= 100)%Z -> (-200 <= k <= 200)%Z -> (2 * m - 50 <= d)%Z -> mat_within m k M -> within k v ->
  bpow radix2 d <= Rabs (B2R (m11 M) * B2R (m22 M) - B2R (m12 M) * B2R (m21 M)) -> affine (rmat M) q = fpt v ->
  exists N, @Matrix2D_inverted F (NumF L) M = Ok N /\ coords_near (bpow radix2 (3 * m + k - 2 * d - 46)) (@Matrix2D_transform F (NumF L) N v) q.
Proof.
  intros L m k d M v q Hm Hk Hd (M11 & M12 & M21 & M22 & DX & DY) (V1 & V2 & V3 & V4) HD HQ.
  assert (X := close_exact k _ V1 V3). assert (Y := close_exact k _ V2 V4).
  set (D := B2R (m11 M) * B2R (m22 M) - B2R (m12 M) * B2R (m21 M)) in *.
  assert (CD := lin_close_m m m 0 0 _ _ _ _ _ _ _ _ ltac:(lia) (proj2 M11) (proj2 M12) (fb_close _ _ M11) (fb_close _ _ M12) (fb_close _ _ M22) (fb_close _ _ M21)). fold D in CD.
  change (Bminus mode_NE (Bmult mode_NE (m11 M) (m22 M)) (Bmult mode_NE (m12 M) (m21 M))) with (@Matrix2D_det F (NumF L) M) in CD. set (det := @Matrix2D_det F (NumF L) M) in *. destruct CD as (D1 & _ & D3).
  assert (PD : 0 < bpow radix2 d) by apply bpow_gt_0.
  assert (DU : Rabs D <= bpow radix2 (2 * m + 1)).
  { replace (2 * m + 1)%Z with (1 + (m + m))%Z by lia. rewrite bp2. unfold D. pose proof (mul_abs _ _ _ _ (proj2 M11) (proj2 M22)). pose proof (mul_abs _ _ _ _ (proj2 M12) (proj2 M21)). eapply sum_abs; [eassumption|eassumption|lra]. }
  assert (DM : (d <= 2 * m + 1)%Z) by (apply (le_bpow radix2); lra).
  assert (E4 : 2 * (bpow radix2 m * 0 + bpow radix2 m * 0) + 4 * bpow radix2 (m + m - 54) = bpow radix2 (2 * m - 52)) by (replace (2 * m - 52)%Z with (2 + (m + m - 54))%Z by lia; rewrite (bpow_plus radix2 2); change (bpow radix2 2) with 4; ring). rewrite E4 in D3.
  assert (SM : 4 * bpow radix2 (2 * m - 52) <= bpow radix2 d) by (apply Rle_trans with (bpow radix2 (2 + (2 * m - 52))); [rewrite (bpow_plus radix2 2); change (bpow radix2 2) with 4; lra|apply bpow_le; lia]). pose proof (bpow_gt_0 radix2 (2 * m - 52)) as P52.
  assert (PA : 0 < Rabs D) by lra. assert (ND : D <> 0) by (intros E; rewrite E, Rabs_R0 in PA; lra).
  assert (B1R : B2R (F_of_Z 1) = 1 /\ is_finite (F_of_Z 1) = true) by (apply F_of_Z_exact; lia). destruct B1R as [B11 B12].
  destruct (quot_close (- d) 0 (bpow radix2 (2 * m - 52)) 1 D (/ D) (F_of_Z 1) det) as (z & Z1 & Z2 & Z3 & Z4); try assumption; try lia.
  { rewrite B11, Rminus_eq_0, Rabs_R0. lra. }
  { field. exact ND. }
  { rewrite Rabs_inv, bpow_opp. apply Rinv_le; lra. }
  { lra. }
  { assert (bpow radix2 (- d) * (4 * bpow radix2 (2 * m - 52)) <= bpow radix2 (- d) * Rabs D) by (apply Rmult_le_compat_l; [apply bpow_ge_0|lra]). pose proof (bpow_gt_0 radix2 (- d)) as PDD. assert (0 < bpow radix2 (- d) * bpow radix2 (2 * m - 52)) by (apply Rmult_lt_0_compat; lra). lra. }
  unfold Matrix2D_inverted. fold det. assert (DF : B2R det <> 0).
  { intros E. rewrite E, Rminus_0_l, Rabs_Ropp in D3. lra. }
  assert (EQ0 : @neqb F (NumF L) det (@nlit F (NumF L) 0 1) = false).
  { cbn [neqb NumF]. destruct (F_of_Z_exact 0 ltac:(lia)) as [Z01 Z02]. change (@nlit F (NumF L) 0 1) with (F_of_Z 0). rewrite eqb_F by assumption. rewrite Z01. case Req_bool_spec; [intros E; contradiction|reflexivity]. }
  rewrite EQ0. change (@nlit F (NumF L) 1 1) with (F_of_Z 1). cbn [ndiv NumF]. rewrite Z1. cbn [bind]. eexists. split; [reflexivity|].
  (* everything in the unit e *)
  set (w := (3 * m - 2 * d)%Z). set (e := bpow radix2 (w + k - 54)). assert (PE : 0 < e) by apply bpow_gt_0.
  assert (UP : forall i j, (i - d <= j - 2 * d + 2 * m + 1)%Z -> bpow radix2 (i - d) <= bpow radix2 (j + 2 * m + 1 - 2 * d)) by (intros i j H; apply bpow_le; lia).
  assert (QD : close (1 - d) (bpow radix2 (2 * m - 2 * d - 50)) (/ D) z).
  { split; [exact Z2|]. split; [replace (1 - d)%Z with (1 + - d)%Z by lia; exact Z4|]. eapply Rle_trans; [exact Z3|].
    assert (2 * (0 + bpow radix2 (- d) * bpow radix2 (2 * m - 52)) / Rabs D <= bpow radix2 (2 * m - 2 * d - 51)).
    { apply (Rmult_le_reg_r (Rabs D)); [lra|]. unfold Rdiv. rewrite Rmult_assoc, Rinv_l, Rmult_1_r by lra. apply Rle_trans with (bpow radix2 (2 * m - 2 * d - 51) * bpow radix2 d); [|apply Rmult_le_compat_l; [apply bpow_ge_0|exact HD]].
      rewrite Rplus_0_l, <- !bpow_plus, <- bp2. apply bpow_le. lia. }
    assert (bpow radix2 (- d - 53) <= bpow radix2 (2 * m - 2 * d - 51)) by (apply bpow_le; lia).
    replace (2 * m - 2 * d - 50)%Z with (1 + (2 * m - 2 * d - 51))%Z by lia. rewrite bp2. lra. }
  assert (EN : forall a, fbound m a -> Rabs (B2R a * / D) <= bpow radix2 (m + (1 - d)) /\ close (m + (1 - d)) (bpow radix2 (w - 49)) (B2R a * / D) (Bmult mode_NE a z)).
  { intros a Ha. split.
    - apply mul_abs; [apply Ha|]. rewrite Rabs_inv. apply Rle_trans with (bpow radix2 (- d)); [rewrite bpow_opp; apply Rinv_le; lra|apply bpow_le; lia].
    - eapply close_weaken; [|apply close_mul; [lia|apply Ha|apply fb_close, Ha|exact QD]]. rewrite <- bpow_plus, Rmult_0_r, Rplus_0_r.
      apply Rle_trans with (bpow radix2 (w - 50) + bpow radix2 (w - 50)); [apply Rplus_le_compat; apply bpow_le; unfold w; lia|]. replace (w - 49)%Z with (1 + (w - 50))%Z by lia. rewrite bp2. lra. }
  assert (EO : forall a, fbound m a -> fbound m (Bopp a)) by (intros a [A1 A2]; split; [rewrite is_finite_Bopp; exact A1|rewrite B2R_Bopp, Rabs_Ropp; exact A2]).
  set (g := bpow radix2 (m + k - 54)) in *.
  assert (PR : forall i j a x, (i + j = m + k)%Z -> fbound i a -> fbound j x -> Rabs (B2R a * B2R x) <= bpow radix2 (m + k) /\ close (m + k) g (B2R a * B2R x) (Bmult mode_NE a x)).
  { intros i j a x E A X'. rewrite <- E. split; [apply mul_abs; [apply A|apply X']|]. eapply close_weaken; [|apply close_mul; [lia|apply A|apply fb_close, A|apply fb_close, X']]. rewrite E. fold g. lra. }
  assert (ED : forall P Q p q, Rabs P <= bpow radix2 (m + k) /\ close (m + k) g P p -> Rabs Q <= bpow radix2 (m + k) /\ close (m + k) g Q q ->
    close (m + (1 - d) + k + 1) (64 * e) ((P - Q) * / D) (Bmult mode_NE (Bminus mode_NE p q) z)).
  { intros P Q p r [P0 P1] [Q0 Q1]. assert (P3 := close_sub (m + k) _ _ _ _ _ _ ltac:(lia) P1 Q1).
    assert (P4 : Rabs (P - Q) <= bpow radix2 (m + k + 1)) by (replace (m + k + 1)%Z with (1 + (m + k))%Z by lia; rewrite bp2; eapply sum_abs; [eassumption|eassumption|lra]).
    assert (P5 := close_mul (m + k + 1) (1 - d) _ _ _ _ _ _ ltac:(lia) P4 P3 QD). replace (m + (1 - d) + k + 1)%Z with (m + k + 1 + (1 - d))%Z by lia. eapply close_weaken; [|exact P5].
    assert (T1 : bpow radix2 (m + k + 1) * bpow radix2 (2 * m - 2 * d - 50) = 32 * e) by (rewrite <- bpow_plus; unfold e; replace (m + k + 1 + (2 * m - 2 * d - 50))%Z with (5 + (w + k - 54))%Z by (unfold w; lia); now rewrite (bpow_plus radix2 5)).
    assert (T2 : bpow radix2 (1 - d) * g <= 4 * e) by (unfold g; rewrite <- bpow_plus; change 4 with (bpow radix2 2); unfold e; rewrite <- bpow_plus; apply bpow_le; unfold w; lia).
    assert (T3 : bpow radix2 (m + k + 1 + (1 - d) - 54) <= 8 * e) by (change 8 with (bpow radix2 3); unfold e; rewrite <- bpow_plus; apply bpow_le; unfold w; lia).
    replace (m + k + 1 - 54)%Z with (1 + (m + k - 54))%Z by lia. rewrite bp2. fold g. rewrite T1. replace (bpow radix2 (1 - d) * (g + g + 2 * g)) with (4 * (bpow radix2 (1 - d) * g)) by ring. lra. }
  assert (T4 : bpow radix2 k * bpow radix2 (w - 49) = 32 * e) by (rewrite <- bpow_plus; unfold e; replace (k + (w - 49))%Z with (5 + (w + k - 54))%Z by lia; now rewrite (bpow_plus radix2 5)).
  assert (T5 : bpow radix2 (m + (1 - d) + k - 54) <= 4 * e) by (change 4 with (bpow radix2 2); unfold e; rewrite <- bpow_plus; apply bpow_le; unfold w; lia).
  destruct (EN _ M22) as [N22 C22]. destruct (EN _ (EO _ M12)) as [N12 C12]. destruct (EN _ (EO _ M21)) as [N21 C21]. destruct (EN _ M11) as [N11 C11].
  assert (A := aff_close (m + (1 - d)) k _ 0 _ _ _ _ _ _ _ _ _ _ _ ltac:(lia) N22 N12 C22 C12 X Y (ED _ _ _ _ (PR m k _ _ eq_refl M12 DY) (PR k m _ _ (Z.add_comm k m) DX M22))).
  assert (B := aff_close (m + (1 - d)) k _ 0 _ _ _ _ _ _ _ _ _ _ _ ltac:(lia) N21 N11 C21 C11 X Y (ED _ _ _ _ (PR k m _ _ (Z.add_comm k m) DX M21) (PR m k _ _ eq_refl M11 DY))).
  rewrite Rmult_0_r, T4 in A, B. destruct A as (A1 & _ & A2), B as (B1 & _ & B2).
  assert (EE : bpow radix2 (3 * m + k - 2 * d - 46) = 256 * e) by (unfold e; replace (3 * m + k - 2 * d - 46)%Z with (8 + (w + k - 54))%Z by (unfold w; lia); now rewrite (bpow_plus radix2 8)).
  rewrite EE. split; [exact A1|]. split; [exact B1|]. destruct q as [qx qy]. unfold affine, rmat in HQ. cbn [m11 m12 m21 m22 mdx mdy] in HQ. unfold px, py in HQ. cbn [fst snd] in HQ. unfold fpt in HQ. injection HQ as QX QY.
  rewrite B2R_Bopp in A2, B2. rewrite <- QX, <- QY in A2, B2. cbn [px py fst snd].
  assert (GX : B2R (m22 M) * / D * (B2R (m11 M) * qx + B2R (m12 M) * qy + B2R (mdx M)) + - B2R (m12 M) * / D * (B2R (m21 M) * qx + B2R (m22 M) * qy + B2R (mdy M)) + (B2R (m12 M) * B2R (mdy M) - B2R (mdx M) * B2R (m22 M)) * / D = qx) by (unfold D in ND |- *; field; exact ND).
  assert (GY : - B2R (m21 M) * / D * (B2R (m11 M) * qx + B2R (m12 M) * qy + B2R (mdx M)) + B2R (m11 M) * / D * (B2R (m21 M) * qx + B2R (m22 M) * qy + B2R (mdy M)) + (B2R (mdx M) * B2R (m21 M) - B2R (m11 M) * B2R (mdy M)) * / D = qy) by (unfold D in ND |- *; field; exact ND).
  rewrite GX in A2. rewrite GY in B2. split; [eapply Rle_trans; [exact A2|]|eapply Rle_trans; [exact B2|]]; lra.
Qed.

(** ** Integers: no error *)
(** a finite double holding an integer of magnitude at most n *)
Definition ints (n : Z) (x : F) : Prop := is_finite x = true /\ exists z, B2R x = IZR z /\ (Z.abs z <= n)%Z.
Definition mat_ints (n d : Z) (M : matrix F) : Prop := ints n (m11 M) /\ ints n (m12 M) /\ ints n (m21 M) /\ ints n (m22 M) /\ ints d (mdx M) /\ ints d (mdy M).
Lemma fmt_Z z : (Z.abs z < 2 ^ 53)%Z -> fmt64 (IZR z).
Proof. intros H. replace (IZR z) with (F2R (Float radix2 z 0)) by (unfold F2R; cbn; ring). apply fmt_F2R; [exact H|lia]. Qed.
Lemma Z_small z : (Z.abs z < 2 ^ 53)%Z -> Rabs (IZR z) < bpow radix2 1024.
Proof. intros H. rewrite <- abs_IZR. apply Rlt_trans with (IZR (2 ^ 53)); [now apply IZR_lt|]. change (IZR (2 ^ 53)) with (bpow radix2 53). apply bpow_lt. lia. Qed.
Lemma ints_add n m x y : (n + m < 2 ^ 53)%Z -> ints n x -> ints m y -> ints (n + m) (Bplus mode_NE x y) /\ B2R (Bplus mode_NE x y) = B2R x + B2R y.
Proof.
  intros H (X & a & XA & NA) (Y & b & YB & NB). assert (HS : (Z.abs (a + b) < 2 ^ 53)%Z) by lia. destruct (F_add x y X Y) as [E1 E2]; rewrite XA, YB, <- plus_IZR in *.
  - rewrite rnd_id by now apply fmt_Z. now apply Z_small.
  - rewrite rnd_id in E1 by now apply fmt_Z. split; [split; [exact E2|]; exists (a + b)%Z; split; [exact E1|lia]|exact E1].
Qed.
Lemma ints_mul n m x y : (n * m < 2 ^ 53)%Z -> ints n x -> ints m y -> ints (n * m) (Bmult mode_NE x y) /\ B2R (Bmult mode_NE x y) = B2R x * B2R y.
Proof.
  intros H (X & a & XA & NA) (Y & b & YB & NB). assert (HN : (Z.abs (a * b) <= n * m)%Z) by (rewrite Z.abs_mul; apply Z.mul_le_mono_nonneg; lia). assert (HS : (Z.abs (a * b) < 2 ^ 53)%Z) by lia.
  destruct (F_mul x y X Y) as [E1 E2]; rewrite XA, YB, <- mult_IZR in *.
  - rewrite rnd_id by now apply fmt_Z. now apply Z_small.
  - rewrite rnd_id in E1 by now apply fmt_Z. split; [split; [exact E2|]; exists (a * b)%Z; split; [exact E1|exact HN]|exact E1].
Qed.
Lemma ints_lin n m a b x y : (0 <= n)%Z -> (0 <= m)%Z -> (2 * n * m < 2 ^ 53)%Z -> ints n a -> ints n b -> ints m x -> ints m y ->
  ints (2 * n * m) (Bplus mode_NE (Bmult mode_NE a x) (Bmult mode_NE b y)) /\ B2R (Bplus mode_NE (Bmult mode_NE a x) (Bmult mode_NE b y)) = B2R a * B2R x + B2R b * B2R y.
Proof.
  intros N M H A B X Y. destruct (ints_mul n m a x ltac:(nia) A X) as [P1 P2]. destruct (ints_mul n m b y ltac:(nia) B Y) as [Q1 Q2]. replace (2 * n * m)%Z with (n * m + n * m)%Z in * by ring.
  destruct (ints_add _ _ _ _ H P1 Q1) as [S1 S2]. split; [exact S1|]. now rewrite S2, P2, Q2.
Qed.
Lemma ints_aff n m d a b x y c : (0 <= n)%Z -> (0 <= m)%Z -> (0 <= d)%Z -> (2 * n * m + d < 2 ^ 53)%Z -> ints n a -> ints n b -> ints m x -> ints m y -> ints d c ->
  let r := Bplus mode_NE (Bplus mode_NE (Bmult mode_NE a x) (Bmult mode_NE b y)) c in ints (2 * n * m + d) r /\ B2R r = B2R a * B2R x + B2R b * B2R y + B2R c.
Proof.
  intros N M D H A B X Y C r. destruct (ints_lin n m a b x y N M ltac:(lia) A B X Y) as [S1 S2]. destruct (ints_add _ _ _ _ H S1 C) as [R1 R2]. split; [exact R1|]. unfold r. now rewrite R2, S2.
Qed.
(** C146: on integers, transform and the product are exact and agree *)
Theorem C146_integers_F : forall (L : libm) (a b k s t : Z) (A B : matrix F) (v : vec F), (1 <= a)%Z -> (1 <= b)%Z -> (1 <= k)%Z -> (0 <= s)%Z -> (0 <= t)%Z -> (4 * a * b * k + 2 * a * s + t < 2 ^ 53)%Z ->
  mat_ints a t A -> mat_ints b s B -> ints k (vx v) -> ints k (vy v) ->
  let w := @Matrix2D_transform F (NumF L) B v in let p := @Matrix2D_imul F (NumF L) A B in
  fpt w = affine (rmat B) (fpt v) /\ fpt (@Matrix2D_transform F (NumF L) A w) = affine (rmat A) (affine (rmat B) (fpt v)) /\
  fpt (@Matrix2D_transform F (NumF L) p v) = affine (rmat A) (affine (rmat B) (fpt v)).
Proof.
  intros L a b k s t A B v Ha Hb Hk Hs Ht HN (A11 & A12 & A21 & A22 & AX & AY) (B11 & B12 & B21 & B22 & BX & BY) VX VY w p.
  assert (J1 : (1 <= b * k)%Z) by nia. assert (J2 : (b * k <= a * (b * k))%Z) by nia. assert (J3 : (s <= a * s)%Z) by nia. assert (J4 : (1 <= a * b)%Z) by nia. assert (J5 : (a * b <= a * b * k)%Z) by nia.
  replace (4 * a * b * k + 2 * a * s + t)%Z with (4 * (a * b * k) + 2 * (a * s) + t)%Z in HN by ring.
  assert (K1 : (2 * b * k + s < 2 ^ 53)%Z) by lia. assert (K2 : (2 * a * (2 * b * k + s) + t < 2 ^ 53)%Z) by (replace (2 * a * (2 * b * k + s))%Z with (4 * (a * b * k) + 2 * (a * s))%Z by ring; lia). assert (K3 : (2 * a * b < 2 ^ 53)%Z) by lia. assert (K4 : (2 * a * s + t < 2 ^ 53)%Z) by lia.
  assert (K5 : (2 * (2 * a * b) * k + (2 * a * s + t) < 2 ^ 53)%Z) by (replace (2 * (2 * a * b) * k)%Z with (4 * (a * b * k))%Z by ring; lia).
  destruct (ints_aff b k s _ _ _ _ _ ltac:(lia) ltac:(lia) Hs K1 B11 B12 VX VY BX) as [W1 W2]. destruct (ints_aff b k s _ _ _ _ _ ltac:(lia) ltac:(lia) Hs K1 B21 B22 VX VY BY) as [W3 W4].
  change (ints (2 * b * k + s) (vx w)) in W1. change (ints (2 * b * k + s) (vy w)) in W3.
  assert (EW : fpt w = affine (rmat B) (fpt v)) by (unfold fpt at 1; unfold affine, rmat, px, py; cbn [m11 m12 m21 m22 mdx mdy fst snd fpt]; f_equal; [exact W2|exact W4]).
  split; [exact EW|].
  destruct (ints_aff a (2 * b * k + s) t _ _ _ _ _ ltac:(lia) ltac:(lia) Ht K2 A11 A12 W1 W3 AX) as [_ U2]. destruct (ints_aff a (2 * b * k + s) t _ _ _ _ _ ltac:(lia) ltac:(lia) Ht K2 A21 A22 W1 W3 AY) as [_ U4].
  split; [rewrite <- EW; unfold fpt at 1; unfold affine, rmat, px, py; cbn [m11 m12 m21 m22 mdx mdy fst snd fpt]; f_equal; [exact U2|exact U4]|].
  destruct (ints_lin a b _ _ _ _ ltac:(lia) ltac:(lia) K3 A11 A12 B11 B21) as [P11 Q11]. destruct (ints_lin a b _ _ _ _ ltac:(lia) ltac:(lia) K3 A11 A12 B12 B22) as [P12 Q12].
  destruct (ints_lin a b _ _ _ _ ltac:(lia) ltac:(lia) K3 A21 A22 B11 B21) as [P21 Q21]. destruct (ints_lin a b _ _ _ _ ltac:(lia) ltac:(lia) K3 A21 A22 B12 B22) as [P22 Q22].
  destruct (ints_aff a s t _ _ _ _ _ ltac:(lia) ltac:(lia) Ht K4 A11 A12 BX BY AX) as [PX QX]. destruct (ints_aff a s t _ _ _ _ _ ltac:(lia) ltac:(lia) Ht K4 A21 A22 BX BY AY) as [PY QY].
  destruct (ints_aff (2 * a * b) k (2 * a * s + t) _ _ _ _ _ ltac:(lia) ltac:(lia) ltac:(lia) K5 P11 P12 VX VY PX) as [_ R2]. destruct (ints_aff (2 * a * b) k (2 * a * s + t) _ _ _ _ _ ltac:(lia) ltac:(lia) ltac:(lia) K5 P21 P22 VX VY PY) as [_ R4].
  rewrite Q11, Q12, QX in R2. rewrite Q21, Q22, QY in R4.
  unfold fpt at 1, affine, rmat, px, py. cbn [m11 m12 m21 m22 mdx mdy fst snd fpt]. f_equal; [etransitivity; [exact R2|ring]|etransitivity; [exact R4|ring]].
Qed.

Lemma fbound_Z k n : (0 <= k <= 52)%Z -> (Z.abs n <= 2 ^ k)%Z -> fbound k (F_of_Z n).
Proof.
  intros Hk H. assert (2 ^ k <= 2 ^ 52)%Z by (apply Z.pow_le_mono_r; lia). destruct (F_of_Z_exact n ltac:(lia)) as [E1 E2]. split; [exact E2|]. rewrite E1, <- abs_IZR, <- (IZR_Zpower radix2) by lia. now apply IZR_le.
Qed.
Lemma ints_Z k n : (k < 2 ^ 53)%Z -> (Z.abs n <= k)%Z -> ints k (F_of_Z n).
Proof. intros Hk H. destruct (F_of_Z_exact n ltac:(lia)) as [E1 E2]. split; [exact E2|]. exists n. split; assumption. Qed.
(** shear by 2 and shift, and a quarter turn *)
Definition ex_shear : matrix F := mkMat (F_of_Z 1) (F_of_Z 2) (F_of_Z 0) (F_of_Z 1) (F_of_Z 3) (F_of_Z (-4)).
Example C146_nonvacuous : mat_within 1 (1 + 2) ex_shear /\ mat_within 1 2 ex_shear /\ within 2 (fv 4 3) /\ mat_ints 2 4 ex_shear /\ ints 4 (vx (fv 4 3)) /\ ints 4 (vy (fv 4 3)) /\
  bpow radix2 0 <= Rabs (B2R (m11 ex_shear) * B2R (m22 ex_shear) - B2R (m12 ex_shear) * B2R (m21 ex_shear)) /\ affine (rmat ex_shear) (-13, 7) = fpt (fv 4 3).
Proof.
  unfold mat_within, mat_ints, ex_shear. cbn [m11 m12 m21 m22 mdx mdy]. rewrite fpt_fv by (cbn; lia).
  split; [repeat (split; [apply fbound_Z; lia|]); apply fbound_Z; lia|]. split; [repeat (split; [apply fbound_Z; lia|]); apply fbound_Z; lia|]. split; [apply within_fv; cbn; lia|].
  split; [repeat (split; [apply ints_Z; lia|]); apply ints_Z; lia|]. split; [apply ints_Z; lia|]. split; [apply ints_Z; lia|].
  unfold rmat, affine, px, py. cbn [m11 m12 m21 m22 mdx mdy fst snd]. rewrite !(fun n H => proj1 (F_of_Z_exact n H)) by lia. split; [change (bpow radix2 0) with 1; rewrite Rabs_pos_eq; lra|f_equal; lra].
Qed.
