(** * P_RayF: rays in doubles (C166)

    The direction test of a ray, the line of a ray, and the meeting points of a ray
    with a line and with another ray, for origins with any double coordinates up to
    2^k and any direction; of the platform library only [trig_accurate] and
    [atan2_accurate] are asked. *)
From Coq Require Import ZArith List Bool String Reals Lra Lia Psatz.
From Flocq Require Import Core BinarySingleNaN.
From Verif Require L_Trig.
From Verif Require Import Base Types NumR NumF R_Tac Spec Spec2 Abs M_Angle M_Vector M_Line M_Ray
  L_Angle P_Vector P_Line P_Angle L_Float P_Float P_AngleF P_AngleF2 P_Robust P_Hull2 P_VecF P_TrigF P_LineF P_LenF P_BisF P_SectorF P_EpsF.
Import ListNotations.
Local Open Scope R_scope.

(** ** The angle between two directions *)
(** [d] is the angle, from 0 to 180 degrees, between the directions [s] and [t] *)
Definition angle_between (s t d : R) : Prop := 0 <= d <= 180 /\ (cong360 (t - s) d \/ cong360 (t - s) (- d)).
Lemma between_min s t d (k : Z) : angle_between s t d -> d <= Rabs (t - s - 360 * IZR k).
Proof.
  intros [R [[j J]|[j J]]].
  - replace (t - s - 360 * IZR k) with (d + 360 * IZR (j - k)) by (rewrite minus_IZR; lra). set (m := (j - k)%Z). clearbody m.
    destruct (Z_lt_le_dec m 0) as [H|H]; [assert (IZR m <= -1) by (apply IZR_le; lia)|assert (0 <= IZR m) by (apply IZR_le; lia)]; [rewrite Rabs_left1 by lra|rewrite Rabs_pos_eq by lra]; lra.
  - replace (t - s - 360 * IZR k) with (- d + 360 * IZR (j - k)) by (rewrite minus_IZR; lra). set (m := (j - k)%Z). clearbody m.
    destruct (Z_le_gt_dec m 0) as [H|H]; [assert (IZR m <= 0) by (apply IZR_le; lia)|assert (1 <= IZR m) by (apply IZR_le; lia)]; [rewrite Rabs_left1 by lra|rewrite Rabs_pos_eq by lra]; lra.
Qed.
Lemma between_half s t d : angle_between s t d -> exists k : Z, d = Rabs (t - s - 360 * IZR k).
Proof. intros [R [[j J]|[j J]]]; exists j; rewrite J; [replace (_ - _) with d by ring|replace (_ - _) with (- d) by ring; rewrite Rabs_Ropp]; now rewrite Rabs_pos_eq by lra. Qed.
Lemma between_lip s t s' t' d d' e : angle_between s t d -> angle_between s' t' d' -> Rabs ((t - s) - (t' - s')) <= e -> Rabs (d - d') <= e.
Proof.
  intros A B E. destruct (between_half _ _ _ A) as [j J]. destruct (between_half _ _ _ B) as [k K].
  pose proof (between_min _ _ _ k A) as A1. pose proof (between_min _ _ _ j B) as B1.
  assert (A2 : Rabs (t - s - 360 * IZR k) <= Rabs (t' - s' - 360 * IZR k) + e).
  { replace (t - s - 360 * IZR k) with ((t' - s' - 360 * IZR k) + ((t - s) - (t' - s'))) by ring. eapply Rle_trans; [apply Rabs_triang|lra]. }
  assert (B2 : Rabs (t' - s' - 360 * IZR j) <= Rabs (t - s - 360 * IZR j) + e).
  { replace (t' - s' - 360 * IZR j) with ((t - s - 360 * IZR j) + - ((t - s) - (t' - s'))) by ring. eapply Rle_trans; [apply Rabs_triang|rewrite Rabs_Ropp; lra]. }
  apply Rabs_le. lra.
Qed.
Lemma between_exists s t : exists d, angle_between s t d.
Proof.
  destruct (reduce180 (t - s)) as [k K]. set (w := t - s - 360 * IZR k) in *. exists (Rabs w). split; [split; [apply Rabs_pos|apply Rabs_le; lra]|].
  destruct (Rle_lt_dec 0 w); [left; rewrite Rabs_pos_eq by lra|right; rewrite Rabs_left, Ropp_involutive by lra]; exists k; unfold w; ring.
Qed.
Lemma between_cong s t t' d : angle_between s t d -> cong360 t' t -> angle_between s t' d.
Proof.
  intros [R H] [k K]. split; [exact R|]. destruct H as [[j J]|[j J]]; [left|right]; exists (j + k)%Z; rewrite plus_IZR; lra.
Qed.

(** ** in_right_dir *)
(** C166: away from the origin of the ray, the test compares the angle between the ray and the
    direction to the point with the threshold, up to 2^-42 degrees. *)
Theorem C166_in_right_dir_F : forall (L : libm) (r : ray F) (p : vec F) (thr : F) (t d : R), atan2_accurate L ->
  is_finite (vx (ray_origin r)) = true -> is_finite (vy (ray_origin r)) = true -> is_finite (vx p) = true -> is_finite (vy p) = true -> is_finite thr = true ->
  good_degree (a_degree (ray_dir r)) ->
  let D := edist (fpt (ray_origin r)) (fpt p) in bpow radix2 (-18) <= D <= bpow radix2 499 ->
  psub (fpt p) (fpt (ray_origin r)) = (D * cos (rad t), D * sin (rad t)) -> angle_between (B2R (a_degree (ray_dir r))) t d ->
  exists b, @Ray2D_in_right_dir_thr F (NumF L) r p thr = Ok b /\ decides b d (B2R thr) (bpow radix2 (-42)).
Proof.
  intros L r p thr t d AT O1 O2 P1 P2 TF G D [D1 D2] ED AB.
  assert (EN : D = norm (B2R (vx p) - B2R (vx (ray_origin r)), B2R (vy p) - B2R (vy (ray_origin r)))).
  { unfold D, edist, norm, norm2, psub, fpt, px, py. cbn [fst snd]. f_equal. ring. }
  rewrite EN in D1, D2, ED. unfold psub, fpt, px, py in ED. cbn [fst snd] in ED. set (nn := norm _) in ED. injection ED as E1 E2. unfold nn in E1, E2. clear nn.
  destruct (rel_dir L (ray_origin r) p O1 O2 P1 P2 D1 D2 t AT E1 E2) as (a & A1 & A2 & y & Y1 & Y2).
  unfold Ray2D_in_right_dir_thr. rewrite A1. cbn [bind]. unfold AngleDeg_sub. cbn [nsub NumF].
  destruct (sub_num_F L (a_degree a) (a_degree (ray_dir r)) (proj1 A2) (proj1 G)) as (c & C1 & C2 & z & Z1 & Z2).
  { destruct A2 as [_ A2]. destruct G as [_ G]. apply Rabs_le. lra. }
  rewrite C1. cbn [bind]. unfold AngleDeg_abs. rewrite degree_F_good by now right. cbn [bind]. eexists. split; [reflexivity|].
  cbn [nltb nabs NumF]. rewrite ltb_F by (rewrite ?is_finite_Babs; first [apply C2|exact TF]). rewrite B2R_Babs.
  assert (K : Rabs (d - Rabs (B2R (a_degree c))) <= 5 * bpow radix2 (-45)).
  { destruct Y1 as [m M]. destruct C2 as [_ C2].
    apply (between_lip (B2R (a_degree (ray_dir r))) t (B2R (a_degree (ray_dir r))) (z + B2R (a_degree (ray_dir r)) - 360 * IZR m)); [exact AB| |].
    - split; [split; [apply Rabs_pos|apply Rabs_le; lra]|]. destruct Z1 as [j J].
      destruct (Rle_lt_dec 0 (B2R (a_degree c))); [left; rewrite Rabs_pos_eq by lra|right; rewrite Rabs_left, Ropp_involutive by lra]; exists (- j - m)%Z; rewrite minus_IZR, opp_IZR; lra.
    - rewrite u45_bpow in Z2.
      assert (E' : bpow radix2 (-43) = 4 * bpow radix2 (-45)) by (change (-43)%Z with (1 + (1 + -45))%Z; rewrite !bp2; ring).
      apply Rabs_le_inv in Y2. assert (Z3 : Rabs (z - (B2R (a_degree a) - B2R (a_degree (ray_dir r)))) <= bpow radix2 (-45)) by exact Z2. apply Rabs_le_inv in Z3. apply Rabs_le. lra. }
  assert (E : bpow radix2 (-42) = 8 * bpow radix2 (-45)) by (change (-42)%Z with (3 + -45)%Z; now rewrite bpow_plus). assert (0 < bpow radix2 (-45)) by apply bpow_gt_0.
  apply Rabs_le_inv in K. split; intros H'; [apply Rlt_bool_true|apply Rlt_bool_false]; lra.
Qed.

(** ** Lines whose direction has scale 2^i, through points of scale 2^k, with relative precision 2^-g *)
Definition lclose2 (g i k : Z) (A B C : R) (l : line F) : Prop :=
  close (i + 1) (bpow radix2 (i - g)) A (l_a l) /\ close (i + 1) (bpow radix2 (i - g)) B (l_b l) /\ close (i + k + 2) (bpow radix2 (i + k - g + 1)) C (l_c l) /\
  Rabs A <= bpow radix2 (i + 1) /\ Rabs B <= bpow radix2 (i + 1) /\ Rabs C <= bpow radix2 (i + k + 2).
Lemma lclose2_of k A B C l : lclose k A B C l -> lclose2 48 k k A B C l.
Proof.
  intros (X1 & X2 & X3 & X4 & X5 & X6). unfold lclose2. replace (k + k + 2)%Z with (2 * k + 2)%Z by lia.
  split; [|split; [|split; [|repeat split; assumption]]]; (eapply close_weaken; [|eassumption]); apply bpow_le; lia.
Qed.
(** a line from a computed direction that is known up to [e] *)
Lemma lclose2_dir L g k p (a : angle F) S K e : (-200 <= k <= 200)%Z -> (40 <= g <= 48)%Z -> trig_accurate L -> within k p -> good_degree (a_degree a) -> Rabs S <= 1 -> Rabs K <= 1 ->
  Rabs (sin (rad (B2R (a_degree a))) - S) <= e -> Rabs (cos (rad (B2R (a_degree a))) - K) <= e -> e + bpow radix2 (-49) <= 15 / 16 * bpow radix2 (- g) ->
  exists l, @Line2D_of_angle F (NumF L) p (AA a) = Ok l /\ lclose2 g 0 k (- S) K (S * px (fpt p) - K * py (fpt p)) l.
Proof.
  intros Hk Hg TA (P1 & P2 & P3 & P4) G BS BK ES EK HE.
  destruct (trig_close L (a_degree a) TA (proj1 G) (good_512 _ G)) as ((c & C1 & C2) & (s & S1 & S2)).
  unfold Line2D_of_angle. cbn [to_angle bind]. unfold AngleDeg_cos, AngleDeg_sin. rewrite C1, S1. cbn [bind]. eexists. split; [reflexivity|].
  unfold lclose2. cbn [l_a l_b l_c nneg nsub nmul NumF]. rewrite Bopp_involutive. unfold fpt, px, py. cbn [fst snd].
  assert (SH : forall (z X Y : R) (x : F), close 1 (bpow radix2 (-49)) X x -> Rabs (X - Y) <= e -> close 1 (15 / 16 * bpow radix2 (- g)) Y x).
  { intros z X Y x (Q1 & Q2 & Q3) Q4. split; [exact Q1|]. split; [exact Q2|]. replace (B2R x - Y) with ((B2R x - X) + (X - Y)) by ring. eapply Rle_trans; [apply Rabs_triang|lra]. }
  apply (SH 0 _ K) in C2; [|exact EK]. apply (SH 0 _ S) in S2; [|exact ES].
  change (0 + 1)%Z with 1%Z. change (0 - g)%Z with (- g)%Z. replace (0 + k + 2)%Z with (1 + k + 1)%Z by lia. replace (0 + k - g + 1)%Z with (1 + (k + - g))%Z by lia.
  assert (PG : 0 < bpow radix2 (- g)) by apply bpow_gt_0. assert (W : 15 / 16 * bpow radix2 (- g) <= bpow radix2 (- g)) by lra. change (bpow radix2 1) with 2.
  assert (M1 := close_mul 1 k _ S 0 (B2R (vx p)) s (vx p) ltac:(lia) ltac:(change (bpow radix2 1) with 2; lra) S2 (close_exact k (vx p) P1 P3)).
  assert (M2 := close_mul 1 k _ K 0 (B2R (vy p)) c (vy p) ltac:(lia) ltac:(change (bpow radix2 1) with 2; lra) C2 (close_exact k (vy p) P2 P4)).
  split; [apply close_opp; exact (close_weaken _ _ _ _ _ W S2)|]. split; [exact (close_weaken _ _ _ _ _ W C2)|].
  split; [|split; [rewrite Rabs_Ropp; lra|split; [lra|]]].
  - eapply close_weaken; [|apply close_sub; [lia|exact M1|exact M2]]. rewrite Rmult_0_r, Rplus_0_l, bp2, (bpow_plus radix2 k).
    assert (R1 : bpow radix2 (1 + k - 54) <= / 32 * (bpow radix2 k * bpow radix2 (- g))) by (change (/ 32) with (bpow radix2 (-5)); rewrite <- !bpow_plus; apply bpow_le; lia).
    assert (R2 : bpow radix2 (1 + k + 1 - 54) <= / 16 * (bpow radix2 k * bpow radix2 (- g))) by (change (/ 16) with (bpow radix2 (-4)); rewrite <- !bpow_plus; apply bpow_le; lia). lra.
  - replace (1 + k + 1)%Z with (1 + (1 + k))%Z by lia. rewrite (bp2 (1 + k)). eapply sum_abs; [| |apply Rle_refl]; rewrite Rabs_mult, bp2.
    + pose proof (Rmult_le_compat _ _ _ _ (Rabs_pos S) (Rabs_pos (B2R (vx p))) BS P3). pose proof (bpow_gt_0 radix2 k). lra.
    + pose proof (Rmult_le_compat _ _ _ _ (Rabs_pos K) (Rabs_pos (B2R (vy p))) BK P4). pose proof (bpow_gt_0 radix2 k). lra.
Qed.
Lemma lclose2_angle L k p x : (-200 <= k <= 200)%Z -> trig_accurate L -> within k p -> arg_ok x ->
  exists l, @Line2D_of_angle F (NumF L) p x = Ok l /\
    lclose2 48 0 k (- sin (rad (arg_F x))) (cos (rad (arg_F x))) (sin (rad (arg_F x)) * px (fpt p) - cos (rad (arg_F x)) * py (fpt p)) l.
Proof.
  intros Hk TA W H. destruct (to_angle_F L x H) as (a & E & G & C). destruct (cos_cong _ _ C) as [<- <-].
  destruct (lclose2_dir L 48 k p a (sin (rad (B2R (a_degree a)))) (cos (rad (B2R (a_degree a)))) 0 Hk ltac:(lia) TA W G) as (l & E' & Cl); try (rewrite Rminus_eq_0, Rabs_R0; lra).
  - apply Rabs_le, SIN_bound.
  - apply Rabs_le, COS_bound.
  - change (bpow radix2 (-49)) with (/ 562949953421312). change (bpow radix2 (- (48))) with (/ 281474976710656). lra.
  - exists l. split; [|exact Cl]. unfold Line2D_of_angle in *. rewrite E. exact E'.
Qed.

(** ** Their intersection *)
Lemma det2 L g i j k l1 l2 A1 B1 C1 A2 B2 C2 : (40 <= g <= 48)%Z -> (-200 <= i <= 200)%Z -> (-200 <= j <= 200)%Z -> lclose2 g i k A1 B1 C1 l1 -> lclose2 g j k A2 B2 C2 l2 ->
  close (i + j + 3) (9 * bpow radix2 (i + j - g)) (A1 * B2 - B1 * A2) (@nsub F (NumF L) (@nmul F (NumF L) (l_a l1) (l_b l2)) (@nmul F (NumF L) (l_b l1) (l_a l2))).
Proof.
  intros Hg Hi Hj (X1 & X2 & X3 & X4 & X5 & X6) (Y1 & Y2 & Y3 & Y4 & Y5 & Y6). cbn [nsub nmul NumF].
  assert (P := close_mul (i + 1) (j + 1) _ _ _ _ _ _ ltac:(lia) X4 X1 Y2). assert (Q := close_mul (i + 1) (j + 1) _ _ _ _ _ _ ltac:(lia) X5 X2 Y1).
  replace (i + j + 3)%Z with (i + 1 + (j + 1) + 1)%Z by lia. eapply close_weaken; [|apply close_sub; [lia|exact P|exact Q]].
  rewrite <- !bpow_plus. set (m := (i + j - g)%Z). replace (i + 1 + (j - g))%Z with (1 + m)%Z by (unfold m; lia). replace (j + 1 + (i - g))%Z with (1 + m)%Z by (unfold m; lia). rewrite !bp2.
  assert (R1 : bpow radix2 (i + 1 + (j + 1) - 54) <= / 16 * bpow radix2 m) by (change (/ 16) with (bpow radix2 (-4)); rewrite <- bpow_plus; apply bpow_le; unfold m; lia).
  assert (R2 : bpow radix2 (i + 1 + (j + 1) + 1 - 54) <= / 8 * bpow radix2 m) by (change (/ 8) with (bpow radix2 (-3)); rewrite <- bpow_plus; apply bpow_le; unfold m; lia).
  pose proof (bpow_gt_0 radix2 m). lra.
Qed.
Lemma num2 g i j k A1 a1 C2 c2 B1 b1 D2 d2 : (40 <= g <= 48)%Z -> (-200 <= i <= 200)%Z -> (-200 <= j <= 200)%Z -> (-200 <= k <= 200)%Z ->
  Rabs A1 <= bpow radix2 (i + 1) -> close (i + 1) (bpow radix2 (i - g)) A1 a1 -> close (j + k + 2) (bpow radix2 (j + k - g + 1)) C2 c2 ->
  Rabs B1 <= bpow radix2 (j + 1) -> close (j + 1) (bpow radix2 (j - g)) B1 b1 -> close (i + k + 2) (bpow radix2 (i + k - g + 1)) D2 d2 ->
  close (i + j + k + 4) (17 * bpow radix2 (i + j + k - g)) (A1 * C2 - B1 * D2) (Bminus mode_NE (Bmult mode_NE a1 c2) (Bmult mode_NE b1 d2)) /\
  close (i + j + k + 4) (17 * bpow radix2 (i + j + k - g)) (B1 * D2 - A1 * C2) (Bminus mode_NE (Bmult mode_NE b1 d2) (Bmult mode_NE a1 c2)).
Proof.
  intros Hg Hi Hj Hk X1 X2 X3 Y1 Y2 Y3. assert (P := close_mul (i + 1) (j + k + 2) _ _ _ _ _ _ ltac:(lia) X1 X2 X3). assert (Q := close_mul (j + 1) (i + k + 2) _ _ _ _ _ _ ltac:(lia) Y1 Y2 Y3).
  replace (j + 1 + (i + k + 2))%Z with (i + 1 + (j + k + 2))%Z in Q by lia.
  replace (i + j + k + 4)%Z with (i + 1 + (j + k + 2) + 1)%Z by lia.
  split; (eapply close_weaken; [|apply close_sub; [lia|first [exact P|exact Q]|first [exact P|exact Q]]]);
    (rewrite <- !bpow_plus; set (m := (i + j + k - g)%Z);
     replace (i + 1 + (j + k - g + 1))%Z with (2 + m)%Z by (unfold m; lia); replace (j + k + 2 + (i - g))%Z with (2 + m)%Z by (unfold m; lia); replace (j + 1 + (i + k - g + 1))%Z with (2 + m)%Z by (unfold m; lia);
     replace (i + k + 2 + (j - g))%Z with (2 + m)%Z by (unfold m; lia);
     assert (R1 : bpow radix2 (i + 1 + (j + k + 2) - 54) <= bpow radix2 (-3 + m)) by (apply bpow_le; unfold m; lia); assert (R2 : bpow radix2 (i + 1 + (j + k + 2) + 1 - 54) <= bpow radix2 (-2 + m)) by (apply bpow_le; unfold m; lia);
     rewrite (bpow_plus radix2 (-3)) in R1; rewrite (bpow_plus radix2 (-2)) in R2; change (bpow radix2 (-3)) with (/ 8) in R1; change (bpow radix2 (-2)) with (/ 4) in R2;
     rewrite !(bpow_plus radix2 _ m); change (bpow radix2 2) with 4; pose proof (bpow_gt_0 radix2 m); lra).
Qed.
Lemma inter2 L g i j k n l1 l2 A1 B1 C1 A2 B2 C2 q : (40 <= g <= 48)%Z -> (-200 <= i <= 200)%Z -> (-200 <= j <= 200)%Z -> (-200 <= k <= 200)%Z -> (k <= n <= 500)%Z -> lclose2 g i k A1 B1 C1 l1 -> lclose2 g j k A2 B2 C2 l2 ->
  let D := A1 * B2 - B1 * A2 in bpow radix2 (i + j - g + 6) <= Rabs D -> 2 / 999999 <= Rabs D ->
  on_line A1 B1 C1 q -> on_line A2 B2 C2 q -> Rabs (px q) <= bpow radix2 n -> Rabs (py q) <= bpow radix2 n ->
  exists v, @Line2D_intersection F (NumF L) l1 l2 = Ok v /\ v_valid v = true /\ is_finite (vx v) = true /\ is_finite (vy v) = true /\
    Rabs (px (fpt v) - px q) <= bpow radix2 (n + i + j - g + 6) / Rabs D /\ Rabs (py (fpt v) - py q) <= bpow radix2 (n + i + j - g + 6) / Rabs D.
Proof.
  intros Hg Hi Hj Hk Hn X Y D D1 D2 O1 O2 QX QY. assert (DD := det2 L g i j k l1 l2 _ _ _ _ _ _ Hg Hi Hj X Y). fold D in DD.
  destruct X as (X1 & X2 & X3 & X4 & X5 & X6). destruct Y as (Y1 & Y2 & Y3 & Y4 & Y5 & Y6).
  unfold Line2D_intersection. set (tmp := @nsub F (NumF L) _ _) in *. destruct DD as (T1 & T2 & T3).
  set (e := bpow radix2 (i + j - g)) in *. assert (PE : 0 < e) by apply bpow_gt_0. set (b := bpow radix2 n). assert (PB : 0 < b) by apply bpow_gt_0.
  assert (EL : bpow radix2 (i + j - g + 6) = 64 * e) by (replace (i + j - g + 6)%Z with (6 + (i + j - g))%Z by lia; now rewrite bpow_plus). rewrite EL in D1.
  assert (AT : Rabs D / 2 <= Rabs (B2R tmp)) by (pose proof (Rabs_triang_inv D (D - B2R tmp)) as T; replace (D - (D - B2R tmp)) with (B2R tmp) in T by ring; rewrite Rabs_minus_sym in T3; lra).
  destruct (eps_F L) as [F1 F2].
  assert (E0 : @nltb F (NumF L) (@nabs F (NumF L) tmp) (@EPSILON F (NumF L)) = false).
  { cbn [nltb nabs NumF]. rewrite ltb_F by (rewrite ?is_finite_Babs; assumption). rewrite B2R_Babs. apply Rlt_bool_false. lra. }
  rewrite E0.
  set (e3 := bpow radix2 (i + j + k - g)). assert (E3 : e3 <= b * e) by (unfold e3, b, e; rewrite <- bpow_plus; apply bpow_le; lia).
  destruct (num2 g i j k B1 (l_b l1) C2 (l_c l2) B2 (l_b l2) C1 (l_c l1) Hg Hi Hj Hk X5 X2 Y3 Y5 Y2 X3) as [NX _].
  destruct (num2 g i j k A1 (l_a l1) C2 (l_c l2) A2 (l_a l2) C1 (l_c l1) Hg Hi Hj Hk X4 X1 Y3 Y4 Y1 X3) as [_ NY]. fold e3 in NX, NY.
  destruct NX as (NX1 & _ & NX3). destruct NY as (NY1 & _ & NY3). unfold on_line in O1, O2.
  assert (PD : 0 < Rabs D) by lra. assert (PBE : 0 < b * e) by (apply Rmult_lt_0_compat; assumption).
  assert (BE : b * (64 * e) <= b * Rabs D) by (apply Rmult_le_compat_l; lra).
  assert (DU : Rabs D <= 8 * (e * bpow radix2 g)).
  { unfold D. eapply sum_abs; [apply (mul_abs _ _ (i + 1) (j + 1)); eassumption|apply (mul_abs _ _ (i + 1) (j + 1)); eassumption|]. unfold e. rewrite <- bpow_plus.
    replace (i + 1 + (j + 1))%Z with (2 + (i + j - g + g))%Z by lia. rewrite (bpow_plus radix2 2). change (bpow radix2 2) with 4. lra. }
  assert (FIN : forall z r : R, Rabs (z - r) <= 2 * (17 * e3 + b * (9 * e)) / Rabs D + bpow radix2 (n - 53) -> Rabs (z - r) <= bpow radix2 (n + i + j - g + 6) / Rabs D).
  { intros z r H. eapply Rle_trans; [exact H|]. replace (bpow radix2 (n + i + j - g + 6)) with (b * (64 * e)) by (rewrite <- EL; unfold b; rewrite <- bpow_plus; f_equal; lia).
    apply (Rmult_le_reg_r (Rabs D)); [exact PD|]. rewrite Rmult_plus_distr_r. unfold Rdiv. rewrite !(Rmult_assoc _ (/ Rabs D) (Rabs D)), Rinv_l, !Rmult_1_r by lra.
    assert (S : bpow radix2 (n - 53) * Rabs D <= 1 * (b * e)).
    { replace (n - 53)%Z with (n + -53)%Z by lia. rewrite bpow_plus. fold b. rewrite Rmult_assoc, <- Rmult_assoc, (Rmult_comm 1), !Rmult_assoc. apply Rmult_le_compat_l; [lra|].
      assert (G48 : bpow radix2 g <= bpow radix2 48) by (apply bpow_le; lia). change (bpow radix2 48) with 281474976710656 in G48. change (bpow radix2 (-53)) with (/ 9007199254740992). assert (e * bpow radix2 g <= e * 281474976710656) by (apply Rmult_le_compat_l; lra). lra. }
    clear - E3 S PBE. lra. }
  assert (TT : 2 * (17 * e3 + b * (9 * e)) <= b * Rabs D) by lra.
  destruct (quot_close n (17 * e3) (9 * e) (B1 * C2 - B2 * C1) D (px q) _ tmp ltac:(lia) NX1 T1 NX3 T3) as (x & U1 & U2 & U3 & _); try assumption; try lra.
  { unfold D. replace C1 with (- (A1 * px q + B1 * py q)) by lra. replace C2 with (- (A2 * px q + B2 * py q)) by lra. ring. }
  destruct (quot_close n (17 * e3) (9 * e) (A2 * C1 - A1 * C2) D (py q) _ tmp ltac:(lia) NY1 T1 NY3 T3) as (y & W1 & W2 & W3 & _); try assumption; try lra.
  { unfold D. replace C1 with (- (A1 * px q + B1 * py q)) by lra. replace C2 with (- (A2 * px q + B2 * py q)) by lra. ring. }
  cbn [ndiv nsub nmul NumF]. rewrite U1. cbn [bind]. rewrite W1. cbn [bind]. eexists. split; [reflexivity|]. cbn [vx vy v_valid V fpt px py fst snd].
  split; [reflexivity|]. split; [exact U2|]. split; [exact W2|]. split; apply FIN; assumption.
Qed.
Lemma inter2_none L g i j k l1 l2 A1 B1 C1 A2 B2 C2 : (40 <= g <= 48)%Z -> (-200 <= i <= 200)%Z -> (-200 <= j <= 200)%Z -> lclose2 g i k A1 B1 C1 l1 -> lclose2 g j k A2 B2 C2 l2 ->
  Rabs (A1 * B2 - B1 * A2) + 9 * bpow radix2 (i + j - g) < 1 / 1000001 -> @Line2D_intersection F (NumF L) l1 l2 = Ok (@Vector2D_invalid F (NumF L)).
Proof.
  intros Hg Hi Hj X Y H. destruct (det2 L g i j k l1 l2 _ _ _ _ _ _ Hg Hi Hj X Y) as (T1 & T2 & T3). unfold Line2D_intersection. set (tmp := @nsub F (NumF L) _ _) in *. destruct (eps_F L) as [F1 F2].
  assert (AT : Rabs (B2R tmp) < 1 / 1000001) by (replace (B2R tmp) with ((A1 * B2 - B1 * A2) + (B2R tmp - (A1 * B2 - B1 * A2))) by ring; eapply Rle_lt_trans; [apply Rabs_triang|lra]).
  assert (E0 : @nltb F (NumF L) (@nabs F (NumF L) tmp) (@EPSILON F (NumF L)) = true).
  { cbn [nltb nabs NumF]. rewrite ltb_F by (rewrite ?is_finite_Babs; assumption). rewrite B2R_Babs. apply Rlt_bool_true. lra. }
  now rewrite E0.
Qed.

(** ** Which points of its line a ray accepts *)
(** the point at (signed) distance [s] along the ray *)
Definition ray_at (o : point) (deg s : R) : point := (px o + s * cos (rad deg), py o + s * sin (rad deg)).
Lemma polar_exists x y : 0 < norm (x, y) -> exists t, x = norm (x, y) * cos (rad t) /\ y = norm (x, y) * sin (rad t).
Proof.
  intros N. exists (Ratan2 y x * 180 / PI). assert (E : rad (Ratan2 y x * 180 / PI) = Ratan2 y x) by (unfold rad; field; apply PI_neq0). rewrite E.
  destruct (L_Trig.Ratan2_polar y x) as [E1 E2]; [|unfold norm, norm2, px, py; cbn [fst snd]; now split].
  destruct (Req_dec x 0) as [->|]; [|now left]. destruct (Req_dec y 0) as [->|]; [|now right]. exfalso. unfold norm, norm2, px, py in N. cbn [fst snd] in N. rewrite Rmult_0_r, Rplus_0_r, sqrt_0 in N. lra.
Qed.
Lemma unit_abs t : Rabs (cos t) <= 1 /\ Rabs (sin t) <= 1.
Proof. split; apply Rabs_le; [apply COS_bound|apply SIN_bound]. Qed.
Lemma thr10 L : is_finite (@nlit F (NumF L) 10 1) = true /\ B2R (@nlit F (NumF L) 10 1) = 10.
Proof. change (@nlit F (NumF L) 10 1) with (F_of_Z 10). destruct (F_of_Z_exact 10 eq_refl) as [A B]. now split. Qed.
Lemma ahead L r v s m : atan2_accurate L -> is_finite (vx (ray_origin r)) = true -> is_finite (vy (ray_origin r)) = true -> is_finite (vx v) = true -> is_finite (vy v) = true ->
  good_degree (a_degree (ray_dir r)) -> let q := ray_at (fpt (ray_origin r)) (B2R (a_degree (ray_dir r))) s in
  Rabs (px (fpt v) - px q) <= m -> Rabs (py (fpt v) - py q) <= m -> bpow radix2 (-17) <= Rabs s <= bpow radix2 498 -> 32 * m <= Rabs s ->
  (0 < s -> @Ray2D_in_right_dir F (NumF L) r v = Ok true) /\ (s < 0 -> @Ray2D_in_right_dir F (NumF L) r v = Ok false).
Proof.
  intros AT O1 O2 V1 V2 G q QX QY [S1 S2] M. unfold q, ray_at, fpt, px, py in QX, QY. cbn [fst snd] in QX, QY. set (dg := B2R (a_degree (ray_dir r))) in *.
  set (ox := B2R (vx (ray_origin r))) in *. set (oy := B2R (vy (ray_origin r))) in *. set (c := cos (rad dg)) in *. set (h := sin (rad dg)) in *.
  set (x := B2R (vx v) - ox). set (y := B2R (vy v) - oy).
  assert (EX : Rabs (x - s * c) <= m) by (replace (x - s * c) with (B2R (vx v) - (ox + s * c)) by (unfold x; ring); exact QX).
  assert (EY : Rabs (y - s * h) <= m) by (replace (y - s * h) with (B2R (vy v) - (oy + s * h)) by (unfold y; ring); exact QY).
  assert (M0 : 0 <= m) by (pose proof (Rabs_pos (x - s * c)); lra).
  assert (B18 : bpow radix2 (-17) = 2 * bpow radix2 (-18)) by (change (-17)%Z with (1 + -18)%Z; apply bp2). assert (P18 : 0 < bpow radix2 (-18)) by apply bpow_gt_0.
  assert (B98 : bpow radix2 499 = 2 * bpow radix2 498) by (change 499%Z with (1 + 498)%Z; apply bp2).
  destruct (unit_abs (rad dg)) as [U1 U2]. fold c h in U1, U2. assert (CH : c * c + h * h = 1) by (unfold c, h; pose proof (sin2_cos2 (rad dg)) as K; unfold Rsqr in K; lra).
  assert (NS : norm (s * c, s * h) = Rabs s) by apply norm_polar.
  pose proof (norm_rel x y (s * c) (s * h) 0 m ltac:(lra) M0 ltac:(lra) ltac:(lra)) as NR. rewrite NS in NR. apply Rabs_le_inv in NR.
  set (n := norm (x, y)) in *. assert (N0 : 15 / 16 * Rabs s <= n <= 17 / 16 * Rabs s) by lra.
  destruct (polar_exists x y ltac:(fold n; lra)) as (t & T1 & T2). fold n in T1, T2.
  destruct (between_exists dg t) as [d AB]. destruct (thr10 L) as [F10 E10].
  assert (EN : edist (fpt (ray_origin r)) (fpt v) = n) by (unfold n, edist, norm, norm2, psub, fpt, px, py; cbn [fst snd]; f_equal; unfold x, y, ox, oy; ring).
  destruct (C166_in_right_dir_F L r v (@nlit F (NumF L) 10 1) t d AT O1 O2 V1 V2 F10 G) as (b & E & DEC); try assumption.
  { rewrite EN. lra. }
  { rewrite EN. unfold psub, fpt, px, py. cbn [fst snd]. fold ox oy. fold x y. now rewrite <- T1, <- T2. }
  unfold Ray2D_in_right_dir. rewrite E. rewrite E10 in DEC. destruct DEC as [Y N]. assert (P42 : bpow radix2 (-42) <= 1) by (apply (bpow_le radix2 (-42) 0); lia).
  assert (DOT : 0 < (s * c) * x + (s * h) * y).
  { replace ((s * c) * x + (s * h) * y) with (s * s + (s * c * (x - s * c) + s * h * (y - s * h))) by (replace (s * s) with (s * s * (c * c + h * h)) by (rewrite CH; ring); ring).
    assert (Q1 : Rabs (s * c * (x - s * c)) <= Rabs s * m). { rewrite !Rabs_mult. rewrite Rmult_assoc. apply Rmult_le_compat_l; [apply Rabs_pos|]. pose proof (Rmult_le_compat _ _ _ _ (Rabs_pos c) (Rabs_pos (x - s * c)) U1 EX). lra. }
    assert (Q2 : Rabs (s * h * (y - s * h)) <= Rabs s * m). { rewrite !Rabs_mult. rewrite Rmult_assoc. apply Rmult_le_compat_l; [apply Rabs_pos|]. pose proof (Rmult_le_compat _ _ _ _ (Rabs_pos h) (Rabs_pos (y - s * h)) U2 EY). lra. }
    assert (Q3 : Rabs s * (32 * m) <= Rabs s * Rabs s) by (apply Rmult_le_compat_l; lra). assert (Q4 : Rabs s * Rabs s = s * s) by (rewrite <- Rabs_mult; apply Rabs_pos_eq; apply Rle_0_sqr).
    assert (Q5 : 0 < Rabs s * Rabs s) by (apply Rmult_lt_0_compat; lra). apply Rabs_le_inv in Q1, Q2. lra. }
  assert (CR : Rabs ((s * c) * y - (s * h) * x) <= 1 / 15 * (Rabs s * n)).
  { replace ((s * c) * y - (s * h) * x) with (s * (c * (y - s * h) - h * (x - s * c))) by ring. rewrite Rabs_mult.
    replace (1 / 15 * (Rabs s * n)) with (Rabs s * (1 / 15 * n)) by ring. apply Rmult_le_compat_l; [apply Rabs_pos|]. eapply Rle_trans; [apply Rabs_triang|]. rewrite Rabs_Ropp, !Rabs_mult.
    pose proof (Rmult_le_compat _ _ _ _ (Rabs_pos c) (Rabs_pos (y - s * h)) U1 EY). pose proof (Rmult_le_compat _ _ _ _ (Rabs_pos h) (Rabs_pos (x - s * c)) U2 EX). lra. }
  assert (PN : 0 < Rabs s * n) by (apply Rmult_lt_0_compat; lra).
  split; intros SS.
  - destruct (dir_close (s * c) (s * h) x y dg t (1 / 15)) as [k K]; try rewrite NS; try assumption; try lra.
    { now rewrite Rabs_pos_eq by lra. } { now rewrite Rabs_pos_eq by lra. }
    pose proof (between_min _ _ _ k AB) as BM. f_equal. apply Y. lra.
  - assert (PI180 : cos (rad (dg + 180)) = - c /\ sin (rad (dg + 180)) = - h). { replace (rad (dg + 180)) with (rad dg + PI) by (unfold rad; field). now rewrite neg_cos, neg_sin. } destruct PI180 as [I1 I2].
    destruct (dir_close (s * c) (s * h) x y (dg + 180) t (1 / 15)) as [k K]; try rewrite NS; try assumption; try lra.
    { rewrite I1, Rabs_left by lra. ring. } { rewrite I2, Rabs_left by lra. ring. }
    destruct (between_half _ _ _ AB) as [j J]. f_equal. apply N. rewrite J. apply Rabs_le_inv in K.
    replace (t - dg - 360 * IZR j) with ((t - (dg + 180) - 360 * IZR k) + (180 + 360 * IZR (k - j))) by (rewrite minus_IZR; ring). set (z := (k - j)%Z). clearbody z.
    destruct (Z_lt_le_dec z 0) as [H|H]; [assert (IZR z <= -1) by (apply IZR_le; lia); rewrite Rabs_left by lra; lra|assert (0 <= IZR z) by (apply IZR_le; lia); rewrite Rabs_pos_eq by lra; lra].
Qed.
Lemma ray_at_bound o deg s n k : (k <= n <= 400)%Z -> Rabs (px o) <= bpow radix2 k -> Rabs (py o) <= bpow radix2 k ->
  Rabs (px (ray_at o deg s)) <= bpow radix2 n -> Rabs (py (ray_at o deg s)) <= bpow radix2 n -> Rabs s <= bpow radix2 498.
Proof.
  intros H O1 O2 Q1 Q2. unfold ray_at in Q1, Q2. cbn [px py fst snd] in Q1, Q2.
  assert (KN : bpow radix2 k <= bpow radix2 n) by (apply bpow_le; lia). rewrite <- (norm_polar s (rad deg)).
  eapply Rle_trans; [apply (P_LineF.norm_le _ _ (2 * bpow radix2 n))|].
  - unfold px, py in *. apply Rabs_le_inv in O1, Q1. apply Rabs_le. lra.
  - unfold px, py in *. apply Rabs_le_inv in O2, Q2. apply Rabs_le. lra.
  - rewrite <- !bp2. apply bpow_le. lia.
Qed.
Lemma ray_at_line o deg s : on_line (- sin (rad deg)) (cos (rad deg)) (sin (rad deg) * px o - cos (rad deg) * py o) (ray_at o deg s).
Proof. unfold on_line, ray_at, px, py. cbn [fst snd]. ring. Qed.

(** ** Meeting points *)
(** C166: a ray and the line through two points.  [q], at signed distance [s] along the ray, is where
    the exact lines meet and [D] the determinant of their directions.  A point clearly in front is
    found, to the stated accuracy; a point clearly behind is refused. *)
Theorem C166_intersection_line_F : forall (L : libm) (k n : Z) (r : ray F) (p1 p2 : vec F) (s : R), trig_accurate L -> atan2_accurate L ->
  (-200 <= k <= 200)%Z -> (k <= n <= 400)%Z -> within k (ray_origin r) -> within k p1 -> within k p2 -> good_degree (a_degree (ray_dir r)) ->
  let deg := B2R (a_degree (ray_dir r)) in let q := ray_at (fpt (ray_origin r)) deg s in
  let D := Rabs (cross (cos (rad deg), sin (rad deg)) (psub (fpt p2) (fpt p1))) in let m := bpow radix2 (n + k - 42) / D in
  on_line2 (fpt p1) (fpt p2) q -> Rabs (px q) <= bpow radix2 n -> Rabs (py q) <= bpow radix2 n -> bpow radix2 (k - 42) <= D -> 2 / 999999 <= D ->
  bpow radix2 (-17) <= Rabs s -> 32 * m <= Rabs s ->
  exists v, @Ray2D_intersection F (NumF L) r (VLine (@Line2D_of_points F (NumF L) p1 p2)) = Ok v /\
    (0 < s -> v_valid v = true /\ is_finite (vx v) = true /\ is_finite (vy v) = true /\ Rabs (px (fpt v) - px q) <= m /\ Rabs (py (fpt v) - py q) <= m) /\
    (s < 0 -> v = @Vector2D_invalid F (NumF L)).
Proof.
  intros L k n r p1 p2 s TA AT Hk Hn W W1 W2 G deg q D m OL QX QY D1 D2 S1 S2.
  destruct (lclose2_angle L k (ray_origin r) (AA (ray_dir r)) Hk TA W G) as (l & El & Cl). cbn [arg_F] in Cl. fold deg in Cl.
  assert (C2 := lclose2_of _ _ _ _ _ (lclose_points L k p1 p2 Hk W1 W2)).
  set (A2 := - (py (fpt p2) - py (fpt p1))) in *. set (B2 := px (fpt p2) - px (fpt p1)) in *.
  assert (ED : D = Rabs (- sin (rad deg) * B2 - cos (rad deg) * A2)) by (unfold D; f_equal; unfold cross, psub, A2, B2, px, py; cbn [fst snd]; ring).
  destruct (inter2 L 48 0 k k n l _ _ _ _ _ _ _ q ltac:(lia) ltac:(lia) Hk Hk ltac:(lia) Cl C2) as (v & V & V0 & V1 & V2 & V3 & V4); try (rewrite <- ED; first [assumption|replace (0 + k - 48 + 6)%Z with (k - 42)%Z by lia; assumption]); try assumption.
  { apply ray_at_line. } { now apply on_line2_coef. }
  rewrite <- ED in V3, V4. replace (n + 0 + k - 48 + 6)%Z with (n + k - 42)%Z in V3, V4 by lia. fold m in V3, V4.
  cbn [Ray2D_intersection]. unfold Ray2D_intersection_line, Ray2D_line. rewrite El. cbn [bind]. rewrite V. cbn [bind]. rewrite V0. cbn [negb].
  destruct W as (O1 & O2 & O3 & O4). assert (SB := ray_at_bound (fpt (ray_origin r)) _ _ n k Hn O3 O4 QX QY).
  destruct (ahead L r v s m AT O1 O2 V1 V2 G V3 V4 (conj S1 SB) S2) as [H1 H2].
  destruct (Rtotal_order s 0) as [N|[Z|P]].
  - rewrite (H2 N). cbn [bind negb]. eexists. split; [reflexivity|]. split; [intros; lra|reflexivity].
  - exfalso. rewrite Z, Rabs_R0 in S1. pose proof (bpow_gt_0 radix2 (-17)). lra.
  - rewrite (H1 P). cbn [bind negb]. exists v. split; [reflexivity|]. split; [|intros; lra]. intros _. repeat split; assumption.
Qed.

(** C166: two rays.  [D] is the sine of the angle between them. *)
Theorem C166_intersection_ray_F : forall (L : libm) (k n : Z) (r o : ray F) (s t : R), trig_accurate L -> atan2_accurate L ->
  (-200 <= k <= 200)%Z -> (k <= n <= 400)%Z -> within k (ray_origin r) -> within k (ray_origin o) -> good_degree (a_degree (ray_dir r)) -> good_degree (a_degree (ray_dir o)) ->
  let q := ray_at (fpt (ray_origin r)) (B2R (a_degree (ray_dir r))) s in
  let D := Rabs (sin (rad (B2R (a_degree (ray_dir o)) - B2R (a_degree (ray_dir r))))) in let m := bpow radix2 (n - 42) / D in
  q = ray_at (fpt (ray_origin o)) (B2R (a_degree (ray_dir o))) t -> Rabs (px q) <= bpow radix2 n -> Rabs (py q) <= bpow radix2 n -> 2 / 999999 <= D ->
  bpow radix2 (-17) <= Rabs s -> 32 * m <= Rabs s -> bpow radix2 (-17) <= Rabs t -> 32 * m <= Rabs t ->
  exists v, @Ray2D_intersection F (NumF L) r (VRay o) = Ok v /\
    (0 < s -> 0 < t -> v_valid v = true /\ is_finite (vx v) = true /\ is_finite (vy v) = true /\ Rabs (px (fpt v) - px q) <= m /\ Rabs (py (fpt v) - py q) <= m) /\
    (s < 0 \/ t < 0 -> v = @Vector2D_invalid F (NumF L)).
Proof.
  intros L k n r o s t TA AT Hk Hn W W' G G' q D m EQ QX QY D2 S1 S2 T1 T2.
  destruct (lclose2_angle L k (ray_origin r) (AA (ray_dir r)) Hk TA W G) as (l & El & Cl). destruct (lclose2_angle L k (ray_origin o) (AA (ray_dir o)) Hk TA W' G') as (l' & El' & Cl'). cbn [arg_F] in Cl, Cl'.
  set (d := B2R (a_degree (ray_dir r))) in *. set (d' := B2R (a_degree (ray_dir o))) in *.
  assert (ED : D = Rabs (- sin (rad d) * cos (rad d') - cos (rad d) * - sin (rad d'))).
  { unfold D. f_equal. replace (rad (d' - d)) with (rad d' - rad d) by (unfold rad; field). rewrite sin_minus. ring. }
  assert (D1 : bpow radix2 (0 + 0 - 48 + 6) <= D). { apply Rle_trans with (2 / 999999); [vm_compute; lra|exact D2]. }
  destruct (inter2 L 48 0 0 k n l l' _ _ _ _ _ _ q ltac:(lia) ltac:(lia) ltac:(lia) Hk ltac:(lia) Cl Cl') as (v & V & V0 & V1 & V2 & V3 & V4); try (rewrite <- ED; first [assumption|replace (0 + k - 48 + 6)%Z with (k - 42)%Z by lia; assumption]); try assumption.
  { apply ray_at_line. } { rewrite EQ. apply ray_at_line. }
  rewrite <- ED in V3, V4. replace (n + 0 + 0 - 48 + 6)%Z with (n - 42)%Z in V3, V4 by lia. fold m in V3, V4.
  cbn [Ray2D_intersection]. unfold Ray2D_intersection_ray, Ray2D_line. rewrite El. cbn [bind]. rewrite El'. cbn [bind]. rewrite V. cbn [bind]. rewrite V0. cbn [negb].
  destruct W as (O1 & O2 & O3 & O4). destruct W' as (Q1 & Q2 & Q3 & Q4). assert (SB := ray_at_bound (fpt (ray_origin r)) _ _ n k Hn O3 O4 QX QY).
  assert (TB : Rabs t <= bpow radix2 498) by (rewrite EQ in QX, QY; exact (ray_at_bound (fpt (ray_origin o)) _ _ n k Hn Q3 Q4 QX QY)).
  destruct (ahead L r v s m AT O1 O2 V1 V2 G V3 V4 (conj S1 SB) S2) as [H1 H2]. rewrite EQ in V3, V4.
  destruct (ahead L o v t m AT Q1 Q2 V1 V2 G' V3 V4 (conj T1 TB) T2) as [K1 K2]. rewrite <- EQ in V3, V4. pose proof (bpow_gt_0 radix2 (-17)).
  destruct (Rtotal_order s 0) as [N|[Z|P]]; [|exfalso; rewrite Z, Rabs_R0 in S1; lra|].
  { rewrite (H2 N). cbn [bind negb]. eexists. split; [reflexivity|]. split; [intros; lra|reflexivity]. }
  rewrite (H1 P). cbn [bind negb]. destruct (Rtotal_order t 0) as [N|[Z|P']]; [|exfalso; rewrite Z, Rabs_R0 in T1; lra|].
  { rewrite (K2 N). cbn [bind negb]. eexists. split; [reflexivity|]. split; [intros; lra|reflexivity]. }
  rewrite (K1 P'). cbn [bind negb]. exists v. split; [reflexivity|]. split; [|intros; lra]. intros _ _. repeat split; assumption.
Qed.

(** C166: rays nearly parallel to the line, or to each other, meet nowhere. *)
Theorem C166_parallel_F : forall (L : libm) (k : Z) (r o : ray F) (p1 p2 : vec F), trig_accurate L -> (-200 <= k <= 200)%Z ->
  within k (ray_origin r) -> within k (ray_origin o) -> within k p1 -> within k p2 -> good_degree (a_degree (ray_dir r)) -> good_degree (a_degree (ray_dir o)) ->
  let deg := B2R (a_degree (ray_dir r)) in
  (Rabs (cross (cos (rad deg), sin (rad deg)) (psub (fpt p2) (fpt p1))) + bpow radix2 (k - 44) <= / 1000000 - / 1000000000000 ->
     @Ray2D_intersection F (NumF L) r (VLine (@Line2D_of_points F (NumF L) p1 p2)) = Ok (@Vector2D_invalid F (NumF L))) /\
  (Rabs (sin (rad (B2R (a_degree (ray_dir o)) - deg))) <= / 1000000 - / 1000000000000 * 2 ->
     @Ray2D_intersection F (NumF L) r (VRay o) = Ok (@Vector2D_invalid F (NumF L))).
Proof.
  intros L k r o p1 p2 TA Hk W W' W1 W2 G G' deg.
  destruct (lclose2_angle L k (ray_origin r) (AA (ray_dir r)) Hk TA W G) as (l & El & Cl). cbn [arg_F] in Cl. fold deg in Cl.
  cbn [Ray2D_intersection]. split; intros H.
  - assert (C2 := lclose2_of _ _ _ _ _ (lclose_points L k p1 p2 Hk W1 W2)). unfold Ray2D_intersection_line, Ray2D_line. rewrite El. cbn [bind].
    rewrite (inter2_none L 48 0 k k _ _ _ _ _ _ _ _ ltac:(lia) ltac:(lia) Hk Cl C2); [reflexivity|].
    replace (Rabs (_ - _)) with (Rabs (cross (cos (rad deg), sin (rad deg)) (psub (fpt p2) (fpt p1)))) by (f_equal; unfold cross, psub, px, py; cbn [fst snd]; ring).
    replace (k - 44)%Z with (4 + (0 + k - 48))%Z in H by lia. rewrite bpow_plus in H. change (bpow radix2 4) with 16 in H. pose proof (bpow_gt_0 radix2 (0 + k - 48)). lra.
  - destruct (lclose2_angle L k (ray_origin o) (AA (ray_dir o)) Hk TA W' G') as (l' & El' & Cl'). cbn [arg_F] in Cl'. set (d' := B2R (a_degree (ray_dir o))) in *.
    unfold Ray2D_intersection_ray, Ray2D_line. rewrite El. cbn [bind]. rewrite El'. cbn [bind].
    rewrite (inter2_none L 48 0 0 k _ _ _ _ _ _ _ _ ltac:(lia) ltac:(lia) ltac:(lia) Cl Cl'); [reflexivity|].
    replace (- sin (rad deg) * cos (rad d') - cos (rad deg) * - sin (rad d')) with (sin (rad (d' - deg))).
    + change (bpow radix2 (0 + 0 - 48)) with (/ 281474976710656). lra.
    + replace (rad (d' - deg)) with (rad d' - rad deg) by (unfold rad; field). rewrite sin_minus. ring.
Qed.
Lemma within_fv a b : (Z.abs a <= 8)%Z -> (Z.abs b <= 8)%Z -> within 3 (fv a b).
Proof.
  intros A B. destruct (F_of_Z_exact a ltac:(change (2 ^ 53)%Z with 9007199254740992%Z; lia)) as [A1 A2]. destruct (F_of_Z_exact b ltac:(change (2 ^ 53)%Z with 9007199254740992%Z; lia)) as [B1 B2].
  unfold within, fv. cbn [vx vy]. rewrite A1, B1. change (bpow radix2 3) with 8. repeat split; try assumption; rewrite <- abs_IZR; apply IZR_le; lia.
Qed.
Example C166_nonvacuous : trig_accurate libm_round /\ atan2_accurate libm_round /\ within 3 (fv 1 0) /\ within 3 (fv 0 3) /\ within 3 (fv 4 3) /\ good_degree (F_of_Z 90) /\ good_degree (F_of_Z 0) /\
  ray_at (fpt (fv 1 0)) 90 3 = (1, 3) /\ ray_at (fpt (fv 0 3)) 0 1 = (1, 3) /\ on_line2 (fpt (fv 0 3)) (fpt (fv 4 3)) (1, 3) /\
  Rabs (cross (cos (rad 90), sin (rad 90)) (psub (fpt (fv 4 3)) (fpt (fv 0 3)))) = 4 /\ Rabs (sin (rad (0 - 90))) = 1 /\
  32 * (bpow radix2 (3 + 3 - 42) / 4) <= 3 /\ 32 * (bpow radix2 (3 - 42) / 1) <= 1 /\
  psub (fpt (fv 4 3)) (fpt (fv 1 0)) = (edist (fpt (fv 1 0)) (fpt (fv 4 3)) * cos (rad 45), edist (fpt (fv 1 0)) (fpt (fv 4 3)) * sin (rad 45)) /\ angle_between 90 45 45.
Proof.
  assert (R0 : rad 0 = 0) by (unfold rad; field). assert (R90 : rad 90 = PI / 2) by (unfold rad; field). assert (R45 : rad 45 = PI / 4) by (unfold rad; field).
  split; [exact libm_round_trig|]. split; [exact libm_round_atan2|]. do 3 (split; [apply within_fv; cbn; lia|]).
  split; [unfold good_degree; rewrite (proj1 (F_of_Z_exact 90 eq_refl)); split; [apply (F_of_Z_exact 90 eq_refl)|lra]|]. split; [unfold good_degree; rewrite (proj1 (F_of_Z_exact 0 eq_refl)); split; [apply (F_of_Z_exact 0 eq_refl)|lra]|].
  rewrite !fpt_fv by (cbn; lia). unfold ray_at, on_line2, lerp, cross, psub, edist, norm, norm2, px, py. cbn [fst snd]. rewrite R0, R90, R45, cos_0, sin_0, cos_PI2, sin_PI2.
  split; [f_equal; ring|]. split; [f_equal; ring|]. split; [exists (1 / 4); f_equal; field|]. split; [rewrite Rabs_left; lra|].
  split; [replace (rad (0 - 90)) with (- (PI / 2)) by (unfold rad; field); rewrite sin_neg, sin_PI2, Rabs_left; lra|].
  split; [change (bpow radix2 (3 + 3 - 42)) with (/ 68719476736); lra|]. split; [change (bpow radix2 (3 - 42)) with (/ 549755813888); lra|].
  split; [|split; [lra|right; exists 0%Z; lra]].
  rewrite cos_PI4, sin_PI4. unfold psub, px, py. cbn [fst snd]. replace ((1 - 4) * (1 - 4) + (0 - 3) * (0 - 3)) with (3 * 3 * 2) by ring. rewrite sqrt_mult, sqrt_square by lra.
  assert (0 < sqrt 2) by (apply sqrt_lt_R0; lra). f_equal; field; lra.
Qed.
