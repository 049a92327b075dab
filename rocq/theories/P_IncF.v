(** * P_IncF: angle bisectors and the incenter in doubles (C168)

    The bisector line of two stored directions, and the incenter of a triangle with
    any double vertices up to 2^k; of the platform library only [trig_accurate] and
    [atan2_accurate] are asked. *)
From Coq Require Import ZArith List Bool String Reals Lra Lia Psatz.
From Flocq Require Import Core BinarySingleNaN.
From Verif Require L_Trig.
From Verif Require Import Base Types NumR NumF R_Tac Spec Spec2 Abs M_Angle M_Vector M_Line M_Triangle
  L_Angle P_Vector P_Line P_Triangle P_Angle L_Float P_Float P_AngleF P_AngleF2 P_Robust P_Hull2 P_VecF P_TrigF P_LineF P_LenF P_BisF P_SectorF P_RayF.
Import ListNotations.
Local Open Scope R_scope.

Lemma rad_small x : Rabs x <= 7 * bpow radix2 (-45) -> Rabs (rad x) <= 99 / 100 * bpow radix2 (-48).
Proof.
  intros H. pose proof pi_bounds as PB. unfold rad. replace (x * PI / 180) with (x * (PI / 180)) by field. rewrite Rabs_mult, (Rabs_pos_eq (PI / 180)) by lra.
  apply Rle_trans with (7 * bpow radix2 (-45) * (176 / 10000)); [apply Rmult_le_compat; try apply Rabs_pos; lra|].
  change (-45)%Z with (3 + -48)%Z. rewrite bpow_plus. change (bpow radix2 3) with 8. pose proof (bpow_gt_0 radix2 (-48)). lra.
Qed.
(** the bisector of two directions that are read up to 2^-43 degrees *)
Lemma bis_line L k p (l r : angle F) (t1 t2 y1 y2 : R) : (-200 <= k <= 200)%Z -> trig_accurate L -> within k p -> good_degree (a_degree l) -> good_degree (a_degree r) ->
  cong360 (B2R (a_degree l)) y1 -> Rabs (y1 - t1) <= bpow radix2 (-43) -> cong360 (B2R (a_degree r)) y2 -> Rabs (y2 - t2) <= bpow radix2 (-43) ->
  exists b ln be, @AngleDeg_bisect F (NumF L) (AA l) (AA r) = Ok b /\ @Line2D_of_angle F (NumF L) p (AA b) = Ok ln /\ cong360 (2 * be) (t1 + t2) /\
    lclose2 47 0 k (- sin (rad be)) (cos (rad be)) (sin (rad be) * px (fpt p) - cos (rad be) * py (fpt p)) ln.
Proof.
  intros Hk TA W GL GR [k1 Y1] E1 [k2 Y2] E2. destruct (C156_bisect_F L l r GL GR) as (b & B1 & B2 & (y & [m Y] & EY) & _).
  set (d := y - 360 * IZR k1 - 360 * IZR k2 - (t1 + t2)). set (be := B2R (a_degree b) - d / 2).
  assert (BD : Rabs (d / 2) <= 7 * bpow radix2 (-45)).
  { assert (H4 : bpow radix2 (-43) = 4 * bpow radix2 (-45)) by (change (-43)%Z with (2 + -45)%Z; rewrite bpow_plus; change (bpow radix2 2) with 4; lra). rewrite H4 in E1, E2. apply Rabs_le_inv in E1, E2, EY. apply Rabs_le. unfold d. lra. }
  assert (RD : Rabs (rad (B2R (a_degree b)) - rad be) <= 99 / 100 * bpow radix2 (-48)) by (replace (rad (B2R (a_degree b)) - rad be) with (rad (d / 2)) by (unfold rad, be; field); now apply rad_small).
  destruct (lclose2_dir L 47 k p b (sin (rad be)) (cos (rad be)) (99 / 100 * bpow radix2 (-48)) Hk ltac:(lia) TA W B2) as (ln & LN & C); try (apply Rabs_le, SIN_bound); try (apply Rabs_le, COS_bound).
  - eapply Rle_trans; [apply sin_lip|exact RD].
  - eapply Rle_trans; [apply cos_lip|exact RD].
  - change (bpow radix2 (-49)) with (/ 562949953421312). change (bpow radix2 (-48)) with (/ 281474976710656). change (bpow radix2 (- (47))) with (/ 140737488355328). lra.
  - exists b, ln, be. split; [exact B1|]. split; [exact LN|]. split; [|exact C]. exists (m + k1 + k2)%Z. rewrite !plus_IZR. unfold be, d. lra.
Qed.

(** Line2D.angle_bisector in doubles: for a point with coordinates up to 2^k and two
    stored directions that are neither equal nor (almost) opposite, the result is, up
    to 2^-47 in its first two coefficients and 2^(k-46) in the third, the line through
    the point in the direction that halves the clockwise turn from [r] to [l]. *)
Theorem C168_angle_bisector_F : forall (L : libm) (k : Z) (o : vec F) (l r : angle F) (t : R), trig_accurate L -> (-200 <= k <= 200)%Z -> within k o ->
  good_degree (a_degree l) -> good_degree (a_degree r) ->
  let dl := B2R (a_degree l) in let dr := B2R (a_degree r) in
  dl <> dr -> Rabs (dl - dr) < 360 -> bpow radix2 (-45) <= Rabs (Rabs (dl - dr) - 180) -> turn dr dl (2 * t) ->
  let S := sin (rad (dr + t)) in let K := cos (rad (dr + t)) in
  exists ln, @Line2D_angle_bisector F (NumF L) o (AA l) (AA r) = Ok ln /\ is_finite (l_a ln) = true /\ is_finite (l_b ln) = true /\ is_finite (l_c ln) = true /\
    Rabs (B2R (l_a ln) - (- S)) <= bpow radix2 (-47) /\ Rabs (B2R (l_b ln) - K) <= bpow radix2 (-47) /\
    Rabs (B2R (l_c ln) - (S * px (fpt o) - K * py (fpt o))) <= bpow radix2 (k - 46).
Proof.
  intros L k o l r t TA Hk W GL GR dl dr N1 N2 N3 TT S K. destruct (C156_bisect_F L l r GL GR) as (b & B1 & B2 & _ & B4 & _).
  destruct (B4 N1 N2 N3) as (t' & y & TT' & CY & EY).
  assert (t' = t) as ->. { destruct TT as [Q1 [m1 M1]]. destruct TT' as [Q2 [m2 M2]]. fold dl dr in M2. assert (IZR m1 - IZR m2 = 2 * (t - t') / 360) by lra.
    assert (Z : (m1 - m2 = 0)%Z). { assert (A1 : IZR (m1 - m2) < 1) by (rewrite minus_IZR; lra). assert (A2 : -1 < IZR (m1 - m2)) by (rewrite minus_IZR; lra). apply lt_IZR in A1, A2. lia. }
    apply (f_equal IZR) in Z. rewrite minus_IZR in Z. lra. }
  destruct (cos_cong _ _ CY) as [CC CS].
  assert (RD : Rabs (rad y - rad (dr + t)) <= 99 / 100 * bpow radix2 (-48)). { replace (rad y - rad (dr + t)) with (rad (y - (dr + t))) by (unfold rad; field). apply rad_small. pose proof (bpow_gt_0 radix2 (-45)). fold dr in EY. lra. }
  destruct (lclose2_dir L 47 k o b S K (99 / 100 * bpow radix2 (-48)) Hk ltac:(lia) TA W B2) as (ln & LN & C1 & C2 & C3 & _); try (apply Rabs_le, SIN_bound); try (apply Rabs_le, COS_bound).
  - rewrite CS. eapply Rle_trans; [apply sin_lip|exact RD].
  - rewrite CC. eapply Rle_trans; [apply cos_lip|exact RD].
  - change (bpow radix2 (-49)) with (/ 562949953421312). change (bpow radix2 (-48)) with (/ 281474976710656). change (bpow radix2 (- (47))) with (/ 140737488355328). lra.
  - exists ln. unfold Line2D_angle_bisector. rewrite B1. cbn [bind]. rewrite LN. split; [reflexivity|].
    destruct C1 as (F1 & _ & E1). destruct C2 as (F2 & _ & E2). destruct C3 as (F3 & _ & E3). change (0 - 47)%Z with (-47)%Z in E1, E2. replace (0 + k - 47 + 1)%Z with (k - 46)%Z in E3 by lia.
    repeat (split; [assumption|]). assumption.
Qed.
Example C168_angle_bisector_F_nonvacuous : exists (L : libm) (o : vec F) (l r : angle F) (t : R), trig_accurate L /\ within 3 o /\ good_degree (a_degree l) /\ good_degree (a_degree r) /\
  B2R (a_degree l) <> B2R (a_degree r) /\ Rabs (B2R (a_degree l) - B2R (a_degree r)) < 360 /\ bpow radix2 (-45) <= Rabs (Rabs (B2R (a_degree l) - B2R (a_degree r)) - 180) /\
  turn (B2R (a_degree r)) (B2R (a_degree l)) (2 * t).
Proof.
  exists libm_round, (fv 2 3), (mkAngle (F_of_Z 30)), (mkAngle (F_of_Z (-170))), 100. split; [exact libm_round_trig|]. cbn [a_degree].
  destruct C156_nonvacuous as (A1 & A2 & A3 & A4 & A5 & A6). split; [|repeat split; try assumption; try (now destruct A1); try (now destruct A2); try (destruct A6 as [B1 B2]; lra)].
  - apply within_fv; cbn; lia.
  - destruct (F_of_Z_exact 30 eq_refl) as [-> _]. destruct (F_of_Z_exact (-170) eq_refl) as [-> _]. exact (proj2 A6).
Qed.

(** ** The incenter *)
Lemma mean_bound la lb lc x y z m : 0 <= la -> 0 <= lb -> 0 <= lc -> 0 < la + lb + lc -> Rabs x <= m -> Rabs y <= m -> Rabs z <= m -> Rabs ((la * x + lb * y + lc * z) / (la + lb + lc)) <= m.
Proof.
  intros H1 H2 H3 H4 X Y Z. unfold Rdiv. rewrite Rabs_mult, (Rabs_pos_eq (/ _)) by (left; now apply Rinv_0_lt_compat).
  apply Rmult_le_reg_r with (la + lb + lc); [exact H4|]. rewrite Rmult_assoc, Rinv_l, Rmult_1_r by lra.
  apply Rabs_le_inv in X, Y, Z. apply Rabs_le. 
  pose proof (Rmult_le_compat_l la _ _ H1 (proj1 X)). pose proof (Rmult_le_compat_l la _ _ H1 (proj2 X)). pose proof (Rmult_le_compat_l lb _ _ H2 (proj1 Y)). pose proof (Rmult_le_compat_l lb _ _ H2 (proj2 Y)).
  pose proof (Rmult_le_compat_l lc _ _ H3 (proj1 Z)). pose proof (Rmult_le_compat_l lc _ _ H3 (proj2 Z)). lra.
Qed.
Lemma vertex L k (p q : vec F) : atan2_accurate L -> (-200 <= k <= 200)%Z -> within k p -> within k q -> bpow radix2 (-18) <= edist (fpt p) (fpt q) ->
  exists a t y, @Vector2D_th F (NumF L) (@Vector2D_sub F (NumF L) q p) = Ok a /\ good_degree (a_degree a) /\ cong360 (B2R (a_degree a)) y /\ Rabs (y - t) <= bpow radix2 (-43) /\
    unit_to (fpt p) (fpt q) = (cos (rad t), sin (rad t)).
Proof.
  intros AT Hk (P1 & P2 & P3 & P4) (Q1 & Q2 & Q3 & Q4) D1. rewrite edist_sym in D1. unfold edist, psub, px, py, fpt in D1. cbn [fst snd] in D1.
  set (X := B2R (vx q) - B2R (vx p)) in *. set (Y := B2R (vy q) - B2R (vy p)) in *. assert (B18 := bpow_gt_0 radix2 (-18)).
  destruct (polar_exists X Y ltac:(lra)) as (t & T1 & T2).
  assert (D2 : norm (X, Y) <= bpow radix2 499).
  { assert (K : bpow radix2 k <= bpow radix2 200) by (apply bpow_le; lia). assert (K2 : 4 * bpow radix2 200 <= bpow radix2 499) by (change 4 with (bpow radix2 2); rewrite <- bpow_plus; apply bpow_le; lia).
    apply Rabs_le_inv in P3, P4, Q3, Q4. apply Rle_trans with (2 * (2 * bpow radix2 200)); [|lra]. apply norm_le; apply Rabs_le; unfold X, Y; lra. }
  destruct (rel_dir L p q P1 P2 Q1 Q2 D1 D2 t AT T1 T2) as (a & A1 & A2 & y & A3 & A4).
  exists a, t, y. repeat (split; [assumption|]). unfold unit_to. rewrite edist_sym. unfold edist, psub, px, py, fpt. cbn [fst snd]. fold X Y. f_equal; [rewrite T1 at 1|rewrite T2 at 1]; field; lra.
Qed.
Lemma along A d r be m : padd A (r * px d, r * py d) = m -> (exists k, px d = k * cos (rad be) /\ py d = k * sin (rad be)) ->
  on_line (- sin (rad be)) (cos (rad be)) (sin (rad be) * px A - cos (rad be) * py A) m.
Proof. intros <- (k & K1 & K2). unfold on_line, padd, px, py in *. cbn [fst snd]. rewrite K1, K2. ring. Qed.

(** Triangle2D.incenter in doubles: for vertices with any double coordinates up to
    2^k, at least 2^-18 apart, whose two bisectors (at a and at b) meet under an angle
    of sine at least 2/999999, the result is a valid point within 2^(k-41) of the
    incenter, divided by that sine. *)
Theorem C168_incenter_F : forall (L : libm) (k : Z) (a b c : vec F), trig_accurate L -> atan2_accurate L -> (-200 <= k <= 200)%Z -> within k a -> within k b -> within k c ->
  let A := fpt a in let B := fpt b in let C := fpt c in
  bpow radix2 (-18) <= edist A B -> bpow radix2 (-18) <= edist B C -> bpow radix2 (-18) <= edist C A ->
  let da := padd (unit_to A B) (unit_to A C) in let db := padd (unit_to B A) (unit_to B C) in
  let D := Rabs (cross da db) / (norm da * norm db) in 2 / 999999 <= D ->
  exists v, @Triangle2D_incenter F (NumF L) (@Triangle2D_of_points F a b c) = Ok v /\ v_valid v = true /\ is_finite (vx v) = true /\ is_finite (vy v) = true /\
    Rabs (px (fpt v) - px (incenter_of A B C)) <= bpow radix2 (k - 41) / D /\ Rabs (py (fpt v) - py (incenter_of A B C)) <= bpow radix2 (k - 41) / D.
Proof.
  intros L k a b c TA AT Hk WA WB WC A B C DAB DBC DCA da db D HD.
  assert (DAC : bpow radix2 (-18) <= edist A C) by (rewrite edist_sym; exact DCA). assert (DBA : bpow radix2 (-18) <= edist B A) by (rewrite edist_sym; exact DAB).
  destruct (vertex L k a b AT Hk WA WB DAB) as (a1 & t1 & y1 & E1 & G1 & C1 & R1 & U1). destruct (vertex L k a c AT Hk WA WC DAC) as (a2 & t2 & y2 & E2 & G2 & C2 & R2 & U2).
  destruct (vertex L k b a AT Hk WB WA DBA) as (a3 & t3 & y3 & E3 & G3 & C3 & R3 & U3). destruct (vertex L k b c AT Hk WB WC DBC) as (a4 & t4 & y4 & E4 & G4 & C4 & R4 & U4).
  destruct (bis_line L k a a1 a2 t1 t2 y1 y2 Hk TA WA G1 G2 C1 R1 C2 R2) as (ba & la & al & X1 & X2 & X3 & X4).
  destruct (bis_line L k b a3 a4 t3 t4 y3 y4 Hk TA WB G3 G4 C3 R3 C4 R4) as (bb & lb & be & Y1 & Y2 & Y3 & Y4).
  fold A in U1, U2, U3, X4. fold B in U1, U3, U4, Y4. fold C in U2, U4.
  destruct (bisect_dir _ _ _ X3) as (ka & KA1 & KA2). destruct (bisect_dir _ _ _ Y3) as (kb & KB1 & KB2).
  assert (PA : px da = ka * cos (rad al) /\ py da = ka * sin (rad al)) by (unfold da; rewrite U1, U2; split; assumption).
  assert (PB : px db = kb * cos (rad be) /\ py db = kb * sin (rad be)) by (unfold db; rewrite U3, U4; split; assumption).
  set (S := - sin (rad al) * cos (rad be) - cos (rad al) * - sin (rad be)).
  assert (CR : cross da db = ka * kb * S) by (unfold cross; destruct PA as [-> ->], PB as [-> ->]; unfold S; ring).
  assert (NA : norm da = Rabs ka) by (rewrite (surjective_pairing da); change (fst da) with (px da); change (snd da) with (py da); destruct PA as [-> ->]; apply norm_polar).
  assert (NB : norm db = Rabs kb) by (rewrite (surjective_pairing db); change (fst db) with (px db); change (snd db) with (py db); destruct PB as [-> ->]; apply norm_polar).
  assert (KN : ka * kb <> 0). { intros Z. unfold D in HD. rewrite CR, Z, Rmult_0_l, Rabs_R0 in HD. unfold Rdiv in HD. rewrite (Rmult_0_l (/ (norm da * norm db))) in HD. lra. }
  assert (DS : D = Rabs S). { unfold D. rewrite CR, NA, NB, <- Rabs_mult, Rabs_mult. field. now apply Rabs_no_R0. }
  set (q := incenter_of A B C). assert (B18 := bpow_gt_0 radix2 (-18)).
  assert (OA : on_line (- sin (rad al)) (cos (rad al)) (sin (rad al) * px A - cos (rad al) * py A) q).
  { apply (along A da (edist C A * edist A B / (edist B C + edist C A + edist A B))); [|exists ka; exact PA].
    unfold q, incenter_of, da, padd, unit_to. rewrite (edist_sym A C). cbn [px py fst snd]. apply point_eq; cbn [px py fst snd]; field; lra. }
  assert (OB : on_line (- sin (rad be)) (cos (rad be)) (sin (rad be) * px B - cos (rad be) * py B) q).
  { apply (along B db (edist A B * edist B C / (edist B C + edist C A + edist A B))); [|exists kb; exact PB].
    unfold q, incenter_of, db, padd, unit_to. rewrite (edist_sym B A). cbn [px py fst snd]. apply point_eq; cbn [px py fst snd]; field; lra. }
  assert (QB : Rabs (px q) <= bpow radix2 k /\ Rabs (py q) <= bpow radix2 k).
  { destruct WA as (_ & _ & ? & ?), WB as (_ & _ & ? & ?), WC as (_ & _ & ? & ?). unfold q, incenter_of. cbn [px py fst snd]. split; apply mean_bound; try assumption; lra. }
  destruct (inter2 L 47 0 0 k k la lb _ _ _ _ _ _ q ltac:(lia) ltac:(lia) ltac:(lia) Hk ltac:(lia) X4 Y4) as (v & V & V0 & V1 & V2 & V3 & V4); try assumption; try (now destruct QB); fold S; try rewrite <- DS.
  - apply Rle_trans with (2 / 999999); [|exact HD]. change (0 + 0 - 47 + 6)%Z with (-41)%Z. change (bpow radix2 (-41)) with (/ 2199023255552). lra.
  - exact HD.
  - fold S in V3, V4. rewrite <- DS in V3, V4. replace (k + 0 + 0 - 47 + 6)%Z with (k - 41)%Z in V3, V4 by lia. exists v. split; [|repeat split; assumption].
    assert (G : @tri_incenter F (NumF L) a b c = Ok v) by (unfold tri_incenter; rewrite E1, E2; cbn [bind]; rewrite X1; cbn [bind]; rewrite X2; cbn [bind]; rewrite E3, E4; cbn [bind]; rewrite Y1; cbn [bind]; rewrite Y2; cbn [bind]; exact V).
    exact G.
Qed.
Example C168_incenter_F_nonvacuous : exists (L : libm) (a b c : vec F), trig_accurate L /\ atan2_accurate L /\ within 3 a /\ within 3 b /\ within 3 c /\
  let A := fpt a in let B := fpt b in let C := fpt c in
  bpow radix2 (-18) <= edist A B /\ bpow radix2 (-18) <= edist B C /\ bpow radix2 (-18) <= edist C A /\
  let da := padd (unit_to A B) (unit_to A C) in let db := padd (unit_to B A) (unit_to B C) in
  2 / 999999 <= Rabs (cross da db) / (norm da * norm db) /\ incenter_of A B C = (1, 1).
Proof.
  exists libm_round, (fv 0 0), (fv 3 0), (fv 0 4). split; [exact libm_round_trig|]. split; [exact libm_round_atan2|].
  split; [apply within_fv; cbn; lia|]. split; [apply within_fv; cbn; lia|]. split; [apply within_fv; cbn; lia|]. rewrite !fpt_fv by (cbn; lia). cbv zeta.
  assert (AB : edist (0, 0) (3, 0) = 3) by (unfold edist; apply P_Triangle.norm_eq; unfold norm2; cbn; lra).
  assert (BA : edist (3, 0) (0, 0) = 3) by (rewrite edist_sym; exact AB).
  assert (BC : edist (3, 0) (0, 4) = 5) by (unfold edist; apply P_Triangle.norm_eq; unfold norm2; cbn; lra).
  assert (CA : edist (0, 4) (0, 0) = 4) by (unfold edist; apply P_Triangle.norm_eq; unfold norm2; cbn; lra).
  assert (AC : edist (0, 0) (0, 4) = 4) by (rewrite edist_sym; exact CA).
  assert (B0 : bpow radix2 (-18) <= 1) by (apply (bpow_le radix2 (-18) 0); lia).
  rewrite AB, BC, CA. repeat (split; [lra|]). unfold padd, unit_to. rewrite AB, BA, AC, BC. split.
  - match goal with |- _ <= _ / (norm ?x * norm ?y) => assert (N1 : norm x <= 2) by (apply P_Triangle.norm_le; unfold norm2; cbn; lra); assert (N2 : norm y <= 2) by (apply P_Triangle.norm_le; unfold norm2; cbn; lra);
      assert (P1 : 1 <= norm x) by (rewrite <- sqrt_1; apply sqrt_le_1_alt; unfold norm2; cbn; lra); assert (P2 : 1 <= norm y) by (rewrite <- sqrt_1; apply sqrt_le_1_alt; unfold norm2; cbn; lra);
      set (n1 := norm x) in *; set (n2 := norm y) in * end.
    assert (NN : n1 * n2 <= 2 * 2) by (apply Rmult_le_compat; lra). assert (NP : 1 * 1 <= n1 * n2) by (apply Rmult_le_compat; lra).
    apply Rmult_le_reg_r with (n1 * n2); [lra|]. unfold Rdiv at 2. rewrite (Rmult_assoc (Rabs _)), Rinv_l, Rmult_1_r by lra. rewrite Rabs_pos_eq; unfold cross; cbn; lra.
  - unfold incenter_of. rewrite AB, BC, CA. apply point_eq; cbn; field.
Qed.
