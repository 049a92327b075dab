(** * P_CircF2: circle and line in doubles (C152) *)
From Coq Require Import ZArith List Bool String Reals Lra Lia Psatz.
From Flocq Require Import Core BinarySingleNaN.
From Verif Require Import Base Types NumR NumF R_Tac Spec Spec2 Abs M_Angle M_Vector M_Line M_Circle
  L_Angle P_Vector P_Line P_Circle L_Float P_Float P_Robust P_Hull2 P_VecF P_LineF P_MatF P_SoccerF P_RectF P_AngleF3 P_QuadF P_CircF.
Import ListNotations.
Local Open Scope R_scope.

(** a finite double no farther than 1e-6 (rounded) from another *)
Definition weakly_near (v w : vec F) : Prop := Rabs (B2R (vx v) - B2R (vx w)) <= 1 / 999998 /\ Rabs (B2R (vy v) - B2R (vy w)) <= 1 / 999998.
Lemma weak_test L (x y : F) j : (-900 <= j <= 900)%Z -> fbound j x -> fbound j y ->
  @nltb F (NumF L) (@nabs F (NumF L) (@nsub F (NumF L) x y)) (@EPSILON F (NumF L)) = true -> Rabs (B2R x - B2R y) <= 1 / 999998.
Proof.
  intros Hj [X1 X2] [Y1 Y2]. destruct (eps_F L) as [P1 P2]. cbn [nltb nabs nsub NumF].
  assert (S : Rabs (B2R x - B2R y) <= bpow radix2 (j + 1)) by (rewrite Z.add_comm, bp2; apply Rabs_le_inv in X2, Y2; apply Rabs_le; lra).
  destruct (rnd_err _ (j + 1) ltac:(lia) S) as [_ E]. destruct (F_sub x y X1 Y1) as [S1 S2]; [apply (finite_lt (j + 1)); [lia|exact E]|].
  rewrite ltb_F by (rewrite ?is_finite_Babs; assumption). rewrite B2R_Babs, S1. intros H. apply Rlt_bool_iff in H.
  pose proof (rnd_rel (B2R x - B2R y)) as RR. set (z := B2R x - B2R y) in *.
  assert (T : Rabs z <= Rabs (rnd64 z) + Rabs (rnd64 z - z)). { replace z with (rnd64 z - (rnd64 z - z)) at 1 by ring. eapply Rle_trans; [apply Rabs_triang|]. rewrite Rabs_Ropp. lra. }
  change (bpow radix2 (-53)) with (/ 9007199254740992) in RR. assert (TT : bpow radix2 (-1075) <= / 9007199254740992) by (change (/ 9007199254740992) with (bpow radix2 (-53)); apply bpow_le; lia). lra.
Qed.
Lemma merge_F L (v w : vec F) j : (-900 <= j <= 900)%Z -> fbound j (vx v) -> fbound j (vy v) -> fbound j (vx w) -> fbound j (vy w) ->
  @merge_weakly F (NumF L) v w = [v; w] \/ (@merge_weakly F (NumF L) v w = [v] /\ weakly_near v w).
Proof.
  intros Hj V1 V2 W1 W2. unfold merge_weakly. destruct (@Vector2D_equals_weakly F (NumF L) v w) eqn:E; [right|left; reflexivity]. split; [reflexivity|].
  unfold Vector2D_equals_weakly in E. apply andb_true_iff in E. destruct E as [E1 E2]. split; eapply weak_test; eauto.
Qed.
(** two equal finite solutions are always merged *)
Lemma merge_same L (v : vec F) j : (-900 <= j <= 900)%Z -> fbound j (vx v) -> fbound j (vy v) -> @merge_weakly F (NumF L) v v = [v].
Proof.
  intros Hj V1 V2. unfold merge_weakly, Vector2D_equals_weakly. destruct (eps_F L) as [P1 P2]. cbn [nltb nabs nsub NumF].
  assert (G : forall x : F, fbound j x -> Bltb (Babs (Bminus mode_NE x x)) (@EPSILON F (NumF L)) = true).
  { intros x [X1 X2]. destruct (F_sub x x X1 X1) as [S1 S2]; rewrite Rminus_eq_0, rnd_id in * by apply generic_format_0.
    - rewrite Rabs_R0. apply bpow_gt_0.
    - rewrite ltb_F by (rewrite ?is_finite_Babs; assumption). rewrite B2R_Babs, S1, Rabs_R0. apply Rlt_bool_true. lra. }
  rewrite !G by assumption. reflexivity.
Qed.

(** the two roots of A y^2 + B y + C, A > 0 *)
Lemma two_roots A B C : 0 < A -> let D := B * B - 4 * A * C in 0 < D ->
  let y1 := (- B + sqrt D) / (2 * A) in let y2 := (- B - sqrt D) / (2 * A) in
  2 * A * y1 = - B + sqrt D /\ 2 * A * y2 = - B - sqrt D /\ y1 <> y2 /\ (forall y, A * y * y + B * y + C = 0 <-> y = y1 \/ y = y2).
Proof.
  intros PA D PD y1 y2. assert (E1 : 2 * A * y1 = - B + sqrt D) by (unfold y1; field; lra). assert (E2 : 2 * A * y2 = - B - sqrt D) by (unfold y2; field; lra).
  assert (SP : 0 < sqrt D) by (apply sqrt_lt_R0; exact PD). assert (SS : sqrt D * sqrt D = D) by (apply sqrt_sqrt; lra).
  split; [exact E1|]. split; [exact E2|]. split; [intros E; rewrite E in E1; lra|].
  intros y. assert (ID : 4 * A * (A * y * y + B * y + C) = (2 * A * y - 2 * A * y1) * (2 * A * y - 2 * A * y2)).
  { rewrite E1, E2. replace ((2 * A * y - (- B + sqrt D)) * (2 * A * y - (- B - sqrt D))) with ((2 * A * y + B) * (2 * A * y + B) - sqrt D * sqrt D) by ring. rewrite SS. unfold D. ring. }
  split.
  - intros H. rewrite H, Rmult_0_r in ID. symmetry in ID. apply Rmult_integral in ID. destruct ID as [ID|ID]; [left|right]; apply (Rmult_eq_reg_l (2 * A)); lra.
  - intros H. apply (Rmult_eq_reg_l (4 * A)); [|lra]. rewrite ID, Rmult_0_r. destruct H as [-> | ->]; ring.
Qed.
Lemma edist_sq (cx cy r : R) x : 0 <= r -> (edist (cx, cy) x = r <-> (px x - cx) * (px x - cx) + (py x - cy) * (py x - cy) = r * r).
Proof.
  intros H. rewrite edist_norm2 by exact H. unfold norm2, psub, px, py. cbn [fst snd]. split; intros <-; ring.
Qed.
Lemma near_center (y cy r b t : R) : 0 <= r <= b -> Rabs cy <= b -> (y - cy) * (y - cy) + t * t = r * r -> Rabs y <= 2 * b.
Proof.
  intros Hr Hc H. assert (S : Rabs (y - cy) <= r).
  { apply Rabs_le. pose proof (Rle_0_sqr t) as T. unfold Rsqr in T. split; apply Rnot_lt_le; intros N; nra. }
  apply Rabs_le_inv in S. apply Rabs_le_inv in Hc. apply Rabs_le. lra.
Qed.
Lemma line_d2 (a b c : R) (p : point) d : a * a + b * b <> 0 -> is_min_dist (on_line a b c) p d -> d * d = (a * px p + b * py p + c) * (a * px p + b * py p + c) / (a * a + b * b).
Proof.
  intros H MD. assert (P : 0 < a * a + b * b) by (pose proof (Rle_0_sqr a); pose proof (Rle_0_sqr b); unfold Rsqr in *; lra).
  rewrite (min_dist_eq _ _ _ _ MD (line_dist_min a b c p P)). rewrite <- Rabs_mult. assert (SS := sqrt_sqrt (a * a + b * b) ltac:(lra)). assert (S0 := sqrt_lt_R0 _ P).
  set (s := sqrt (a * a + b * b)) in *. set (n := a * px p + b * py p + c). rewrite <- SS. replace (n / s * (n / s)) with (n * n / (s * s)) by (field; lra). apply Rabs_pos_eq. apply Rmult_le_pos; [apply Rle_0_sqr|]. left. apply Rinv_0_lt_compat. rewrite SS. exact P.
Qed.
Lemma quot_fb (L : libm) j (x y : F) : (-900 <= j <= 900)%Z -> is_finite x = true -> is_finite y = true -> B2R y <> 0 -> Rabs (B2R x) <= bpow radix2 j * Rabs (B2R y) ->
  exists z, @ndiv F (NumF L) x y = Ok z /\ Rabs (B2R x / B2R y) <= bpow radix2 j /\ close j (bpow radix2 (j - 54)) (B2R x / B2R y) z.
Proof.
  intros Hj X Y N B. assert (QB : Rabs (B2R x / B2R y) <= bpow radix2 j).
  { unfold Rdiv. rewrite Rabs_mult, Rabs_inv. apply (Rmult_le_reg_r (Rabs (B2R y))); [apply Rabs_pos_lt; exact N|]. rewrite Rmult_assoc, Rinv_l, Rmult_1_r by (apply Rabs_no_R0; exact N). exact B. }
  destruct (rnd_err _ j ltac:(lia) QB) as [E1 E2]. destruct (F_quot x y X N) as [Q1 Q2]; [apply (finite_lt j); [lia|exact E2]|].
  exists (Bdiv mode_NE x y). split; [apply fdiv_F; assumption|]. split; [exact QB|]. split; [exact Q2|]. rewrite Q1. split; assumption.
Qed.
(** a sum of squares less a square: (g^2 + h^2) - r^2 *)
Lemma const_close L k (g h r : R) (x y z : F) : pow_accurate L -> (-90 <= k <= 90)%Z -> Rabs g <= bpow radix2 (k + 1) -> Rabs h <= bpow radix2 k -> Rabs r <= bpow radix2 k ->
  close (k + 1) (3 * bpow radix2 (k - 54)) g x -> close k 0 h y -> close k 0 r z ->
  exists p1 p2 p3, @npowi F (NumF L) x 2 = Ok p1 /\ @npowi F (NumF L) y 2 = Ok p2 /\ @npowi F (NumF L) z 2 = Ok p3 /\
    Rabs (g * g + h * h - r * r) <= bpow radix2 (2 * k + 3) /\
    close (2 * k + 5) (90 * bpow radix2 (2 * k - 54)) (g * g + h * h - r * r) (Bminus mode_NE (Bplus mode_NE p1 p2) p3) /\
    close (2 * k + 5) (90 * bpow radix2 (2 * k - 54)) (h * h + g * g - r * r) (Bminus mode_NE (Bplus mode_NE p2 p1) p3).
Proof.
  intros PA Hk G H Rr CX CY CZ.
  destruct (pow_close L (k + 1) _ g x PA ltac:(lia) G CX) as (p1 & E1 & C1). destruct (pow_close L k _ h y PA ltac:(lia) H CY) as (p2 & E2 & C2). destruct (pow_close L k _ r z PA ltac:(lia) Rr CZ) as (p3 & E3 & C3).
  exists p1, p2, p3. split; [exact E1|]. split; [exact E2|]. split; [exact E3|].
  set (W := bpow radix2 (2 * k - 54)) in *. assert (WP : 0 < W) by apply bpow_gt_0.
  assert (C1' : close (2 * k + 3) (32 * W) (g * g) p1).
  { replace (2 * (k + 1) + 1)%Z with (2 * k + 3)%Z in C1 by lia. eapply close_weaken; [|exact C1]. right.
    replace (bpow radix2 (k + 1 + 1) * (3 * bpow radix2 (k - 54))) with (3 * (bpow radix2 2 * W)) by (unfold W; rewrite <- bpow_plus, (Rmult_comm (bpow radix2 (k + 1 + 1))), Rmult_assoc, <- bpow_plus; do 2 f_equal; lia).
    replace (bpow radix2 (2 * (k + 1) - 54)) with (bpow radix2 2 * W) by (unfold W; rewrite <- bpow_plus; f_equal; lia). change (bpow radix2 2) with 4. ring. }
  assert (C2' : close (2 * k + 3) (5 * W) (h * h) p2) by (apply (close_up (2 * k + 1)); [lia|]; eapply close_weaken; [|exact C2]; rewrite Rmult_0_r; lra).
  assert (C3' : close (2 * k + 4) (5 * W) (r * r) p3) by (apply (close_up (2 * k + 1)); [lia|]; eapply close_weaken; [|exact C3]; rewrite Rmult_0_r; lra).
  assert (W4 : bpow radix2 (2 * k + 3 + 1 - 54) = 16 * W) by (replace (2 * k + 3 + 1 - 54)%Z with (4 + (2 * k - 54))%Z by lia; rewrite bpow_plus; reflexivity).
  assert (W5 : bpow radix2 (2 * k + 4 + 1 - 54) = 32 * W) by (replace (2 * k + 4 + 1 - 54)%Z with (5 + (2 * k - 54))%Z by lia; rewrite bpow_plus; reflexivity).
  assert (S1 := close_add (2 * k + 3) _ _ _ _ _ _ ltac:(lia) C1' C2'). assert (S2 := close_add (2 * k + 3) _ _ _ _ _ _ ltac:(lia) C2' C1'). rewrite W4 in S1, S2. replace (2 * k + 3 + 1)%Z with (2 * k + 4)%Z in S1, S2 by lia.
  assert (T1 := close_sub (2 * k + 4) _ _ _ _ _ _ ltac:(lia) S1 C3'). assert (T2 := close_sub (2 * k + 4) _ _ _ _ _ _ ltac:(lia) S2 C3'). rewrite W5 in T1, T2. replace (2 * k + 4 + 1)%Z with (2 * k + 5)%Z in T1, T2 by lia.
  split; [|split; [eapply close_weaken; [|exact T1]; lra|eapply close_weaken; [|exact T2]; lra]].
  assert (SQ : forall q b, Rabs q <= b -> 0 <= q * q <= b * b). { intros q b Q. split; [apply Rle_0_sqr|]. rewrite <- (Rabs_pos_eq (q * q)) by apply Rle_0_sqr. rewrite Rabs_mult. apply Rmult_le_compat; try apply Rabs_pos; exact Q. }
  apply SQ in G, H, Rr. replace (bpow radix2 (2 * k + 3)) with (8 * (bpow radix2 k * bpow radix2 k)) by (rewrite <- bpow_plus; change 8 with (bpow radix2 3); rewrite <- bpow_plus; f_equal; lia).
  rewrite (Z.add_comm k 1), bp2 in G. set (b := bpow radix2 k) in *. assert (0 <= b * b) by apply Rle_0_sqr. apply Rabs_le. lra.
Qed.

(** the point of the line at height s *)
Lemma point_of_y L k p (l : line F) (s : F) y e : (0 <= p <= 20)%Z -> (-90 <= k <= 90)%Z -> finite_line l -> 1 / 999999 <= Rabs (B2R (l_a l)) <= bpow radix2 200 ->
  Rabs (B2R (l_b l)) <= bpow radix2 p * Rabs (B2R (l_a l)) -> Rabs (B2R (l_c l)) <= bpow radix2 k * Rabs (B2R (l_a l)) ->
  is_finite s = true -> Rabs (B2R s - y) <= e -> Rabs y <= bpow radix2 (k + 1) -> e <= bpow radix2 (k + 1) ->
  fbound (k + 2) s /\ exists x, @Line2D_get_x F (NumF L) l s = Ok x /\ is_finite x = true /\
    Rabs (B2R x - (- (B2R (l_b l) * y + B2R (l_c l)) / B2R (l_a l))) <= bpow radix2 p * e + bpow radix2 (k + p - 47).
Proof.
  intros Hp Hk (Fa & Fb & Fc) A B C Fs S Y E. assert (AN : B2R (l_a l) <> 0) by (intros Z; rewrite Z, Rabs_R0 in A; lra).
  assert (SB : fbound (k + 2) s). { split; [exact Fs|]. replace (k + 2)%Z with (1 + (k + 1))%Z by lia. rewrite bp2. apply Rabs_le_inv in S, Y. apply Rabs_le. lra. }
  split; [exact SB|]. unfold Line2D_get_x. rewrite (proj1 (eps_test L (l_a l) Fa)) by lra.
  destruct (solve_F L (k + p + 2) (l_a l) (l_b l) (l_c l) s ltac:(lia) Fa Fb Fc Fs A) as (x & X1 & X2 & X3).
  { rewrite Rabs_mult. replace (k + p + 2)%Z with (p + (k + 2))%Z by lia. rewrite bpow_plus. replace (bpow radix2 p * bpow radix2 (k + 2) * Rabs (B2R (l_a l))) with (bpow radix2 p * Rabs (B2R (l_a l)) * bpow radix2 (k + 2)) by ring. apply Rmult_le_compat; try apply Rabs_pos; [exact B|apply SB]. }
  { eapply Rle_trans; [exact C|]. apply Rmult_le_compat_r; [apply Rabs_pos|]. apply bpow_le. lia. }
  exists x. split; [exact X1|]. split; [exact X2|]. replace (k + p + 2 - 49)%Z with (k + p - 47)%Z in X3 by lia.
  assert (G : Rabs (- (B2R (l_b l) * B2R s + B2R (l_c l)) / B2R (l_a l) - - (B2R (l_b l) * y + B2R (l_c l)) / B2R (l_a l)) <= bpow radix2 p * e).
  { replace (- (B2R (l_b l) * B2R s + B2R (l_c l)) / B2R (l_a l) - - (B2R (l_b l) * y + B2R (l_c l)) / B2R (l_a l)) with (- (B2R (l_b l) / B2R (l_a l) * (B2R s - y))) by (field; exact AN).
    rewrite Rabs_Ropp, Rabs_mult. apply Rmult_le_compat; try apply Rabs_pos; [|exact S]. unfold Rdiv. rewrite Rabs_mult, Rabs_inv. apply (Rmult_le_reg_r (Rabs (B2R (l_a l)))); [apply Rabs_pos_lt; exact AN|]. rewrite Rmult_assoc, Rinv_l, Rmult_1_r by (apply Rabs_no_R0; exact AN). exact B. }
  apply Rabs_le_inv in X3. apply Rabs_le_inv in G. apply Rabs_le. lra.
Qed.
Lemma err_size k p D : (0 <= p <= 20)%Z -> (-90 <= k <= 90)%Z -> let m := bpow radix2 (2 * k + 2 * p - 42) in m <= D -> 2 * m / sqrt D + bpow radix2 (k + 2 * p - 45) <= bpow radix2 (k + 1).
Proof.
  intros Hp Hk m HD. assert (E : m = bpow radix2 (k + p - 21) * bpow radix2 (k + p - 21)) by (unfold m; rewrite <- bpow_plus; f_equal; lia).
  set (g := bpow radix2 (k + p - 21)) in *. assert (GP : 0 < g) by apply bpow_gt_0. assert (S : g <= sqrt D) by (rewrite <- (sqrt_square g) by lra; apply sqrt_le_1_alt; lra).
  assert (Q : 2 * m / sqrt D <= 2 * g). { apply (Rmult_le_reg_r (sqrt D)); [lra|]. unfold Rdiv. rewrite Rmult_assoc, Rinv_l, Rmult_1_r by lra. rewrite E. assert (g * g <= g * sqrt D) by (apply Rmult_le_compat_l; lra). lra. }
  assert (K1 : 2 * g <= bpow radix2 k). { unfold g. rewrite <- bp2. apply bpow_le. lia. } assert (K2 : bpow radix2 (k + 2 * p - 45) <= bpow radix2 k) by (apply bpow_le; lia). rewrite (Z.add_comm k 1), bp2. lra.
Qed.

(** C152: a line that is not (nearly) horizontal *)
Theorem C152_line_F : forall (L : libm) (k p : Z) (c : circle F) (l : line F) (d : R), pow_accurate L -> (0 <= p <= 20)%Z -> (-90 <= k <= 90)%Z ->
  within k (c_center c) -> fbound k (c_radius c) -> 0 <= B2R (c_radius c) -> finite_line l -> 1 / 999999 <= Rabs (B2R (l_a l)) <= bpow radix2 200 ->
  Rabs (B2R (l_b l)) <= bpow radix2 p * Rabs (B2R (l_a l)) -> Rabs (B2R (l_c l)) <= bpow radix2 k * Rabs (B2R (l_a l)) ->
  is_min_dist (fline l) (fpt (c_center c)) d ->
  let r := B2R (c_radius c) in let s := B2R (l_b l) / B2R (l_a l) in let D := 4 * (1 + s * s) * (r * r - d * d) in let m := bpow radix2 (2 * k + 2 * p - 42) in
  let res := @Circle2D_intersection F (NumF L) c (VLine l) in
  (1 / 999999 + m <= D -> let e := bpow radix2 (2 * k + 3 * p - 41) / sqrt D + bpow radix2 (k + 3 * p - 44) in
     exists P Q, P <> Q /\ (forall x, fline l x /\ edist (fpt (c_center c)) x = r <-> x = P \/ x = Q) /\
       exists v w, coords_near e v P /\ coords_near e w Q /\ (res = Ok [v; w] \/ (res = Ok [v] /\ weakly_near v w))) /\
  (D + m <= - (1 / 999999) -> res = Ok [] /\ forall x, ~ (fline l x /\ edist (fpt (c_center c)) x = r)) /\
  (Rabs D + m < 1 / 1000001 -> exists q v, fline l q /\ edist (fpt (c_center c)) q = d /\ res = Ok [v] /\ coords_near (bpow radix2 (k + 3 * p - 44)) v q).
Proof.
  intros L k p ci l d PA Hp Hk WC FR R0 FL A B C MD r s D m res. destruct FL as (Fa & Fb & Fc).
  assert (AN : B2R (l_a l) <> 0) by (intros Z; rewrite Z, Rabs_R0 in A; lra).
  destruct WC as (X1 & Y1 & X2 & Y2). set (cx := B2R (vx (c_center ci))) in *. set (cy := B2R (vy (c_center ci))) in *.
  change (fpt (c_center ci)) with (cx, cy) in MD |- *.
  destruct (quot_fb L p (l_b l) (l_a l) ltac:(lia) Fb Fa AN B) as (ba & EB & SB & CB). destruct (quot_fb L k (l_c l) (l_a l) ltac:(lia) Fc Fa AN C) as (ca & EC & GB & CC).
  set (g0 := B2R (l_c l) / B2R (l_a l)) in *. fold s in SB, CB.
  assert (LE : forall x, fline l x <-> px x = - s * py x - g0).
  { intros x. unfold fline, on_line, s, g0. split; intros H.
    - apply (Rmult_eq_reg_l (B2R (l_a l))); [|exact AN]. replace (B2R (l_a l) * (- (B2R (l_b l) / B2R (l_a l)) * py x - B2R (l_c l) / B2R (l_a l))) with (- (B2R (l_b l) * py x + B2R (l_c l))) by (field; exact AN). lra.
    - rewrite H. field. exact AN. }
  assert (PX : forall y, - (B2R (l_b l) * y + B2R (l_c l)) / B2R (l_a l) = - s * y - g0) by (intros y; unfold s, g0; field; exact AN).
  set (g := g0 + cx). set (A' := 1 + s * s). set (B' := 2 * (- cy + g * s)). set (C' := g * g + cy * cy - r * r).
  assert (SS0 : 0 <= s * s) by apply Rle_0_sqr. assert (A1 : 1 <= A') by (unfold A'; lra).
  (** the computed coefficients *)
  pose proof (bpow_gt_0 radix2 k) as KP. pose proof (bpow_gt_0 radix2 p) as PP. assert (P1 : 1 <= bpow radix2 p) by (change 1 with (bpow radix2 0); apply bpow_le; lia).
  assert (CX : close k 0 cx (vx (c_center ci))) by (apply close_exact; assumption). assert (CY : close k 0 cy (vy (c_center ci))) by (apply close_exact; assumption).
  assert (CR : close k 0 r (c_radius ci)) by (apply fb_close; exact FR).
  assert (GG : Rabs g <= bpow radix2 (k + 1)) by (unfold g; rewrite (Z.add_comm k 1), bp2; apply Rabs_le_inv in GB; apply Rabs_le_inv in X2; apply Rabs_le; lra).
  assert (CG := close_add k _ _ _ _ _ _ ltac:(lia) CC CX). fold g in CG.
  assert (CG' : close (k + 1) (3 * bpow radix2 (k - 54)) g (Bplus mode_NE ca (vx (c_center ci)))).
  { eapply close_weaken; [|exact CG]. replace (k + 1 - 54)%Z with (1 + (k - 54))%Z by lia. rewrite bp2. lra. }
  destruct (const_close L k g cy r _ _ _ PA Hk GG Y2 (proj2 FR) CG' CY CR) as (p1 & p2 & p3 & E1 & E2 & E3 & CB' & CC' & _). fold C' in CB', CC'.
  assert (F1 : close (2 * p) 0 1 (F_of_Z 1)).
  { destruct (F_of_Z_exact 1 eq_refl) as [O1 O2]. split; [exact O2|]. rewrite O1. rewrite Rminus_eq_0, Rabs_R0, Rabs_pos_eq by lra. split; [|lra]. change 1 with (bpow radix2 0); apply bpow_le; lia. }
  assert (CA : close (2 * p + 1) (5 * bpow radix2 (2 * p - 54)) A' (Bplus mode_NE (F_of_Z 1) (Bmult mode_NE ba ba))).
  { assert (M := close_mul p p _ _ _ _ _ _ ltac:(lia) SB CB CB). replace (p + p)%Z with (2 * p)%Z in M by lia.
    assert (T := close_add (2 * p) _ _ _ _ _ _ ltac:(lia) F1 M). eapply close_weaken; [|exact T].
    replace (bpow radix2 p * bpow radix2 (p - 54)) with (bpow radix2 (2 * p - 54)) by (rewrite <- bpow_plus; f_equal; lia). replace (2 * p + 1 - 54)%Z with (1 + (2 * p - 54))%Z by lia. rewrite bp2. lra. }
  assert (CBB : close (k + p + 3) (30 * bpow radix2 (k + p - 54)) B' (Bmult mode_NE (F_of_Z 2) (Bplus mode_NE (Bopp (vy (c_center ci))) (Bmult mode_NE (Bplus mode_NE ca (vx (c_center ci))) ba)))).
  { assert (M := close_mul (k + 1) p _ _ _ _ _ _ ltac:(lia) GG CG' CB).
    assert (O : close (k + 1 + p) 0 (- cy) (Bopp (vy (c_center ci)))) by (apply (close_up k); [lia|]; apply close_opp; exact CY).
    assert (S := close_add (k + 1 + p) _ _ _ _ _ _ ltac:(lia) O M).
    assert (F2 : close 1 0 2 (F_of_Z 2)). { destruct (F_of_Z_exact 2 eq_refl) as [O1 O2]. split; [exact O2|]. rewrite O1. rewrite Rminus_eq_0, Rabs_R0, Rabs_pos_eq by lra. change (bpow radix2 1) with 2. lra. }
    assert (N2 : Rabs 2 <= bpow radix2 1) by (change (bpow radix2 1) with 2; rewrite Rabs_pos_eq; lra).
    assert (T := close_mul 1 (k + 1 + p + 1) _ _ _ _ _ _ ltac:(lia) N2 F2 S).
    replace (1 + (k + 1 + p + 1))%Z with (k + p + 3)%Z in T by lia. eapply close_weaken; [|exact T].
    replace (k + p + 3 - 54)%Z with (3 + (k + p - 54))%Z by lia. replace (k + 1 + p + 1 - 54)%Z with (2 + (k + p - 54))%Z by lia. replace (k + 1 + p - 54)%Z with (1 + (k + p - 54))%Z by lia.
    replace (bpow radix2 (k + 1) * bpow radix2 (p - 54)) with (bpow radix2 (1 + (k + p - 54))) by (rewrite <- bpow_plus; f_equal; lia).
    replace (bpow radix2 p * (3 * bpow radix2 (k - 54))) with (3 * bpow radix2 (k + p - 54)) by (rewrite <- Rmult_assoc, (Rmult_comm (bpow radix2 p)), Rmult_assoc, <- bpow_plus; do 2 f_equal; lia).
    rewrite !(bpow_plus radix2 1), !(bpow_plus radix2 2), !(bpow_plus radix2 3). change (bpow radix2 1) with 2. change (bpow radix2 2) with 4. change (bpow radix2 3) with 8. rewrite Rmult_0_r. right. ring. }
  assert (BBd : Rabs B' <= bpow radix2 (k + p + 3)).
  { unfold B'. rewrite Rabs_mult, (Rabs_pos_eq 2) by lra. replace (bpow radix2 (k + p + 3)) with (2 * (4 * (bpow radix2 k * bpow radix2 p))) by (replace (k + p + 3)%Z with (3 + (k + p))%Z by lia; rewrite !bpow_plus; change (bpow radix2 3) with 8; ring).
    apply Rmult_le_compat_l; [lra|]. eapply Rle_trans; [apply Rabs_triang|]. rewrite Rabs_Ropp. rewrite (Z.add_comm k 1), bp2 in GG.
    assert (Rabs (g * s) <= 2 * bpow radix2 k * bpow radix2 p) by (rewrite Rabs_mult; apply Rmult_le_compat; try apply Rabs_pos; assumption).
    assert (bpow radix2 k * 1 <= bpow radix2 k * bpow radix2 p) by (apply Rmult_le_compat_l; lra). lra. }
  assert (QS := quad_stage L k p A' B' C' _ _ _ Hp Hk A1 BBd CB' CA CBB CC'). cbv zeta in QS. fold m in QS.
  (** the discriminant *)
  assert (DE : B' * B' - 4 * A' * C' = D).
  { assert (N : B2R (l_a l) * B2R (l_a l) + B2R (l_b l) * B2R (l_b l) <> 0). { pose proof (Rle_0_sqr (B2R (l_b l))) as K1. assert (0 < B2R (l_a l) * B2R (l_a l)) by (apply Rsqr_pos_lt; exact AN). unfold Rsqr in K1. lra. }
    unfold D. rewrite (line_d2 _ _ _ _ _ N MD). unfold px, py. cbn [fst snd].
    replace ((B2R (l_a l) * cx + B2R (l_b l) * cy + B2R (l_c l)) * (B2R (l_a l) * cx + B2R (l_b l) * cy + B2R (l_c l)) / (B2R (l_a l) * B2R (l_a l) + B2R (l_b l) * B2R (l_b l))) with ((g + s * cy) * (g + s * cy) / (1 + s * s)).
    - unfold B', A', C'. field. lra.
    - unfold g, g0, s. field. repeat split; try exact AN; try exact N. }
  rewrite DE in QS.
  (** the model's run *)
  assert (RUN : res = match @quadratic_f F (NumF L) (Bplus mode_NE (F_of_Z 1) (Bmult mode_NE ba ba)) (Bmult mode_NE (F_of_Z 2) (Bplus mode_NE (Bopp (vy (c_center ci))) (Bmult mode_NE (Bplus mode_NE ca (vx (c_center ci))) ba))) (Bminus mode_NE (Bplus mode_NE p1 p2) p3) with
     | Ok (Some (s1, s2)) => (x1 <- @Line2D_get_x F (NumF L) l s1 ;; x2 <- @Line2D_get_x F (NumF L) l s2 ;; Ok (@merge_weakly F (NumF L) (V x1 s1) (V x2 s2)))%py
     | Ok None => Ok [] | Raise x => Raise x end).
  { unfold res. cbn [Circle2D_intersection]. unfold Circle2D_intersection_line. rewrite (proj1 (eps_test L (l_a l) Fa)) by lra. rewrite EB. cbn [bind]. rewrite EC. cbn [bind].
    change (@nadd F (NumF L) ca (vx (c_center ci))) with (Bplus mode_NE ca (vx (c_center ci))). rewrite E1. cbn [bind]. rewrite E2. cbn [bind]. rewrite E3. cbn [bind].
    change (@nlit F (NumF L) 1 1) with (F_of_Z 1). change (@nlit F (NumF L) 2 1) with (F_of_Z 2). cbn [nadd nmul nsub nneg NumF].
    destruct (quadratic_f _ _ _) as [[[s1 s2]|]|]; reflexivity. }
  (** both equations together are the quadratic *)
  assert (BOTH : forall y, ((- s * y - g0 - cx) * (- s * y - g0 - cx) + (y - cy) * (y - cy) = r * r) <-> A' * y * y + B' * y + C' = 0).
  { intros y. unfold A', B', C', g. split; intros H; lra. }
  assert (YB : forall y, A' * y * y + B' * y + C' = 0 -> Rabs y <= bpow radix2 (k + 1)).
  { intros y H. apply BOTH in H. rewrite (Z.add_comm k 1), bp2. apply (near_center y cy r _ (- s * y - g0 - cx)); [|exact Y2|lra]. split; [exact R0|]. destruct FR as [_ FR]. apply Rabs_le_inv in FR. unfold r. lra. }
  assert (K3 : 0 < bpow radix2 (k + p - 47) <= bpow radix2 (k + 3 * p - 44) * / 8). { split; [apply bpow_gt_0|]. change (/ 8) with (bpow radix2 (-3)). rewrite <- bpow_plus. apply bpow_le. lia. }
  assert (KP2 : bpow radix2 p * bpow radix2 (k + 2 * p - 45) = bpow radix2 (k + 3 * p - 44) * / 2) by (change (/ 2) with (bpow radix2 (-1)); rewrite <- !bpow_plus; f_equal; lia).
  assert (KP3 : bpow radix2 (k + 2 * p - 45) <= bpow radix2 (k + 3 * p - 44) * / 2) by (change (/ 2) with (bpow radix2 (-1)); rewrite <- !bpow_plus; apply bpow_le; lia).
  assert (KP4 : bpow radix2 (k + 2 * p - 45) <= bpow radix2 (k + 1)) by (apply bpow_le; lia).
  assert (KK : bpow radix2 (k + p + 3) = 8 * (bpow radix2 k * bpow radix2 p)) by (replace (k + p + 3)%Z with (3 + (k + p))%Z by lia; rewrite !bpow_plus; reflexivity).
  assert (KM : bpow radix2 k * 1 <= bpow radix2 k * bpow radix2 p) by (apply Rmult_le_compat_l; lra).
  assert (K4 : bpow radix2 (k + p - 47) <= bpow radix2 k * bpow radix2 p) by (rewrite <- bpow_plus; apply bpow_le; lia).
  assert (K1 : bpow radix2 (k + 1) = 2 * bpow radix2 k) by (rewrite Z.add_comm; apply bp2).
  (** a root y of the quadratic found as s within E gives a point within e *)
  assert (PT : forall (sy : F) y E, is_finite sy = true -> Rabs (B2R sy - y) <= E -> Rabs y <= bpow radix2 (k + 1) -> E <= bpow radix2 (k + 1) -> Rabs (- s * y - g0) <= bpow radix2 (k + 2) ->
     exists x, @Line2D_get_x F (NumF L) l sy = Ok x /\ fbound (k + p + 3) x /\ fbound (k + p + 3) sy /\ Rabs (B2R x - (- s * y - g0)) <= bpow radix2 p * E + bpow radix2 (k + p - 47)).
  { intros sy y E S1 S2 S3 S4 S5. destruct (point_of_y L k p l sy y E Hp Hk (conj Fa (conj Fb Fc)) A B C S1 S2 S3 S4) as ([Z1 Z2] & x & T1 & T2 & T3). rewrite PX in T3. exists x. split; [exact T1|].
    assert (PE : bpow radix2 p * E <= bpow radix2 p * bpow radix2 (k + 1)) by (apply Rmult_le_compat_l; lra). rewrite K1 in PE. replace (bpow radix2 (k + 2)) with (4 * bpow radix2 k) in S5 by (rewrite (Z.add_comm k 2), bpow_plus; reflexivity).
    split; [split; [exact T2|]|split; [split; [exact Z1|]|exact T3]].
    - rewrite KK. apply Rabs_le_inv in T3. apply Rabs_le_inv in S5. apply Rabs_le. lra.
    - eapply Rle_trans; [exact Z2|]. apply bpow_le. lia. }
  assert (XB : forall y, A' * y * y + B' * y + C' = 0 -> Rabs (- s * y - g0) <= bpow radix2 (k + 2)).
  { intros y H. apply BOTH in H. apply Rle_trans with (2 * bpow radix2 k); [|rewrite <- bp2; apply bpow_le; lia]. apply (near_center _ cx r _ (y - cy)); [|exact X2|exact H]. split; [exact R0|]. destruct FR as [_ FR]. apply Rabs_le_inv in FR. unfold r. lra. }
  destruct QS as (Q1 & Q2 & Q3). split; [|split].
  - intros HD e. assert (PD : 0 < D) by (pose proof (bpow_gt_0 radix2 (2 * k + 2 * p - 42)); unfold m in HD; lra).
    destruct (two_roots A' B' C') as (T1 & T2 & T3 & T4); [lra|rewrite DE; exact PD|]. rewrite DE in T1, T2, T3, T4. set (y1 := (- B' + sqrt D) / (2 * A')) in *. set (y2 := (- B' - sqrt D) / (2 * A')) in *.
    assert (Z1 : A' * y1 * y1 + B' * y1 + C' = 0) by (apply T4; now left). assert (Z2 : A' * y2 * y2 + B' * y2 + C' = 0) by (apply T4; now right).
    assert (W1 := YB _ Z1). assert (W2 := YB _ Z2).
    assert (KL : bpow radix2 (k + 1) <= bpow radix2 (k + 2)) by (apply bpow_le; lia).
    destruct (Q1 HD y1 y2 T1 T2) as (s1 & s2 & QE & S1 & S2 & S3 & S4); [lra|lra|].
    assert (ES := err_size k p D Hp Hk). cbv zeta in ES. fold m in ES. specialize (ES ltac:(lra)). set (E := 2 * m / sqrt D + bpow radix2 (k + 2 * p - 45)) in *.
    destruct (PT s1 y1 E S1 S3 W1 ES (XB _ Z1)) as (x1 & G1 & H1 & I1 & J1). destruct (PT s2 y2 E S2 S4 W2 ES (XB _ Z2)) as (x2 & G2 & H2 & I2 & J2).
    assert (SP : 0 < sqrt D) by (apply sqrt_lt_R0; exact PD). assert (MP : 0 < m) by apply bpow_gt_0.
    assert (MP2 : 0 < 2 * m / sqrt D) by (apply Rdiv_lt_0_compat; lra).
    assert (EP : bpow radix2 p * (2 * m / sqrt D) = bpow radix2 (2 * k + 3 * p - 41) / sqrt D).
    { unfold Rdiv. rewrite <- Rmult_assoc. f_equal. unfold m. rewrite <- bp2, <- bpow_plus. f_equal. lia. }
    assert (EX : bpow radix2 p * E + bpow radix2 (k + p - 47) <= e) by (unfold E, e; rewrite Rmult_plus_distr_l, EP, KP2; lra).
    assert (EY : E <= e). { unfold E, e. rewrite <- EP. assert (1 * (2 * m / sqrt D) <= bpow radix2 p * (2 * m / sqrt D)) by (apply Rmult_le_compat_r; lra). lra. }
    exists (- s * y1 - g0, y1), (- s * y2 - g0, y2). split; [intros K; injection K; intros; contradiction|]. split.
    + intros x. rewrite LE, edist_sq by exact R0. split.
      * intros [K5 K6]. rewrite K5 in K6. apply BOTH in K6. apply T4 in K6. destruct x as [x y]. unfold px, py in *. cbn [fst snd] in *. destruct K6 as [-> | ->]; [left|right]; rewrite K5; reflexivity.
      * intros [-> | ->]; unfold px, py; cbn [fst snd]; (split; [reflexivity|]); apply BOTH; assumption.
    + exists (V x1 s1), (V x2 s2). unfold coords_near, V, px, py. cbn [vx vy fst snd].
      split; [split; [apply H1|split; [exact S1|split; lra]]|]. split; [split; [apply H2|split; [exact S2|split; lra]]|].
      rewrite RUN, QE, G1. cbn [bind]. rewrite G2. cbn [bind]. unfold V.
      destruct (merge_F L (mkVec x1 s1 true) (mkVec x2 s2 true) (k + p + 3) ltac:(lia) H1 I1 H2 I2) as [-> | [-> WN]]; [left; reflexivity|right; split; [reflexivity|exact WN]].
  - intros HD. split; [rewrite RUN, Q2 by exact HD; reflexivity|].
    intros x [K5 K6]. apply LE in K5. apply edist_sq in K6; [|exact R0]. rewrite K5 in K6. apply BOTH in K6.
    assert (0 <= D). { rewrite <- DE. pose proof (Rle_0_sqr (2 * A' * py x + B')) as SQ. unfold Rsqr in SQ. replace C' with (- (A' * py x * py x + B' * py x)) by lra. lra. }
    pose proof (bpow_gt_0 radix2 (2 * k + 2 * p - 42)). unfold m in HD. lra.
  - intros HD. set (y := - B' / (2 * A')). assert (YE : 2 * A' * y = - B') by (unfold y; field; lra).
    assert (N : 1 + s * s <> 0) by lra.
    (** the foot of the perpendicular *)
    assert (Y0 : y = cy - s * ((g + s * cy) / (1 + s * s))) by (unfold y, A', B'; field; exact N).
    assert (X0 : - s * y - g0 = cx - (g + s * cy) / (1 + s * s)) by (rewrite Y0; unfold g; field; exact N).
    assert (DD : d * d = (g + s * cy) * (g + s * cy) / (1 + s * s)).
    { assert (DE' : 4 * (1 + s * s) * (d * d) = 4 * ((1 + s * s) * (r * r)) - (B' * B' - 4 * A' * C')) by (rewrite DE; unfold D; ring). apply (Rmult_eq_reg_l (4 * (1 + s * s))); [|lra]. rewrite DE'. unfold B', A', C'. field. exact N. }
    assert (D0 : 0 <= d) by (destruct MD as [[q [_ <-]] _]; apply edist_nonneg).
    assert (FD : edist (cx, cy) (- s * y - g0, y) = d). { apply edist_sq; [exact D0|]. unfold px, py. cbn [fst snd]. rewrite X0, Y0, DD. field. exact N. }
    set (h := 1 + s * s) in *. assert (H1 : 1 <= h) by (unfold h; lra). assert (IH : 0 < / h <= 1) by (split; [apply Rinv_0_lt_compat; lra|rewrite <- Rinv_1; apply Rinv_le; lra]).
    assert (SH : Rabs s * / h <= 1). { apply (Rmult_le_reg_r h); [lra|]. rewrite Rmult_assoc, Rinv_l, Rmult_1_r by lra. unfold h. pose proof (Rle_0_sqr (Rabs s - 1)) as Q0. unfold Rsqr in Q0. assert (Rabs s * Rabs s = s * s) by (rewrite <- Rabs_mult; apply Rabs_pos_eq; exact SS0). pose proof (Rabs_pos s). lra. }
    assert (SH2 : Rabs s * / h <= / 2). { apply (Rmult_le_reg_r h); [lra|]. rewrite Rmult_assoc, Rinv_l, Rmult_1_r by lra. unfold h. pose proof (Rle_0_sqr (Rabs s - 1)) as Q0. unfold Rsqr in Q0. assert (Rabs s * Rabs s = s * s) by (rewrite <- Rabs_mult; apply Rabs_pos_eq; exact SS0). lra. }
    assert (SH3 : 0 <= Rabs s * / h) by (apply Rmult_le_pos; [apply Rabs_pos|lra]).
    rewrite K1 in GG.
    assert (PG : Rabs g * (Rabs s * / h) <= 2 * bpow radix2 k * / 2) by (apply Rmult_le_compat; try assumption; apply Rabs_pos).
    assert (PG1 : Rabs g * / h <= 2 * bpow radix2 k * 1) by (apply Rmult_le_compat; try assumption; try apply Rabs_pos; lra).
    assert (PY : Rabs cy * / h <= bpow radix2 k * 1) by (apply Rmult_le_compat; try assumption; try apply Rabs_pos; lra).
    assert (PY1 : Rabs cy * (Rabs s * / h) <= bpow radix2 k * / 2) by (apply Rmult_le_compat; try assumption; apply Rabs_pos).
    assert (YB' : Rabs y <= bpow radix2 (k + 1)).
    { rewrite K1. replace y with (cy * / h - g * (s * / h)) by (unfold y, A', B'; fold h; field; lra). eapply Rle_trans; [apply Rabs_triang|]. rewrite Rabs_Ropp, !Rabs_mult, (Rabs_pos_eq (/ h)) by lra. lra. }
    assert (XB' : Rabs (- s * y - g0) <= bpow radix2 (k + 2)).
    { replace (bpow radix2 (k + 2)) with (4 * bpow radix2 k) by (rewrite (Z.add_comm k 2), bpow_plus; reflexivity). rewrite X0. replace (cx - (g + s * cy) / h) with (cx + (- (g * / h) - cy * (s * / h))) by (field; lra).
      eapply Rle_trans; [apply Rabs_triang|]. assert (Rabs (- (g * / h) - cy * (s * / h)) <= Rabs g * / h + Rabs cy * (Rabs s * / h)). { eapply Rle_trans; [apply Rabs_triang|]. rewrite !Rabs_Ropp, !Rabs_mult, (Rabs_pos_eq (/ h)) by lra. lra. } lra. }
    destruct (Q3 HD y YE) as (sy & QE & S1 & S2); [eapply Rle_trans; [exact YB'|apply bpow_le; lia]|].
    destruct (PT sy y _ S1 S2 YB' KP4 XB') as (x & G1 & G2 & G3 & G4).
    exists (- s * y - g0, y), (V x sy). split; [apply LE; unfold px, py; cbn [fst snd]; reflexivity|]. split; [exact FD|]. split.
    + rewrite RUN, QE, G1. cbn [bind]. unfold V. f_equal. apply (merge_same L _ (k + p + 3)); [lia|exact G2|exact G3].
    + unfold coords_near, V, px, py. cbn [vx vy fst snd]. rewrite KP2 in G4. split; [apply G2|]. split; [exact S1|]. split; lra.
Qed.

(** C152: a horizontal line *)
Theorem C152_level_F : forall (L : libm) (k : Z) (c : circle F) (l : line F) (d : R), pow_accurate L -> (-90 <= k <= 90)%Z ->
  within k (c_center c) -> fbound k (c_radius c) -> 0 <= B2R (c_radius c) -> finite_line l -> B2R (l_a l) = 0 -> 1 / 999999 <= Rabs (B2R (l_b l)) ->
  Rabs (B2R (l_c l)) <= bpow radix2 k * Rabs (B2R (l_b l)) ->
  is_min_dist (fline l) (fpt (c_center c)) d ->
  let r := B2R (c_radius c) in let D := 4 * (r * r - d * d) in let m := bpow radix2 (2 * k - 42) in
  let res := @Circle2D_intersection F (NumF L) c (VLine l) in
  (1 / 999999 + m <= D -> let e := bpow radix2 (2 * k - 41) / sqrt D + bpow radix2 (k - 45) in
     exists P Q, P <> Q /\ (forall x, fline l x /\ edist (fpt (c_center c)) x = r <-> x = P \/ x = Q) /\
       exists v w, coords_near e v P /\ coords_near e w Q /\ (res = Ok [v; w] \/ (res = Ok [v] /\ weakly_near v w))) /\
  (D + m <= - (1 / 999999) -> res = Ok [] /\ forall x, ~ (fline l x /\ edist (fpt (c_center c)) x = r)) /\
  (Rabs D + m < 1 / 1000001 -> exists q v, fline l q /\ edist (fpt (c_center c)) q = d /\ res = Ok [v] /\ coords_near (bpow radix2 (k - 45)) v q).
Proof.
  intros L k ci l d PA Hk WC FR R0 FL A0 B C MD r D m res. destruct FL as (Fa & Fb & Fc).
  assert (BN : B2R (l_b l) <> 0) by (intros Z; rewrite Z, Rabs_R0 in B; lra).
  destruct WC as (X1 & Y1 & X2 & Y2). set (cx := B2R (vx (c_center ci))) in *. set (cy := B2R (vy (c_center ci))) in *.
  change (fpt (c_center ci)) with (cx, cy) in MD |- *.
  destruct (quot_fb L k (l_c l) (l_b l) ltac:(lia) Fc Fb BN C) as (cb & EC & GB & CC). set (g0 := B2R (l_c l) / B2R (l_b l)) in *.
  destruct (quot_fb L k (Bopp (l_c l)) (l_b l) ltac:(lia)) as (yy & EY & YB0 & CYY); [rewrite is_finite_Bopp; exact Fc|exact Fb|exact BN|rewrite B2R_Bopp, Rabs_Ropp; exact C|].
  rewrite B2R_Bopp in CYY. replace (- B2R (l_c l) / B2R (l_b l)) with (- g0) in CYY by (unfold g0; field; exact BN). clear YB0.
  assert (LE : forall x, fline l x <-> py x = - g0).
  { intros x. unfold fline, on_line, g0. rewrite A0. split; intros H.
    - apply (Rmult_eq_reg_l (B2R (l_b l))); [|exact BN]. replace (B2R (l_b l) * - (B2R (l_c l) / B2R (l_b l))) with (- B2R (l_c l)) by (field; exact BN). lra.
    - rewrite H. field. exact BN. }
  set (g := g0 + cy). set (B' := -2 * cx). set (C' := cx * cx + g * g - r * r).
  pose proof (bpow_gt_0 radix2 k) as KP.
  assert (CX : close k 0 cx (vx (c_center ci))) by (apply close_exact; assumption). assert (CY : close k 0 cy (vy (c_center ci))) by (apply close_exact; assumption).
  assert (CR : close k 0 r (c_radius ci)) by (apply fb_close; exact FR).
  assert (K1 : bpow radix2 (k + 1) = 2 * bpow radix2 k) by (rewrite Z.add_comm; apply bp2).
  assert (GG : Rabs g <= bpow radix2 (k + 1)) by (unfold g; rewrite K1; apply Rabs_le_inv in GB; apply Rabs_le_inv in Y2; apply Rabs_le; lra).
  assert (CG := close_add k _ _ _ _ _ _ ltac:(lia) CC CY). fold g in CG.
  assert (CG' : close (k + 1) (3 * bpow radix2 (k - 54)) g (Bplus mode_NE cb (vy (c_center ci)))).
  { eapply close_weaken; [|exact CG]. replace (k + 1 - 54)%Z with (1 + (k - 54))%Z by lia. rewrite bp2. lra. }
  destruct (const_close L k g cx r _ _ _ PA Hk GG X2 (proj2 FR) CG' CX CR) as (p1 & p2 & p3 & E1 & E2 & E3 & CB' & _ & CC').
  replace (g * g + cx * cx - r * r) with C' in CB' by (unfold C'; ring). fold C' in CC'.
  assert (CA : close (2 * 0 + 1) (5 * bpow radix2 (2 * 0 - 54)) 1 (F_of_Z 1)).
  { destruct (F_of_Z_exact 1 eq_refl) as [O1 O2]. split; [exact O2|]. rewrite O1. rewrite Rminus_eq_0, Rabs_R0, Rabs_pos_eq by lra. pose proof (bpow_gt_0 radix2 (2 * 0 - 54)). change (bpow radix2 (2 * 0 + 1)) with 2. lra. }
  assert (CBB : close (k + 0 + 3) (30 * bpow radix2 (k + 0 - 54)) B' (Bmult mode_NE (F_of_Z (-2)) (vx (c_center ci)))).
  { assert (F2 : close 1 0 (-2) (F_of_Z (-2))). { destruct (F_of_Z_exact (-2) eq_refl) as [O1 O2]. split; [exact O2|]. rewrite O1. rewrite Rminus_eq_0, Rabs_R0, Rabs_left by lra. change (bpow radix2 1) with 2. lra. }
    assert (N2 : Rabs (-2) <= bpow radix2 1) by (change (bpow radix2 1) with 2; rewrite Rabs_left; lra).
    assert (T := close_mul 1 k _ _ _ _ _ _ ltac:(lia) N2 F2 CX). apply (close_up (1 + k)); [lia|]. eapply close_weaken; [|exact T]. replace (k + 0 - 54)%Z with (k - 54)%Z by lia. replace (1 + k - 54)%Z with (1 + (k - 54))%Z by lia. rewrite bp2. pose proof (bpow_gt_0 radix2 (k - 54)). lra. }
  assert (BBd : Rabs B' <= bpow radix2 (k + 0 + 3)).
  { unfold B'. rewrite Rabs_mult, Rabs_left by lra. replace (k + 0 + 3)%Z with (3 + k)%Z by lia. rewrite bpow_plus. change (bpow radix2 3) with 8. lra. }
  assert (QS := quad_stage L k 0 1 B' C' _ _ _ ltac:(lia) Hk (Rle_refl 1) BBd CB' CA CBB CC'). cbv zeta in QS.
  replace (2 * k + 2 * 0 - 42)%Z with (2 * k - 42)%Z in QS by lia. replace (k + 2 * 0 - 45)%Z with (k - 45)%Z in QS by lia. fold m in QS.
  assert (DE : B' * B' - 4 * 1 * C' = D).
  { assert (N : B2R (l_a l) * B2R (l_a l) + B2R (l_b l) * B2R (l_b l) <> 0). { rewrite A0. assert (0 < B2R (l_b l) * B2R (l_b l)) by (apply Rsqr_pos_lt; exact BN). lra. }
    unfold D. rewrite (line_d2 _ _ _ _ _ N MD). unfold px, py. cbn [fst snd]. rewrite A0. unfold B', C', g, g0. field. exact BN. }
  rewrite DE in QS.
  assert (RUN : res = match @quadratic_f F (NumF L) (F_of_Z 1) (Bmult mode_NE (F_of_Z (-2)) (vx (c_center ci))) (Bminus mode_NE (Bplus mode_NE p2 p1) p3) with
     | Ok (Some (s1, s2)) => Ok (@merge_weakly F (NumF L) (V s1 yy) (V s2 yy))
     | Ok None => Ok [] | Raise x => Raise x end).
  { unfold res. cbn [Circle2D_intersection]. unfold Circle2D_intersection_line. rewrite (proj2 (eps_test L (l_a l) Fa)) by (rewrite A0, Rabs_R0; lra). rewrite (proj1 (eps_test L (l_b l) Fb)) by lra.
    rewrite E2. cbn [bind]. rewrite EC. cbn [bind].
    change (@nadd F (NumF L) cb (vy (c_center ci))) with (Bplus mode_NE cb (vy (c_center ci))). rewrite E1. cbn [bind]. rewrite E3. cbn [bind].
    change (@nlit F (NumF L) 1 1) with (F_of_Z 1). change (@nlit F (NumF L) (-2) 1) with (F_of_Z (-2)). change (@nneg F (NumF L) (l_c l)) with (Bopp (l_c l)). rewrite EY. cbn [nadd nmul nsub NumF].
    destruct (quadratic_f _ _ _) as [[[s1 s2]|]|]; reflexivity. }
  assert (BOTH : forall x, ((x - cx) * (x - cx) + (- g0 - cy) * (- g0 - cy) = r * r) <-> 1 * x * x + B' * x + C' = 0).
  { intros x. unfold B', C', g. split; intros H; lra. }
  assert (XB : forall x, 1 * x * x + B' * x + C' = 0 -> Rabs x <= bpow radix2 (k + 1)).
  { intros x H. apply BOTH in H. rewrite K1. apply (near_center x cx r _ (- g0 - cy)); [|exact X2|exact H]. split; [exact R0|]. destruct FR as [_ FR]. apply Rabs_le_inv in FR. unfold r. lra. }
  assert (K5 : bpow radix2 (k - 54) <= bpow radix2 (k - 45)) by (apply bpow_le; lia).
  assert (KL : bpow radix2 (k + 1) <= bpow radix2 (k + 2)) by (apply bpow_le; lia). assert (K2 : bpow radix2 (k + 2) = 4 * bpow radix2 k) by (rewrite (Z.add_comm k 2), bpow_plus; reflexivity).
  assert (YF : fbound (k + 2) yy). { destruct CYY as (U1 & U2 & _). split; [exact U1|]. eapply Rle_trans; [exact U2|]. apply bpow_le. lia. }
  destruct CYY as (_ & _ & YE).
  destruct QS as (Q1 & Q2 & Q3). split; [|split].
  - intros HD e. assert (MP : 0 < m) by apply bpow_gt_0. assert (PD : 0 < D) by lra.
    destruct (two_roots 1 B' C') as (T1 & T2 & T3 & T4); [lra|rewrite DE; exact PD|]. rewrite DE in T1, T2, T3, T4. set (x1 := (- B' + sqrt D) / (2 * 1)) in *. set (x2 := (- B' - sqrt D) / (2 * 1)) in *.
    assert (Z1 : 1 * x1 * x1 + B' * x1 + C' = 0) by (apply T4; now left). assert (Z2 : 1 * x2 * x2 + B' * x2 + C' = 0) by (apply T4; now right).
    assert (W1 := XB _ Z1). assert (W2 := XB _ Z2). destruct (Q1 HD x1 x2 T1 T2) as (s1 & s2 & QE & S1 & S2 & S3 & S4); [lra|lra|].
    assert (ES := err_size k 0 D ltac:(lia) Hk). cbv zeta in ES. replace (2 * k + 2 * 0 - 42)%Z with (2 * k - 42)%Z in ES by lia. replace (k + 2 * 0 - 45)%Z with (k - 45)%Z in ES by lia. fold m in ES. specialize (ES ltac:(lra)).
    assert (EE : e = 2 * m / sqrt D + bpow radix2 (k - 45)). { unfold e, m. rewrite <- bp2. do 3 f_equal. lia. } rewrite <- EE in *.
    assert (SP : 0 < sqrt D) by (apply sqrt_lt_R0; exact PD). assert (MP2 : 0 < 2 * m / sqrt D) by (apply Rdiv_lt_0_compat; lra). assert (YE' : Rabs (B2R yy - - g0) <= e) by lra.
    assert (SF1 : fbound (k + 2) s1) by (split; [exact S1|]; rewrite K2; apply Rabs_le_inv in S3; apply Rabs_le_inv in W1; apply Rabs_le; lra).
    assert (SF2 : fbound (k + 2) s2) by (split; [exact S2|]; rewrite K2; apply Rabs_le_inv in S4; apply Rabs_le_inv in W2; apply Rabs_le; lra).
    exists (x1, - g0), (x2, - g0). split; [intros K; injection K; intros; contradiction|]. split.
    + intros x. rewrite LE, edist_sq by exact R0. split.
      * intros [K6 K7]. rewrite K6 in K7. apply BOTH in K7. apply T4 in K7. destruct x as [x y]. unfold px, py in *. cbn [fst snd] in *. subst y. destruct K7 as [-> | ->]; [left|right]; reflexivity.
      * intros [-> | ->]; unfold px, py; cbn [fst snd]; (split; [reflexivity|]); apply BOTH; assumption.
    + exists (V s1 yy), (V s2 yy). unfold coords_near, V, px, py. cbn [vx vy fst snd].
      split; [split; [exact S1|split; [apply YF|split; lra]]|]. split; [split; [exact S2|split; [apply YF|split; lra]]|].
      rewrite RUN, QE. unfold V. destruct (merge_F L (mkVec s1 yy true) (mkVec s2 yy true) (k + 2) ltac:(lia) SF1 YF SF2 YF) as [-> | [-> WN]]; [left; reflexivity|right; split; [reflexivity|exact WN]].
  - intros HD. split; [rewrite RUN, Q2 by exact HD; reflexivity|].
    intros x [K6 K7]. apply LE in K6. apply edist_sq in K7; [|exact R0]. rewrite K6 in K7. apply BOTH in K7.
    assert (0 <= D). { rewrite <- DE. pose proof (Rle_0_sqr (2 * px x + B')) as SQ. unfold Rsqr in SQ. replace C' with (- (1 * px x * px x + B' * px x)) by lra. lra. }
    pose proof (bpow_gt_0 radix2 (2 * k - 42)). unfold m in HD. lra.
  - intros HD. assert (D0 : 0 <= d) by (destruct MD as [[q [_ <-]] _]; apply edist_nonneg).
    destruct (Q3 HD cx) as (sx & QE & S1 & S2); [unfold B'; ring|rewrite K2; lra|].
    assert (SF : fbound (k + 2) sx). { split; [exact S1|]. rewrite K2. assert (bpow radix2 (k - 45) <= bpow radix2 k) by (apply bpow_le; lia). apply Rabs_le_inv in S2. apply Rabs_le_inv in X2. apply Rabs_le. lra. }
    exists (cx, - g0), (V sx yy). split; [apply LE; reflexivity|]. split.
    + apply edist_sq; [exact D0|]. unfold px, py. cbn [fst snd]. assert (DD : 4 * (d * d) = 4 * (r * r) - (B' * B' - 4 * 1 * C')) by (rewrite DE; unfold D; ring). unfold B', C', g in DD. lra.
    + split; [rewrite RUN, QE; f_equal; apply (merge_same L _ (k + 2)); [lia|exact SF|exact YF]|]. unfold coords_near, V, px, py. cbn [vx vy fst snd]. split; [exact S1|]. split; [apply YF|]. split; [exact S2|lra].
Qed.

Example C152_nonvacuous : let c := mkCircle (fv 0 0) (F_of_Z 5) in
  pow_accurate libm_sq /\ within 5 (c_center c) /\ fbound 5 (c_radius c) /\ 0 <= B2R (c_radius c) /\
  (let l := mkLine (F_of_Z 1) (F_of_Z (-7)) (F_of_Z 25) in
   finite_line l /\ 1 / 999999 <= Rabs (B2R (l_a l)) <= bpow radix2 200 /\ Rabs (B2R (l_b l)) <= bpow radix2 3 * Rabs (B2R (l_a l)) /\ Rabs (B2R (l_c l)) <= bpow radix2 5 * Rabs (B2R (l_a l)) /\
   (exists d, is_min_dist (fline l) (fpt (c_center c)) d /\ 1 / 999999 + bpow radix2 (2 * 5 + 2 * 3 - 42) <= 4 * (1 + B2R (l_b l) / B2R (l_a l) * (B2R (l_b l) / B2R (l_a l))) * (B2R (c_radius c) * B2R (c_radius c) - d * d)) /\
   fline l (-4, 3) /\ edist (fpt (c_center c)) (-4, 3) = 5) /\
  (let l := mkLine (F_of_Z 1) (F_of_Z 0) (F_of_Z 5) in finite_line l /\ fline l (-5, 0) /\
   is_min_dist (fline l) (fpt (c_center c)) 5) /\
  (let l := mkLine (F_of_Z 0) (F_of_Z 1) (F_of_Z 4) in finite_line l /\ B2R (l_a l) = 0 /\ 1 / 999999 <= Rabs (B2R (l_b l)) /\ Rabs (B2R (l_c l)) <= bpow radix2 5 * Rabs (B2R (l_b l)) /\
   is_min_dist (fline l) (fpt (c_center c)) 4 /\ 1 / 999999 + bpow radix2 (2 * 5 - 42) <= 4 * (5 * 5 - 4 * 4)).
Proof.
  intros c. destruct (F_of_Z_exact 0 eq_refl) as [Z1 Z2]. destruct (F_of_Z_exact 1 eq_refl) as [A1 A2]. destruct (F_of_Z_exact (-7) eq_refl) as [B1 B2]. destruct (F_of_Z_exact 25 eq_refl) as [C1 C2]. destruct (F_of_Z_exact 5 eq_refl) as [D1 D2]. destruct (F_of_Z_exact 4 eq_refl) as [E1 E2].
  split; [exact pow_accurate_sq|]. unfold c. cbn [c_center c_radius]. rewrite fpt_fv by (cbn; lia).
  split; [apply within_fv; cbn; lia|]. split; [apply fb_Z; lia|]. split; [rewrite D1; lra|].
  unfold finite_line, fline. cbn [l_a l_b l_c]. rewrite Z1, A1, B1, C1, D1, E1. replace (Rabs (-7)) with 7 by (rewrite Rabs_left; lra). rewrite (Rabs_pos_eq 1), (Rabs_pos_eq 25), (Rabs_pos_eq 4) by lra.
  change (bpow radix2 3) with 8. change (bpow radix2 5) with 32. change (bpow radix2 (2 * 5 + 2 * 3 - 42)) with (/ 67108864). change (bpow radix2 (2 * 5 - 42)) with (/ 4294967296).
  split; [|split].
  - split; [tauto|]. split; [split; [lra|]; change 1 with (bpow radix2 0); apply bpow_le; lia|]. split; [lra|]. split; [lra|]. split; [|split].
    + eexists. split; [apply line_dist_min; lra|]. rewrite <- Rabs_mult. unfold px, py. cbn [fst snd]. assert (S := sqrt_lt_R0 50 ltac:(lra)). assert (SS := sqrt_sqrt 50 ltac:(lra)).
      replace (1 * 1 + -7 * -7) with 50 by ring. replace ((1 * 0 + -7 * 0 + 25) / sqrt 50 * ((1 * 0 + -7 * 0 + 25) / sqrt 50)) with (625 / (sqrt 50 * sqrt 50)) by (field; lra). rewrite SS, Rabs_pos_eq by lra. lra.
    + unfold on_line, px, py. cbn [fst snd]. lra.
    + apply edist_sq; [lra|]. unfold px, py. cbn [fst snd]. lra.
  - split; [tauto|]. split; [unfold on_line, px, py; cbn [fst snd]; lra|]. replace 5 with (Rabs ((1 * px (0, 0) + 0 * py (0, 0) + 5) / sqrt (1 * 1 + 0 * 0))) at 2.
    + apply line_dist_min. lra.
    + replace (1 * 1 + 0 * 0) with 1 by ring. rewrite sqrt_1. unfold px, py. cbn [fst snd]. rewrite Rabs_pos_eq; lra.
  - split; [tauto|]. split; [reflexivity|]. split; [lra|]. split; [lra|]. split; [|lra]. replace 4 with (Rabs ((0 * px (0, 0) + 1 * py (0, 0) + 4) / sqrt (0 * 0 + 1 * 1))) at 2.
    + apply line_dist_min. lra.
    + replace (0 * 0 + 1 * 1) with 1 by ring. rewrite sqrt_1. unfold px, py. cbn [fst snd]. rewrite Rabs_pos_eq; lra.
Qed.
