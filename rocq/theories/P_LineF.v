(** * P_LineF: straight lines in doubles (C144)

    Lines through points with any double coordinates up to 2^k: their intersection,
    the foot of a perpendicular and the orthocenter, with error bounds in terms of
    the determinant of the two directions. *)
From Coq Require Import ZArith List Bool String Reals Lra Lia Psatz.
From Flocq Require Import Core BinarySingleNaN.
From Verif Require Import Base Types NumR NumF R_Tac Spec Spec2 Abs M_Angle M_Vector M_Line M_Triangle M_Segment
  L_Angle P_Vector P_Line L_Float P_Float P_Robust P_Hull2 P_VecF.
Import ListNotations.
Local Open Scope R_scope.

(** ** A quotient of two computed numbers *)
Lemma quot_close n tN tD N D q x y : (-900 <= n <= 900)%Z -> is_finite x = true -> is_finite y = true -> Rabs (B2R x - N) <= tN -> Rabs (B2R y - D) <= tD ->
  N = q * D -> Rabs q <= bpow radix2 n -> 0 < Rabs D -> 2 * tD <= Rabs D -> 2 * (tN + bpow radix2 n * tD) <= bpow radix2 n * Rabs D ->
  exists z, F_div x y = Ok z /\ is_finite z = true /\ Rabs (B2R z - q) <= 2 * (tN + bpow radix2 n * tD) / Rabs D + bpow radix2 (n - 53) /\ Rabs (B2R z) <= bpow radix2 (1 + n).
Proof.
  intros Hn X Y XN YD E Q D0 TD TT. set (b := bpow radix2 n) in *. assert (PB : 0 < b) by apply bpow_gt_0.
  assert (TD0 : 0 <= tD) by (pose proof (Rabs_pos (B2R y - D)); lra). assert (TN0 : 0 <= tN) by (pose proof (Rabs_pos (B2R x - N)); lra).
  assert (YA : Rabs D / 2 <= Rabs (B2R y)) by (pose proof (Rabs_triang_inv D (D - B2R y)) as T; replace (D - (D - B2R y)) with (B2R y) in T by ring; rewrite Rabs_minus_sym in YD; lra).
  assert (Y0 : B2R y <> 0) by (intros Z; rewrite Z, Rabs_R0 in YA; lra).
  set (t := B2R x / B2R y).
  assert (G : Rabs (t - q) <= 2 * (tN + b * tD) / Rabs D).
  { unfold t. replace (B2R x / B2R y - q) with ((B2R x - N - q * (B2R y - D)) / B2R y) by (rewrite E; field; exact Y0).
    unfold Rdiv at 1. rewrite Rabs_mult, Rabs_inv.
    assert (NU : Rabs (B2R x - N - q * (B2R y - D)) <= tN + b * tD).
    { unfold Rminus at 1. eapply Rle_trans; [apply Rabs_triang|]. rewrite Rabs_Ropp, Rabs_mult. apply Rplus_le_compat; [exact XN|]. apply Rmult_le_compat; try apply Rabs_pos; assumption. }
    replace (2 * (tN + b * tD) / Rabs D) with ((tN + b * tD) * / (Rabs D / 2)) by (field; lra).
    apply Rmult_le_compat; [apply Rabs_pos|left; apply Rinv_0_lt_compat; lra|exact NU|]. apply Rinv_le; lra. }
  assert (G2 : Rabs (t - q) <= b).
  { eapply Rle_trans; [exact G|]. apply (Rmult_le_reg_r (Rabs D)); [exact D0|]. replace (2 * (tN + b * tD) / Rabs D * Rabs D) with (2 * (tN + b * tD)) by (field; lra). exact TT. }
  assert (TB : Rabs t <= bpow radix2 (1 + n)) by (rewrite bp2; fold b; apply Rabs_le_inv in G2, Q; apply Rabs_le; lra).
  destruct (rnd_err t (1 + n) ltac:(lia) TB) as [R1 R2]. destruct (F_quot x y X Y0) as [Z1 Z2]; [fold t; apply (finite_lt (1 + n)); [lia|exact R2]|]. fold t in Z1.
  exists (Bdiv mode_NE x y). split.
  - unfold F_div, F_is_zero. rewrite eqb_F by (try assumption; reflexivity). replace (B2R (F_of_Z 0)) with 0 by reflexivity. now rewrite Req_bool_false.
  - split; [exact Z2|]. rewrite Z1. split; [|exact R2]. replace (rnd64 t - q) with ((rnd64 t - t) + (t - q)) by ring. eapply Rle_trans; [apply Rabs_triang|].
    replace (1 + n - 54)%Z with (n - 53)%Z in R1 by lia. lra.
Qed.

(** ** A computed line and the line it stands for *)
Definition lclose (k : Z) (A B C : R) (l : line F) : Prop :=
  close (k + 1) (bpow radix2 (k - 53)) A (l_a l) /\ close (k + 1) (bpow radix2 (k - 53)) B (l_b l) /\ close (2 * k + 2) (bpow radix2 (2 * k - 50)) C (l_c l) /\
  Rabs A <= bpow radix2 (k + 1) /\ Rabs B <= bpow radix2 (k + 1) /\ Rabs C <= bpow radix2 (2 * k + 2).
Lemma sum_abs x y b c : Rabs x <= b -> Rabs y <= b -> 2 * b <= c -> Rabs (x - y) <= c.
Proof. intros X Y H. apply Rabs_le_inv in X, Y. apply Rabs_le. lra. Qed.
Lemma close_opp j t d x : close j t d x -> close j t (- d) (Bopp x).
Proof.
  intros (A & B & C). unfold close. rewrite is_finite_Bopp, B2R_Bopp, Rabs_Ropp. split; [exact A|]. split; [exact B|].
  replace (- B2R x - - d) with (- (B2R x - d)) by ring. now rewrite Rabs_Ropp.
Qed.
Lemma mul_abs x y i j : Rabs x <= bpow radix2 i -> Rabs y <= bpow radix2 j -> Rabs (x * y) <= bpow radix2 (i + j).
Proof. intros X Y. rewrite Rabs_mult, bpow_plus. apply Rmult_le_compat; try apply Rabs_pos; assumption. Qed.
(** a difference of two coordinates times a coordinate *)
Lemma coef_prod k A a x : (-200 <= k <= 200)%Z -> Rabs A <= bpow radix2 (k + 1) -> close (k + 1) (bpow radix2 (k - 53)) A a -> is_finite x = true -> Rabs (B2R x) <= bpow radix2 k ->
  close (2 * k + 1) (bpow radix2 (2 * k - 52)) (A * B2R x) (Bmult mode_NE a x) /\ Rabs (A * B2R x) <= bpow radix2 (2 * k + 1).
Proof.
  intros Hk HA CA X BX. replace (2 * k + 1)%Z with (k + 1 + k)%Z by lia. split; [|now apply mul_abs].
  eapply close_weaken; [|apply close_mul; [lia|exact HA|exact CA|now apply close_exact]].
  rewrite <- bpow_plus, Rmult_0_r. replace (k + (k - 53))%Z with (2 * k - 53)%Z by lia. replace (k + 1 + k - 54)%Z with (2 * k - 53)%Z by lia. replace (2 * k - 52)%Z with (1 + (2 * k - 53))%Z by lia. rewrite bp2. lra.
Qed.
Lemma coef_diff k A B a b x y : (-200 <= k <= 200)%Z -> Rabs A <= bpow radix2 (k + 1) -> Rabs B <= bpow radix2 (k + 1) -> close (k + 1) (bpow radix2 (k - 53)) A a -> close (k + 1) (bpow radix2 (k - 53)) B b ->
  is_finite x = true -> Rabs (B2R x) <= bpow radix2 k -> is_finite y = true -> Rabs (B2R y) <= bpow radix2 k ->
  close (2 * k + 2) (bpow radix2 (2 * k - 50)) (A * B2R x - B * B2R y) (Bminus mode_NE (Bmult mode_NE a x) (Bmult mode_NE b y)) /\ Rabs (A * B2R x - B * B2R y) <= bpow radix2 (2 * k + 2).
Proof.
  intros Hk HA HB CA CB X BX Y BY. destruct (coef_prod k A a x Hk HA CA X BX) as [P1 P2]. destruct (coef_prod k B b y Hk HB CB Y BY) as [Q1 Q2].
  replace (2 * k + 2)%Z with (2 * k + 1 + 1)%Z by lia. split; [eapply close_weaken; [|apply close_sub; [lia|exact P1|exact Q1]]|].
  - replace (2 * k + 1 + 1 - 54)%Z with (2 * k - 52)%Z by lia. replace (2 * k - 50)%Z with (1 + (1 + (2 * k - 52)))%Z by lia. rewrite !bp2. pose proof (bpow_gt_0 radix2 (2 * k - 52)). lra.
  - eapply sum_abs; [exact P2|exact Q2|]. replace (2 * k + 1 + 1)%Z with (1 + (2 * k + 1))%Z by lia. rewrite bp2. lra.
Qed.
Lemma lclose_points L k p q : (-200 <= k <= 200)%Z -> within k p -> within k q ->
  lclose k (- (py (fpt q) - py (fpt p))) (px (fpt q) - px (fpt p)) ((py (fpt q) - py (fpt p)) * px (fpt p) - (px (fpt q) - px (fpt p)) * py (fpt p)) (@Line2D_of_points F (NumF L) p q).
Proof.
  intros Hk (P1 & P2 & P3 & P4) (Q1 & Q2 & Q3 & Q4). unfold fpt, px, py. cbn [fst snd].
  destruct (within_sub k (vy q) (vy p) ltac:(lia) Q2 P2 Q4 P4) as [A1 A2]. destruct (within_sub k (vx q) (vx p) ltac:(lia) Q1 P1 Q3 P3) as [B1 B2].
  unfold lclose, Line2D_of_points. cbn [l_a l_b l_c nneg nsub nmul NumF].
  destruct (coef_diff k _ _ _ _ (vx p) (vy p) Hk A2 B2 A1 B1 P1 P3 P2 P4) as [C1 C2].
  rewrite Bopp_involutive. repeat (split; [first [assumption|now apply close_opp]|]). split; [now rewrite Rabs_Ropp|]. split; [exact B2|exact C2].
Qed.
Lemma lclose_perp L k A B C l p : (-200 <= k <= 200)%Z -> lclose k A B C l -> within k p ->
  lclose k B (- A) (A * py (fpt p) - B * px (fpt p)) (@Line2D_perpendicular F (NumF L) l p).
Proof.
  intros Hk (A1 & B1 & C1 & A2 & B2 & C2) (P1 & P2 & P3 & P4). unfold fpt, px, py. cbn [fst snd]. unfold lclose, Line2D_perpendicular. cbn [l_a l_b l_c nneg nsub nmul NumF].
  destruct (coef_diff k _ _ _ _ (vy p) (vx p) Hk A2 B2 A1 B1 P2 P4 P1 P3) as [D1 D2].
  repeat (split; [first [assumption|now apply close_opp]|]). split; [now rewrite Rabs_Ropp|exact D2].
Qed.

(** ** Intersection *)
Lemma cprod3 k A B a b : (-200 <= k <= 200)%Z -> Rabs A <= bpow radix2 (k + 1) -> close (k + 1) (bpow radix2 (k - 53)) A a -> close (2 * k + 2) (bpow radix2 (2 * k - 50)) B b ->
  Rabs B <= bpow radix2 (2 * k + 2) -> close (3 * k + 3) (12 * bpow radix2 (3 * k - 52)) (A * B) (Bmult mode_NE a b).
Proof.
  intros Hk HA CA CB HB. replace (3 * k + 3)%Z with (k + 1 + (2 * k + 2))%Z by lia. eapply close_weaken; [|apply close_mul; [lia|exact HA|exact CA|exact CB]].
  rewrite <- !bpow_plus. replace (k + 1 + (2 * k - 50))%Z with (3 + (3 * k - 52))%Z by lia. replace (2 * k + 2 + (k - 53))%Z with (1 + (3 * k - 52))%Z by lia. replace (k + 1 + (2 * k + 2) - 54)%Z with (1 + (3 * k - 52))%Z by lia.
  rewrite !(bpow_plus radix2 _ (3 * k - 52)). change (bpow radix2 3) with 8. change (bpow radix2 1) with 2. lra.
Qed.
Lemma eps_F L : is_finite (@EPSILON F (NumF L)) = true /\ 1 / 1000001 <= B2R (@EPSILON F (NumF L)) <= 1 / 999999.
Proof. split; [vm_compute; reflexivity|vm_compute; lra]. Qed.
Lemma inter_det L k l1 l2 A1 B1 C1 A2 B2 C2 : (-200 <= k <= 200)%Z -> lclose k A1 B1 C1 l1 -> lclose k A2 B2 C2 l2 ->
  close (2 * k + 3) (bpow radix2 (2 * k - 49)) (A1 * B2 - B1 * A2) (@nsub F (NumF L) (@nmul F (NumF L) (l_a l1) (l_b l2)) (@nmul F (NumF L) (l_b l1) (l_a l2))).
Proof.
  intros Hk (X1 & X2 & X3 & X4 & X5 & X6) (Y1 & Y2 & Y3 & Y4 & Y5 & Y6). cbn [nsub nmul NumF].
  assert (P := within_prod k _ _ _ _ ltac:(lia) X4 X1 Y2). assert (Q := within_prod k _ _ _ _ ltac:(lia) X5 X2 Y1).
  replace (2 * k + 3)%Z with (2 * k + 2 + 1)%Z by lia. eapply close_weaken; [|apply close_sub; [lia|exact P|exact Q]].
  replace (2 * k + 2 + 1 - 54)%Z with (1 + (2 * k - 52))%Z by lia. replace (2 * k - 49)%Z with (3 + (2 * k - 52))%Z by lia. rewrite !(bpow_plus radix2 _ (2 * k - 52)). change (bpow radix2 3) with 8. change (bpow radix2 1) with 2. lra.
Qed.
Lemma inter_close L k n l1 l2 A1 B1 C1 A2 B2 C2 q : (-200 <= k <= 200)%Z -> (k <= n <= 500)%Z -> lclose k A1 B1 C1 l1 -> lclose k A2 B2 C2 l2 ->
  let D := A1 * B2 - B1 * A2 in bpow radix2 (2 * k - 45) <= Rabs D -> 2 / 999999 <= Rabs D ->
  on_line A1 B1 C1 q -> on_line A2 B2 C2 q -> Rabs (px q) <= bpow radix2 n -> Rabs (py q) <= bpow radix2 n ->
  exists v, @Line2D_intersection F (NumF L) l1 l2 = Ok v /\ v_valid v = true /\ is_finite (vx v) = true /\ is_finite (vy v) = true /\
    Rabs (px (fpt v) - px q) <= bpow radix2 (n + 2 * k - 45) / Rabs D /\ Rabs (py (fpt v) - py q) <= bpow radix2 (n + 2 * k - 45) / Rabs D.
Proof.
  intros Hk Hn X Y D D1 D2 O1 O2 QX QY. assert (DD := inter_det L k l1 l2 _ _ _ _ _ _ Hk X Y). fold D in DD.
  destruct X as (X1 & X2 & X3 & X4 & X5 & X6). destruct Y as (Y1 & Y2 & Y3 & Y4 & Y5 & Y6).
  unfold Line2D_intersection. set (tmp := @nsub F (NumF L) _ _) in *. destruct DD as (T1 & T2 & T3).
  set (e := bpow radix2 (2 * k - 52)). assert (PE : 0 < e) by apply bpow_gt_0. set (b := bpow radix2 n). assert (PB : 0 < b) by apply bpow_gt_0.
  assert (ED : bpow radix2 (2 * k - 49) = 8 * e) by (replace (2 * k - 49)%Z with (3 + (2 * k - 52))%Z by lia; now rewrite bpow_plus). rewrite ED in T3.
  assert (EL : bpow radix2 (2 * k - 45) = 128 * e) by (replace (2 * k - 45)%Z with (7 + (2 * k - 52))%Z by lia; now rewrite bpow_plus). rewrite EL in D1.
  assert (AT : Rabs D / 2 <= Rabs (B2R tmp)) by (pose proof (Rabs_triang_inv D (D - B2R tmp)) as T; replace (D - (D - B2R tmp)) with (B2R tmp) in T by ring; rewrite Rabs_minus_sym in T3; lra).
  destruct (eps_F L) as [F1 F2].
  assert (E0 : @nltb F (NumF L) (@nabs F (NumF L) tmp) (@EPSILON F (NumF L)) = false).
  { cbn [nltb nabs NumF]. rewrite ltb_F by (rewrite ?is_finite_Babs; assumption). rewrite B2R_Babs. apply Rlt_bool_false. lra. }
  rewrite E0.
  assert (E3 : bpow radix2 (3 * k - 52) <= b * e) by (unfold b, e; rewrite <- bpow_plus; apply bpow_le; lia).
  assert (NX : close (3 * k + 3 + 1) (28 * bpow radix2 (3 * k - 52)) (B1 * C2 - B2 * C1) (Bminus mode_NE (Bmult mode_NE (l_b l1) (l_c l2)) (Bmult mode_NE (l_b l2) (l_c l1)))).
  { eapply close_weaken; [|apply close_sub; [lia|apply (cprod3 k); assumption|apply (cprod3 k); assumption]]. replace (3 * k + 3 + 1 - 54)%Z with (2 + (3 * k - 52))%Z by lia. rewrite (bpow_plus radix2 2). change (bpow radix2 2) with 4. lra. }
  assert (NY : close (3 * k + 3 + 1) (28 * bpow radix2 (3 * k - 52)) (A2 * C1 - A1 * C2) (Bminus mode_NE (Bmult mode_NE (l_a l2) (l_c l1)) (Bmult mode_NE (l_a l1) (l_c l2)))).
  { eapply close_weaken; [|apply close_sub; [lia|apply (cprod3 k); assumption|apply (cprod3 k); assumption]]. replace (3 * k + 3 + 1 - 54)%Z with (2 + (3 * k - 52))%Z by lia. rewrite (bpow_plus radix2 2). change (bpow radix2 2) with 4. lra. }
  destruct NX as (NX1 & _ & NX3). destruct NY as (NY1 & _ & NY3). unfold on_line in O1, O2.
  assert (PD : 0 < Rabs D) by lra. assert (PBE : 0 < b * e) by (apply Rmult_lt_0_compat; assumption).
  assert (BE : b * (128 * e) <= b * Rabs D) by (apply Rmult_le_compat_l; lra).
  assert (DU : Rabs D <= 32 * 1 * (e * bpow radix2 50)).
  { unfold D. eapply sum_abs; [apply (mul_abs _ _ (k + 1) (k + 1)); eassumption|apply (mul_abs _ _ (k + 1) (k + 1)); eassumption|]. unfold e. rewrite <- bpow_plus.
    replace (k + 1 + (k + 1))%Z with (4 + (2 * k - 52 + 50))%Z by lia. rewrite (bpow_plus radix2 4). change (bpow radix2 4) with 16. lra. }
  assert (FIN : forall z r : R, Rabs (z - r) <= 2 * (28 * bpow radix2 (3 * k - 52) + b * (8 * e)) / Rabs D + bpow radix2 (n - 53) -> Rabs (z - r) <= bpow radix2 (n + 2 * k - 45) / Rabs D).
  { intros z r H. eapply Rle_trans; [exact H|]. replace (bpow radix2 (n + 2 * k - 45)) with (b * (128 * e)) by (rewrite <- EL; unfold b; rewrite <- bpow_plus; f_equal; lia).
    apply (Rmult_le_reg_r (Rabs D)); [exact PD|]. rewrite Rmult_plus_distr_r. unfold Rdiv. rewrite !(Rmult_assoc _ (/ Rabs D) (Rabs D)), Rinv_l, !Rmult_1_r by lra.
    assert (S : bpow radix2 (n - 53) * Rabs D <= 4 * (b * e)).
    { replace (n - 53)%Z with (n + -53)%Z by lia. rewrite bpow_plus. fold b. rewrite Rmult_assoc, <- Rmult_assoc, (Rmult_comm 4), !Rmult_assoc. apply Rmult_le_compat_l; [lra|].
      change (bpow radix2 50) with 1125899906842624 in DU. change (bpow radix2 (-53)) with (/ 9007199254740992). lra. }
    clear - E3 S PBE. lra. }
  assert (TT : 2 * (28 * bpow radix2 (3 * k - 52) + b * (8 * e)) <= b * Rabs D) by lra.
  destruct (quot_close n (28 * bpow radix2 (3 * k - 52)) (8 * e) (B1 * C2 - B2 * C1) D (px q) _ tmp ltac:(lia) NX1 T1 NX3 T3) as (x & U1 & U2 & U3 & _); try assumption; try lra.
  { unfold D. replace C1 with (- (A1 * px q + B1 * py q)) by lra. replace C2 with (- (A2 * px q + B2 * py q)) by lra. ring. }
  destruct (quot_close n (28 * bpow radix2 (3 * k - 52)) (8 * e) (A2 * C1 - A1 * C2) D (py q) _ tmp ltac:(lia) NY1 T1 NY3 T3) as (y & W1 & W2 & W3 & _); try assumption; try lra.
  { unfold D. replace C1 with (- (A1 * px q + B1 * py q)) by lra. replace C2 with (- (A2 * px q + B2 * py q)) by lra. ring. }
  cbn [ndiv nsub nmul NumF]. rewrite U1. cbn [bind]. rewrite W1. cbn [bind]. eexists. split; [reflexivity|]. cbn [vx vy v_valid V fpt px py fst snd].
  split; [reflexivity|]. split; [exact U2|]. split; [exact W2|]. split; apply FIN; assumption.
Qed.
Lemma on_line2_coef p q r : on_line2 p q r -> on_line (- (py q - py p)) (px q - px p) ((py q - py p) * px p - (px q - px p) * py p) r.
Proof. intros [t ->]. unfold on_line, lerp, px, py. cbn [fst snd]. ring. Qed.
(** C144: the point where two lines meet, each given by two points *)
Theorem C144_intersection_F : forall (L : libm) (k n : Z) (p1 p2 p3 p4 : vec F) (q : point), (-200 <= k <= 200)%Z -> (k <= n <= 500)%Z ->
  within k p1 -> within k p2 -> within k p3 -> within k p4 ->
  let D := cross (psub (fpt p2) (fpt p1)) (psub (fpt p4) (fpt p3)) in bpow radix2 (2 * k - 45) <= Rabs D -> 2 / 999999 <= Rabs D ->
  on_line2 (fpt p1) (fpt p2) q -> on_line2 (fpt p3) (fpt p4) q -> Rabs (px q) <= bpow radix2 n -> Rabs (py q) <= bpow radix2 n ->
  exists l1 l2 v, @Line2D_init F (NumF L) [VVec p1; VVec p2] [] = Ok l1 /\ @Line2D_init F (NumF L) [VVec p3; VVec p4] [] = Ok l2 /\
    @Line2D_intersection F (NumF L) l1 l2 = Ok v /\ v_valid v = true /\ is_finite (vx v) = true /\ is_finite (vy v) = true /\
    Rabs (px (fpt v) - px q) <= bpow radix2 (n + 2 * k - 45) / Rabs D /\ Rabs (py (fpt v) - py q) <= bpow radix2 (n + 2 * k - 45) / Rabs D.
Proof.
  intros L k n p1 p2 p3 p4 q Hk Hn W1 W2 W3 W4 D D1 D2 O1 O2 QX QY.
  assert (X := lclose_points L k p1 p2 Hk W1 W2). assert (Y := lclose_points L k p3 p4 Hk W3 W4).
  assert (ED : - (py (fpt p2) - py (fpt p1)) * (px (fpt p4) - px (fpt p3)) - (px (fpt p2) - px (fpt p1)) * (- (py (fpt p4) - py (fpt p3))) = D) by (unfold D, cross, psub, px, py; cbn [fst snd]; ring).
  assert (IC := inter_close L k n _ _ _ _ _ _ _ _ q Hk Hn X Y). cbv zeta in IC. rewrite ED in IC.
  destruct (IC D1 D2 (on_line2_coef _ _ _ O1) (on_line2_coef _ _ _ O2) QX QY) as (v & V1 & V2).
  exists (@Line2D_of_points F (NumF L) p1 p2), (@Line2D_of_points F (NumF L) p3 p4), v. split; [reflexivity|]. split; [reflexivity|]. split; [exact V1|exact V2].
Qed.
(** ... and lines that are nearly parallel, on the scale of the rounding errors *)
Theorem C144_parallel_F : forall (L : libm) (k : Z) (p1 p2 p3 p4 : vec F), (-200 <= k <= 200)%Z ->
  within k p1 -> within k p2 -> within k p3 -> within k p4 ->
  Rabs (cross (psub (fpt p2) (fpt p1)) (psub (fpt p4) (fpt p3))) + bpow radix2 (2 * k - 49) < 1 / 1000001 ->
  exists l1 l2, @Line2D_init F (NumF L) [VVec p1; VVec p2] [] = Ok l1 /\ @Line2D_init F (NumF L) [VVec p3; VVec p4] [] = Ok l2 /\
    @Line2D_intersection F (NumF L) l1 l2 = Ok (@Vector2D_invalid F (NumF L)).
Proof.
  intros L k p1 p2 p3 p4 Hk W1 W2 W3 W4 S. set (D := cross _ _) in S.
  assert (X := lclose_points L k p1 p2 Hk W1 W2). assert (Y := lclose_points L k p3 p4 Hk W3 W4). assert (DD := inter_det L k _ _ _ _ _ _ _ _ Hk X Y).
  replace (- (py (fpt p2) - py (fpt p1)) * (px (fpt p4) - px (fpt p3)) - (px (fpt p2) - px (fpt p1)) * (- (py (fpt p4) - py (fpt p3)))) with D in DD by (unfold D, cross, psub, px, py; cbn [fst snd]; ring).
  exists (@Line2D_of_points F (NumF L) p1 p2), (@Line2D_of_points F (NumF L) p3 p4). split; [reflexivity|]. split; [reflexivity|].
  unfold Line2D_intersection. set (tmp := @nsub F (NumF L) _ _) in *. destruct DD as (T1 & T2 & T3). destruct (eps_F L) as [F1 F2].
  assert (E0 : @nltb F (NumF L) (@nabs F (NumF L) tmp) (@EPSILON F (NumF L)) = true).
  { cbn [nltb nabs NumF]. rewrite ltb_F by (rewrite ?is_finite_Babs; assumption). rewrite B2R_Babs. apply Rlt_bool_true. pose proof (Rabs_triang (B2R tmp - D) D) as T. replace (B2R tmp - D + D) with (B2R tmp) in T by ring. lra. }
  now rewrite E0.
Qed.

(** ** The foot of a perpendicular *)
Lemma foot_off k p1 p2 p q : (forall r, r = p1 \/ r = p -> Rabs (px r) <= bpow radix2 k /\ Rabs (py r) <= bpow radix2 k) ->
  on_line2 p1 p2 q -> dot (psub q p) (psub p2 p1) = 0 -> Rabs (px q - px p1) <= 3 * bpow radix2 k /\ Rabs (py q - py p1) <= 3 * bpow radix2 k.
Proof.
  intros H [t Q] O. destruct (H p1 ltac:(now left)) as [A1 A2]. destruct (H p ltac:(now right)) as [B1 B2]. set (b := bpow radix2 k) in *.
  assert (PY : (px q - px p1) * (px q - px p1) + (py q - py p1) * (py q - py p1) + ((px q - px p) * (px q - px p) + (py q - py p) * (py q - py p)) = (px p - px p1) * (px p - px p1) + (py p - py p1) * (py p - py p1)).
  { assert (O' : (px q - px p) * (px q - px p1) + (py q - py p) * (py q - py p1) = 0).
    { rewrite Q at 2 4. unfold lerp, dot, psub, px, py in *. cbn [fst snd] in *. transitivity (t * 0); [rewrite <- O|]; ring. }
    transitivity ((px p - px p1) * (px p - px p1) + (py p - py p1) * (py p - py p1) + 2 * ((px q - px p) * (px q - px p1) + (py q - py p) * (py q - py p1))); [ring|]. rewrite O'. ring. }
  apply Rabs_le_inv in A1, A2, B1, B2. assert (P0 : 0 <= b) by apply bpow_ge_0.
  assert (SQ : forall z m, 0 <= m -> z * z <= m * m -> Rabs z <= m) by (intros z m M0 Hz; apply Rsqr_incr_0_var; [rewrite <- Rsqr_abs; exact Hz|exact M0]).
  assert (U1 : (px p - px p1) * (px p - px p1) <= (2 * b) * (2 * b)) by nra. assert (U2 : (py p - py p1) * (py p - py p1) <= (2 * b) * (2 * b)) by nra.
  pose proof (Rle_0_sqr (px q - px p)) as Z1. pose proof (Rle_0_sqr (py q - py p)) as Z2. pose proof (Rle_0_sqr (px q - px p1)) as Z3. pose proof (Rle_0_sqr (py q - py p1)) as Z4. pose proof (Rle_0_sqr b) as Z5. unfold Rsqr in Z1, Z2, Z3, Z4, Z5.
  assert (V1 : Rabs (px q - px p1) <= 3 * b) by (apply SQ; lra). assert (V2 : Rabs (py q - py p1) <= 3 * b) by (apply SQ; lra).
  split; assumption.
Qed.
Lemma foot_bound k p1 p2 p q : (forall r, r = p1 \/ r = p -> Rabs (px r) <= bpow radix2 k /\ Rabs (py r) <= bpow radix2 k) ->
  on_line2 p1 p2 q -> dot (psub q p) (psub p2 p1) = 0 -> Rabs (px q) <= bpow radix2 (k + 2) /\ Rabs (py q) <= bpow radix2 (k + 2).
Proof.
  intros H Q O. destruct (foot_off k p1 p2 p q H Q O) as [V1 V2]. destruct (H p1 ltac:(now left)) as [A1 A2]. rewrite (bpow_plus radix2 k 2). change (bpow radix2 2) with 4.
  apply Rabs_le_inv in V1, V2, A1, A2. split; apply Rabs_le; lra.
Qed.
(** C144: the foot q of the perpendicular from p3 on the line through p1 and p2 *)
Theorem C144_projection_F : forall (L : libm) (k : Z) (p1 p2 p : vec F) (q : point), (-200 <= k <= 200)%Z -> within k p1 -> within k p2 -> within k p ->
  let s := norm2 (psub (fpt p2) (fpt p1)) in bpow radix2 (2 * k - 45) <= s -> 2 / 999999 <= s ->
  on_line2 (fpt p1) (fpt p2) q -> dot (psub q (fpt p)) (psub (fpt p2) (fpt p1)) = 0 ->
  exists l v, @Line2D_init F (NumF L) [VVec p1; VVec p2] [] = Ok l /\ @Line2D_projection F (NumF L) l p = Ok v /\
    v_valid v = true /\ is_finite (vx v) = true /\ is_finite (vy v) = true /\
    Rabs (px (fpt v) - px q) <= bpow radix2 (3 * k - 43) / s /\ Rabs (py (fpt v) - py q) <= bpow radix2 (3 * k - 43) / s.
Proof.
  intros L k p1 p2 p q Hk W1 W2 W3 s S1 S2 O1 O2.
  assert (X := lclose_points L k p1 p2 Hk W1 W2). assert (Y := lclose_perp L k _ _ _ _ p Hk X W3).
  destruct (foot_bound k (fpt p1) (fpt p2) (fpt p) q) as [Q1 Q2]; try assumption.
  { intros r [-> | ->]; [destruct W1 as (_ & _ & ? & ?)|destruct W3 as (_ & _ & ? & ?)]; split; assumption. }
  assert (IC := inter_close L k (k + 2) _ _ _ _ _ _ _ _ q Hk ltac:(lia) X Y). cbv zeta in IC.
  match type of IC with _ <= Rabs ?d -> _ => assert (ED : d = - s) by (unfold s, norm2, psub, px, py; cbn [fst snd]; ring) end. rewrite ED, Rabs_Ropp in IC.
  assert (P0 : 0 < s) by lra. rewrite (Rabs_pos_eq s) in IC by lra. replace (k + 2 + 2 * k - 45)%Z with (3 * k - 43)%Z in IC by lia.
  destruct IC as (v & V1 & V2); try assumption.
  - now apply on_line2_coef.
  - unfold on_line. unfold dot, psub, px, py in O2. cbn [fst snd] in O2. unfold px, py. lra.
  - exists (@Line2D_of_points F (NumF L) p1 p2), v. split; [reflexivity|]. split; [exact V1|exact V2].
Qed.
(** C144: the point where the altitudes of a triangle meet *)
Theorem C144_orthocenter_F : forall (L : libm) (k n : Z) (a b c : vec F) (q : point), (-200 <= k <= 200)%Z -> (k <= n <= 500)%Z -> within k a -> within k b -> within k c ->
  let D := cross (psub (fpt b) (fpt a)) (psub (fpt c) (fpt a)) in bpow radix2 (2 * k - 45) <= Rabs D -> 2 / 999999 <= Rabs D ->
  dot (psub q (fpt a)) (psub (fpt c) (fpt b)) = 0 -> dot (psub q (fpt b)) (psub (fpt a) (fpt c)) = 0 -> Rabs (px q) <= bpow radix2 n -> Rabs (py q) <= bpow radix2 n ->
  exists v, @Triangle2D_orthocenter F (NumF L) (Triangle2D_of_points a b c) = Ok v /\ v_valid v = true /\ is_finite (vx v) = true /\ is_finite (vy v) = true /\
    Rabs (px (fpt v) - px q) <= bpow radix2 (n + 2 * k - 45) / Rabs D /\ Rabs (py (fpt v) - py q) <= bpow radix2 (n + 2 * k - 45) / Rabs D.
Proof.
  intros L k n a b c q Hk Hn WA WB WC D D1 D2 O1 O2 QX QY.
  assert (X := lclose_perp L k _ _ _ _ a Hk (lclose_points L k b c Hk WB WC) WA). assert (Y := lclose_perp L k _ _ _ _ b Hk (lclose_points L k c a Hk WC WA) WB).
  assert (IC := inter_close L k n _ _ _ _ _ _ _ _ q Hk Hn X Y). cbv zeta in IC.
  match type of IC with _ <= Rabs ?d -> _ => assert (ED : d = D) by (unfold D, cross, psub, px, py; cbn [fst snd]; ring) end. rewrite ED in IC.
  unfold dot, psub, px, py in O1, O2. cbn [fst snd] in O1, O2.
  destruct IC as (v & V1 & V2); try assumption.
  - unfold on_line, px, py. lra.
  - unfold on_line, px, py. lra.
  - exists v. split; [exact V1|exact V2].
Qed.

(** ** Distance from a line *)
Lemma min_dist_eq S p d d' : is_min_dist S p d -> is_min_dist S p d' -> d = d'.
Proof. intros [(q & Q1 & Q2) A] [(q' & Q1' & Q2') A']. apply Rle_antisym; [rewrite <- Q2'; now apply A|rewrite <- Q2; now apply A']. Qed.
Lemma line2_coef p q r : p <> q -> on_line (- (py q - py p)) (px q - px p) ((py q - py p) * px p - (px q - px p) * py p) r <-> on_line2 p q r.
Proof.
  intros NE. rewrite <- (collinear_on_line2 _ _ _ NE). unfold on_line, collinear, cross, psub, px, py. cbn [fst snd]. split; intros H; lra.
Qed.
Lemma sq_le x t : Rabs x <= t -> x * x <= t * t.
Proof. intros H. apply Rabs_le_inv in H. nra. Qed.
Lemma norm_le x y t : Rabs x <= t -> Rabs y <= t -> norm (x, y) <= 2 * t.
Proof.
  intros H1 H2. assert (T0 : 0 <= t) by (pose proof (Rabs_pos x); lra). apply sq_le in H1, H2. unfold norm, norm2, px, py. cbn [fst snd]. apply Rsqr_incr_0_var; [|lra].
  rewrite Rsqr_sqrt by nra. unfold Rsqr. nra.
Qed.
Lemma norm_diff x y x' y' t : Rabs (x - x') <= t -> Rabs (y - y') <= t -> Rabs (norm (x, y) - norm (x', y')) <= 2 * t.
Proof.
  intros H1 H2. assert (T0 : 0 <= t) by (pose proof (Rabs_pos (x - x')); lra).
  assert (G : norm (x - x', y - y') <= 2 * t).
  { now apply norm_le. }
  pose proof (norm_triangle (x', y') (x - x', y - y')) as N1. pose proof (norm_triangle (x, y) (- (x - x'), - (y - y'))) as N2.
  unfold px, py in N1, N2. cbn [fst snd] in N1, N2.
  assert (EO : norm (- (x - x'), - (y - y')) = norm (x - x', y - y')) by (unfold norm, norm2, px, py; cbn [fst snd]; f_equal; ring). rewrite EO in N2.
  replace (x' + (x - x'), y' + (y - y')) with (x, y) in N1 by (f_equal; ring). replace (x + - (x - x'), y + - (y - y')) with (x', y') in N2 by (f_equal; ring).
  apply Rabs_le. lra.
Qed.
(** C144: the distance d of a point from the line through p1 and p2 *)
Theorem C144_dist_F : forall (L : libm) (k : Z) (p1 p2 p : vec F) (d : R), (-200 <= k <= 200)%Z -> within k p1 -> within k p2 -> within k p ->
  let s := edist (fpt p1) (fpt p2) in bpow radix2 (k - 45) <= s -> is_min_dist (on_line2 (fpt p1) (fpt p2)) (fpt p) d ->
  exists l r, @Line2D_init F (NumF L) [VVec p1; VVec p2] [] = Ok l /\ @Line2D_dist F (NumF L) l p = Ok r /\ is_finite r = true /\
    Rabs (B2R r - d) <= bpow radix2 (2 * k - 45) / s.
Proof.
  intros L k p1 p2 p d Hk W1 W2 W3 s S1 MD. exists (@Line2D_of_points F (NumF L) p1 p2).
  assert (X := lclose_points L k p1 p2 Hk W1 W2). set (l := @Line2D_of_points F (NumF L) p1 p2) in *.
  set (A := - (py (fpt p2) - py (fpt p1))) in *. set (B := px (fpt p2) - px (fpt p1)) in *. set (C := (py (fpt p2) - py (fpt p1)) * px (fpt p1) - B * py (fpt p1)) in *.
  destruct X as (A1 & B1 & C1 & A2 & B2 & C2).
  set (e := bpow radix2 (k - 54)). set (b := bpow radix2 k). assert (PE : 0 < e) by apply bpow_gt_0. assert (PB : 0 < b) by apply bpow_gt_0.
  assert (EB : b = IZR (2 ^ 54) * e) by (unfold b, e; change (IZR (2 ^ 54)) with (bpow radix2 54); rewrite <- bpow_plus; f_equal; lia). change (IZR (2 ^ 54)) with 18014398509481984 in EB.
  assert (ES : bpow radix2 (k - 45) = 512 * e) by (unfold e; replace (k - 45)%Z with (9 + (k - 54))%Z by lia; now rewrite bpow_plus). rewrite ES in S1.
  assert (EN : s = norm (A, B)). { unfold s, edist, norm. f_equal. unfold norm2, psub, A, B, px, py. cbn [fst snd]. ring. }
  assert (AB : A * A + B * B = s * s). { rewrite EN. unfold norm. rewrite sqrt_sqrt; unfold norm2, px, py; cbn [fst snd]; [reflexivity|nra]. }
  assert (P0 : 0 < s) by lra.
  assert (DQ : d = Rabs ((A * px (fpt p) + B * py (fpt p) + C) / s)).
  { apply (min_dist_eq (on_line2 (fpt p1) (fpt p2)) (fpt p)); [exact MD|]. assert (NE : fpt p1 <> fpt p2) by (intros K; unfold s in P0; rewrite K, edist_refl in P0; lra).
    assert (LD := line_dist_min A B C (fpt p) ltac:(nra)). replace (sqrt (A * A + B * B)) with s in LD by (rewrite AB; symmetry; apply sqrt_square; lra).
    destruct LD as [(q & Q1 & Q2) Q3]. assert (EQ : forall r, on_line A B C r <-> on_line2 (fpt p1) (fpt p2) r).
    { intros r. exact (line2_coef _ _ r NE). }
    split; [exists q; split; [now apply EQ|exact Q2]|]. intros r Hr. apply Q3. now apply EQ. }
  (* the numerator *)
  destruct W3 as (F1 & F2 & F3 & F4).
  destruct (coef_prod k A (l_a l) (vx p) Hk A2 A1 F1 F3) as [PX _]. destruct (coef_prod k B (l_b l) (vy p) Hk B2 B1 F2 F4) as [PY _].
  assert (SU := close_add (2 * k + 1) _ _ _ _ _ _ ltac:(lia) PX PY). replace (2 * k + 1 + 1)%Z with (2 * k + 2)%Z in SU by lia.
  assert (NU := close_add (2 * k + 2) _ _ _ _ _ _ ltac:(lia) SU C1). destruct NU as (N1 & _ & N3).
  assert (N3' : Rabs (B2R (Bplus mode_NE (Bplus mode_NE (Bmult mode_NE (l_a l) (vx p)) (Bmult mode_NE (l_b l) (vy p))) (l_c l)) - (A * B2R (vx p) + B * B2R (vy p) + C)) <= 36 * (b * e)).
  { eapply Rle_trans; [exact N3|]. replace (b * e) with (bpow radix2 (2 * k - 54)) by (unfold b, e; rewrite <- bpow_plus; f_equal; lia).
    replace (2 * k - 52)%Z with (2 + (2 * k - 54))%Z by lia. replace (2 * k - 50)%Z with (4 + (2 * k - 54))%Z by lia. replace (2 * k + 2 - 54)%Z with (2 + (2 * k - 54))%Z by lia. replace (2 * k + 2 + 1 - 54)%Z with (3 + (2 * k - 54))%Z by lia.
    rewrite !(bpow_plus radix2 _ (2 * k - 54)). change (bpow radix2 4) with 16. change (bpow radix2 2) with 4. change (bpow radix2 3) with 8. lra. }
  (* the root *)
  destruct A1 as (A1f & _ & A1e). destruct B1 as (B1f & _ & B1e).
  assert (E53 : bpow radix2 (k - 53) = 2 * e) by (unfold e; replace (k - 53)%Z with (1 + (k - 54))%Z by lia; now rewrite bp2). rewrite E53 in A1e, B1e.
  assert (ND := norm_diff _ _ _ _ _ A1e B1e). rewrite <- EN in ND. set (Nh := norm (B2R (l_a l), B2R (l_b l))) in *.
  assert (SB : s <= 4 * b).
  { rewrite EN. replace (bpow radix2 (k + 1)) with (2 * b) in A2, B2 by (replace (k + 1)%Z with (1 + k)%Z by lia; now rewrite bp2).
    pose proof (norm_le A B (2 * b) A2 B2). lra. }
  apply Rabs_le_inv in ND.
  assert (NB : bpow radix2 (-480) <= Nh <= bpow radix2 500).
  { split; [eapply Rle_trans; [apply (bpow_le radix2 (-480) (k - 54)); lia|]; fold e; lra|]. apply Rle_trans with (bpow radix2 (3 + k)); [rewrite bpow_plus; fold b; change (bpow radix2 3) with 8; lra|apply bpow_le; lia]. }
  destruct (C135_length_F L (mkVec (l_a l) (l_b l) true) A1f B1f NB) as (_ & _ & rt & R1 & R2 & R3).
  change (norm (pt (rvec (mkVec (l_a l) (l_b l) true)))) with Nh in R3.
  assert (R3' : Rabs (B2R rt - s) <= 28 * e).
  { replace (bpow radix2 (-54)) with (e / b) in R3 by (unfold e, b; replace (k - 54)%Z with (-54 + k)%Z by lia; rewrite bpow_plus; field; apply Rgt_not_eq, bpow_gt_0).
    assert (X : 5 * (e / b) * Nh <= 21 * e). { apply (Rmult_le_reg_r b); [lra|]. replace (5 * (e / b) * Nh * b) with (e * (5 * Nh)) by (field; lra). replace (21 * e * b) with (e * (21 * b)) by ring. apply Rmult_le_compat_l; lra. }
    apply Rabs_le_inv in R3. apply Rabs_le. lra. }
  assert (DN : d <= 4 * b).
  { destruct MD as [_ MD]. eapply Rle_trans; [apply (MD (fpt p1)); exists 0; unfold lerp, px, py; rewrite !Rmult_0_l, !Rplus_0_r; now destruct (fpt p1)|].
    destruct W1 as (_ & _ & G1 & G2). fold b in G1, G2, F3, F4. unfold edist, psub. apply Rle_trans with (2 * (2 * b)); [|lra]. apply norm_le; unfold fpt, px, py; cbn [fst snd]; (eapply sum_abs; [eassumption|eassumption|lra]). }
  assert (E2 : bpow radix2 (k + 2) = 4 * b) by (replace (k + 2)%Z with (2 + k)%Z by lia; now rewrite bpow_plus).
  assert (PBE : 0 < b * e) by (apply Rmult_lt_0_compat; assumption). assert (BS : b * (512 * e) <= b * s) by (apply Rmult_le_compat_l; lra).
  destruct (quot_close (k + 2) (36 * (b * e)) (28 * e) (A * B2R (vx p) + B * B2R (vy p) + C) s ((A * px (fpt p) + B * py (fpt p) + C) / s) _ rt ltac:(lia) N1 R2 N3' R3') as (z & Z1 & Z2 & Z3 & _).
  { unfold fpt, px, py. cbn [fst snd]. field. lra. }
  { rewrite <- DQ, E2. exact DN. }
  { rewrite Rabs_pos_eq; lra. }
  { rewrite Rabs_pos_eq; lra. }
  { rewrite E2, Rabs_pos_eq by lra. lra. }
  rewrite E2, (Rabs_pos_eq s) in Z3 by lra.
  exists (Babs z). split; [reflexivity|]. unfold Line2D_dist. change (@nsqrt F (NumF L) (@nadd F (NumF L) (@nmul F (NumF L) (l_a l) (l_a l)) (@nmul F (NumF L) (l_b l) (l_b l)))) with (@Vector2D_r F (NumF L) (mkVec (l_a l) (l_b l) true)).
  rewrite R1. cbn [bind ndiv nadd nmul nabs NumF]. rewrite Z1. cbn [bind]. split; [reflexivity|]. rewrite is_finite_Babs, B2R_Babs. split; [exact Z2|].
  rewrite DQ. eapply Rle_trans; [apply Rabs_triang_inv2|]. eapply Rle_trans; [exact Z3|].
  replace (bpow radix2 (2 * k - 45)) with (512 * (b * e)) by (rewrite <- Rmult_assoc, (Rmult_comm 512), Rmult_assoc, <- ES; unfold b; rewrite <- bpow_plus; f_equal; lia).
  apply (Rmult_le_reg_r s); [exact P0|]. rewrite Rmult_plus_distr_r. unfold Rdiv. rewrite !(Rmult_assoc _ (/ s) s), Rinv_l, !Rmult_1_r by lra.
  replace (bpow radix2 (k + 2 - 53)) with (8 * e) by (unfold e; replace (k + 2 - 53)%Z with (3 + (k - 54))%Z by lia; now rewrite bpow_plus).
  assert (8 * e * s <= 32 * (b * e)) by (replace (32 * (b * e)) with (8 * e * (4 * b)) by ring; apply Rmult_le_compat_l; lra). lra.
Qed.

(** ** A case meeting the hypotheses: the diagonals of a square, and one corner *)
Lemma within_fv k x y : (0 <= k <= 52)%Z -> (Z.abs x <= 2 ^ k)%Z -> (Z.abs y <= 2 ^ k)%Z -> within k (fv x y).
Proof.
  intros Hk Hx Hy. assert (2 ^ k <= 2 ^ 52)%Z by (apply Z.pow_le_mono_r; lia). destruct (F_of_Z_exact x ltac:(lia)) as [A1 A2]. destruct (F_of_Z_exact y ltac:(lia)) as [B1 B2].
  unfold within, fv. cbn [vx vy]. rewrite A1, B1, <- !abs_IZR. assert (E : bpow radix2 k = IZR (2 ^ k)) by (destruct k; [reflexivity|reflexivity|lia]). rewrite E.
  split; [exact A2|]. split; [exact B2|]. split; now apply IZR_le.
Qed.
Example C144_nonvacuous : within 2 (fv 0 0) /\ within 2 (fv 4 4) /\ within 2 (fv 0 4) /\ within 2 (fv 4 0) /\
  Rabs (cross (psub (fpt (fv 4 4)) (fpt (fv 0 0))) (psub (fpt (fv 4 0)) (fpt (fv 0 4)))) = 32 /\ bpow radix2 (2 * 2 - 45) <= 32 /\ 2 / 999999 <= 32 /\
  on_line2 (fpt (fv 0 0)) (fpt (fv 4 4)) (2, 2) /\ on_line2 (fpt (fv 0 4)) (fpt (fv 4 0)) (2, 2) /\ 2 <= bpow radix2 2 /\
  norm2 (psub (fpt (fv 4 4)) (fpt (fv 0 0))) = 32 /\ dot (psub (2, 2) (fpt (fv 0 4))) (psub (fpt (fv 4 4)) (fpt (fv 0 0))) = 0 /\
  bpow radix2 (2 - 45) <= edist (fpt (fv 0 0)) (fpt (fv 4 4)) /\ is_min_dist (on_line2 (fpt (fv 0 0)) (fpt (fv 4 4))) (fpt (fv 0 4)) (edist (0, 4) (2, 2)).
Proof.
  rewrite !fpt_fv by (cbn; lia).
  assert (ED : edist (0, 0) (4, 4) = sqrt 32) by (unfold edist, norm, norm2, psub, px, py; cbn [fst snd]; f_equal; ring).
  assert (S : 1 <= sqrt 32) by (rewrite <- sqrt_1; apply sqrt_le_1_alt; lra).
  repeat (split; [apply within_fv; cbn; lia|]).
  split; [unfold cross, psub, px, py; cbn [fst snd]; rewrite Rabs_left; lra|]. split; [change 32 with (bpow radix2 5); apply bpow_le; lia|]. split; [lra|].
  split; [exists (1 / 2); unfold lerp, px, py; cbn [fst snd]; f_equal; lra|]. split; [exists (1 / 2); unfold lerp, px, py; cbn [fst snd]; f_equal; lra|]. split; [change (bpow radix2 2) with 4; lra|].
  split; [unfold norm2, psub, px, py; cbn [fst snd]; lra|]. split; [unfold dot, psub, px, py; cbn [fst snd]; lra|].
  split; [rewrite ED; apply Rle_trans with (bpow radix2 0); [apply bpow_le; lia|exact S]|].
  split; [exists (2, 2); split; [exists (1 / 2); unfold lerp, px, py; cbn [fst snd]; f_equal; lra|reflexivity]|].
  intros q [t ->]. unfold edist, norm. apply sqrt_le_1_alt. unfold norm2, psub, lerp, px, py. cbn [fst snd]. pose proof (Rle_0_sqr (4 * t - 2)) as H. unfold Rsqr in H. nra.
Qed.
Example C144_others_nonvacuous :
  Rabs (cross (psub (fpt (fv 4 4)) (fpt (fv 0 0))) (psub (fpt (fv 3 4)) (fpt (fv 0 1)))) + bpow radix2 (2 * 2 - 49) < 1 / 1000001 /\ within 2 (fv 3 4) /\ within 2 (fv 0 1) /\
  (within 2 (fv 1 3) /\ Rabs (cross (psub (fpt (fv 4 0)) (fpt (fv 0 0))) (psub (fpt (fv 1 3)) (fpt (fv 0 0)))) = 12 /\
   dot (psub (1, 1) (fpt (fv 0 0))) (psub (fpt (fv 1 3)) (fpt (fv 4 0))) = 0 /\ dot (psub (1, 1) (fpt (fv 4 0))) (psub (fpt (fv 0 0)) (fpt (fv 1 3))) = 0).
Proof.
  rewrite !fpt_fv by (cbn; lia). unfold cross, dot, psub, px, py. cbn [fst snd].
  split; [|split; [apply within_fv; cbn; lia|split; [apply within_fv; cbn; lia|split; [apply within_fv; cbn; lia|split; [rewrite Rabs_pos_eq; lra|split; lra]]]]].
  replace ((4 - 0) * (4 - 1) - (4 - 0) * (3 - 0)) with 0 by ring. rewrite Rabs_R0. change (2 * 2 - 49)%Z with (-45)%Z. change (bpow radix2 (-45)) with (/ 35184372088832). lra.
Qed.
