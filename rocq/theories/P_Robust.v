(** * P_Robust: orientation tests on arbitrary doubles (C116)

    No grid: coordinates are any doubles of magnitude at most 2^k.  The computed
    area is within 2^(2k-49) of the exact one, so every predicate that only looks
    at its sign is right once the exact areas involved exceed that margin. *)
From Coq Require Import ZArith List Bool String Reals Lra Lia Psatz.
From Flocq Require Import Core BinarySingleNaN.
From Verif Require Import Base Types NumR NumF R_Tac Spec Spec2 Abs M_Angle M_Vector M_Line M_Triangle M_Segment M_Polygon
  L_Angle P_Vector P_Line L_Seg P_Segment P_Triangle P_Polygon P_Polygon2 M_Hull P_Hull L_Float P_Float P_Grid P_Grid2.
Import ListNotations.
Local Open Scope R_scope.

(** ** Absolute rounding errors *)
Lemma rnd_err x j : (-1000 <= j)%Z -> Rabs x <= bpow radix2 j -> Rabs (rnd64 x - x) <= bpow radix2 (j - 54) /\ Rabs (rnd64 x) <= bpow radix2 j.
Proof.
  intros Hj H. assert (FB : fmt64 (bpow radix2 j)) by (apply fmt_bpow; lia).
  assert (K : Rabs (rnd64 x) <= bpow radix2 j).
  { apply Rabs_le_inv in H. pose proof (rnd_between x _ _ (fmt_opp _ FB) FB H). apply Rabs_le. lra. }
  split; [|exact K].
  destruct (Req_dec (Rabs x) (bpow radix2 j)) as [E|N].
  - assert (FX : fmt64 x). { unfold Rabs in E. destruct Rcase_abs; [replace x with (- bpow radix2 j) by lra; now apply fmt_opp|now rewrite E]. }
    rewrite rnd_id by exact FX. rewrite Rminus_eq_0, Rabs_R0. apply bpow_ge_0.
  - pose proof (error_le_half_ulp radix2 (FLT_exp (-1074) 53) (fun z => negb (Z.even z)) x) as HU. fold (rnd64 x) in HU.
    eapply Rle_trans; [exact HU|]. clear HU.
    assert (U : ulp radix2 (FLT_exp (-1074) 53) x <= bpow radix2 (j - 53)).
    { destruct (Req_dec x 0) as [->|NX].
      - rewrite ulp_FLT_0 by easy. apply bpow_le. lia.
      - rewrite ulp_neq_0 by exact NX. apply bpow_le. unfold cexp, FLT_exp.
        assert (mag radix2 x <= j)%Z by (apply mag_le_bpow; [exact NX|lra]). lia. }
    replace (bpow radix2 (j - 54)) with (/ 2 * bpow radix2 (j - 53)); [lra|].
    replace (j - 53)%Z with (1 + (j - 54))%Z by lia. rewrite bpow_plus. change (bpow radix2 1) with 2. lra.
Qed.
Lemma finite_lt j x : (j <= 1000)%Z -> Rabs x <= bpow radix2 j -> Rabs x < bpow radix2 1024.
Proof. intros Hj H. eapply Rle_lt_trans; [exact H|]. apply bpow_lt. lia. Qed.

(** [close j t d x]: the double x is finite, at most 2^j in magnitude, and within t of d *)
Definition close (j : Z) (t d : R) (x : F) : Prop := is_finite x = true /\ Rabs (B2R x) <= bpow radix2 j /\ Rabs (B2R x - d) <= t.
Lemma bp2 j : bpow radix2 (1 + j) = 2 * bpow radix2 j.
Proof. now rewrite bpow_plus. Qed.
Lemma close_add j t d t' d' x y : (-1000 <= j + 1 <= 1000)%Z -> close j t d x -> close j t' d' y ->
  close (j + 1) (t + t' + bpow radix2 (j + 1 - 54)) (d + d') (Bplus mode_NE x y).
Proof.
  intros Hj (X1 & X2 & X3) (Y1 & Y2 & Y3).
  assert (B : Rabs (B2R x + B2R y) <= bpow radix2 (j + 1)).
  { rewrite Z.add_comm, bp2. eapply Rle_trans; [apply Rabs_triang|]. lra. }
  destruct (rnd_err _ (j + 1) ltac:(lia) B) as [E1 E2]. destruct (F_add x y X1 Y1) as [A1 A2]; [apply (finite_lt (j + 1)); [lia|exact E2]|].
  split; [exact A2|]. rewrite A1. split; [exact E2|]. apply Rabs_le. apply Rabs_le_inv in E1, X3, Y3. lra.
Qed.
Lemma close_sub j t d t' d' x y : (-1000 <= j + 1 <= 1000)%Z -> close j t d x -> close j t' d' y ->
  close (j + 1) (t + t' + bpow radix2 (j + 1 - 54)) (d - d') (Bminus mode_NE x y).
Proof.
  intros Hj (X1 & X2 & X3) (Y1 & Y2 & Y3).
  assert (B : Rabs (B2R x - B2R y) <= bpow radix2 (j + 1)).
  { rewrite Z.add_comm, bp2. apply Rabs_le. apply Rabs_le_inv in X2, Y2. lra. }
  destruct (rnd_err _ (j + 1) ltac:(lia) B) as [E1 E2]. destruct (F_sub x y X1 Y1) as [A1 A2]; [apply (finite_lt (j + 1)); [lia|exact E2]|].
  split; [exact A2|]. rewrite A1. split; [exact E2|]. apply Rabs_le. apply Rabs_le_inv in E1, X3, Y3. lra.
Qed.
Lemma close_mul j i t d t' d' x y : (-1000 <= j + i <= 1000)%Z -> Rabs d <= bpow radix2 j -> close j t d x -> close i t' d' y ->
  close (j + i) (bpow radix2 j * t' + bpow radix2 i * t + bpow radix2 (j + i - 54)) (d * d') (Bmult mode_NE x y).
Proof.
  intros Hj D (X1 & X2 & X3) (Y1 & Y2 & Y3).
  assert (B : Rabs (B2R x * B2R y) <= bpow radix2 (j + i)).
  { rewrite bpow_plus, Rabs_mult. apply Rmult_le_compat; try apply Rabs_pos; assumption. }
  destruct (rnd_err _ (j + i) ltac:(lia) B) as [E1 E2]. destruct (F_mul x y X1 Y1) as [A1 A2]; [apply (finite_lt (j + i)); [lia|exact E2]|].
  split; [exact A2|]. rewrite A1. split; [exact E2|].
  replace (rnd64 (B2R x * B2R y) - d * d') with (d * (B2R y - d') + B2R y * (B2R x - d) + (rnd64 (B2R x * B2R y) - B2R x * B2R y)) by ring.
  eapply Rle_trans; [apply Rabs_triang|]. apply Rplus_le_compat; [|exact E1]. eapply Rle_trans; [apply Rabs_triang|]. rewrite !Rabs_mult.
  apply Rplus_le_compat; apply Rmult_le_compat; try apply Rabs_pos; assumption.
Qed.
Lemma close_exact k x : is_finite x = true -> Rabs (B2R x) <= bpow radix2 k -> close k 0 (B2R x) x.
Proof. intros H1 H2. split; [exact H1|]. split; [exact H2|]. rewrite Rminus_eq_0, Rabs_R0. lra. Qed.
Lemma close_weaken j t t' d x : t <= t' -> close j t d x -> close j t' d x.
Proof. intros H (A & B & C). split; [exact A|]. split; [exact B|]. lra. Qed.

(** ** Orientation *)
(** finite coordinates of magnitude at most 2^k *)
Definition within (k : Z) (v : vec F) : Prop :=
  is_finite (vx v) = true /\ is_finite (vy v) = true /\ Rabs (B2R (vx v)) <= bpow radix2 k /\ Rabs (B2R (vy v)) <= bpow radix2 k.
Lemma within_sub k x y : (-500 <= k <= 480)%Z -> is_finite x = true -> is_finite y = true -> Rabs (B2R x) <= bpow radix2 k -> Rabs (B2R y) <= bpow radix2 k ->
  close (k + 1) (bpow radix2 (k - 53)) (B2R x - B2R y) (Bminus mode_NE x y) /\ Rabs (B2R x - B2R y) <= bpow radix2 (k + 1).
Proof.
  intros Hk X Y BX BY. split.
  - eapply close_weaken; [|apply close_sub; [lia|apply (close_exact k); assumption|apply (close_exact k); assumption]]. replace (k + 1 - 54)%Z with (k - 53)%Z by lia. lra.
  - rewrite Z.add_comm, bp2. apply Rabs_le. apply Rabs_le_inv in BX, BY. lra.
Qed.
Lemma within_prod k a b c d : (-500 <= k <= 480)%Z -> Rabs a <= bpow radix2 (k + 1) ->
  close (k + 1) (bpow radix2 (k - 53)) a c -> close (k + 1) (bpow radix2 (k - 53)) b d ->
  close (2 * k + 2) (3 * bpow radix2 (2 * k - 52)) (a * b) (Bmult mode_NE c d).
Proof.
  intros Hk D X Y. replace (2 * k + 2)%Z with (k + 1 + (k + 1))%Z by lia. eapply close_weaken; [|apply close_mul; [lia|exact D|exact X|exact Y]].
  rewrite <- bpow_plus. replace (k + 1 + (k - 53))%Z with (2 * k - 52)%Z by lia. replace (k + 1 + (k + 1) - 54)%Z with (2 * k - 52)%Z by lia. lra.
Qed.
Lemma area_close L k a b c : (-500 <= k <= 480)%Z -> within k a -> within k b -> within k c ->
  close (2 * k + 3) (bpow radix2 (2 * k - 49)) (side (pt (rvec a)) (pt (rvec b)) (pt (rvec c))) (@double_signed_area_st F (NumF L) a b c).
Proof.
  intros Hk (A1 & A2 & A3 & A4) (B1 & B2 & B3 & B4) (C1 & C2 & C3 & C4).
  destruct (within_sub k _ _ Hk A1 C1 A3 C3) as [P1 Q1]. destruct (within_sub k _ _ Hk B2 C2 B4 C4) as [P2 _].
  destruct (within_sub k _ _ Hk B1 C1 B3 C3) as [P3 Q3]. destruct (within_sub k _ _ Hk C2 A2 C4 A4) as [P4 _].
  pose proof (within_prod k _ _ _ _ Hk Q1 P1 P2) as M1. pose proof (within_prod k _ _ _ _ Hk Q3 P3 P4) as M2.
  assert (S : close (2 * k + 2 + 1) (3 * bpow radix2 (2 * k - 52) + 3 * bpow radix2 (2 * k - 52) + bpow radix2 (2 * k + 2 + 1 - 54)) _ _) by (apply close_add; [lia|exact M1|exact M2]).
  replace (2 * k + 3)%Z with (2 * k + 2 + 1)%Z by lia.
  replace (side (pt (rvec a)) (pt (rvec b)) (pt (rvec c))) with ((B2R (vx a) - B2R (vx c)) * (B2R (vy b) - B2R (vy c)) + (B2R (vx b) - B2R (vx c)) * (B2R (vy c) - B2R (vy a)))
    by (unfold side, cross, psub, px, py, pt, rvec; cbn; ring).
  refine (close_weaken _ _ _ _ _ _ S).
  replace (2 * k + 2 + 1 - 54)%Z with (1 + (2 * k - 52))%Z by lia. replace (2 * k - 49)%Z with (1 + (1 + (1 + (2 * k - 52))))%Z by lia. rewrite !bp2. pose proof (bpow_ge_0 radix2 (2 * k - 52)). lra.
Qed.
Lemma outer_close L k a b p : (-500 <= k <= 480)%Z -> within k a -> within k b -> within k p ->
  close (2 * k + 3) (bpow radix2 (2 * k - 49)) (side (pt (rvec p)) (pt (rvec a)) (pt (rvec b)))
    (@Vector2D_outer_product F (NumF L) (Vector2D_of_vec (@Vector2D_sub F (NumF L) a p)) (Vector2D_of_vec (@Vector2D_sub F (NumF L) b p))).
Proof.
  intros Hk (A1 & A2 & A3 & A4) (B1 & B2 & B3 & B4) (C1 & C2 & C3 & C4).
  destruct (within_sub k _ _ Hk A1 C1 A3 C3) as [P1 Q1]. destruct (within_sub k _ _ Hk B2 C2 B4 C4) as [P2 _].
  destruct (within_sub k _ _ Hk A2 C2 A4 C4) as [P3 Q3]. destruct (within_sub k _ _ Hk B1 C1 B3 C3) as [P4 _].
  pose proof (within_prod k _ _ _ _ Hk Q1 P1 P2) as M1. pose proof (within_prod k _ _ _ _ Hk Q3 P3 P4) as M2.
  assert (S : close (2 * k + 2 + 1) (3 * bpow radix2 (2 * k - 52) + 3 * bpow radix2 (2 * k - 52) + bpow radix2 (2 * k + 2 + 1 - 54)) _ _) by (apply close_sub; [lia|exact M1|exact M2]).
  replace (2 * k + 3)%Z with (2 * k + 2 + 1)%Z by lia.
  replace (side (pt (rvec p)) (pt (rvec a)) (pt (rvec b))) with ((B2R (vx a) - B2R (vx p)) * (B2R (vy b) - B2R (vy p)) - (B2R (vy a) - B2R (vy p)) * (B2R (vx b) - B2R (vx p)))
    by (unfold side, cross, psub, px, py, pt, rvec; cbn; ring).
  refine (close_weaken _ _ _ _ _ _ S).
  replace (2 * k + 2 + 1 - 54)%Z with (1 + (2 * k - 52))%Z by lia. replace (2 * k - 49)%Z with (1 + (1 + (1 + (2 * k - 52))))%Z by lia. rewrite !bp2. pose proof (bpow_ge_0 radix2 (2 * k - 52)). lra.
Qed.

(** ** C116 *)
(** The computed double area of any three points is within 2^(2k-49) of the
    exact one; when the exact one is larger, the orientation test is right. *)
Theorem C116_orientation_F : forall (L : libm) (k : Z) (a b c : vec F), (-500 <= k <= 480)%Z -> within k a -> within k b -> within k c ->
  let S := side (pt (rvec a)) (pt (rvec b)) (pt (rvec c)) in
  is_finite (@double_signed_area_st F (NumF L) a b c) = true /\
  Rabs (B2R (@double_signed_area_st F (NumF L) a b c) - S) <= bpow radix2 (2 * k - 49) /\
  (S > bpow radix2 (2 * k - 49) -> @tri_ccw F (NumF L) a b c = true /\ @Triangle2D_ccw F (NumF L) (Triangle2D_of_points a b c) = true) /\
  (S < - bpow radix2 (2 * k - 49) -> @tri_ccw F (NumF L) a b c = false /\ @Triangle2D_ccw F (NumF L) (Triangle2D_of_points a b c) = false).
Proof.
  intros L k a b c Hk A B C S. destruct (area_close L k a b c Hk A B C) as (E1 & E2 & E3). fold S in E3.
  destruct (F_of_Z_exact 0 eq_refl) as [Z1 Z2].
  assert (T : @tri_ccw F (NumF L) a b c = Rlt_bool 0 (B2R (@double_signed_area_st F (NumF L) a b c))).
  { unfold tri_ccw. cbn [nltb NumF]. rewrite num0_F, ltb_F by easy. now rewrite Z1. }
  split; [exact E1|]. split; [exact E3|]. change (@Triangle2D_ccw F (NumF L) (Triangle2D_of_points a b c)) with (@tri_ccw F (NumF L) a b c). rewrite T. apply Rabs_le_inv in E3.
  split; intros HS; split; (apply Rlt_bool_true || apply Rlt_bool_false); lra.
Qed.

Lemma close_sign k S x : close (2 * k + 3) (bpow radix2 (2 * k - 49)) S x -> Rabs S >= bpow radix2 (2 * k - 48) -> (-225 <= k <= 230)%Z ->
  tame x /\ B2R x <> 0 /\ (B2R x < 0 <-> S < 0).
Proof.
  intros (E1 & E2 & E3) HS Hk. replace (2 * k - 48)%Z with (1 + (2 * k - 49))%Z in HS by lia. rewrite bp2 in HS.
  pose proof (bpow_gt_0 radix2 (2 * k - 49)) as P0.
  assert (L1 : bpow radix2 (-500) <= bpow radix2 (2 * k - 49)) by (apply bpow_le; lia).
  assert (U1 : bpow radix2 (2 * k + 3) <= bpow radix2 470) by (apply bpow_le; lia).
  assert (AB : bpow radix2 (2 * k - 49) <= Rabs (B2R x)) by (unfold Rabs in *; repeat destruct Rcase_abs; lra).
  split; [split; [exact E1|right; lra]|]. split; [intros E; rewrite E, Rabs_R0 in AB; lra|].
  unfold Rabs in *; repeat destruct Rcase_abs; lra.
Qed.
Lemma sign_mul a b A B : a <> 0 -> b <> 0 -> A <> 0 -> B <> 0 -> (a < 0 <-> A < 0) -> (b < 0 <-> B < 0) -> Rlt_bool (a * b) 0 = Rlt_bool (A * B) 0.
Proof.
  intros. destruct (Rlt_or_le a 0), (Rlt_or_le b 0), (Rlt_or_le A 0), (Rlt_or_le B 0); try (exfalso; lra; fail);
    (rewrite !Rlt_bool_true by nra; reflexivity) || (rewrite !Rlt_bool_false by nra; reflexivity).
Qed.
Lemma big_ne S k : Rabs S >= bpow radix2 k -> S <> 0.
Proof. intros H ->. rewrite Rabs_R0 in H. pose proof (bpow_gt_0 radix2 k). lra. Qed.

(** Segments neither of which has an end point within the margin of the other's
    line: intersects is exact. *)
Theorem C116_exist_intersection_F : forall (L : libm) (k : Z) (s o : seg F), (-225 <= k <= 230)%Z ->
  within k (s_origin s) -> within k (s_terminal s) -> within k (s_origin o) -> within k (s_terminal o) ->
  let P v := pt (rvec v) in let far a b c := Rabs (side a b c) >= bpow radix2 (2 * k - 48) in
  far (P (s_origin s)) (P (s_terminal s)) (P (s_origin o)) -> far (P (s_origin s)) (P (s_terminal s)) (P (s_terminal o)) ->
  far (P (s_origin o)) (P (s_terminal o)) (P (s_origin s)) -> far (P (s_origin o)) (P (s_terminal o)) (P (s_terminal s)) ->
  exists b, @Segment2D_exist_intersection F (NumF L) s (VSeg o) = VBool b /\
    @Segment2D_exist_intersection_except_endpoint F (NumF L) s o = b /\
    (b = true <-> exists q, on_seg (P (s_origin s)) (P (s_terminal s)) q /\ on_seg (P (s_origin o)) (P (s_terminal o)) q).
Proof.
  intros L k s o Hk S1 S2 O1 O2 P far F1 F2 F3 F4.
  destruct (close_sign k _ _ (area_close L k _ _ _ ltac:(lia) S1 S2 O1) F1 Hk) as (T1 & N1 & G1).
  destruct (close_sign k _ _ (area_close L k _ _ _ ltac:(lia) S1 S2 O2) F2 Hk) as (T2 & N2 & G2).
  destruct (close_sign k _ _ (area_close L k _ _ _ ltac:(lia) O1 O2 S1) F3 Hk) as (T3 & N3 & G3).
  destruct (close_sign k _ _ (area_close L k _ _ _ ltac:(lia) O1 O2 S2) F4 Hk) as (T4 & N4 & G4).
  apply big_ne in F1, F2, F3, F4.
  assert (K : forall x : F, is_finite x = true -> B2R x <> 0 -> @neqb F (NumF L) x (@nlit F (NumF L) 0 1) = false).
  { intros x X1 X2. destruct (F_of_Z_exact 0 eq_refl) as [Z1 Z2]. rewrite num0_F. cbn [neqb NumF]. rewrite eqb_F by easy. rewrite Z1. now apply Req_bool_false. }
  assert (V : @Vector2D_eq F (NumF L) (s_origin s) (s_terminal s) = false).
  { apply not_true_iff_false. unfold Vector2D_eq. cbn [neqb NumF]. destruct S1 as (A1 & A2 & _), S2 as (B1 & B2 & _). rewrite andb_true_iff, !eqb_F by assumption.
    intros [E1 E2]. apply Req_bool_iff in E1, E2.
    apply F1. unfold P, side, cross, psub, px, py, pt, rvec. cbn. rewrite E1, E2. ring. }
  assert (V' : @Vector2D_eq F (NumF L) (s_origin o) (s_terminal o) = false).
  { apply not_true_iff_false. unfold Vector2D_eq. cbn [neqb NumF]. destruct O1 as (A1 & A2 & _), O2 as (B1 & B2 & _). rewrite andb_true_iff, !eqb_F by assumption.
    intros [E1 E2]. apply Req_bool_iff in E1, E2.
    apply F3. unfold P, side, cross, psub, px, py, pt, rvec. cbn. rewrite E1, E2. ring. }
  eexists. split; [reflexivity|].
  assert (EX : @Segment2D_exist_intersection_seg F (NumF L) s o = @Segment2D_exist_intersection_except_endpoint F (NumF L) s o).
  { unfold Segment2D_exist_intersection_seg, Segment2D_exist_intersection_except_endpoint. rewrite V, V', !K by (assumption || apply T1 || apply T2 || apply T3 || apply T4).
    cbn [andb orb]. now destruct (_ && _). }
  split; [now rewrite EX|]. rewrite EX.
  set (so := rvec (s_origin s)). set (st := rvec (s_terminal s)). set (oo := rvec (s_origin o)). set (ot := rvec (s_terminal o)).
  change (on_seg (P (s_origin s)) (P (s_terminal s))) with (spts (mkSeg so st)). change (on_seg (P (s_origin o)) (P (s_terminal o))) with (spts (mkSeg oo ot)).
  rewrite <- exist_intersection_seg_R. apply eq_iff_eq_true.
  unfold Segment2D_exist_intersection_except_endpoint. rewrite num0_F. cbn [nltb nmul NumF]. rewrite !tame_mul_neg by assumption.
  rewrite (sign_mul _ _ _ _ N1 N2 F1 F2 G1 G2), (sign_mul _ _ _ _ N3 N4 F3 F4 G3 G4).
  unfold Segment2D_exist_intersection_seg. cbn [s_origin s_terminal]. rewrite !area_side.
  fold (P (s_origin s)) (P (s_terminal s)) (P (s_origin o)) (P (s_terminal o)).
  change (pt so) with (P (s_origin s)). change (pt st) with (P (s_terminal s)). change (pt oo) with (P (s_origin o)). change (pt ot) with (P (s_terminal o)).
  assert (V2 : Vector2D_eq so st = false) by (revert V; unfold Vector2D_eq; cbn [neqb NumF]; destruct S1 as (A1 & A2 & _), S2 as (B1 & B2 & _); rewrite !eqb_F by assumption; easy).
  assert (V2' : Vector2D_eq oo ot = false) by (revert V'; unfold Vector2D_eq; cbn [neqb NumF]; destruct O1 as (A1 & A2 & _), O2 as (B1 & B2 & _); rewrite !eqb_F by assumption; easy).
  rewrite V2, V2'. rnum. rewrite !Req_bool_false by assumption. cbn [andb orb]. now destruct (_ && _).
Qed.

(** A point outside the margin of the three side lines: contains is exact. *)
Theorem C116_triangle_contains_F : forall (L : libm) (k : Z) (a b c p : vec F), (-500 <= k <= 480)%Z ->
  within k a -> within k b -> within k c -> within k p ->
  let P v := pt (rvec v) in let far u v := Rabs (side (P p) u v) > bpow radix2 (2 * k - 49) in
  far (P a) (P b) -> far (P b) (P c) -> far (P c) (P a) -> ~ collinear (P a) (P b) (P c) ->
  (@Triangle2D_contains F (NumF L) (Triangle2D_of_points a b c) p = true <-> in_triangle (P a) (P b) (P c) (P p)).
Proof.
  intros L k a b c p Hk A B C Q P far F1 F2 F3 NC.
  assert (K : forall x S, close (2 * k + 3) (bpow radix2 (2 * k - 49)) S x -> Rabs S > bpow radix2 (2 * k - 49) ->
     @nleb F (NumF L) (@nlit F (NumF L) 0 1) x = Rle_bool 0 S /\ @nleb F (NumF L) x (@nlit F (NumF L) 0 1) = Rle_bool S 0).
  { intros x S (X1 & X2 & X3) HS. destruct (F_of_Z_exact 0 eq_refl) as [Z1 Z2]. rewrite num0_F. cbn [nleb NumF]. rewrite !leb_F by easy. rewrite Z1.
    apply Rabs_le_inv in X3. pose proof (bpow_gt_0 radix2 (2 * k - 49)). unfold Rabs in HS. destruct Rcase_abs.
    - rewrite !(Rle_bool_false 0), !Rle_bool_true by lra. easy.
    - rewrite !(Rle_bool_true 0), !Rle_bool_false by lra. easy. }
  destruct (K _ _ (outer_close L k a b p Hk A B Q) F1) as [K1 K1'].
  destruct (K _ _ (outer_close L k b c p Hk B C Q) F2) as [K2 K2'].
  destruct (K _ _ (outer_close L k c a p Hk C A Q) F3) as [K3 K3'].
  destruct (C43_contains_R (rvec a) (rvec b) (rvec c) (rvec p)) as [E [E' _]]. specialize (E' NC). refine (iff_trans _ E'). clear E'.
  apply eq_iff_eq_true. rewrite E. change (@Triangle2D_contains F (NumF L) (Triangle2D_of_points a b c) p) with (@tri_contains F (NumF L) a b c p). unfold tri_contains.
  rewrite K1, K2, K3, K1', K2', K3'.
  assert (O : forall u v w : vec R, Vector2D_outer_product (Vector2D_of_vec (Vector2D_sub u w)) (Vector2D_of_vec (Vector2D_sub v w)) = side (pt w) (pt u) (pt v))
    by (intros; unfold Vector2D_outer_product, Vector2D_of_vec, Vector2D_sub; rnum; cbn; unfold side, cross, psub, px, py, pt; cbn; ring).
  rewrite !O. reflexivity.
Qed.

(** ** Polygon area *)
Lemma rnd_err_le x B : bpow radix2 (-1000) <= B -> Rabs x <= B -> Rabs (rnd64 x - x) <= B * bpow radix2 (-53).
Proof.
  intros HB H. assert (0 < B) by (pose proof (bpow_gt_0 radix2 (-1000)); lra).
  pose proof (error_le_half_ulp radix2 (FLT_exp (-1074) 53) (fun z => negb (Z.even z)) x) as HU. fold (rnd64 x) in HU.
  assert (U : ulp radix2 (FLT_exp (-1074) 53) x <= ulp radix2 (FLT_exp (-1074) 53) B).
  { apply ulp_le; [apply FLT_exp_valid; exact prec53|apply FLT_exp_monotone|]. now rewrite (Rabs_pos_eq B) by lra. }
  assert (U' : ulp radix2 (FLT_exp (-1074) 53) B <= Rabs B * bpow radix2 (1 - 53)).
  { apply ulp_FLT_le. rewrite Rabs_pos_eq by lra. eapply Rle_trans; [|exact HB]. apply bpow_le. lia. }
  rewrite Rabs_pos_eq in U' by lra. change (1 - 53)%Z with (1 + -53)%Z in U'. rewrite bp2 in U'. lra.
Qed.
Lemma edge_close L k a b : (-480 <= k <= 400)%Z -> within k a -> within k b ->
  close (2 * k + 1) (bpow radix2 (2 * k - 52)) (cross (pt (rvec a)) (pt (rvec b))) (@edge_term F (NumF L) (a, b)).
Proof.
  intros Hk (A1 & A2 & A3 & A4) (B1 & B2 & B3 & B4).
  assert (M : forall x y, is_finite x = true -> is_finite y = true -> Rabs (B2R x) <= bpow radix2 k -> Rabs (B2R y) <= bpow radix2 k ->
     close (2 * k) (bpow radix2 (2 * k - 54)) (B2R x * B2R y) (Bmult mode_NE x y)).
  { intros x y X Y BX BY. replace (2 * k)%Z with (k + k)%Z by lia. eapply close_weaken; [|apply close_mul; [lia|exact BX|apply close_exact; assumption|apply close_exact; assumption]]. lra. }
  assert (S : close (2 * k + 1) (bpow radix2 (2 * k - 54) + bpow radix2 (2 * k - 54) + bpow radix2 (2 * k + 1 - 54)) _ _)
    by (apply close_sub; [lia|exact (M _ _ A1 B2 A3 B4)|exact (M _ _ B1 A2 B3 A4)]).
  replace (cross (pt (rvec a)) (pt (rvec b))) with (B2R (vx a) * B2R (vy b) - B2R (vx b) * B2R (vy a)) by (unfold cross, px, py, pt, rvec; cbn; ring).
  refine (close_weaken _ _ _ _ _ _ S). replace (2 * k + 1 - 54)%Z with (1 + (2 * k - 54))%Z by lia. replace (2 * k - 52)%Z with (1 + (1 + (2 * k - 54)))%Z by lia. rewrite !bp2. lra.
Qed.
Definition partial (k : Z) (j : Z) (d : R) (x : F) : Prop :=
  is_finite x = true /\ Rabs (B2R x) <= IZR j * bpow radix2 (2 * k + 1) /\ Rabs (B2R x - d) <= IZR (j * (j + 3)) * bpow radix2 (2 * k - 53).
Lemma fmt_mult j e : (0 <= j <= 2 ^ 41)%Z -> (-1000 <= e <= 900)%Z -> fmt64 (IZR j * bpow radix2 e) /\ IZR j * bpow radix2 e <= cap /\ 0 <= IZR j * bpow radix2 e.
Proof.
  intros Hj He. split; [|split].
  - apply (fmt_F2R j e); lia.
  - destruct (units_cap j e 41); try lia. lra.
  - apply Rmult_le_pos; [now apply IZR_le|apply bpow_ge_0].
Qed.
Lemma partial_add L k j d x q : (-480 <= k <= 400)%Z -> (0 <= j < 2 ^ 41)%Z -> within k (fst q) -> within k (snd q) -> partial k j d x ->
  partial k (j + 1) (d + cross (pt (rvec (fst q))) (pt (rvec (snd q)))) (@nadd F (NumF L) x (@edge_term F (NumF L) q)).
Proof.
  intros Hk Hj A B (X1 & X2 & X3). destruct q as [a b]. cbn [fst snd] in *. destruct (edge_close L k a b Hk A B) as (Y1 & Y2 & Y3).
  cbn [nadd NumF]. revert Y1 Y2 Y3. generalize (@edge_term F (NumF L) (a, b)) (cross (pt (rvec a)) (pt (rvec b))). intros y d' Y1 Y2 Y3.
  set (e := (2 * k + 1)%Z) in *. destruct (fmt_mult (j + 1) e ltac:(lia) ltac:(unfold e; lia)) as (M1 & M2 & M3).
  assert (BD : Rabs (B2R x + B2R y) <= IZR (j + 1) * bpow radix2 e).
  { rewrite plus_IZR. eapply Rle_trans; [apply Rabs_triang|]. lra. }
  destruct (add_between x y _ _ X1 Y1 (fmt_opp _ M1) M1) as [F1 F2]; [lra|lra|now apply Rabs_le_inv|].
  split; [exact F1|]. split; [now apply Rabs_le|].
  assert (LT : Rabs (rnd64 (B2R x + B2R y)) < bpow radix2 1024).
  { apply Rle_lt_trans with cap; [|apply bpow_lt; lia]. apply Rabs_le. apply Rabs_le_inv in BD. pose proof (rnd_between _ _ _ (fmt_opp _ M1) M1 BD). lra. }
  destruct (F_add x y X1 Y1 LT) as [E1 _]. rewrite E1.
  pose proof (rnd_err_le (B2R x + B2R y) (IZR (j + 1) * bpow radix2 e)) as R1.
  assert (R2 : bpow radix2 (-1000) <= IZR (j + 1) * bpow radix2 e).
  { assert (1 <= IZR (j + 1)) by (apply IZR_le; lia). assert (bpow radix2 (-1000) <= bpow radix2 e) by (apply bpow_le; unfold e; lia). pose proof (bpow_gt_0 radix2 (-1000)). nra. }
  specialize (R1 R2 BD). rewrite Rmult_assoc, <- bpow_plus in R1. replace (e + -53)%Z with (1 + (2 * k - 53))%Z in R1 by (unfold e; lia).
  replace (2 * k - 52)%Z with (1 + (2 * k - 53))%Z in Y3 by lia. rewrite bp2 in R1, Y3.
  apply Rabs_le. apply Rabs_le_inv in R1, X3, Y3.
  replace (IZR ((j + 1) * (j + 1 + 3))) with (IZR (j * (j + 3)) + 2 + 2 * IZR (j + 1)).
  - set (u := bpow radix2 (2 * k - 53)) in *. lra.
  - rewrite !mult_IZR, !plus_IZR. ring.
Qed.
Lemma partial_fold L k (es : list (vec F * vec F)) : (-480 <= k <= 400)%Z -> (forall q, In q es -> within k (fst q) /\ within k (snd q)) ->
  forall x d j, (0 <= j)%Z -> (j + Z.of_nat (List.length es) <= 2 ^ 41)%Z -> partial k j d x ->
  partial k (j + Z.of_nat (List.length es)) (d + Rsum (map (fun q => cross (pt (rvec (fst q))) (pt (rvec (snd q)))) es))
    (fold_left (fun s q => @nadd F (NumF L) s (@edge_term F (NumF L) q)) es x).
Proof.
  intros Hk. induction es as [|q es IH]; intros G x d j Hj HB HP.
  - cbn [fold_left map List.length]. change (Rsum []) with 0. rewrite Rplus_0_r, Z.add_0_r. exact HP.
  - cbn [fold_left map List.length] in *. rewrite Nat2Z.inj_succ in *. destruct (G q (or_introl eq_refl)) as [G1 G2].
    change (Rsum (?h :: ?t)) with (h + Rsum t). 
    replace (j + Z.succ (Z.of_nat (List.length es)))%Z with (j + 1 + Z.of_nat (List.length es))%Z by lia.
    rewrite <- Rplus_assoc. apply IH; [intros; apply G; now right|lia|lia|]. apply partial_add; try assumption. lia.
Qed.
(** The shoelace sum of n vertices of magnitude at most 2^k accumulates an error
    of at most n(n+3)/2 units of 2^(2k-52). *)
Theorem C116_polygon_area_F : forall (L : libm) (k : Z) (vs : list (vec F)), (-480 <= k <= 400)%Z -> Forall (within k) vs ->
  (3 <= List.length vs)%nat -> (Z.of_nat (List.length vs) <= 2 ^ 41)%Z ->
  let A := shoelace (map (fun v => pt (rvec v)) vs) in let n := Z.of_nat (List.length vs) in
  let E := IZR (n * (n + 3)) * bpow radix2 (2 * k - 53) in
  Rabs (B2R (@Polygon2D_double_signed_area F (NumF L) vs) - A) <= E /\
  Rabs (B2R (@Polygon2D_area F (NumF L) vs) - Rabs A / 2) <= IZR (n * (n + 5)) * bpow radix2 (2 * k - 54) /\
  (A > E -> @Polygon2D_is_counter_clockwise F (NumF L) vs = true /\ @Polygon2D_is_clockwise F (NumF L) vs = false) /\
  (A < - E -> @Polygon2D_is_counter_clockwise F (NumF L) vs = false /\ @Polygon2D_is_clockwise F (NumF L) vs = true).
Proof.
  intros L k vs Hk G HL HN A n E. destruct (F_of_Z_exact 0 eq_refl) as [Z1 Z2].
  assert (PF : partial k n A (@Polygon2D_double_signed_area F (NumF L) vs)).
  { destruct vs as [|v0 [|v1 [|v2 vs]]]; cbn [List.length] in HL; try lia. set (l := v0 :: v1 :: v2 :: vs) in *.
    assert (CL : List.length (cyc_pairs l) = List.length l) by (rewrite cyc_pairs_closed; unfold closed_edges, l; cbn [List.length]; rewrite combine_length, app_length; cbn [List.length]; lia).
    pose proof (partial_fold L k (cyc_pairs l) Hk) as PF. specialize (PF ltac:(intros q Hq; rewrite cyc_pairs_closed in Hq; apply in_closed in Hq; rewrite Forall_forall in G; split; apply G; tauto)).
    specialize (PF (@nlit F (NumF L) 0 1) 0 0%Z ltac:(lia)). rewrite CL in PF. specialize (PF HN).
    assert (P0 : partial k 0 0 (@nlit F (NumF L) 0 1)). { rewrite num0_F. split; [exact Z2|]. rewrite Z1, Rminus_eq_0, Rabs_R0. cbn [Z.mul]. lra. }
    specialize (PF P0). rewrite Z.add_0_l, Rplus_0_l in PF.
    unfold A, shoelace. rewrite closed_edges_map, map_map, <- cyc_pairs_closed. exact PF. }
  unfold Polygon2D_area, Polygon2D_is_counter_clockwise, Polygon2D_is_clockwise.
  revert PF. generalize (@Polygon2D_double_signed_area F (NumF L) vs). intros o (P1 & P2 & P3). fold E in P3.
  split; [exact P3|]. split.
  - destruct (fmt_mult n (2 * k) ltac:(lia) ltac:(lia)) as (M1 & M2 & M3).
    assert (H1 : B2R (@nlit F (NumF L) 1 2) = / 2 /\ is_finite (@nlit F (NumF L) 1 2) = true) by (split; vm_compute; [lra|reflexivity]). destruct H1 as [H1 H2].
    replace (2 * k + 1)%Z with (1 + 2 * k)%Z in P2 by lia. rewrite bp2 in P2.
    assert (BD : Rabs (B2R o * / 2) <= IZR n * bpow radix2 (2 * k)) by (rewrite Rabs_mult, (Rabs_pos_eq (/ 2)) by lra; lra).
    assert (LT : Rabs (rnd64 (B2R o * B2R (@nlit F (NumF L) 1 2))) < bpow radix2 1024).
    { rewrite H1. apply Rle_lt_trans with cap; [|apply bpow_lt; lia]. apply Rabs_le. apply Rabs_le_inv in BD. pose proof (rnd_between _ _ _ (fmt_opp _ M1) M1 BD). lra. }
    destruct (F_mul o _ P1 H2 LT) as [E1 E2]. rewrite H1 in E1.
    assert (R2 : bpow radix2 (-1000) <= IZR n * bpow radix2 (2 * k)).
    { assert (1 <= IZR n) by (apply IZR_le; lia). assert (bpow radix2 (-1000) <= bpow radix2 (2 * k)) by (apply bpow_le; lia). pose proof (bpow_gt_0 radix2 (-1000)). nra. }
    pose proof (rnd_err_le _ _ R2 BD) as R1. rewrite Rmult_assoc, <- bpow_plus in R1. replace (2 * k + -53)%Z with (1 + (2 * k - 54))%Z in R1 by lia. rewrite bp2 in R1.
    cbn [nabs nmul NumF]. destruct (F_abs (Bmult mode_NE o (@nlit F (NumF L) 1 2))) as [E3 _]. 
    match goal with |- Rabs (?x - _) <= _ => replace x with (Rabs (rnd64 (B2R o * / 2))) by (symmetry; refine (eq_trans E3 _); now rewrite E1) end.
    unfold E in P3. replace (2 * k - 53)%Z with (1 + (2 * k - 54))%Z in P3 by lia. rewrite bp2 in P3.
    replace (IZR (n * (n + 5))) with (IZR (n * (n + 3)) + 2 * IZR n) by (rewrite !mult_IZR, !plus_IZR; ring).
    eapply Rle_trans; [apply Rabs_triang_inv2 || idtac|].
    2:{ instantiate (1 := Rabs (rnd64 (B2R o * / 2) - A / 2)). apply Rabs_le. apply Rabs_le_inv in P3, R1. set (u := bpow radix2 (2 * k - 54)) in *. lra. }
    replace (Rabs A / 2) with (Rabs (A / 2)) by (unfold Rdiv; rewrite Rabs_mult, (Rabs_pos_eq (/ 2)) by lra; reflexivity). apply Rabs_triang_inv2.
  - cbn [nltb NumF]. rewrite num0_F, !ltb_F by easy. rewrite Z1. apply Rabs_le_inv in P3.
    split; intros HA; split; (apply Rlt_bool_true || apply Rlt_bool_false); assert (0 <= E) by (unfold E; apply Rmult_le_pos; [apply IZR_le; lia|apply bpow_ge_0]); lra.
Qed.

(** Doubles such as 1/10 that are on no coarse common grid. *)
Definition c116_a : vec F := mkVec (Fd (7205759403792794) (-56)) (Fd (7205759403792794) (-56)) true.
Definition c116_b : vec F := mkVec (Fd (6980579422424269) (-51)) (Fd (7205759403792794) (-55)) true.
Definition c116_c : vec F := mkVec (Fd (6305039478318694) (-53)) (Fd (5179139571476070) (-51)) true.
Definition c116_d : vec F := mkVec (Fd (4953959590107546) (-52)) (Fd (-6305039478318694) (-53)) true.
Definition c116_p : vec F := mkVec (Fd (5854679515581645) (-52)) (Fd (8106479329266893) (-53)) true.
Ltac c116 := unfold c116_a, c116_b, c116_c, c116_d, c116_p, rvec, pt, px, py in *; cbn [vx vy fst snd] in *; rewrite !Fd_exact in * by lia;
  change (bpow radix2 (-51)) with (/ 2251799813685248) in *; change (bpow radix2 (-52)) with (/ 4503599627370496) in *; change (bpow radix2 (-53)) with (/ 9007199254740992) in *; change (bpow radix2 (-55)) with (/ 36028797018963968) in *; change (bpow radix2 (-56)) with (/ 72057594037927936) in *; change (bpow radix2 (-45)) with (/ 35184372088832) in *; change (bpow radix2 (-44)) with (/ 17592186044416) in *.
Example C116_nonvacuous : let P x := pt (rvec x) in
  Forall (within 2) [c116_a; c116_b; c116_c; c116_d; c116_p] /\
  side (P c116_a) (P c116_b) (P c116_c) > bpow radix2 (2 * 2 - 49) /\
  side (P c116_a) (P c116_b) (P c116_d) < - bpow radix2 (2 * 2 - 48) /\
  (let far a b c := Rabs (side a b c) >= bpow radix2 (2 * 2 - 48) in
   far (P c116_a) (P c116_b) (P c116_c) /\ far (P c116_a) (P c116_b) (P c116_d) /\ far (P c116_c) (P c116_d) (P c116_a) /\ far (P c116_c) (P c116_d) (P c116_b)) /\
  (let far u v := Rabs (side (P c116_p) u v) > bpow radix2 (2 * 2 - 49) in far (P c116_a) (P c116_b) /\ far (P c116_b) (P c116_c) /\ far (P c116_c) (P c116_a)) /\
  shoelace (map P [c116_a; c116_b; c116_c]) > IZR (3 * (3 + 3)) * bpow radix2 (2 * 2 - 53).
Proof.
  intros P. split.
  { repeat (apply Forall_cons || apply Forall_nil); (split; [reflexivity|split; [reflexivity|]]); c116; change (bpow radix2 2) with 4; split; apply Rabs_le; lra. }
  change (2 * 2 - 49)%Z with (-45)%Z. change (2 * 2 - 48)%Z with (-44)%Z. change (2 * 2 - 53)%Z with (1 - 50)%Z.
  change (bpow radix2 (1 - 50)) with (/ 562949953421312).
  change (bpow radix2 (-45)) with (/ 35184372088832). change (bpow radix2 (-44)) with (/ 17592186044416).
  assert (G : forall x, x > / 35184372088832 \/ x < - / 35184372088832 -> Rabs x > / 35184372088832) by (intros x; unfold Rabs; destruct Rcase_abs; lra).
  assert (G' : forall x, x >= / 17592186044416 \/ x <= - / 17592186044416 -> Rabs x >= / 17592186044416) by (intros x; unfold Rabs; destruct Rcase_abs; lra).
  unfold P. repeat match goal with |- _ /\ _ => split | |- let _ := _ in _ => cbv zeta end; try (apply G); try (apply G'); unfold shoelace; cbn [map closed_edges Rsum combine tl app fold_right fst snd]; unfold side, cross, psub; c116; cbn [map Rsum fold_right combine]; try lra; try (first [left; lra|right; lra]).
  change (IZR (3 * (3 + 3))) with 18. lra.
Qed.
