(** * P_SegF: the nearest point of a segment and the distance to it in doubles (C145)

    The branches of the code compare computed inner products; near a branch point
    the answers of both branches are close to the true one, so no margin is asked. *)
From Coq Require Import ZArith List Bool String Reals Lra Lia Psatz.
From Flocq Require Import Core BinarySingleNaN.
From Verif Require Import Base Types NumR NumF R_Tac Spec Spec2 Abs M_Angle M_Vector M_Line M_Triangle M_Segment
  L_Angle P_Vector P_Line L_Float P_Float P_Robust P_Hull2 P_VecF P_LineF.
Import ListNotations.
Local Open Scope R_scope.

(** ** Points of a segment by their parameter *)
Lemma lerp_edist o t a b : edist (lerp o t a) (lerp o t b) = Rabs (a - b) * edist o t.
Proof.
  unfold edist, norm. rewrite <- sqrt_Rsqr_abs, <- sqrt_mult_alt by apply Rle_0_sqr. f_equal. unfold norm2, psub, lerp, Rsqr, px, py. cbn [fst snd]. ring.
Qed.
Definition clamp (x : R) : R := Rmax 0 (Rmin 1 x).
Lemma clamp_in x : 0 <= clamp x <= 1.
Proof. unfold clamp, Rmax, Rmin. destruct (Rle_dec 1 x); destruct Rle_dec; lra. Qed.
Section Seg.
  Variables o t p : point.
  Let s := norm2 (psub t o).
  Let T := dot (psub t o) (psub p o).
  Let l := edist o t.
  Hypothesis NE : 0 < l.
  Lemma seg_ll : s = l * l.
  Proof. unfold s, l, edist, norm. rewrite sqrt_sqrt by apply norm2_nonneg. unfold norm2, psub, px, py. cbn [fst snd]. ring. Qed.
  Lemma seg_sp : 0 < s. Proof. rewrite seg_ll. nra. Qed.
  Lemma seg_pyth a : norm2 (psub (lerp o t a) p) = s * ((a - T / s) * (a - T / s)) + (norm2 (psub o p) - T * T / s).
  Proof.
    pose proof seg_sp as P. transitivity (s * (a * a) - 2 * a * T + norm2 (psub o p)); [unfold s, T, norm2, dot, psub, lerp, px, py; cbn [fst snd]; ring|]. field. lra.
  Qed.
  Lemma seg_nearest q : on_seg o t q -> (forall r, on_seg o t r -> edist p q <= edist p r) -> q = lerp o t (clamp (T / s)).
  Proof.
    intros (a & Ha & ->) H. pose proof seg_sp as P. set (c := clamp (T / s)). assert (C : 0 <= c <= 1) by apply clamp_in.
    assert (K : norm2 (psub (lerp o t a) p) <= norm2 (psub (lerp o t c) p)).
    { assert (E := H (lerp o t c) ltac:(exists c; split; [exact C|reflexivity])). rewrite !(edist_sym p) in E. unfold edist, norm in E. apply sqrt_le_0 in E; [exact E|apply norm2_nonneg|apply norm2_nonneg]. }
    rewrite !seg_pyth in K. assert (K' : (a - T / s) * (a - T / s) <= (c - T / s) * (c - T / s)) by (apply (Rmult_le_reg_l s); lra).
    f_equal. unfold c, clamp, Rmax, Rmin in *. set (x := T / s) in *. destruct (Rle_dec 1 x); destruct Rle_dec; try lra; nra.
  Qed.
  Lemma seg_min d : is_min_dist (on_seg o t) p d -> d = edist p (lerp o t (clamp (T / s))).
  Proof.
    intros [(q & Q1 & <-) H]. f_equal. now apply seg_nearest.
  Qed.
  (** the nearest point against an end or the foot of the perpendicular *)
  Lemma near_o eta : 0 <= eta -> T <= eta -> edist o (lerp o t (clamp (T / s))) <= eta / l.
  Proof.
    intros E H. pose proof seg_sp as P. replace (edist o (lerp o t (clamp (T / s)))) with (edist (lerp o t 0) (lerp o t (clamp (T / s)))) by (f_equal; unfold lerp; rewrite !Rmult_0_l, !Rplus_0_r; unfold px, py; now destruct o).
    rewrite lerp_edist. fold l. set (c := clamp (T / s)). assert (C : 0 <= c <= eta / s).
    { split; [apply clamp_in|]. assert (T / s <= eta / s) by (apply Rmult_le_compat_r; [left; now apply Rinv_0_lt_compat|exact H]). assert (0 <= eta / s) by (apply Rmult_le_pos; [exact E|left; now apply Rinv_0_lt_compat]).
      unfold c, clamp, Rmax, Rmin. destruct (Rle_dec 1 (T / s)); destruct Rle_dec; lra. }
    rewrite Rabs_left1 by lra. replace (eta / l) with (eta / s * l) by (rewrite seg_ll; field; lra). apply Rmult_le_compat_r; lra.
  Qed.
  Lemma near_t eta : 0 <= eta -> s - eta <= T -> edist t (lerp o t (clamp (T / s))) <= eta / l.
  Proof.
    intros E H. pose proof seg_sp as P. replace (edist t (lerp o t (clamp (T / s)))) with (edist (lerp o t 1) (lerp o t (clamp (T / s)))) by (f_equal; unfold lerp, px, py; destruct t, o; cbn [fst snd]; f_equal; ring).
    rewrite lerp_edist. fold l. set (c := clamp (T / s)). assert (C : 1 - eta / s <= c <= 1).
    { split; [|apply clamp_in]. assert ((s - eta) / s <= T / s) by (apply Rmult_le_compat_r; [left; now apply Rinv_0_lt_compat|exact H]). replace ((s - eta) / s) with (1 - eta / s) in H0 by (field; lra).
      assert (0 <= eta / s) by (apply Rmult_le_pos; [exact E|left; now apply Rinv_0_lt_compat]). unfold c, clamp, Rmax, Rmin. destruct (Rle_dec 1 (T / s)); destruct Rle_dec; lra. }
    rewrite Rabs_pos_eq by lra. replace (eta / l) with (eta / s * l) by (rewrite seg_ll; field; lra). apply Rmult_le_compat_r; lra.
  Qed.
  Lemma near_foot eta : 0 <= eta -> - eta <= T <= s + eta -> edist (lerp o t (T / s)) (lerp o t (clamp (T / s))) <= eta / l.
  Proof.
    intros E H. pose proof seg_sp as P. rewrite lerp_edist. fold l. set (x := T / s).
    assert (X : - (eta / s) <= x <= 1 + eta / s).
    { unfold x. replace (- (eta / s)) with ((- eta) / s) by (field; lra). replace (1 + eta / s) with ((s + eta) / s) by (field; lra). split; (apply Rmult_le_compat_r; [left; now apply Rinv_0_lt_compat|lra]). }
    assert (E0 : 0 <= eta / s) by (apply Rmult_le_pos; [exact E|left; now apply Rinv_0_lt_compat]).
    replace (eta / l) with (eta / s * l) by (rewrite seg_ll; field; lra). apply Rmult_le_compat_r; [lra|].
    unfold clamp, Rmax, Rmin. destruct (Rle_dec 1 x); destruct Rle_dec; apply Rabs_le; lra.
  Qed.
  Lemma foot_dist : edist p (lerp o t (T / s)) = Rabs (cross (psub t o) (psub p o)) / l.
  Proof.
    pose proof seg_sp as P. rewrite edist_sym. unfold edist, norm. rewrite seg_pyth, Rminus_eq_0, Rmult_0_l, Rmult_0_r, Rplus_0_l.
    assert (L0 : 0 <= Rabs (cross (psub t o) (psub p o)) / l) by (apply Rmult_le_pos; [apply Rabs_pos|left; now apply Rinv_0_lt_compat]).
    rewrite <- (sqrt_square _ L0). f_equal. replace (Rabs (cross (psub t o) (psub p o)) / l * (Rabs (cross (psub t o) (psub p o)) / l)) with (Rabs (cross (psub t o) (psub p o)) * Rabs (cross (psub t o) (psub p o)) / s) by (rewrite seg_ll; field; lra).
    rewrite <- Rabs_mult, Rabs_pos_eq by apply Rle_0_sqr. apply (Rmult_eq_reg_r s); [|lra]. unfold Rdiv. rewrite Rmult_minus_distr_r, !Rmult_assoc, Rinv_l, !Rmult_1_r by lra.
    unfold s, T, norm2, cross, dot, psub, px, py. cbn [fst snd]. ring.
  Qed.
  Lemma foot_perp : dot (psub (lerp o t (T / s)) p) (psub t o) = 0.
  Proof.
    pose proof seg_sp as P. assert (G : forall x, dot (psub (lerp o t x) p) (psub t o) = x * s - T) by (intros x; unfold s, T, norm2, dot, psub, lerp, px, py; cbn [fst snd]; ring). rewrite G. field. lra.
  Qed.
  Lemma foot_le : edist p (lerp o t (T / s)) <= edist p o.
  Proof.
    pose proof seg_sp as P. rewrite !(edist_sym p). unfold edist, norm. apply sqrt_le_1_alt. rewrite seg_pyth, Rminus_eq_0, Rmult_0_l, Rmult_0_r.
    assert (0 <= T * T / s) by (apply Rmult_le_pos; [apply Rle_0_sqr|left; now apply Rinv_0_lt_compat]). lra.
  Qed.
End Seg.

(** ** Inner products in doubles *)
Lemma dot_close L k (a b p o : vec F) : (-200 <= k <= 200)%Z -> within k a -> within k b -> within k p -> within k o ->
  close (2 * k + 3) (bpow radix2 (2 * k - 49)) (dot (psub (fpt a) (fpt b)) (psub (fpt p) (fpt o))) (@Vector2D_inner_product F (NumF L) (@Vector2D_sub F (NumF L) a b) (@Vector2D_sub F (NumF L) p o)).
Proof.
  intros Hk (A1 & A2 & A3 & A4) (B1 & B2 & B3 & B4) (P1 & P2 & P3 & P4) (O1 & O2 & O3 & O4).
  destruct (within_sub k _ _ ltac:(lia) A1 B1 A3 B3) as [X1 X2]. destruct (within_sub k _ _ ltac:(lia) A2 B2 A4 B4) as [Y1 Y2].
  destruct (within_sub k _ _ ltac:(lia) P1 O1 P3 O3) as [Z1 _]. destruct (within_sub k _ _ ltac:(lia) P2 O2 P4 O4) as [W1 _].
  assert (P := within_prod k _ _ _ _ ltac:(lia) X2 X1 Z1). assert (Q := within_prod k _ _ _ _ ltac:(lia) Y2 Y1 W1).
  unfold Vector2D_inner_product, Vector2D_sub. cbn [vx vy V nadd nmul nsub NumF]. unfold dot, psub, fpt, px, py. cbn [fst snd].
  replace (2 * k + 3)%Z with (2 * k + 2 + 1)%Z by lia. eapply close_weaken; [|apply close_add; [lia|exact P|exact Q]].
  replace (2 * k + 2 + 1 - 54)%Z with (1 + (2 * k - 52))%Z by lia. replace (2 * k - 49)%Z with (3 + (2 * k - 52))%Z by lia. rewrite !(bpow_plus radix2 _ (2 * k - 52)). change (bpow radix2 3) with 8. change (bpow radix2 1) with 2. lra.
Qed.
Lemma within_pts k v : within k v -> Rabs (px (fpt v)) <= bpow radix2 k /\ Rabs (py (fpt v)) <= bpow radix2 k.
Proof. intros (_ & _ & A & B). split; assumption. Qed.
Lemma edist_box k p q : Rabs (px p) <= bpow radix2 k -> Rabs (py p) <= bpow radix2 k -> Rabs (px q) <= bpow radix2 k -> Rabs (py q) <= bpow radix2 k -> edist p q <= 4 * bpow radix2 k.
Proof.
  intros A B C D. unfold edist, psub. apply Rle_trans with (2 * (2 * bpow radix2 k)); [|lra]. apply norm_le; (eapply sum_abs; [eassumption|eassumption|lra]).
Qed.

(** C145: nearest_point against the point q of the segment nearest to p *)
Theorem C145_nearest_point_F : forall (L : libm) (k : Z) (s : seg F) (p : vec F) (q : point), (-200 <= k <= 200)%Z -> within k (s_origin s) -> within k (s_terminal s) -> within k p ->
  let o := fpt (s_origin s) in let t := fpt (s_terminal s) in let l := edist o t in bpow radix2 (2 * k - 45) <= l * l ->
  on_seg o t q -> (forall r, on_seg o t r -> edist (fpt p) q <= edist (fpt p) r) ->
  exists v, @Segment2D_nearest_point F (NumF L) s p = Ok v /\ is_finite (vx v) = true /\ is_finite (vy v) = true /\ edist (fpt v) q <= bpow radix2 (3 * k - 43) / (l * l).
Proof.
  intros L k sg p q Hk WO WT WP o t l HL Q1 Q2.
  set (b := bpow radix2 k). set (e := bpow radix2 (2 * k - 52)). assert (PB : 0 < b) by apply bpow_gt_0. assert (PE : 0 < e) by apply bpow_gt_0.
  assert (EL : bpow radix2 (2 * k - 45) = 128 * e) by (unfold e; replace (2 * k - 45)%Z with (7 + (2 * k - 52))%Z by lia; now rewrite bpow_plus). rewrite EL in HL.
  assert (L0 : 0 <= l) by apply edist_nonneg. assert (PL : 0 < l) by nra.
  destruct (within_pts k _ WO) as [OX OY]. destruct (within_pts k _ WT) as [TX TY]. destruct (within_pts k _ WP) as [PX PY]. fold b in OX, OY, TX, TY, PX, PY. fold o in OX, OY. fold t in TX, TY.
  assert (LB : l <= 4 * b) by (apply edist_box; assumption).
  assert (EQ := seg_nearest o t (fpt p) PL q Q1 Q2). set (T := dot (psub t o) (psub (fpt p) o)) in *. assert (SL := seg_ll o t). fold l in SL. set (s := norm2 (psub t o)) in *.
  assert (TC := dot_close L k _ _ _ _ Hk WT WO WP WO). assert (SC := dot_close L k _ _ _ _ Hk WT WO WT WO). fold o t in TC, SC. fold T in TC.
  replace (dot (psub t o) (psub t o)) with s in SC by (unfold s, norm2, dot; reflexivity).
  unfold Segment2D_nearest_point. change (@Vector2D_r2 F (NumF L) (@Vector2D_sub F (NumF L) (s_terminal sg) (s_origin sg))) with
    (@Vector2D_inner_product F (NumF L) (@Vector2D_sub F (NumF L) (s_terminal sg) (s_origin sg)) (@Vector2D_sub F (NumF L) (s_terminal sg) (s_origin sg))).
  set (dv := @Vector2D_sub F (NumF L) (s_terminal sg) (s_origin sg)) in *. set (Th := @Vector2D_inner_product F (NumF L) dv (@Vector2D_sub F (NumF L) p (s_origin sg))) in *. set (Sh := @Vector2D_inner_product F (NumF L) dv dv) in *.
  assert (E49 : bpow radix2 (2 * k - 49) = 8 * e) by (unfold e; replace (2 * k - 49)%Z with (3 + (2 * k - 52))%Z by lia; now rewrite bpow_plus). rewrite E49 in TC, SC.
  pose proof TC as (T1 & _ & T3). pose proof SC as (S1 & _ & S3). apply Rabs_le_inv in T3, S3.
  assert (PBE : 0 < b * e) by (apply Rmult_lt_0_compat; assumption).
  assert (FIN : bpow radix2 (3 * k - 43) / (l * l) = 512 * (b * e) / (l * l)).
  { f_equal. unfold b, e. rewrite <- bpow_plus. replace (3 * k - 43)%Z with (9 + (k + (2 * k - 52)))%Z by lia. now rewrite (bpow_plus radix2 9). }
  rewrite FIN.
  assert (SM : 16 * e / l <= 64 * (b * e) / (l * l)).
  { apply (Rmult_le_reg_r (l * l)); [nra|]. replace (16 * e / l * (l * l)) with (16 * e * l) by (field; lra). replace (64 * (b * e) / (l * l) * (l * l)) with (16 * e * (4 * b)) by (field; lra). apply Rmult_le_compat_l; lra. }
  assert (SM2 : 64 * (b * e) / (l * l) <= 512 * (b * e) / (l * l)) by (apply Rmult_le_compat_r; [left; apply Rinv_0_lt_compat; nra|lra]).
  cbn [neqb nleb NumF]. destruct (F_of_Z_exact 0 eq_refl) as [Z1 Z2]. change (@nlit F (NumF L) 0 1) with (F_of_Z 0). rewrite eqb_F, leb_F, leb_F by assumption. rewrite Z1.
  rewrite Req_bool_false by lra. destruct WO as (O1 & O2 & O3 & O4). destruct WT as (V1 & V2 & V3 & V4).
  destruct (Rle_bool_spec (B2R Th) 0) as [C|C].
  { eexists. split; [reflexivity|]. split; [exact O1|]. split; [exact O2|]. rewrite EQ. fold o. eapply Rle_trans; [apply (near_o o t (fpt p) PL (16 * e)); fold T; lra|]. fold l. lra. }
  destruct (Rle_bool_spec (B2R Sh) (B2R Th)) as [C'|C'].
  { eexists. split; [reflexivity|]. split; [exact V1|]. split; [exact V2|]. rewrite EQ. fold t. eapply Rle_trans; [apply (near_t o t (fpt p) PL (16 * e)); fold T s; lra|]. fold l. lra. }
  (* between the ends *)
  set (f := lerp o t (T / s)). assert (FQ : edist f q <= 64 * (b * e) / (l * l)) by (rewrite EQ; eapply Rle_trans; [apply (near_foot o t (fpt p) PL (16 * e)); fold T s; lra|]; fold l; lra).
  destruct (foot_off k o t (fpt p) f) as [G1 G2].
  { intros r [->| ->]; split; assumption. }
  { now exists (T / s). }
  { apply (foot_perp o t (fpt p) PL). }
  fold b in G1, G2.
  destruct (within_sub k _ _ ltac:(lia) V1 O1 V3 O3) as [X1 X2]. destruct (within_sub k _ _ ltac:(lia) V2 O2 V4 O4) as [Y1 Y2].
  assert (E3 : forall A a, close (k + 1) (bpow radix2 (k - 53)) A a -> Rabs A <= bpow radix2 (k + 1) -> close (k + 1 + (2 * k + 3)) (24 * (b * e)) (A * T) (Bmult mode_NE a Th)).
  { intros A a CA HA. eapply close_weaken; [|apply close_mul; [lia|exact HA|exact CA|exact TC]]. rewrite <- E49, <- !bpow_plus. unfold b, e. rewrite <- bpow_plus.
    replace (k + 1 + (2 * k - 49))%Z with (4 + (k + (2 * k - 52)))%Z by lia. replace (2 * k + 3 + (k - 53))%Z with (2 + (k + (2 * k - 52)))%Z by lia. replace (k + 1 + (2 * k + 3) - 54)%Z with (2 + (k + (2 * k - 52)))%Z by lia.
    rewrite !(bpow_plus radix2 _ (k + (2 * k - 52))). change (bpow radix2 4) with 16. change (bpow radix2 2) with 4. lra. }
  destruct (E3 _ _ X1 X2) as (NX1 & _ & NX3). destruct (E3 _ _ Y1 Y2) as (NY1 & _ & NY3).
  assert (PS : 0 < s) by (rewrite SL; nra).
  assert (E2 : bpow radix2 (k + 2) = 4 * b) by (replace (k + 2)%Z with (2 + k)%Z by lia; now rewrite bpow_plus).
  assert (BS : b * (128 * e) <= b * s) by (apply Rmult_le_compat_l; lra).
  assert (FX : (B2R (vx (s_terminal sg)) - B2R (vx (s_origin sg))) * T = (px f - px o) * s).
  { unfold f, lerp, o, t, fpt, px, py. cbn [fst snd]. field. lra. }
  assert (FY : (B2R (vy (s_terminal sg)) - B2R (vy (s_origin sg))) * T = (py f - py o) * s).
  { unfold f, lerp, o, t, fpt, px, py. cbn [fst snd]. field. lra. }
  assert (AS : Rabs s = s) by (apply Rabs_pos_eq; lra).
  assert (T3' : Rabs (B2R Sh - s) <= 8 * e) by (apply Rabs_le; lra).
  destruct (quot_close (k + 2) (24 * (b * e)) (8 * e) _ s (px f - px o) _ Sh ltac:(lia) NX1 S1 NX3 T3' FX) as (x & U1 & U2 & U3 & U4); rewrite ?E2, ?AS; try lra.
  destruct (quot_close (k + 2) (24 * (b * e)) (8 * e) _ s (py f - py o) _ Sh ltac:(lia) NY1 S1 NY3 T3' FY) as (y & W1 & W2 & W3 & W4); rewrite ?E2, ?AS; try lra.
  rewrite E2, AS in U3, W3.
  unfold Vector2D_truediv, Vector2D_mul, dv, Vector2D_sub. cbn [vx vy V ndiv nmul nsub NumF]. rewrite U1. cbn [bind]. rewrite W1. cbn [bind]. eexists. split; [reflexivity|].
  unfold Vector2D_add. cbn [vx vy V nadd NumF].
  assert (B3 : b <= bpow radix2 (k + 3)) by (unfold b; apply bpow_le; lia).
  replace (1 + (k + 2))%Z with (k + 3)%Z in U4, W4 by lia.
  assert (RX := close_add (k + 3) 0 (B2R (vx (s_origin sg))) _ (px f - px o) (vx (s_origin sg)) x ltac:(lia) (close_exact _ _ O1 (Rle_trans _ _ _ O3 B3)) (conj U2 (conj U4 U3))).
  assert (RY := close_add (k + 3) 0 (B2R (vy (s_origin sg))) _ (py f - py o) (vy (s_origin sg)) y ltac:(lia) (close_exact _ _ O2 (Rle_trans _ _ _ O4 B3)) (conj W2 (conj W4 W3))).
  destruct RX as (RX1 & _ & RX3). destruct RY as (RY1 & _ & RY3). split; [exact RX1|]. split; [exact RY1|].
  replace (B2R (vx (s_origin sg)) + (px f - px o)) with (px f) in RX3 by (unfold o, fpt, px; cbn [fst snd]; ring).
  replace (B2R (vy (s_origin sg)) + (py f - py o)) with (py f) in RY3 by (unfold o, fpt, py; cbn [fst snd]; ring).
  set (ee := 0 + (2 * (24 * (b * e) + 4 * b * (8 * e)) / s + bpow radix2 (k + 2 - 53)) + bpow radix2 (k + 3 + 1 - 54)) in *.
  assert (EE : ee <= 224 * (b * e) / (l * l)).
  { unfold ee. rewrite <- SL. apply (Rmult_le_reg_r s); [exact PS|]. replace (224 * (b * e) / s * s) with (224 * (b * e)) by (field; lra).
    replace (bpow radix2 (k + 2 - 53)) with (2 * bpow radix2 (k - 52)) by (rewrite <- bp2; f_equal; lia). replace (bpow radix2 (k + 3 + 1 - 54)) with (4 * bpow radix2 (k - 52)) by (change 4 with (bpow radix2 2); rewrite <- bpow_plus; f_equal; lia).
    replace ((0 + (2 * (24 * (b * e) + 4 * b * (8 * e)) / s + 2 * bpow radix2 (k - 52)) + 4 * bpow radix2 (k - 52)) * s) with (112 * (b * e) + 6 * (bpow radix2 (k - 52) * s)) by (field; lra).
    assert (KS : bpow radix2 (k - 52) * s <= 16 * (b * e)).
    { replace (b * e) with (bpow radix2 (k - 52) * (b * b)) by (unfold b, e; rewrite <- !bpow_plus; f_equal; lia). replace (16 * (bpow radix2 (k - 52) * (b * b))) with (bpow radix2 (k - 52) * (4 * b * (4 * b))) by ring.
      apply Rmult_le_compat_l; [apply bpow_ge_0|]. rewrite SL. apply Rmult_le_compat; lra. }
    lra. }
  match goal with |- edist (fpt ?x) q <= _ => set (w := x) end. assert (ED : edist (fpt w) f <= 2 * ee) by (unfold edist, psub; apply norm_le; assumption).
  pose proof (edist_triangle (fpt w) f q) as TR. assert (X : 2 * (224 * (b * e) / (l * l)) + 64 * (b * e) / (l * l) = 512 * (b * e) / (l * l)) by (field; lra). lra.
Qed.

(** ** Distance *)
(** What is asked of the C library: squares as in C136, and never negative. *)
Definition pow_square (L : libm) : Prop := pow_accurate L /\ forall x : F, is_finite x = true -> 0 <= B2R (lm_pow L x (F_of_Z 2)).
Lemma powi_eq L (x p : F) : @npowi F (NumF L) x 2 = Ok p -> p = lm_pow L x (F_of_Z 2).
Proof.
  cbn [npowi NumF]. unfold F_powi. change (is_finite (F_of_Z 2)) with true. cbv iota. set (r := lm_pow L x (F_of_Z 2)). destruct (is_finite x); [|congruence]. destruct (is_nan r); [discriminate|]. destruct (F_is_inf r); [discriminate|congruence].
Qed.
Lemma rnd_nonneg x : 0 <= x -> 0 <= rnd64 x.
Proof. intros H. rewrite <- (rnd_id 0) by apply generic_format_0. now apply rnd_le. Qed.
Lemma dist2_pos L (a b : vec F) : pow_square L -> is_finite (vx a) = true -> is_finite (vy a) = true -> is_finite (vx b) = true -> is_finite (vy b) = true ->
  let D := edist (pt (rvec a)) (pt (rvec b)) in D <= bpow radix2 500 ->
  exists q : F, @Vector2D_dist2 F (NumF L) a b = Ok q /\ is_finite q = true /\ 0 <= B2R q /\ Rabs (B2R q - D * D) <= 6 * u * (D * D) + bpow radix2 (-1070).
Proof.
  intros [P PP] A1 A2 B1 B2 D HD. destruct (dist2_abs L a b P A1 A2 B1 B2 HD) as (q & Q1 & Q2 & Q3). exists q. split; [exact Q1|]. split; [exact Q2|]. split; [|exact Q3].
  destruct (diff_le a b) as [X Y]. fold D in X, Y.
  destruct (powi_acc L (vx a) (vx b) P A1 B1 ltac:(lra)) as (p1 & P1 & P2 & _). destruct (powi_acc L (vy a) (vy b) P A2 B2 ltac:(lra)) as (p2 & R1 & R2 & _).
  assert (NB : forall x y : F, is_finite x = true -> is_finite y = true -> Rabs (B2R x - B2R y) <= bpow radix2 500 -> is_finite (Bminus mode_NE x y) = true).
  { intros x y Fx Fy H. destruct (rnd_err _ 500 ltac:(lia) H) as [_ K]. apply F_sub; try assumption. now apply (finite_lt 500). }
  assert (Z1 := powi_eq _ _ _ P1). assert (Z2 := powi_eq _ _ _ R1). cbn [nsub NumF] in Z1, Z2.
  assert (G1 := PP _ (NB _ _ A1 B1 ltac:(lra))). assert (G2 := PP _ (NB _ _ A2 B2 ltac:(lra))). rewrite <- Z1 in G1. rewrite <- Z2 in G2.
  unfold Vector2D_dist2 in Q1. rewrite P1 in Q1. cbn [bind] in Q1. rewrite R1 in Q1. cbn [bind nadd NumF] in Q1. injection Q1 as <-.
  generalize (Bplus_correct 53 1024 _ _ mode_NE p1 p2 P2 R2). change (round radix2 _ _ _) with (rnd64 (B2R p1 + B2R p2)). destruct (Rlt_bool _ _); [intros (E & _); rewrite E; apply rnd_nonneg; lra|].
  intros (E & _). destruct (Bplus mode_NE p1 p2); try discriminate; try (cbn; lra).
Qed.
Lemma sqrt_acc q D : 0 <= q -> 0 <= D -> Rabs (q - D * D) <= 6 * u * (D * D) + bpow radix2 (-1070) -> Rabs (rnd64 (sqrt q) - D) <= bpow radix2 (-50) * D + bpow radix2 (-490).
Proof.
  intros Hq HD H. pose proof u_pos as HU. assert (U1 : u <= / 1024) by (change u with (bpow radix2 (-53)); change (/ 1024) with (bpow radix2 (-10)); apply bpow_le; lia).
  assert (S0 := sqrt_pos q). assert (SS := sqrt_sqrt q Hq). set (x := sqrt q) in *.
  assert (G : Rabs (x - D) <= 6 * u * D + bpow radix2 (-499)).
  { destruct (Rle_lt_dec (bpow radix2 (-500)) D) as [C|C].
    - assert (PD : 0 < D) by (pose proof (bpow_gt_0 radix2 (-500)); lra). apply (Rmult_le_reg_r D); [exact PD|].
      apply Rle_trans with (Rabs (q - D * D)).
      + replace (q - D * D) with ((x - D) * (x + D)) by (rewrite <- SS; ring). rewrite Rabs_mult. apply Rmult_le_compat_l; [apply Rabs_pos|]. rewrite Rabs_pos_eq; lra.
      + eapply Rle_trans; [exact H|]. rewrite Rmult_plus_distr_r. apply Rplus_le_compat; [lra|]. apply Rle_trans with (bpow radix2 (-499) * bpow radix2 (-500)); [rewrite <- bpow_plus; apply bpow_le; lia|]. apply Rmult_le_compat_l; [apply bpow_ge_0|exact C].
    - assert (Q : q <= bpow radix2 (-499) * bpow radix2 (-499)).
      { apply Rabs_le_inv in H. assert (D2 : D * D <= bpow radix2 (-500) * bpow radix2 (-500)) by (apply Rmult_le_compat; lra). rewrite <- bpow_plus in *. change (-499 + -499)%Z with (1 + (1 + (-500 + -500)))%Z. rewrite !bp2.
        assert (bpow radix2 (-1070) <= bpow radix2 (-500 + -500)) by (apply bpow_le; lia). assert (0 <= D * D) by nra. assert (6 * u * (D * D) <= D * D) by nra. lra. }
      assert (X : x <= bpow radix2 (-499)). { unfold x. rewrite <- (sqrt_square (bpow radix2 (-499))) by apply bpow_ge_0. now apply sqrt_le_1_alt. }
      assert (D <= bpow radix2 (-499)) by (apply Rle_trans with (bpow radix2 (-500)); [lra|apply bpow_le; lia]). assert (0 <= 6 * u * D) by (apply Rmult_le_pos; lra). apply Rabs_le. lra. }
  pose proof (rnd_rel x) as RR. rewrite (Rabs_pos_eq x) in RR by exact S0.
  replace (bpow radix2 (-50)) with (8 * u) by (change 8 with (bpow radix2 3); change u with (bpow radix2 (-53)); rewrite <- bpow_plus; reflexivity).
  apply Rabs_le_inv in G. assert (XB : u * x <= u * (2 * D + bpow radix2 (-499))) by (apply Rmult_le_compat_l; [lra|]; nra).
  assert (T1 : u * bpow radix2 (-499) <= bpow radix2 (-499)) by (pose proof (bpow_gt_0 radix2 (-499)); nra).
  assert (T2 : bpow radix2 (-1075) <= bpow radix2 (-499)) by (apply bpow_le; lia). assert (T3 : bpow radix2 (-490) = 512 * bpow radix2 (-499)) by (change 512 with (bpow radix2 9); rewrite <- bpow_plus; reflexivity).
  pose proof (bpow_gt_0 radix2 (-499)). apply Rabs_le_inv in RR. apply Rabs_le. lra.
Qed.
(** C145: dist of a segment to a point at true distance d *)
Theorem C145_dist_F : forall (L : libm) (k : Z) (s : seg F) (p : vec F) (d : R), pow_square L -> (-200 <= k <= 200)%Z -> within k (s_origin s) -> within k (s_terminal s) -> within k p ->
  let o := fpt (s_origin s) in let t := fpt (s_terminal s) in let l := edist o t in bpow radix2 (k - 45) <= l -> is_min_dist (on_seg o t) (fpt p) d ->
  exists r, @Segment2D_dist F (NumF L) s (VVec p) = Ok r /\ is_finite r = true /\ Rabs (B2R r - d) <= bpow radix2 (2 * k - 44) / l.
Proof.
  intros L k sg p d PW Hk WO WT WP o t l HL MD.
  set (b := bpow radix2 k). set (e := bpow radix2 (k - 54)). assert (PB : 0 < b) by apply bpow_gt_0. assert (PE : 0 < e) by apply bpow_gt_0.
  assert (ES : bpow radix2 (k - 45) = 512 * e) by (unfold e; replace (k - 45)%Z with (9 + (k - 54))%Z by lia; now rewrite bpow_plus). rewrite ES in HL.
  assert (EB : b = IZR (2 ^ 54) * e) by (unfold b, e; change (IZR (2 ^ 54)) with (bpow radix2 54); rewrite <- bpow_plus; f_equal; lia). change (IZR (2 ^ 54)) with 18014398509481984 in EB.
  assert (PL : 0 < l) by lra.
  destruct (within_pts k _ WO) as [OX OY]. destruct (within_pts k _ WT) as [TX TY]. destruct (within_pts k _ WP) as [PX PY]. fold b in OX, OY, TX, TY, PX, PY. fold o in OX, OY. fold t in TX, TY.
  assert (LB : l <= 4 * b) by (apply edist_box; assumption).
  assert (DO : edist (fpt p) o <= 4 * b) by (apply edist_box; assumption). assert (DT : edist (fpt p) t <= 4 * b) by (apply edist_box; assumption).
  assert (EQ := seg_min o t (fpt p) PL d MD). set (T := dot (psub t o) (psub (fpt p) o)) in *. assert (SL := seg_ll o t). fold l in SL. set (s := norm2 (psub t o)) in *. set (q := lerp o t (clamp (T / s))) in *.
  assert (PBE : 0 < b * e) by (apply Rmult_lt_0_compat; assumption).
  assert (BE : forall j, bpow radix2 (2 * k - 54 + j) = bpow radix2 j * (b * e)) by (intros j; unfold b, e; rewrite <- !bpow_plus; f_equal; lia).
  assert (TC := dot_close L k _ _ _ _ Hk WT WO WP WO). fold o t in TC. fold T in TC. replace (2 * k - 49)%Z with (2 * k - 54 + 5)%Z in TC by lia. rewrite BE in TC. change (bpow radix2 5) with 32 in TC.
  assert (AC := area_close L k _ _ _ ltac:(lia) WO WT WP). change (side (pt (rvec (s_origin sg))) (pt (rvec (s_terminal sg))) (pt (rvec p))) with (cross (psub t o) (psub (fpt p) o)) in AC. replace (2 * k - 49)%Z with (2 * k - 54 + 5)%Z in AC by lia. rewrite BE in AC. change (bpow radix2 5) with 32 in AC.
  pose proof WO as (O1 & O2 & _). pose proof WT as (V1 & V2 & _). pose proof WP as (W1 & W2 & _).
  assert (B500 : 4 * b <= bpow radix2 500) by (unfold b; change 4 with (bpow radix2 2); rewrite <- bpow_plus; apply bpow_le; lia).
  assert (E480 : bpow radix2 (-480) <= e) by (unfold e; apply bpow_le; lia).
  (* the computed length *)
  destruct (C136_dist_F L (s_origin sg) (s_terminal sg) (proj1 PW) O1 O2 V1 V2) as [LEN _].
  change (edist (pt (rvec (s_origin sg))) (pt (rvec (s_terminal sg)))) with l in LEN. destruct LEN as (_ & lh & _ & _ & _ & L1 & L2 & L3); [lra|].
  assert (L3' : Rabs (B2R lh - l) <= 32 * e).
  { eapply Rle_trans; [exact L3|]. apply Rle_trans with (bpow radix2 (-51) * (4 * b)); [apply Rmult_le_compat_l; [apply bpow_ge_0|exact LB]|].
    right. unfold b, e. replace (k - 54)%Z with (-54 + k)%Z by lia. rewrite bpow_plus. change (-51)%Z with (3 + -54)%Z. rewrite (bpow_plus radix2 3). change (bpow radix2 3) with 8. ring. }
  pose proof L3' as L4. apply Rabs_le_inv in L4.
  assert (E3 : bpow radix2 (k + 3) = 8 * b) by (replace (k + 3)%Z with (3 + k)%Z by lia; now rewrite bpow_plus).
  assert (LC : close (k + 3) (32 * e) l lh) by (split; [exact L2|split; [rewrite E3; apply Rabs_le; lra|exact L3']]).
  assert (LA : Rabs l <= bpow radix2 (k + 3)) by (rewrite E3, Rabs_pos_eq; lra). assert (LL := close_mul (k + 3) (k + 3) _ _ _ _ _ _ ltac:(lia) LA LC LC).
  rewrite E3 in LL. replace (k + 3 + (k + 3) - 54)%Z with (2 * k - 54 + 6)%Z in LL by lia. rewrite BE in LL. change (bpow radix2 6) with 64 in LL. destruct LL as (LL1 & _ & LL3).
  destruct TC as (T1 & _ & T3). apply Rabs_le_inv in T3, LL3.
  assert (FIN : bpow radix2 (2 * k - 44) / l = 1024 * (b * e) / l) by (replace (2 * k - 44)%Z with (2 * k - 54 + 10)%Z by lia; now rewrite BE). rewrite FIN.
  cbn [Segment2D_dist]. unfold Segment2D_dist_point, Segment2D_length. rewrite L1. cbn [bind]. cbn [neqb nleb nmul NumF]. destruct (F_of_Z_exact 0 eq_refl) as [Z1 Z2]. change (@nlit F (NumF L) 0 1) with (F_of_Z 0).
  rewrite eqb_F, Z1 by assumption. rewrite Req_bool_false by lra. set (Th := @Vector2D_inner_product F (NumF L) _ _) in *. rewrite !leb_F by assumption. rewrite Z1.
  assert (DM : forall x, 0 <= x -> forall c, x * l <= c -> x <= c / l).
  { intros x X0 c H. apply (Rmult_le_reg_r l); [exact PL|]. replace (c / l * l) with c by (field; lra). exact H. }
  destruct (Rle_bool 0 (B2R Th) && Rle_bool (B2R Th) (B2R (Bmult mode_NE lh lh))) eqn:CM.
  - apply andb_true_iff in CM. destruct CM as [CM1 CM2]. revert CM1 CM2. case Rle_bool_spec; [|discriminate]. intros CM1 _. case Rle_bool_spec; [|discriminate]. intros CM2 _.
    set (f := lerp o t (T / s)). assert (FQ : edist f q <= 608 * (b * e) / l) by (apply (near_foot o t (fpt p) PL (608 * (b * e))); fold T s; lra).
    assert (FD := foot_dist o t (fpt p) PL). fold T s f l in FD. set (A := cross (psub t o) (psub (fpt p) o)) in *. destruct AC as (A1 & _ & A3).
    assert (HB : edist (fpt p) f <= 4 * b).
    { eapply Rle_trans; [|exact DO]. apply (foot_le o t (fpt p) PL). }
    assert (BL : b * (512 * e) <= b * l) by (apply Rmult_le_compat_l; lra). assert (AL : Rabs l = l) by (apply Rabs_pos_eq; lra).
    assert (E2 : bpow radix2 (k + 2) = 4 * b) by (replace (k + 2)%Z with (2 + k)%Z by lia; now rewrite bpow_plus).
    destruct (quot_close (k + 2) (32 * (b * e)) (32 * e) A l (A / l) _ lh ltac:(lia) A1 L2 A3 L3') as (z & Y1 & Y2 & Y3 & _); rewrite ?E2, ?AL; try lra.
    { field. lra. }
    { unfold Rdiv. rewrite Rabs_mult, Rabs_inv, AL. fold (Rabs A / l). rewrite <- FD. exact HB. }
    rewrite E2, AL in Y3. cbn [ndiv NumF]. rewrite Y1. cbn [bind nabs NumF]. eexists. split; [reflexivity|]. rewrite is_finite_Babs, B2R_Babs. split; [exact Y2|].
    assert (R1 : Rabs (Rabs (B2R z) - edist (fpt p) f) <= 352 * (b * e) / l).
    { rewrite FD. replace (Rabs A / l) with (Rabs (A / l)) by (unfold Rdiv; now rewrite Rabs_mult, Rabs_inv, AL). eapply Rle_trans; [apply Rabs_triang_inv2|]. eapply Rle_trans; [exact Y3|].
      replace (bpow radix2 (k + 2 - 53)) with (8 * e) by (unfold e; replace (k + 2 - 53)%Z with (3 + (k - 54))%Z by lia; now rewrite bpow_plus).
      assert (8 * e <= 32 * (b * e) / l) by (apply DM; [lra|]; replace (32 * (b * e)) with (8 * e * (4 * b)) by ring; apply Rmult_le_compat_l; lra).
      replace (2 * (32 * (b * e) + 4 * b * (32 * e)) / l) with (320 * (b * e) / l) by (field; lra). replace (352 * (b * e) / l) with (320 * (b * e) / l + 32 * (b * e) / l) by (field; lra). lra. }
    pose proof (edist_triangle (fpt p) f q) as TR1. pose proof (edist_triangle (fpt p) q f) as TR2. rewrite (edist_sym q f) in TR2. rewrite <- EQ in TR1, TR2.
    assert (352 * (b * e) / l + 608 * (b * e) / l <= 1024 * (b * e) / l) by (apply DM; [|replace ((352 * (b * e) / l + 608 * (b * e) / l) * l) with (960 * (b * e)) by (field; lra); lra]; apply Rplus_le_le_0_compat; (apply Rmult_le_pos; [lra|left; now apply Rinv_0_lt_compat])).
    apply Rabs_le_inv in R1. apply Rabs_le. lra.
  - assert (NEAR : exists m, (m = o \/ m = t) /\ edist m q <= 608 * (b * e) / l).
    { apply andb_false_iff in CM. destruct CM as [CM|CM]; revert CM; case Rle_bool_spec; try discriminate; intros CM _.
      - exists o. split; [now left|]. apply (near_o o t (fpt p) PL (608 * (b * e))); fold T; lra.
      - exists t. split; [now right|]. apply (near_t o t (fpt p) PL (608 * (b * e))); fold T s; lra. }
    destruct (dist2_pos L (s_origin sg) p PW O1 O2 W1 W2) as (q1 & G1 & G2 & G3 & G4); [change (edist o (fpt p) <= bpow radix2 500); rewrite edist_sym; lra|].
    destruct (dist2_pos L (s_terminal sg) p PW V1 V2 W1 W2) as (q2 & H1 & H2 & H3 & H4); [change (edist t (fpt p) <= bpow radix2 500); rewrite edist_sym; lra|].
    change (edist (pt (rvec (s_origin sg))) (pt (rvec p))) with (edist o (fpt p)) in G4. change (edist (pt (rvec (s_terminal sg))) (pt (rvec p))) with (edist t (fpt p)) in H4. rewrite (edist_sym o) in G4. rewrite (edist_sym t) in H4.
    assert (G5 := sqrt_acc _ _ G3 (edist_nonneg _ _) G4). assert (H5 := sqrt_acc _ _ H3 (edist_nonneg _ _) H4).
    rewrite G1. cbn [bind]. rewrite H1. cbn [bind]. set (m := @nmin F (NumF L) q1 q2).
    assert (MM : is_finite m = true /\ 0 <= B2R m /\ B2R m <= B2R q1 /\ B2R m <= B2R q2 /\ (m = q1 \/ m = q2)).
    { unfold m, nmin. cbn [nltb NumF]. rewrite ltb_F by assumption. case Rlt_bool_spec; intros C; repeat split; try assumption; try lra; auto. }
    destruct MM as (M1 & M2 & M3 & M4 & M5). destruct (F_root L m M1 M2) as (r & R1 & R2 & R3). exists r. split; [exact R1|]. split; [exact R2|].
    set (eta := bpow radix2 (-50) * (4 * b) + bpow radix2 (-490)).
    assert (ET : forall x, 0 <= x <= 4 * b -> bpow radix2 (-50) * x + bpow radix2 (-490) <= eta) by (intros x Hx; unfold eta; apply Rplus_le_compat_r; apply Rmult_le_compat_l; [apply bpow_ge_0|lra]).
    pose proof (ET _ (conj (edist_nonneg (fpt p) o) DO)) as ETO. pose proof (ET _ (conj (edist_nonneg (fpt p) t) DT)) as ETT.
    assert (RM1 : B2R r <= rnd64 (sqrt (B2R q1))) by (rewrite R3; apply rnd_le, sqrt_le_1_alt; exact M3). assert (RM2 : B2R r <= rnd64 (sqrt (B2R q2))) by (rewrite R3; apply rnd_le, sqrt_le_1_alt; exact M4).
    assert (EE : eta <= 300 * (b * e) / l).
    { assert (bpow radix2 (-490) <= e) by (unfold e; apply bpow_le; lia).
      assert (bpow radix2 (-50) * (4 * b) = 64 * e). { unfold b, e. replace (k - 54)%Z with (-54 + k)%Z by lia. rewrite bpow_plus. change (-50)%Z with (4 + -54)%Z. rewrite (bpow_plus radix2 4). change (bpow radix2 4) with 16. ring. }
      apply DM; [unfold eta; pose proof (bpow_ge_0 radix2 (-490)); lra|]. apply Rle_trans with (65 * e * (4 * b)); [apply Rmult_le_compat; unfold eta; pose proof (bpow_ge_0 radix2 (-490)); lra|]. lra. }
    destruct MD as [_ MD]. assert (DO' : d <= edist (fpt p) o) by (apply MD; exists 0; split; [lra|]; unfold lerp; rewrite !Rmult_0_l, !Rplus_0_r; unfold px, py; now destruct o).
    assert (DT' : d <= edist (fpt p) t) by (apply MD; exists 1; split; [lra|]; unfold lerp, px, py; destruct t, o; cbn [fst snd]; f_equal; ring).
    assert (UP : B2R r <= d + eta + 608 * (b * e) / l).
    { destruct NEAR as (m' & [-> | ->] & NR); [pose proof (edist_triangle (fpt p) q o) as TR; rewrite (edist_sym q o), <- EQ in TR|pose proof (edist_triangle (fpt p) q t) as TR; rewrite (edist_sym q t), <- EQ in TR]; apply Rabs_le_inv in G5, H5; lra. }
    assert (LO : d - eta <= B2R r).
    { rewrite R3. apply Rabs_le_inv in G5, H5. destruct M5 as [-> | ->]; lra. }
    assert (300 * (b * e) / l + 608 * (b * e) / l <= 1024 * (b * e) / l) by (apply DM; [|replace ((300 * (b * e) / l + 608 * (b * e) / l) * l) with (908 * (b * e)) by (field; lra); lra]; apply Rplus_le_le_0_compat; (apply Rmult_le_pos; [lra|left; now apply Rinv_0_lt_compat])).
    assert (0 <= 608 * (b * e) / l) by (apply Rmult_le_pos; [lra|left; now apply Rinv_0_lt_compat]).
    apply Rabs_le. lra.
Qed.

Lemma pow_square_sq : pow_square libm_sq.
Proof.
  split; [exact pow_accurate_sq|]. intros x Hx. cbn [lm_pow libm_sq]. destruct (is_finite (Bmult mode_NE x x)) eqn:E.
  - generalize (Bmult_correct 53 1024 _ _ mode_NE x x). change (round radix2 _ _ _) with (rnd64 (B2R x * B2R x)). destruct Rlt_bool; intros M.
    + destruct M as [M _]. rewrite M. apply rnd_nonneg. apply Rle_0_sqr.
    + exfalso. rewrite <- is_finite_SF_B2SF, M in E. destruct (xorb _ _); discriminate E.
  - destruct (Bmult mode_NE x x); cbn; try lra. discriminate E.
Qed.
Example C145_nonvacuous : let s := mkSeg (fv 0 0) (fv 4 4) in let o := fpt (s_origin s) in let t := fpt (s_terminal s) in
  pow_square libm_sq /\ within 2 (s_origin s) /\ within 2 (s_terminal s) /\ within 2 (fv 0 4) /\ bpow radix2 (2 * 2 - 45) <= edist o t * edist o t /\ bpow radix2 (2 - 45) <= edist o t /\
  on_seg o t (2, 2) /\ (forall r, on_seg o t r -> edist (fpt (fv 0 4)) (2, 2) <= edist (fpt (fv 0 4)) r) /\ is_min_dist (on_seg o t) (fpt (fv 0 4)) (edist (fpt (fv 0 4)) (2, 2)).
Proof.
  cbn [s_origin s_terminal]. rewrite !fpt_fv by (cbn; lia). cbv zeta.
  assert (ED : edist (0, 0) (4, 4) = sqrt 32) by (unfold edist, norm, norm2, psub, px, py; cbn [fst snd]; f_equal; ring).
  assert (S : 1 <= sqrt 32) by (rewrite <- sqrt_1; apply sqrt_le_1_alt; lra).
  assert (S1 : on_seg (0, 0) (4, 4) (2, 2)) by (exists (1 / 2); split; [lra|unfold lerp, px, py; cbn [fst snd]; f_equal; lra]).
  assert (S2 : forall r, on_seg (0, 0) (4, 4) r -> edist (0, 4) (2, 2) <= edist (0, 4) r).
  { intros r (a & Ha & ->). unfold edist, norm. apply sqrt_le_1_alt. unfold norm2, psub, lerp, px, py. cbn [fst snd]. pose proof (Rle_0_sqr (a - 1 / 2)) as Q. unfold Rsqr in Q. lra. }
  split; [exact pow_square_sq|]. repeat (split; [apply within_fv; cbn; lia|]). rewrite ED. rewrite sqrt_sqrt by lra.
  split; [change 32 with (bpow radix2 5); apply bpow_le; lia|]. split; [apply Rle_trans with (bpow radix2 0); [apply bpow_le; lia|exact S]|].
  split; [exact S1|]. split; [exact S2|]. split; [exists (2, 2); split; [exact S1|reflexivity]|exact S2].
Qed.
