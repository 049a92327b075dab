(** * P_RestF: further values in doubles (C186, C187): the squared distance
    from a line, centres of boxes, rectangles given by their centre, the
    speed-limit test and the tolerant comparisons of directions *)
From Coq Require Import ZArith List Bool String Reals Lra Lia Psatz.
From Flocq Require Import Core BinarySingleNaN Plus_error Relative.
From Verif Require Import Base Types NumR NumF R_Tac Spec Spec2 Abs M_Angle M_Vector M_Line M_Rect M_Ray M_Sector M_Polygon M_Soccer
  L_Angle P_Vector P_Angle L_Float P_Float P_Robust P_VecF P_Rect P_Polygon P_Grid P_Grid2 P_Hull2 P_Line P_LineF P_AngleF P_AngleF2 P_EpsF P_RectF P_PolyF P_MatF P_SoccerF P_MeasF.
Import ListNotations.
Local Open Scope R_scope.

(** ** The squared distance from a line *)
(** C186: the square of the distance d of a point from the line through p1 and p2 *)
Theorem C186_dist2_F : forall (L : libm) (k : Z) (p1 p2 p : vec F) (d : R), (-200 <= k <= 200)%Z -> within k p1 -> within k p2 -> within k p ->
  let s := edist (fpt p1) (fpt p2) in bpow radix2 (k - 23) <= s -> is_min_dist (on_line2 (fpt p1) (fpt p2)) (fpt p) d ->
  exists l r, @Line2D_init F (NumF L) [VVec p1; VVec p2] [] = Ok l /\ @Line2D_dist2 F (NumF L) l p = Ok r /\ is_finite r = true /\
    Rabs (B2R r - d * d) <= bpow radix2 (4 * k - 42) / (s * s).
Proof.
  intros L k p1 p2 p d Hk W1 W2 W3 s S1 MD. exists (@Line2D_of_points F (NumF L) p1 p2).
  assert (X := lclose_points L k p1 p2 Hk W1 W2). set (l := @Line2D_of_points F (NumF L) p1 p2) in *.
  set (A := - (py (fpt p2) - py (fpt p1))) in *. set (B := px (fpt p2) - px (fpt p1)) in *. set (C := (py (fpt p2) - py (fpt p1)) * px (fpt p1) - B * py (fpt p1)) in *.
  destruct X as (A1 & B1 & C1 & A2 & B2 & C2).
  set (e := bpow radix2 (k - 54)). set (b := bpow radix2 k). assert (PE : 0 < e) by apply bpow_gt_0. assert (PB : 0 < b) by apply bpow_gt_0.
  assert (EB : b = IZR (2 ^ 54) * e) by (unfold b, e; change (IZR (2 ^ 54)) with (bpow radix2 54); rewrite <- bpow_plus; f_equal; lia). change (IZR (2 ^ 54)) with 18014398509481984 in EB.
  assert (P0 : 0 < s) by (pose proof (bpow_gt_0 radix2 (k - 23)); lra).
  assert (SS : 256 * (b * e) <= s * s).
  { replace (256 * (b * e)) with (bpow radix2 (k - 23) * bpow radix2 (k - 23)) by (unfold b, e; change 256 with (bpow radix2 8); rewrite <- !bpow_plus; f_equal; lia).
    pose proof (bpow_ge_0 radix2 (k - 23)). apply Rmult_le_compat; lra. }
  assert (EN : s = norm (A, B)). { unfold s, edist, norm. f_equal. unfold norm2, psub, A, B, px, py. cbn [fst snd]. ring. }
  assert (AB : A * A + B * B = s * s). { rewrite EN. unfold norm. rewrite sqrt_sqrt; unfold norm2, px, py; cbn [fst snd]; [reflexivity|nra]. }
  assert (DQ : d = Rabs ((A * px (fpt p) + B * py (fpt p) + C) / s)).
  { apply (min_dist_eq (on_line2 (fpt p1) (fpt p2)) (fpt p)); [exact MD|]. assert (NE : fpt p1 <> fpt p2) by (intros K; unfold s in P0; rewrite K, edist_refl in P0; lra).
    assert (LD := line_dist_min A B C (fpt p) ltac:(nra)). replace (sqrt (A * A + B * B)) with s in LD by (rewrite AB; symmetry; apply sqrt_square; lra).
    destruct LD as [(q & Q1 & Q2) Q3]. assert (EQ : forall r, on_line A B C r <-> on_line2 (fpt p1) (fpt p2) r).
    { intros r. exact (line2_coef _ _ r NE). }
    split; [exists q; split; [now apply EQ|exact Q2]|]. intros r Hr. apply Q3. now apply EQ. }
  set (N := A * px (fpt p) + B * py (fpt p) + C) in *.
  (* the numerator *)
  destruct W3 as (F1 & F2 & F3 & F4).
  destruct (coef_prod k A (l_a l) (vx p) Hk A2 A1 F1 F3) as [PX PXb]. destruct (coef_prod k B (l_b l) (vy p) Hk B2 B1 F2 F4) as [PY PYb].
  assert (SU := close_add (2 * k + 1) _ _ _ _ _ _ ltac:(lia) PX PY). replace (2 * k + 1 + 1)%Z with (2 * k + 2)%Z in SU by lia.
  assert (NU := close_add (2 * k + 2) _ _ _ _ _ _ ltac:(lia) SU C1). replace (2 * k + 2 + 1)%Z with (2 * k + 3)%Z in NU by lia.
  change (A * B2R (vx p) + B * B2R (vy p) + C) with N in NU.
  set (dl := Bplus mode_NE (Bplus mode_NE (Bmult mode_NE (l_a l) (vx p)) (Bmult mode_NE (l_b l) (vy p))) (l_c l)) in *.
  assert (be : b * e = bpow radix2 (2 * k - 54)) by (unfold b, e; rewrite <- bpow_plus; f_equal; lia).
  assert (NU' : close (2 * k + 3) (36 * (b * e)) N dl).
  { eapply close_weaken; [|exact NU]. rewrite be.
    replace (2 * k - 52)%Z with (2 + (2 * k - 54))%Z by lia. replace (2 * k - 50)%Z with (4 + (2 * k - 54))%Z by lia. replace (2 * k + 2 - 54)%Z with (2 + (2 * k - 54))%Z by lia. replace (2 * k + 3 - 54)%Z with (3 + (2 * k - 54))%Z by lia.
    rewrite !(bpow_plus radix2 _ (2 * k - 54)). change (bpow radix2 4) with 16. change (bpow radix2 2) with 4. change (bpow radix2 3) with 8. lra. }
  assert (E3 : bpow radix2 (2 * k + 3) = 8 * (b * b)) by (unfold b; change 8 with (bpow radix2 3); rewrite <- !bpow_plus; f_equal; lia).
  assert (NB : Rabs N <= bpow radix2 (2 * k + 3)).
  { replace (bpow radix2 (2 * k + 1)) with (2 * (b * b)) in PXb, PYb by (unfold b; change 2 with (bpow radix2 1) at 1; rewrite <- !bpow_plus; f_equal; lia).
    replace (bpow radix2 (2 * k + 2)) with (4 * (b * b)) in C2 by (unfold b; change 4 with (bpow radix2 2); rewrite <- !bpow_plus; f_equal; lia).
    rewrite E3. unfold N, fpt, px, py in *. cbn [fst snd] in *. apply Rabs_le_inv in PXb, PYb, C2. apply Rabs_le. lra. }
  assert (N2 := close_mul (2 * k + 3) (2 * k + 3) _ _ _ _ _ _ ltac:(lia) NB NU' NU').
  assert (N2' : Rabs (B2R (Bmult mode_NE dl dl) - N * N) <= 640 * (b * b * (b * e))).
  { destruct N2 as (_ & _ & N2). eapply Rle_trans; [exact N2|]. rewrite E3.
    replace (bpow radix2 (2 * k + 3 + (2 * k + 3) - 54)) with (64 * (b * b * (b * e))) by (unfold b, e; change 64 with (bpow radix2 6); rewrite <- !bpow_plus; f_equal; lia). lra. }
  (* the denominator *)
  assert (E1 : bpow radix2 (k + 1) = 2 * b) by (rewrite Z.add_comm, bp2; reflexivity).
  assert (E53 : bpow radix2 (k - 53) = 2 * e) by (unfold e; replace (k - 53)%Z with (1 + (k - 54))%Z by lia; now rewrite bp2).
  assert (DA := close_mul (k + 1) (k + 1) _ _ _ _ _ _ ltac:(lia) A2 A1 A1). assert (DB := close_mul (k + 1) (k + 1) _ _ _ _ _ _ ltac:(lia) B2 B1 B1).
  assert (DD := close_add (k + 1 + (k + 1)) _ _ _ _ _ _ ltac:(lia) DA DB). rewrite AB in DD. rewrite E1, E53 in DD.
  set (dn := Bplus mode_NE (Bmult mode_NE (l_a l) (l_a l)) (Bmult mode_NE (l_b l) (l_b l))) in *.
  assert (DD' : Rabs (B2R dn - s * s) <= 32 * (b * e)).
  { destruct DD as (_ & _ & DD). eapply Rle_trans; [exact DD|].
    replace (bpow radix2 (k + 1 + (k + 1) - 54)) with (4 * (b * e)) by (rewrite be; change 4 with (bpow radix2 2); rewrite <- bpow_plus; f_equal; lia).
    replace (bpow radix2 (k + 1 + (k + 1) + 1 - 54)) with (8 * (b * e)) by (rewrite be; change 8 with (bpow radix2 3); rewrite <- bpow_plus; f_equal; lia). lra. }
  assert (SB : s <= 4 * b).
  { rewrite EN. rewrite E1 in A2, B2. pose proof (norm_le A B (2 * b) A2 B2). lra. }
  assert (D0 : 0 <= d) by (rewrite DQ; apply Rabs_pos).
  assert (DN : d <= 4 * b).
  { destruct MD as [_ MD]. eapply Rle_trans; [apply (MD (fpt p1)); exists 0; unfold lerp, px, py; rewrite !Rmult_0_l, !Rplus_0_r; now destruct (fpt p1)|].
    destruct W1 as (_ & _ & G1 & G2). fold b in G1, G2, F3, F4. unfold edist, psub. apply Rle_trans with (2 * (2 * b)); [|lra]. apply norm_le; unfold fpt, px, py; cbn [fst snd]; (eapply sum_abs; [eassumption|eassumption|lra]). }
  assert (DS : d * d <= 16 * (b * b)) by (replace (16 * (b * b)) with (4 * b * (4 * b)) by ring; apply Rmult_le_compat; lra).
  assert (DE : d * d = N * N / (s * s)). { rewrite DQ, <- Rabs_mult, Rabs_pos_eq by apply Rle_0_sqr. field. lra. }
  assert (E4 : bpow radix2 (2 * k + 4) = 16 * (b * b)) by (unfold b; change 16 with (bpow radix2 4); rewrite <- !bpow_plus; f_equal; lia).
  assert (PBB : 0 < b * b) by (apply Rmult_lt_0_compat; assumption). assert (PBE : 0 < b * e) by (apply Rmult_lt_0_compat; assumption). assert (PS : 0 < s * s) by (apply Rmult_lt_0_compat; assumption).
  assert (PB3 : 0 < b * b * (b * e)) by (apply Rmult_lt_0_compat; assumption).
  assert (BS : b * b * (256 * (b * e)) <= b * b * (s * s)) by (apply Rmult_le_compat_l; lra).
  destruct (quot_close (2 * k + 4) (640 * (b * b * (b * e))) (32 * (b * e)) (N * N) (s * s) (d * d) (Bmult mode_NE dl dl) dn ltac:(lia)) as (z & Z1 & Z2 & Z3 & _); try assumption.
  { apply N2. } { apply DD. }
  { rewrite DE. field. lra. }
  { rewrite E4, Rabs_pos_eq; [exact DS|apply Rle_0_sqr]. }
  { rewrite Rabs_pos_eq; lra. }
  { rewrite Rabs_pos_eq; lra. }
  { rewrite E4, Rabs_pos_eq by lra. lra. }
  rewrite E4, (Rabs_pos_eq (s * s)) in Z3 by lra.
  exists z. split; [reflexivity|]. split; [exact Z1|]. split; [exact Z2|]. eapply Rle_trans; [exact Z3|].
  replace (bpow radix2 (4 * k - 42)) with (4096 * (b * b * (b * e))) by (unfold b, e; change 4096 with (bpow radix2 12); rewrite <- !bpow_plus; f_equal; lia).
  apply (Rmult_le_reg_r (s * s)); [exact PS|]. rewrite Rmult_plus_distr_r. unfold Rdiv. rewrite !(Rmult_assoc _ (/ (s * s)) (s * s)), Rinv_l, !Rmult_1_r by lra.
  replace (bpow radix2 (2 * k + 4 - 53)) with (32 * (b * e)) by (rewrite be; change 32 with (bpow radix2 5); rewrite <- bpow_plus; f_equal; lia).
  assert (SQ : s * s <= 16 * (b * b)) by (replace (16 * (b * b)) with (4 * b * (4 * b)) by ring; apply Rmult_le_compat; lra).
  assert (32 * (b * e) * (s * s) <= 32 * (b * e) * (16 * (b * b))) by (apply Rmult_le_compat_l; lra). lra.
Qed.

(** ** Boxes and their centres *)
Lemma fb_close k x : fbound k x -> close k 0 (B2R x) x.
Proof. intros [A B]. now apply close_exact. Qed.
Lemma box_far k a b : (-900 <= k <= 890)%Z -> fbound k a -> fbound k b -> B2R a <= B2R b ->
  let y := Bplus mode_NE a (Babs (Bminus mode_NE b a)) in close (k + 2) (bpow radix2 (k - 51)) (B2R b) y /\ B2R a <= B2R y.
Proof.
  intros Hk [A1 A2] [B1 B2] H y. pose proof (close_sub k 0 (B2R b) 0 (B2R a) b a ltac:(lia) (close_exact k b B1 B2) (close_exact k a A1 A2)) as (D1 & D2 & D3).
  destruct (F_abs (Bminus mode_NE b a)) as [E1 E2].
  assert (C : close (k + 1) (bpow radix2 (k - 53)) (B2R b - B2R a) (Babs (Bminus mode_NE b a))).
  { split; [now rewrite E2|]. rewrite E1. split; [now rewrite Rabs_Rabsolu|]. replace (k + 1 - 54)%Z with (k - 53)%Z in D3 by lia.
    rewrite <- (Rabs_pos_eq (B2R b - B2R a)) by lra. eapply Rle_trans; [apply Rabs_triang_inv2|]. lra. }
  assert (K : bpow radix2 k <= bpow radix2 (k + 1)) by (apply bpow_le; lia). split.
  - pose proof (close_add (k + 1) 0 (B2R a) _ (B2R b - B2R a) a _ ltac:(lia) (close_exact (k + 1) a A1 ltac:(lra)) C) as S.
    replace (k + 1 + 1)%Z with (k + 2)%Z in S by lia. replace (B2R a + (B2R b - B2R a)) with (B2R b) in S by ring. eapply close_weaken; [|exact S].
    replace (k + 2 - 54)%Z with (1 + (k - 53))%Z by lia. replace (k - 51)%Z with (1 + (1 + (k - 53)))%Z by lia. rewrite !bp2. pose proof (bpow_gt_0 radix2 (k - 53)). lra.
  - destruct C as (C1 & C2 & _). destruct (far_side (k + 1) a (Babs (Bminus mode_NE b a)) ltac:(lia) A1 C1 (Rle_trans _ _ _ A2 K)) as (_ & _ & G & _); [|exact G].
    rewrite E1. split; [apply Rabs_pos|]. rewrite E1, Rabs_Rabsolu in C2. exact C2.
Qed.
Lemma mid_close L k x y X Y : (-900 <= k <= 890)%Z -> close (k + 2) (bpow radix2 (k - 51)) X x -> close (k + 2) (bpow radix2 (k - 51)) Y y -> B2R x <= B2R y ->
  let m := Bmult mode_NE (Bplus mode_NE x y) (@nlit F (NumF L) 1 2) in is_finite m = true /\ Rabs (B2R m - (X + Y) / 2) <= bpow radix2 (k - 50).
Proof.
  intros Hk (X1 & X2 & X3) (Y1 & Y2 & Y3) H. destruct (mid_side L (k + 2) x y ltac:(lia) X1 Y1 X2 Y2 H) as (M1 & _ & M3). cbv zeta. split; [exact M1|].
  replace (k + 2 - 53)%Z with (k - 51)%Z in M3 by lia. replace (k - 50)%Z with (1 + (k - 51))%Z by lia. rewrite bp2. apply Rabs_le_inv in X3, Y3, M3. apply Rabs_le. lra.
Qed.
(** C186: the centre of the bounding box of a polygon, x1, x2, y1, y2 being
    the extreme coordinates of its vertices *)
Theorem C186_box_center_F : forall (L : libm) (k : Z) (vs : list (vec F)) (x1 x2 y1 y2 : R), (-900 <= k <= 890)%Z -> Forall (within k) vs ->
  (forall v, In v vs -> x1 <= px (fpt v) <= x2 /\ y1 <= py (fpt v) <= y2) ->
  (exists v, In v vs /\ px (fpt v) = x1) -> (exists v, In v vs /\ px (fpt v) = x2) -> (exists v, In v vs /\ py (fpt v) = y1) -> (exists v, In v vs /\ py (fpt v) = y2) ->
  exists c, @Polygon2D_bounding_box_center F (NumF L) vs = Ok c /\ v_valid c = true /\ is_finite (vx c) = true /\ is_finite (vy c) = true /\
    Rabs (px (fpt c) - (x1 + x2) / 2) <= bpow radix2 (k - 50) /\ Rabs (py (fpt c) - (y1 + y2) / 2) <= bpow radix2 (k - 50).
Proof.
  intros L k vs x1 x2 y1 y2 Hk W U (v1 & I1 & V1) (v2 & I2 & V2) (v3 & I3 & V3) (v4 & I4 & V4). rewrite Forall_forall in W. assert (NE : vs <> []) by (intros ->; exact I1).
  assert (UMI : forall (m : option F) x, @upd_min F (NumF L) m x = Some x \/ (exists y, m = Some y /\ @upd_min F (NumF L) m x = Some y)).
  { intros [y|] x; cbn [upd_min]; [destruct (nltb x y); eauto|eauto]. }
  assert (UMA : forall (m : option F) x, @upd_max F (NumF L) m x = Some x \/ (exists y, m = Some y /\ @upd_max F (NumF L) m x = Some y)).
  { intros [y|] x; cbn [upd_max]; [destruct (nltb y x); eauto|eauto]. }
  assert (FX : forall v, In v vs -> is_finite (vx v) = true) by (intros v I; apply (W v I)).
  assert (FY : forall v, In v vs -> is_finite (vy v) = true) by (intros v I; apply (W v I)).
  destruct (extent_F _ _ (@vx F) (@vx R) vs (upd_min_F L) UMI (fun v => eq_refl) NE FX) as (a & A1 & A2 & A3).
  destruct (extent_F _ _ (@vx F) (@vx R) vs (upd_max_F L) UMA (fun v => eq_refl) NE FX) as (b & B1 & B2 & B3).
  destruct (extent_F _ _ (@vy F) (@vy R) vs (upd_min_F L) UMI (fun v => eq_refl) NE FY) as (c & C1 & C2 & C3).
  destruct (extent_F _ _ (@vy F) (@vy R) vs (upd_max_F L) UMA (fun v => eq_refl) NE FY) as (d & D1 & D2 & D3).
  assert (HV : forall v, In v vs -> B2R (vx a) <= B2R (vx v) <= B2R (vx b) /\ B2R (vy c) <= B2R (vy v) <= B2R (vy d)).
  { destruct vs as [|v0 vs']; [easy|]. cbn [map] in A3, B3, C3, D3.
    destruct (ext_min (map rvec vs') (@vx R) (rvec v0)) as (mx & E1 & _ & M1). destruct (ext_max (map rvec vs') (@vx R) (rvec v0)) as (Mx & E2 & _ & M2).
    destruct (ext_min (map rvec vs') (@vy R) (rvec v0)) as (my & E3 & _ & M3). destruct (ext_max (map rvec vs') (@vy R) (rvec v0)) as (My & E4 & _ & M4).
    rewrite A3 in E1. rewrite B3 in E2. rewrite C3 in E3. rewrite D3 in E4. injection E1 as <-. injection E2 as <-. injection E3 as <-. injection E4 as <-.
    intros v I. apply (in_map rvec (v0 :: vs')) in I. split; split; [apply (M1 _ I)|apply (M2 _ I)|apply (M3 _ I)|apply (M4 _ I)]. }
  unfold fpt, px, py in *. cbn [fst snd] in *.
  assert (EX1 : x1 = B2R (vx a)) by (pose proof (U a A1); pose proof (HV v1 I1); lra). assert (EX2 : x2 = B2R (vx b)) by (pose proof (U b B1); pose proof (HV v2 I2); lra).
  assert (EY1 : y1 = B2R (vy c)) by (pose proof (U c C1); pose proof (HV v3 I3); lra). assert (EY2 : y2 = B2R (vy d)) by (pose proof (U d D1); pose proof (HV v4 I4); lra).
  rewrite EX1, EX2, EY1, EY2. assert (WX : forall v, In v vs -> fbound k (vx v)) by (intros v I; destruct (W v I) as (? & ? & ? & ?); now split). assert (WY : forall v, In v vs -> fbound k (vy v)) by (intros v I; destruct (W v I) as (? & ? & ? & ?); now split).
  destruct (box_far k (vx a) (vx b) Hk (WX a A1) (WX b B1)) as [G1 G2]; [apply (HV b B1)|]. destruct (box_far k (vy c) (vy d) Hk (WY c C1) (WY d D1)) as [H1 H2]; [apply (HV d D1)|].
  assert (WC : forall x, fbound k x -> close (k + 2) (bpow radix2 (k - 51)) (B2R x) x).
  { intros x [Q1 Q2]. eapply close_weaken; [|apply close_exact; [exact Q1|eapply Rle_trans; [exact Q2|apply bpow_le; lia]]]. apply bpow_ge_0. }
  destruct (mid_close L k _ _ _ _ Hk (WC _ (WX a A1)) G1 G2) as [K1 K2]. destruct (mid_close L k _ _ _ _ Hk (WC _ (WY c C1)) H1 H2) as [K3 K4].
  unfold Polygon2D_bounding_box_center, Polygon2D_get_bounding_box. rewrite A2, B2, C2, D2. cbn [bind]. eexists. split; [reflexivity|].
  unfold Rect2D_center, Rect2D_right, Rect2D_bottom, Rect2D_left, Rect2D_top, Rect2D_of_vec_size, Size2D_init, Vector2D_of_vec. cbn [r_top_left r_size sz_length sz_width vx vy V v_valid nadd nsub nabs nmul NumF].
  split; [reflexivity|]. split; [exact K1|]. split; [exact K3|]. split; [exact K2|exact K4].
Qed.
(** C186: a rectangle made from a centre (x, y), a length and a width *)
Theorem C186_from_center_F : forall (L : libm) (k : Z) (x y l w : F), (-900 <= k <= 890)%Z -> fbound k x -> fbound k y -> fbound k l -> fbound k w -> 0 <= B2R l -> 0 <= B2R w ->
  exists r, @Rect2D_from_center F (NumF L) [VNum x; VNum y; VNum l; VNum w] = Ok r /\
    B2R (sz_length (r_size r)) = B2R l /\ B2R (sz_width (r_size r)) = B2R w /\
    (let c := @Rect2D_center F (NumF L) r in is_finite (vx c) = true /\ is_finite (vy c) = true /\
      Rabs (B2R (vx c) - B2R x) <= bpow radix2 (k - 50) /\ Rabs (B2R (vy c) - B2R y) <= bpow radix2 (k - 50)).
Proof.
  intros L k x y l w Hk X Y BL BW L0 W0. destruct (half_F L) as [Q1 Q2]. set (h := @nlit F (NumF L) 1 2) in *.
  assert (G : forall a b, fbound k a -> fbound k b -> 0 <= B2R b -> let lo := Bminus mode_NE a (Bmult mode_NE b h) in let m := Bmult mode_NE (Bplus mode_NE lo (Bplus mode_NE lo (Babs b))) h in
    is_finite m = true /\ Rabs (B2R m - B2R a) <= bpow radix2 (k - 50)).
  { intros a b A B B0 lo m. assert (CH : close (-1) 0 (/ 2) h). { split; [exact Q2|]. rewrite Q1. change (bpow radix2 (-1)) with (/ 2). rewrite Rabs_pos_eq by lra. split; [lra|]. rewrite Rminus_eq_0, Rabs_R0. lra. }
    assert (CB := close_mul k (-1) _ _ _ _ _ _ ltac:(lia) (proj2 B) (fb_close k b B) CH). set (t := Bmult mode_NE b h) in *.
    assert (CB' : close k (bpow radix2 (k - 55)) (B2R b * / 2) t).
    { destruct CB as (T1 & T2 & T3). split; [exact T1|]. split; [eapply Rle_trans; [exact T2|apply bpow_le; lia]|]. eapply Rle_trans; [exact T3|]. replace (k + -1 - 54)%Z with (k - 55)%Z by lia. lra. }
    assert (CL := close_sub k _ _ _ _ _ _ ltac:(lia) (fb_close k a A) CB'). fold lo in CL.
    destruct CL as (L1 & L2 & L3). assert (FB : is_finite (Babs b) = true) by (rewrite is_finite_Babs; apply B). assert (EB : B2R (Babs b) = B2R b) by (rewrite B2R_Babs, Rabs_pos_eq; lra).
    destruct (far_side (k + 1) lo (Babs b) ltac:(lia) L1 FB L2) as (R1 & _ & R3 & R4 & R5).
    { rewrite EB. split; [exact B0|]. eapply Rle_trans; [|apply (bpow_le radix2 k (k + 1)); lia]. destruct B as [_ B]. rewrite Rabs_pos_eq in B by lra. exact B. }
    destruct (mid_side L (k + 2) lo _ ltac:(lia) L1 R1 ltac:(eapply Rle_trans; [exact L2|apply bpow_le; lia]) ltac:(replace (k + 2)%Z with (k + 1 + 1)%Z by lia; exact R4) R3) as (M1 & _ & M3).
    split; [exact M1|]. fold m in M3. change (@nlit F (NumF L) 1 2) with h in M3. fold m in M3. rewrite EB in R5.
    replace (k + 1 - 54)%Z with (2 + (k - 55))%Z in L3 by lia. replace (k + 1 - 53)%Z with (3 + (k - 55))%Z in R5 by lia. replace (k + 2 - 53)%Z with (4 + (k - 55))%Z in M3 by lia. replace (k - 50)%Z with (5 + (k - 55))%Z by lia.
    rewrite bpow_plus in L3, R5, M3 |- *. change (bpow radix2 2) with 4 in L3. change (bpow radix2 3) with 8 in R5. change (bpow radix2 4) with 16 in M3. change (bpow radix2 5) with 32.
    apply Rabs_le_inv in L3, R5, M3. apply Rabs_le. lra. }
  eexists. split; [reflexivity|]. unfold Rect2D_from_center4, Rect2D_of_nums, Size2D_init. cbn [r_size sz_length sz_width nabs NumF]. rewrite !B2R_Babs, !Rabs_pos_eq by lra. split; [reflexivity|]. split; [reflexivity|].
  destruct (G x l X BL L0) as [G1 G2]. destruct (G y w Y BW W0) as [G3 G4]. cbv zeta.
  unfold Rect2D_center, Rect2D_right, Rect2D_bottom, Rect2D_left, Rect2D_top. cbn [r_top_left r_size sz_length sz_width vx vy V nadd nsub nabs nmul NumF]. fold h. split; [exact G1|]. split; [exact G3|]. split; [exact G2|exact G4].
Qed.

(** ** Comparisons *)
Lemma rel_of_sum (x y : F) : is_finite x = true -> is_finite y = true -> Rabs (B2R x - B2R y) <= bpow radix2 900 ->
  is_finite (Bminus mode_NE x y) = true /\ Rabs (B2R (Bminus mode_NE x y) - (B2R x - B2R y)) <= / 9007199254740992 * Rabs (B2R x - B2R y).
Proof.
  intros X Y B. destruct (rnd_err _ 900 ltac:(lia) B) as [_ R2]. destruct (F_sub x y X Y) as [S1 S2]; [apply (finite_lt 900); [lia|exact R2]|].
  split; [exact S2|]. rewrite S1. pose proof (rnd_sum (B2R x) (- B2R y) (fmt_F x) (fmt_opp _ (fmt_F y))) as E. exact E.
Qed.
(** positive, of ordinary size *)
Definition positive_value (x : F) : Prop := is_finite x = true /\ bpow radix2 (-200) <= B2R x <= bpow radix2 200.
(** C187: whether a dash can exceed the speed limit *)
Theorem C187_speed_limit_F : forall (L : libm) (power rate effort decay speed_max : F), is_finite power = true -> bpow radix2 (-200) <= Rabs (B2R power) <= bpow radix2 200 ->
  positive_value rate -> positive_value effort -> positive_value speed_max -> is_finite decay = true -> 0 <= B2R decay <= 1 - bpow radix2 (-53) ->
  let gain := Rabs (B2R power) * B2R rate * B2R effort in let limit := B2R speed_max * (1 - B2R decay) in
  (limit * (1 + bpow radix2 (-49)) <= gain -> @can_over_speed_max F (NumF L) power rate effort decay speed_max = true) /\
  (gain * (1 + bpow radix2 (-49)) <= limit -> @can_over_speed_max F (NumF L) power rate effort decay speed_max = false).
Proof.
  intros L power rate effort decay speed_max P1 P2 [R1 R2] [E1 E2] [S1 S2] D1 D2 gain limit. unfold can_over_speed_max. cbn [nabs nmul nsub nltb NumF]. change (@nlit F (NumF L) 1 1) with fone.
  destruct one_F as [O1 O2]. destruct (F_abs power) as [A1 A2]. rewrite P1 in A2.
  pose proof (bpow_gt_0 radix2 (-200)) as G0. pose proof (bpow_gt_0 radix2 (-53)) as G1.
  assert (UE : u = / 9007199254740992) by reflexivity.
  assert (M1 := mul_rel (Babs power) rate (Rabs (B2R power)) (B2R rate) 0 0 A2 R1 ltac:(lra) ltac:(lra)). rewrite A1 in M1.
  destruct M1 as [M1 M2]; [rewrite Rminus_eq_0, Rabs_R0; lra|rewrite Rminus_eq_0, Rabs_R0; lra| |lra|lra|].
  { split; [eapply Rle_trans; [|apply Rmult_le_compat; [| |apply P2|apply R2]]; [rewrite <- bpow_plus; apply bpow_le; lia|lra|lra]|].
    eapply Rle_trans; [apply Rmult_le_compat; [| |apply P2|apply R2]; lra|]. rewrite <- bpow_plus. apply bpow_le. lia. }
  assert (PR : bpow radix2 (-400) <= Rabs (B2R power) * B2R rate <= bpow radix2 400).
  { change (-400)%Z with (-200 + -200)%Z. change 400%Z with (200 + 200)%Z. rewrite !bpow_plus. split; apply Rmult_le_compat; lra. }
  pose proof (bpow_gt_0 radix2 (-400)) as G2.
  replace (0 + 0 + 0 * 0 + 2 * u) with (2 * u) in M2 by ring. rewrite UE in M2.
  destruct (mul_rel _ effort _ (B2R effort) (2 * / 9007199254740992) 0 M1 E1 ltac:(lra) ltac:(lra) M2) as [M3 M4]; [rewrite Rminus_eq_0, Rabs_R0; lra| |lra|lra|].
  { split; [eapply Rle_trans; [|apply Rmult_le_compat; [| |apply PR|apply E2]]; [rewrite <- bpow_plus; apply bpow_le; lia|lra|lra]|].
    eapply Rle_trans; [apply Rmult_le_compat; [| |apply PR|apply E2]; lra|]. rewrite <- bpow_plus. apply bpow_le. lia. }
  fold gain in M4.
  destruct (rel_of_sum fone decay O2 D1) as [N1 N2]; rewrite O1 in *. { apply Rle_trans with 1; [apply Rabs_le; lra|]. change 1 with (bpow radix2 0). apply bpow_le. lia. }
  rewrite (Rabs_pos_eq (1 - B2R decay)) in N2 by lra.
  destruct (mul_rel speed_max _ (B2R speed_max) (1 - B2R decay) 0 (/ 9007199254740992) S1 N1 ltac:(lra) ltac:(lra)) as [M5 M6]; [rewrite Rminus_eq_0, Rabs_R0; lra|exact N2| |lra|lra|].
  { split; [apply Rle_trans with (bpow radix2 (-200) * bpow radix2 (-53)); [rewrite <- bpow_plus; apply bpow_le; lia|apply Rmult_le_compat; lra]|].
    apply Rle_trans with (bpow radix2 200 * 1); [apply Rmult_le_compat; lra|]. rewrite Rmult_1_r. apply bpow_le. lia. }
  fold limit in M6. rewrite UE in M4, M6. rewrite ltb_F by assumption.
  assert (PG : 0 < gain) by (unfold gain; apply Rmult_lt_0_compat; lra). assert (PL : 0 < limit) by (unfold limit; apply Rmult_lt_0_compat; lra).
  change (bpow radix2 (-49)) with (/ 562949953421312). apply Rabs_le_inv in M4, M6. split; intros H.
  - apply Rlt_bool_true. lra.
  - apply Rlt_bool_false. lra.
Qed.

(** C187: equality of two directions, of two rays, of two sectors *)
Theorem C187_angle_eq_F : forall (L : libm) (a b : angle F), good_degree (a_degree a) -> good_degree (a_degree b) ->
  exists e, @AngleDeg_eq F (NumF L) a (AA b) = Ok e /\ @AngleDeg_eq F (NumF L) b (AA a) = Ok e /\ @AngleDeg_eq F (NumF L) a (AA a) = Ok true /\
    decides e (Rabs (B2R (a_degree a) - B2R (a_degree b))) (/ 1000000) (bpow radix2 (-71)).
Proof.
  intros L a b A B. assert (GB : forall x, good_degree x -> is_finite x = true /\ Rabs (B2R x) <= bpow radix2 900).
  { intros x [X1 X2]. split; [exact X1|]. apply Rle_trans with (bpow radix2 8); [change (bpow radix2 8) with 256; apply Rabs_le; lra|apply bpow_le; lia]. }
  destruct (GB _ A) as [A1 A2]. destruct (GB _ B) as [B1 B2].
  unfold AngleDeg_eq, ang_num. rewrite !degree_F_good by (now right). cbn [bind]. eexists. split; [reflexivity|]. split.
  - f_equal. cbn [nabs nsub NumF].
    assert (R : Rabs (B2R (a_degree a) - B2R (a_degree b)) <= bpow radix2 900). { apply Rle_trans with (bpow radix2 9); [change (bpow radix2 9) with 512; destruct A as [_ A], B as [_ B]; apply Rabs_le; lra|apply bpow_le; lia]. }
    assert (R' : Rabs (B2R (a_degree b) - B2R (a_degree a)) <= bpow radix2 900) by now rewrite Rabs_minus_sym.
    destruct (rnd_err _ 900 ltac:(lia) R) as [_ K]. destruct (rnd_err _ 900 ltac:(lia) R') as [_ K'].
    destruct (F_sub _ _ A1 B1) as [S1 S2]; [apply (finite_lt 900); [lia|exact K]|]. destruct (F_sub _ _ B1 A1) as [T1 T2]; [apply (finite_lt 900); [lia|exact K']|].
    cbn [nltb NumF]. rewrite !ltb_F by (try (rewrite is_finite_Babs; assumption); apply (eps_precise L)). f_equal. rewrite !B2R_Babs, S1, T1.
    replace (B2R (a_degree b) - B2R (a_degree a)) with (- (B2R (a_degree a) - B2R (a_degree b))) by ring. rewrite rnd_opp, Rabs_Ropp. reflexivity.
  - split; [|now apply tol_sub]. f_equal. assert (T := tol_sub L _ _ A1 A1 A2 A2). apply T. rewrite Rminus_eq_0, Rabs_R0. apply Rle_trans with (/ 1000000 - / 1000000000); [lra|]. apply Rplus_le_compat_l, Ropp_le_contravar. vm_compute. lra.
Qed.
Theorem C187_ray_eq_F : forall (L : libm) (r s : ray F), good_degree (a_degree (ray_dir r)) -> good_degree (a_degree (ray_dir s)) -> within 900 (ray_origin r) -> within 900 (ray_origin s) ->
  exists e, @Ray2D_eq F (NumF L) r s = Ok e /\
    (fpt (ray_origin r) <> fpt (ray_origin s) -> e = false) /\
    (fpt (ray_origin r) = fpt (ray_origin s) ->
      ((exists z, Rabs z <= / 1000000 - bpow radix2 (-44) /\ cong360 (B2R (a_degree (ray_dir r))) (B2R (a_degree (ray_dir s)) + z)) -> e = true) /\
      ((forall z, cong360 (B2R (a_degree (ray_dir r))) (B2R (a_degree (ray_dir s)) + z) -> / 1000000 + bpow radix2 (-44) <= Rabs z) -> e = false)).
Proof.
  intros L r s A B (F1 & F2 & _) (G1 & G2 & _). unfold Ray2D_eq, AngleDeg_sub. cbn [nsub NumF].
  destruct (sub_num_F L (a_degree (ray_dir r)) (a_degree (ray_dir s)) (proj1 A) (proj1 B)) as (c & C1 & C2 & z & Z1 & Z2). { destruct A as [_ A], B as [_ B]. apply Rabs_le. lra. }
  change (@AngleDeg_of_num F (NumF L) (Bminus mode_NE (a_degree (ray_dir r)) (a_degree (ray_dir s)))) with (@AngleDeg_of_num F (NumF L) (Bminus mode_NE (a_degree (ray_dir r)) (a_degree (ray_dir s)))) in *. rewrite C1. cbn [bind]. unfold AngleDeg_float. rewrite degree_F_good by now right. cbn [bind].
  eexists. split; [reflexivity|].
  assert (VE : @Vector2D_eq F (NumF L) (ray_origin r) (ray_origin s) = true <-> fpt (ray_origin r) = fpt (ray_origin s)).
  { unfold Vector2D_eq. cbn [neqb NumF]. rewrite !eqb_F by assumption. unfold fpt. rewrite andb_true_iff. split.
    - intros [U V]. apply Req_bool_iff in U, V. now rewrite U, V.
    - intros U. injection U as U V. rewrite U, V. split; now apply Req_bool_true. }
  assert (W : close 8 0 (B2R (a_degree c)) (a_degree c)). { apply close_exact; [apply C2|]. destruct C2 as [_ C2]. change (bpow radix2 8) with 256. apply Rabs_le. lra. }
  destruct (tol_close L 8 0 _ _ W) as [[T1 T2] _]. set (w := B2R (a_degree c)) in *. destruct C2 as [C2 C3]. fold w in C3.
  assert (UB : u45 = bpow radix2 (-45)) by reflexivity. assert (E44 : bpow radix2 (-44) = 2 * bpow radix2 (-45)) by (change (-44)%Z with (1 + -45)%Z; now rewrite bp2).
  assert (Q : bpow radix2 (-72) <= bpow radix2 (-45)) by (apply bpow_le; lia). assert (Q2 : bpow radix2 (-45) <= / 1000) by (vm_compute; lra). pose proof (bpow_gt_0 radix2 (-72)) as Q3. rewrite UB in Z2. apply Rabs_le_inv in Z2.
  split; [|intros O; split].
  - intros N. destruct (@Vector2D_eq F (NumF L) (ray_origin r) (ray_origin s)); [exfalso; now apply N, VE|apply andb_false_r].
  - intros (t & H1 & H2). rewrite (proj2 VE O), andb_true_r. apply T1. destruct Z1 as [n Z1]. destruct H2 as [m H2]. apply Rabs_le_inv in H1.
    assert (N0 : (n + m = 0)%Z).
    { assert (I : -1 < IZR (n + m) < 1) by (rewrite plus_IZR; lra). destruct I as [I1 I2]. apply (lt_IZR (-1)) in I1. apply (lt_IZR _ 1) in I2. lia. }
    apply (f_equal IZR) in N0. rewrite plus_IZR in N0. apply Rabs_le. lra.
  - intros H. rewrite (proj2 VE O), andb_true_r. apply T2. destruct Z1 as [n Z1].
    set (t := w - (z - (B2R (a_degree (ray_dir r)) - B2R (a_degree (ray_dir s))))). assert (H' : / 1000000 + bpow radix2 (-44) <= Rabs t).
    { apply H. exists (- n)%Z. rewrite opp_IZR. unfold t. lra. }
    assert (Rabs t <= Rabs w + bpow radix2 (-45)). { replace t with (w + - (z - (B2R (a_degree (ray_dir r)) - B2R (a_degree (ray_dir s))))) by (unfold t; ring). eapply Rle_trans; [apply Rabs_triang|]. apply Rplus_le_compat_l. rewrite Rabs_Ropp. apply Rabs_le. lra. }
    lra.
Qed.
(** Two sectors compare equal when centres, directions and small radii agree
    and the big radius of the first agrees with the small radius of the second
    (radius_max returns the small radius): no sector of positive depth equals
    itself. *)
Theorem C187_sector_eq_F : forall (L : libm) (s o : sector F), within 900 (sec_center s) -> within 900 (sec_center o) ->
  good_degree (a_degree (sec_start s)) -> good_degree (a_degree (sec_start o)) -> good_degree (a_degree (sec_end s)) -> good_degree (a_degree (sec_end o)) ->
  fbound 900 (sec_min_r s) -> fbound 900 (sec_min_r o) -> fbound 900 (sec_max_r s) -> fbound 900 (sec_max_r o) ->
  exists e, @Sector2D_eq F (NumF L) s o = Ok e /\
    decides e (Rmax (chebyshev (fpt (sec_center s)) (fpt (sec_center o)))
      (Rmax (Rabs (B2R (a_degree (sec_start s)) - B2R (a_degree (sec_start o)))) (Rmax (Rabs (B2R (a_degree (sec_end s)) - B2R (a_degree (sec_end o))))
      (Rmax (Rabs (B2R (sec_min_r s) - B2R (sec_min_r o))) (Rabs (B2R (sec_max_r s) - B2R (sec_min_r o))))))) (/ 1000000) (bpow radix2 (-71)) /\
    (B2R (sec_min_r s) + 2 / 1000000 <= B2R (sec_max_r s) -> @Sector2D_eq F (NumF L) s s = Ok false).
Proof.
  intros L s o C C' S1 S2 E1 E2 M1 M2 N1 N2.
  assert (G : forall a b : sector F, within 900 (sec_center a) -> within 900 (sec_center b) -> good_degree (a_degree (sec_start a)) -> good_degree (a_degree (sec_start b)) ->
    good_degree (a_degree (sec_end a)) -> good_degree (a_degree (sec_end b)) -> fbound 900 (sec_min_r a) -> fbound 900 (sec_min_r b) -> fbound 900 (sec_max_r a) ->
    exists e, @Sector2D_eq F (NumF L) a b = Ok e /\
    decides e (Rmax (chebyshev (fpt (sec_center a)) (fpt (sec_center b)))
      (Rmax (Rabs (B2R (a_degree (sec_start a)) - B2R (a_degree (sec_start b)))) (Rmax (Rabs (B2R (a_degree (sec_end a)) - B2R (a_degree (sec_end b))))
      (Rmax (Rabs (B2R (sec_min_r a) - B2R (sec_min_r b))) (Rabs (B2R (sec_max_r a) - B2R (sec_min_r b))))))) (/ 1000000) (bpow radix2 (-71))).
  { clear. intros a b (A1 & A2 & A3 & A4) (B1 & B2 & B3 & B4) S1 S2 E1 E2 M1 M2 N1. unfold Sector2D_eq, Sector2D_radius_min, Sector2D_radius_max.
    destruct (C187_angle_eq_F L _ _ S1 S2) as (e1 & H1 & _ & _ & K1). destruct (C187_angle_eq_F L _ _ E1 E2) as (e2 & H2 & _ & _ & K2). rewrite H1, H2. cbn [bind].
    assert (C : decides (@Vector2D_equals_weakly F (NumF L) (sec_center a) (sec_center b)) (chebyshev (fpt (sec_center a)) (fpt (sec_center b))) (/ 1000000) (bpow radix2 (-71))) by (apply decides_and; apply tol_sub; assumption).
    assert (D := decides_and _ _ _ _ _ _ (tol_sub L _ _ (proj1 M1) (proj1 M2) (proj2 M1) (proj2 M2)) (tol_sub L _ _ (proj1 N1) (proj1 M2) (proj2 N1) (proj2 M2))).
    assert (T := decides_and _ _ _ _ _ _ C (decides_and _ _ _ _ _ _ K1 (decides_and _ _ _ _ _ _ K2 D))).
    eexists. split; [|exact T]. destruct (Vector2D_equals_weakly (sec_center a) (sec_center b)); [|reflexivity]. destruct e1; [|reflexivity]. now destruct e2. }
  destruct (G s o) as (e & H1 & H2); try assumption. exists e. split; [exact H1|]. split; [exact H2|]. intros W.
  destruct (G s s) as (e' & H1' & _ & H2'); try assumption. rewrite H1'. f_equal. apply H2'.
  apply Rle_trans with (Rabs (B2R (sec_max_r s) - B2R (sec_min_r s))).
  - rewrite Rabs_pos_eq by lra. assert (Q : bpow radix2 (-71) <= / 1000000) by (vm_compute; lra). lra.
  - do 4 (eapply Rle_trans; [|apply Rmax_r]). apply Rle_refl.
Qed.

(** ** Cases meeting the hypotheses *)
Lemma fb_Z k n : (0 <= k <= 52)%Z -> (Z.abs n <= 2 ^ k)%Z -> fbound k (F_of_Z n) /\ B2R (F_of_Z n) = IZR n.
Proof.
  intros Hk H. destruct (within_fv k n n Hk H H) as (A & _ & B & _). split; [now split|]. assert (2 ^ k <= 2 ^ 52)%Z by (apply Z.pow_le_mono_r; lia). apply F_of_Z_exact. lia.
Qed.
Example C186_nonvacuous : within 3 (fv 0 0) /\ within 3 (fv 6 8) /\ within 3 (fv 5 0) /\ bpow radix2 (3 - 23) <= edist (fpt (fv 0 0)) (fpt (fv 6 8)) /\
  is_min_dist (on_line2 (fpt (fv 0 0)) (fpt (fv 6 8))) (fpt (fv 5 0)) 4 /\
  Forall (within 3) [fv 0 0; fv 6 8; fv 5 0] /\ (forall v, In v [fv 0 0; fv 6 8; fv 5 0] -> 0 <= px (fpt v) <= 6 /\ 0 <= py (fpt v) <= 8) /\
  fbound 6 (F_of_Z 0) /\ fbound 6 (F_of_Z 40) /\ 0 <= B2R (F_of_Z 40).
Proof.
  assert (E : forall x y, (Z.abs x <= 8)%Z -> (Z.abs y <= 8)%Z -> within 3 (fv x y) /\ fpt (fv x y) = (IZR x, IZR y)).
  { intros x y X Y. split; [apply within_fv; lia|]. unfold fpt, fv. cbn [vx vy]. now rewrite (proj1 (F_of_Z_exact x ltac:(lia))), (proj1 (F_of_Z_exact y ltac:(lia))). }
  destruct (E 0 0)%Z as [A1 A2]; try lia. destruct (E 6 8)%Z as [B1 B2]; try lia. destruct (E 5 0)%Z as [C1 C2]; try lia. rewrite A2, B2, C2.
  split; [exact A1|]. split; [exact B1|]. split; [exact C1|]. split.
  { apply Rle_trans with (sqrt 100); [replace 100 with (10 * 10) by ring; rewrite sqrt_square by lra; vm_compute; lra|]. unfold edist, norm, norm2, psub, px, py. cbn [fst snd]. apply sqrt_le_1_alt. lra. }
  split.
  { assert (NE : (0, 0) <> (6, 8) :> point) by (intros K; injection K; lra). assert (LD := line_dist_min (-8) 6 0 (5, 0) ltac:(lra)).
    replace (sqrt (-8 * -8 + 6 * 6)) with 10 in LD by (replace (-8 * -8 + 6 * 6) with (10 * 10) by ring; symmetry; apply sqrt_square; lra).
    assert (EQ : forall r, on_line (-8) 6 0 r <-> on_line2 (0, 0) (6, 8) r).
    { intros r. rewrite <- (line2_coef _ _ r NE). unfold px, py. cbn [fst snd]. replace (- (8 - 0)) with (-8) by ring. replace (6 - 0) with 6 by ring. replace ((8 - 0) * 0 - 6 * 0) with 0 by ring. tauto. }
    unfold px, py in LD. cbn [fst snd] in LD. replace (Rabs ((-8 * 5 + 6 * 0 + 0) / 10)) with 4 in LD by (replace ((-8 * 5 + 6 * 0 + 0) / 10) with (-4) by field; rewrite Rabs_left; lra).
    destruct LD as [(q & Q1 & Q2) Q3]. split; [exists q; split; [now apply EQ|exact Q2]|]. intros r Hr. apply Q3. now apply EQ. }
  split; [apply Forall_cons; [exact A1|]; apply Forall_cons; [exact B1|]; apply Forall_cons; [exact C1|]; apply Forall_nil|]. split.
  { intros v [<- |[<- |[<- |[]]]]; rewrite ?A2, ?B2, ?C2; unfold px, py; cbn [fst snd]; lra. }
  destruct (fb_Z 6 0 ltac:(lia) ltac:(lia)) as [Z1 _]. destruct (fb_Z 6 40 ltac:(lia) ltac:(lia)) as [Y1 Y2]. split; [exact Z1|]. split; [exact Y1|]. rewrite Y2. lra.
Qed.
Example C187_nonvacuous : positive_value (F_of_Z 3) /\ is_finite (F_of_Z 100) = true /\ bpow radix2 (-200) <= Rabs (B2R (F_of_Z 100)) <= bpow radix2 200 /\
  0 <= B2R (F_of_Z 0) <= 1 - bpow radix2 (-53) /\ 3 * (1 - 0) * (1 + bpow radix2 (-49)) <= 100 * 3 * 3 /\
  good_degree (F_of_Z 90) /\ good_degree (F_of_Z (-180)) /\ within 900 (fv 1 2) /\ fbound 900 (F_of_Z 3) /\ 3 + 2 / 1000000 <= 5.
Proof.
  assert (P : forall n, (1 <= n <= 1024)%Z -> is_finite (F_of_Z n) = true /\ bpow radix2 (-200) <= B2R (F_of_Z n) <= bpow radix2 200).
  { intros n Hn. destruct (F_of_Z_exact n) as [E1 E2]; [lia|]. split; [exact E2|]. rewrite E1. split.
    - apply Rle_trans with (bpow radix2 0); [apply bpow_le; lia|]. apply (IZR_le 1). lia.
    - apply Rle_trans with (bpow radix2 10); [|apply bpow_le; lia]. change (bpow radix2 10) with 1024. apply IZR_le. lia. }
  assert (B : forall k, (10 <= k)%Z -> 1024 <= bpow radix2 k) by (intros k Hk; change 1024 with (bpow radix2 10); apply bpow_le; lia).
  destruct (P 3%Z) as [T1 T2]; [lia|]. destruct (P 100%Z) as [H1 H2]; [lia|]. pose proof (bpow_gt_0 radix2 (-200)) as G. split; [now split|]. split; [exact H1|]. rewrite Rabs_pos_eq by lra. split; [exact H2|].
  rewrite (proj1 (F_of_Z_exact 0 eq_refl)). assert (Q : bpow radix2 (-53) <= 1) by (vm_compute; lra). split; [lra|]. split; [vm_compute; lra|].
  split; [split; [apply (F_of_Z_exact 90); reflexivity|rewrite (proj1 (F_of_Z_exact 90 eq_refl)); lra]|]. split; [split; [apply (F_of_Z_exact (-180)); reflexivity|rewrite (proj1 (F_of_Z_exact (-180) eq_refl)); lra]|].
  assert (K := B 900%Z ltac:(lia)). destruct (F_of_Z_exact 1 eq_refl) as [X1 X2]. destruct (F_of_Z_exact 2 eq_refl) as [Y1 Y2]. destruct (F_of_Z_exact 3 eq_refl) as [W1 W2].
  split; [split; [exact X2|]; split; [exact Y2|]; cbn [vx vy fv]; unfold fv; cbn [vx vy]; rewrite X1, Y1, !Rabs_pos_eq by lra; split; lra|]. split; [split; [exact W2|rewrite W1, Rabs_pos_eq by lra; lra]|lra].
Qed.
