(** * P_SegF3: which points are on a segment, equal segments and perpendicular lines in doubles (C178) *)
From Coq Require Import ZArith List Bool String Reals Lra Lia Psatz.
From Flocq Require Import Core BinarySingleNaN.
From Verif Require Import Base Types NumR NumF R_Tac Spec Spec2 Abs M_Vector M_Line M_Triangle M_Segment
  P_Vector P_Segment L_Float P_Float P_Robust P_Grid2 P_PolyF P_Hull2 P_LineF P_HullF P_GrahamF P_RayF P_EpsF.
Import ListNotations.
Local Open Scope R_scope.

Lemma Fd_finite m e : (Z.abs m < 2 ^ 53)%Z -> (-1074 <= e <= 900)%Z -> is_finite (Fd m e) = true.
Proof. intros Hm He. destruct (normalize_exact m e false) as [_ E]; [apply fmt_F2R; lia|apply small_lt_emax with (Rabs (IZR m * bpow radix2 e)); [apply Rle_refl|apply (units_small _ _ 53); lia]|]. exact E. Qed.
(** ** The computed area as one expression *)
Lemma area_form L (a b c : vec F) : within 480 a -> within 480 b -> within 480 c ->
  is_finite (@double_signed_area_st F (NumF L) a b c) = true /\
  B2R (@double_signed_area_st F (NumF L) a b c) =
    rnd64 (rnd64 (rnd64 (B2R (vx a) - B2R (vx c)) * rnd64 (B2R (vy b) - B2R (vy c))) + rnd64 (rnd64 (B2R (vx b) - B2R (vx c)) * rnd64 (B2R (vy c) - B2R (vy a)))).
Proof.
  intros (A1 & A2 & A3 & A4) (B1 & B2 & B3 & B4) (C1 & C2 & C3 & C4). unfold double_signed_area_st. cbn [nsub nmul nadd NumF].
  destruct (sub_within 480 (vx a) (vx c) ltac:(lia) A1 C1 A3 C3) as (P1 & P2 & P3). destruct (sub_within 480 (vy b) (vy c) ltac:(lia) B2 C2 B4 C4) as (Q1 & Q2 & Q3).
  destruct (sub_within 480 (vx b) (vx c) ltac:(lia) B1 C1 B3 C3) as (R1 & R2 & R3). destruct (sub_within 480 (vy c) (vy a) ltac:(lia) C2 A2 C4 A4) as (S1 & S2 & S3).
  destruct (mul_within 481 _ _ ltac:(lia) P1 Q1 P3 Q3) as [M1 M2]. destruct (mul_within 481 _ _ ltac:(lia) R1 S1 R3 S3) as [M3 M4].
  assert (K : forall x y : F, Rabs (B2R x) <= bpow radix2 481 -> Rabs (B2R y) <= bpow radix2 481 -> Rabs (rnd64 (B2R x * B2R y)) <= bpow radix2 962).
  { intros x y X Y. apply rnd_err; [lia|]. change 962%Z with (481 + 481)%Z. rewrite bpow_plus, Rabs_mult. apply Rmult_le_compat; try apply Rabs_pos; assumption. }
  pose proof (K _ _ P3 Q3) as K1. pose proof (K _ _ R3 S3) as K2. rewrite <- M2 in K1. rewrite <- M4 in K2.
  destruct (F_add _ _ M1 M3) as [E1 E2]; [|split; [exact E2|]; now rewrite E1, M2, M4, P2, Q2, R2, S2].
  apply (finite_lt 963); [lia|]. apply rnd_err; [lia|]. change 963%Z with (1 + 962)%Z. rewrite bp2. apply Rabs_le. apply Rabs_le_inv in K1, K2. lra.
Qed.
Lemma rnd_0 : rnd64 0 = 0. Proof. apply round_0. apply valid_rnd_N. Qed.
Lemma rnd_nonneg x : 0 <= x -> 0 <= rnd64 x. Proof. intros H. rewrite <- rnd_0. now apply rnd_le. Qed.
Lemma rnd_big m x : (-1000 <= m)%Z -> bpow radix2 m <= x -> bpow radix2 m <= rnd64 x.
Proof. intros Hm H. rewrite <- (rnd_id (bpow radix2 m)) by (apply fmt_bpow; lia). now apply rnd_le. Qed.
(** two products with a common factor and cofactors of one sign do not cancel *)
Lemma no_cancel_pos P Q S : bpow radix2 (-400) <= P -> 0 <= Q -> 0 <= S -> bpow radix2 (-401) <= Q \/ bpow radix2 (-401) <= S -> 0 < rnd64 (rnd64 (P * Q) + rnd64 (P * S)).
Proof.
  intros HP HQ HS D. pose proof (bpow_gt_0 radix2 (-400)). pose proof (bpow_gt_0 radix2 (-401)). pose proof (bpow_gt_0 radix2 (-801)).
  assert (G : forall q, bpow radix2 (-401) <= q -> bpow radix2 (-801) <= rnd64 (P * q)).
  { intros q Hq. apply rnd_big; [lia|]. change (-801)%Z with (-400 + -401)%Z. rewrite bpow_plus. apply Rmult_le_compat; lra. }
  pose proof (rnd_nonneg (P * Q) ltac:(apply Rmult_le_pos; lra)). pose proof (rnd_nonneg (P * S) ltac:(apply Rmult_le_pos; lra)).
  apply Rlt_le_trans with (bpow radix2 (-801)); [lra|]. apply rnd_big; [lia|]. destruct D as [D|D]; specialize (G _ D); lra.
Qed.
Lemma no_cancel P Q S : bpow radix2 (-400) <= Rabs P -> (0 <= Q /\ 0 <= S) \/ (Q <= 0 /\ S <= 0) -> bpow radix2 (-401) <= Rabs Q \/ bpow radix2 (-401) <= Rabs S ->
  rnd64 (rnd64 (P * Q) + rnd64 (P * S)) <> 0.
Proof.
  intros HP D E.
  assert (G : forall p q s, bpow radix2 (-400) <= Rabs p -> 0 <= q -> 0 <= s -> bpow radix2 (-401) <= q \/ bpow radix2 (-401) <= s -> rnd64 (rnd64 (p * q) + rnd64 (p * s)) <> 0).
  { intros p q s Hp Hq Hs Ho. destruct (Rle_dec 0 p) as [Pp|Pp].
    - rewrite Rabs_pos_eq in Hp by assumption. pose proof (no_cancel_pos p q s Hp Hq Hs Ho). lra.
    - rewrite Rabs_left in Hp by lra. pose proof (no_cancel_pos (- p) q s Hp Hq Hs Ho) as K. rewrite !Ropp_mult_distr_l_reverse, !rnd_opp, <- Ropp_plus_distr, rnd_opp in K. lra. }
  destruct D as [[D1 D2]|[D1 D2]].
  - rewrite (Rabs_pos_eq Q), (Rabs_pos_eq S) in E by assumption. now apply G.
  - replace (P * Q) with ((- P) * (- Q)) by ring. replace (P * S) with ((- P) * (- S)) by ring. apply G; [now rewrite Rabs_Ropp|lra|lra|].
    rewrite (Rabs_left1 Q), (Rabs_left1 S) in E by assumption. exact E.
Qed.
Lemma rnd_sign x : (0 <= x -> 0 <= rnd64 x) /\ (x <= 0 -> rnd64 x <= 0).
Proof. split; intros H; [now apply rnd_nonneg|]. rewrite <- rnd_0. now apply rnd_le. Qed.
Lemma rnd_abs_big m x : (-1000 <= m)%Z -> bpow radix2 m <= Rabs x -> bpow radix2 m <= Rabs (rnd64 x).
Proof.
  intros Hm H. destruct (Rle_dec 0 x) as [P|P].
  - rewrite Rabs_pos_eq in H by assumption. rewrite Rabs_pos_eq by now apply rnd_nonneg. now apply rnd_big.
  - rewrite Rabs_left in H by lra. replace x with (- - x) by ring. rewrite rnd_opp, Rabs_Ropp, Rabs_pos_eq by (apply rnd_nonneg; lra). now apply rnd_big.
Qed.
Lemma split_far a b c : (a <= c <= b \/ b <= c <= a) -> bpow radix2 (-400) <= Rabs (a - b) -> bpow radix2 (-401) <= Rabs (b - c) \/ bpow radix2 (-401) <= Rabs (c - a).
Proof.
  intros B F. change (-400)%Z with (1 + -401)%Z in F. rewrite bp2 in F. destruct (Rle_dec (bpow radix2 (-401)) (Rabs (b - c))) as [P|P]; [now left|right].
  apply Rnot_le_lt, Rabs_def2 in P. pose proof (bpow_gt_0 radix2 (-401)). destruct B.
  - rewrite Rabs_left1 in F by lra. rewrite Rabs_pos_eq by lra. lra.
  - rewrite Rabs_pos_eq in F by lra. rewrite Rabs_left1 by lra. lra.
Qed.
Lemma vertical_core a b c p q s : q = a -> (a <= c <= b \/ b <= c <= a) -> bpow radix2 (-400) <= Rabs (a - b) -> bpow radix2 (-400) <= Rabs (s - p) ->
  rnd64 (rnd64 (rnd64 (s - p) * rnd64 (b - c)) + rnd64 (rnd64 (s - p) * rnd64 (c - q))) <> 0.
Proof.
  intros -> B F1 F2. apply no_cancel; [apply rnd_abs_big; [lia|exact F2]| |].
  - destruct B as [B|B]; [left|right]; (split; apply rnd_sign; lra).
  - destruct (split_far a b c B F1); [left|right]; (apply rnd_abs_big; [lia|assumption]).
Qed.

(** ** C178: points on a segment *)
(** On grids of doubles the answer is the exact one. *)
Theorem C178_on_segment_grid_F : forall (L : libm) (e : Z) (s : seg F) (p : vec F), (-250 <= e <= 200)%Z -> on_grid e (s_origin s) -> on_grid e (s_terminal s) -> on_grid e p ->
  fpt (s_origin s) <> fpt (s_terminal s) -> (@Segment2D_on_segment F (NumF L) s p = true <-> on_seg (fpt (s_origin s)) (fpt (s_terminal s)) (fpt p)).
Proof.
  intros L e [o t] p He A B C NE. cbn [s_origin s_terminal] in *.
  change (@Segment2D_on_segment F (NumF L) (mkSeg o t) p) with (@Segment2D_on_segment F (NumF L) (Segment2D_of_points o t) p). rewrite (on_segment_F_R L e) by assumption.
  apply (proj1 (C35_on_segment_R (Segment2D_of_points (rvec o) (rvec t)) (rvec p))). exact NE.
Qed.
(** For segments parallel to an axis, too, at any coordinates that do not underflow. *)
Theorem C178_on_segment_axis_F : forall (L : libm) (s : seg F) (p : vec F), within 480 (s_origin s) -> within 480 (s_terminal s) -> within 480 p ->
  let o := s_origin s in let t := s_terminal s in
  let apart x y := B2R x = B2R y \/ bpow radix2 (-400) <= Rabs (B2R x - B2R y) in
  B2R (vx o) = B2R (vx t) \/ B2R (vy o) = B2R (vy t) -> fpt o <> fpt t ->
  apart (vx o) (vx t) -> apart (vy o) (vy t) -> apart (vx o) (vx p) -> apart (vy o) (vy p) ->
  (@Segment2D_on_segment F (NumF L) s p = true <-> on_seg (fpt o) (fpt t) (fpt p)).
Proof.
  intros L [o t] p WO WT WP. cbn [s_origin s_terminal]. intros AX NE F1 F2 F3 F4.
  assert (NE' : pt (rvec o) <> pt (rvec t)) by exact NE.
  rewrite <- (proj1 (C35_on_segment_R (mkSeg (rvec o) (rvec t)) (rvec p)) NE').
  destruct (area_form L o t p WO WT WP) as [E1 E2]. pose proof WO as (O1 & O2 & _). pose proof WT as (T1 & T2 & _). pose proof WP as (P1 & P2 & _).
  unfold Segment2D_on_segment. cbn [s_origin s_terminal]. rewrite check_FR by (split; assumption). cbn [s_origin s_terminal]. cbn [neqb NumF]. rewrite num0_F, eqb_F by (try exact E1; reflexivity). rewrite (proj1 (F_of_Z_exact 0 eq_refl)), E2. clear E1 E2.
  rnum. unfold double_signed_area_st. rnum. cbn [vx vy rvec]. unfold check_intersects_on_line. cbn [s_origin s_terminal vx vy rvec]. rnum.
  unfold fpt in *. set (ox := B2R (vx o)) in *. set (oy := B2R (vy o)) in *. set (tx := B2R (vx t)) in *. set (ty := B2R (vy t)) in *. set (x := B2R (vx p)) in *. set (y := B2R (vy p)) in *.
  clearbody ox oy tx ty x y. clear - AX NE F1 F2 F3 F4. rewrite !andb_true_iff, !Req_bool_iff.
  destruct (Req_dec ox tx) as [EX|NX].
  - subst tx. rewrite Req_bool_true by reflexivity. rewrite orb_true_iff, !andb_true_iff, !Rle_bool_iff.
    assert (D : bpow radix2 (-400) <= Rabs (oy - ty)). { destruct F2 as [->|F2]; [now elim NE|exact F2]. }
    destruct F3 as [->|F3].
    + split; intros [_ C]; (split; [|exact C]); [ring|]. rewrite Rminus_eq_0, rnd_0, !Rmult_0_l, rnd_0, Rplus_0_l. apply rnd_0.
    + split; intros [Z C]; exfalso.
      * revert Z. apply (vertical_core oy ty y x oy ox); [reflexivity|tauto|exact D|exact F3].
      * assert (D' : (ox - x) * (ty - oy) = 0) by (rewrite <- Z; ring). apply Rmult_integral in D'. pose proof (bpow_gt_0 radix2 (-400)). destruct D' as [D'|D'].
        -- rewrite D', Rabs_R0 in F3. lra.
        -- replace (oy - ty) with 0 in D by lra. rewrite Rabs_R0 in D. lra.
  - destruct AX as [AX|AX]; [now elim NX|]. subst ty. rewrite Req_bool_false by exact NX. rewrite orb_true_iff, !andb_true_iff, !Rle_bool_iff.
    assert (D : bpow radix2 (-400) <= Rabs (ox - tx)) by (destruct F1 as [F1|F1]; [now elim NX|exact F1]).
    destruct F4 as [->|F4].
    + split; intros [_ C]; (split; [|exact C]); [ring|]. rewrite Rminus_eq_0, rnd_0, !Rmult_0_r, rnd_0, Rplus_0_l. apply rnd_0.
    + assert (RW : rnd64 (rnd64 (rnd64 (ox - x) * rnd64 (oy - y)) + rnd64 (rnd64 (tx - x) * rnd64 (y - oy))) = rnd64 (rnd64 (rnd64 (oy - y) * rnd64 (ox - x)) + rnd64 (rnd64 (oy - y) * rnd64 (x - tx)))).
      { f_equal. f_equal; [f_equal; ring|]. replace (y - oy) with (- (oy - y)) by ring. replace (x - tx) with (- (tx - x)) by ring. rewrite (rnd_opp (oy - y)), (rnd_opp (tx - x)). f_equal. ring. }
      split; intros [Z C]; exfalso.
      * rewrite RW in Z. revert Z. apply (vertical_core tx ox x y tx oy); [reflexivity|tauto| |exact F4]. now rewrite Rabs_minus_sym.
      * assert (D' : (oy - y) * (ox - tx) = 0) by (rewrite <- Z; ring). apply Rmult_integral in D'. pose proof (bpow_gt_0 radix2 (-400)). destruct D' as [D'|D'].
        -- rewrite D', Rabs_R0 in F4. lra.
        -- rewrite D', Rabs_R0 in D. lra.
Qed.
(** In general: both ends are always found, and a point that is found lies beside the
    segment and within the rounding of the area of its line. *)
Theorem C178_on_segment_any_F : forall (L : libm) (k : Z) (s : seg F) (p : vec F), (-500 <= k <= 480)%Z -> within k (s_origin s) -> within k (s_terminal s) -> within k p ->
  let o := s_origin s in let t := s_terminal s in
  (fpt p = fpt o \/ fpt p = fpt t -> @Segment2D_on_segment F (NumF L) s p = true) /\
  (@Segment2D_on_segment F (NumF L) s p = true ->
    Rabs (side (fpt o) (fpt t) (fpt p)) <= bpow radix2 (2 * k - 49) /\
    (px (fpt o) <> px (fpt t) -> Rmin (px (fpt o)) (px (fpt t)) <= px (fpt p) <= Rmax (px (fpt o)) (px (fpt t))) /\
    (px (fpt o) = px (fpt t) -> Rmin (py (fpt o)) (py (fpt t)) <= py (fpt p) <= Rmax (py (fpt o)) (py (fpt t)))).
Proof.
  intros L k [o t] p Hk WO WT WP. cbn [s_origin s_terminal]. destruct (area_close L k o t p Hk WO WT WP) as (E1 & _ & E3). pose proof WO as (O1 & O2 & _). pose proof WT as (T1 & T2 & _). pose proof WP as (P1 & P2 & _).
  unfold Segment2D_on_segment. cbn [s_origin s_terminal]. rewrite check_FR by (split; assumption). cbn [s_origin s_terminal]. cbn [neqb NumF]. rewrite num0_F, eqb_F by (try exact E1; reflexivity). rewrite (proj1 (F_of_Z_exact 0 eq_refl)), andb_true_iff, Req_bool_iff.
  unfold check_intersects_on_line. cbn [s_origin s_terminal vx vy rvec]. rnum. split.
  - intros D. split.
    + apply (area_deg L k o t p Hk WO WT WP). destruct D as [D|D]; rewrite D; auto.
    + unfold fpt in D. assert (D' : (B2R (vx p) = B2R (vx o) /\ B2R (vy p) = B2R (vy o)) \/ (B2R (vx p) = B2R (vx t) /\ B2R (vy p) = B2R (vy t))) by (destruct D as [D|D]; injection D; auto).
      destruct (Req_bool (B2R (vx o)) (B2R (vx t))); rewrite orb_true_iff, !andb_true_iff, !Rle_bool_iff; lra.
  - intros [Z C]. split; [rewrite Z in E3; rewrite Rabs_minus_sym, Rminus_0_r in E3; exact E3|]. unfold fpt, px, py. cbn [fst snd]. unfold Rmin, Rmax.
    split; intros D; [rewrite Req_bool_false in C by exact D|rewrite Req_bool_true in C by exact D]; rewrite orb_true_iff, !andb_true_iff, !Rle_bool_iff in C; destruct (Rle_dec _ _); lra.
Qed.
(** Beyond that it errs both ways: a point of the segment can be missed, a point off it found. *)
Theorem C178_on_segment_refuted_F : forall L : libm,
  (exists (s : seg F) (p : vec F), within 5 (s_origin s) /\ within 5 (s_terminal s) /\ within 5 p /\ on_seg (fpt (s_origin s)) (fpt (s_terminal s)) (fpt p) /\ @Segment2D_on_segment F (NumF L) s p = false) /\
  (exists (s : seg F) (p : vec F), within 5 (s_origin s) /\ within 5 (s_terminal s) /\ within 5 p /\ ~ on_seg (fpt (s_origin s)) (fpt (s_terminal s)) (fpt p) /\ @Segment2D_on_segment F (NumF L) s p = true).
Proof.
  intros L.
  assert (W : forall m n e : Z, (Z.abs m <= 32)%Z -> (Z.abs n <= 32)%Z -> (-60 <= e <= 0)%Z -> within 5 (mkVec (Fd m e) (Fd n e) true) /\ fpt (mkVec (Fd m e) (Fd n e) true) = (IZR m * bpow radix2 e, IZR n * bpow radix2 e)).
  { intros m n e Hm Hn He. assert (B1 : bpow radix2 e <= 1) by (change 1 with (bpow radix2 0); apply bpow_le; lia). pose proof (bpow_gt_0 radix2 e) as B0.
    assert (G : forall z : Z, (Z.abs z <= 32)%Z -> Rabs (IZR z * bpow radix2 e) <= bpow radix2 5). { intros z Hz. change (bpow radix2 5) with 32. rewrite Rabs_mult, (Rabs_pos_eq (bpow radix2 e)) by lra. rewrite <- abs_IZR. apply IZR_le in Hz. pose proof (IZR_le 0 (Z.abs z) ltac:(lia)). nra. }
    split; [|unfold fpt; cbn [vx vy]; rewrite !Fd_exact by lia; reflexivity]. unfold within. cbn [vx vy]. rewrite !Fd_exact by lia. repeat split; try (apply Fd_finite; lia); now apply G. }
  split.
  - exists (mkSeg (mkVec (Fd (-7) 0) (Fd (-21) 0) true) (mkVec (Fd 5 0) (Fd 15 0) true)), (mkVec (Fd 1 (-50)) (Fd 3 (-50)) true). cbn [s_origin s_terminal].
    destruct (W (-7)%Z (-21)%Z 0%Z ltac:(lia) ltac:(lia) ltac:(lia)) as [W1 ->]. destruct (W 5%Z 15%Z 0%Z ltac:(lia) ltac:(lia) ltac:(lia)) as [W2 ->]. destruct (W 1%Z 3%Z (-50)%Z ltac:(lia) ltac:(lia) ltac:(lia)) as [W3 ->].
    split; [exact W1|]. split; [exact W2|]. split; [exact W3|]. split; [|vm_compute; reflexivity].
    exists ((7 + bpow radix2 (-50)) / 12). change (bpow radix2 0) with 1. assert (bpow radix2 (-50) <= 1) by (change 1 with (bpow radix2 0); apply bpow_le; lia). pose proof (bpow_gt_0 radix2 (-50)). split; [lra|]. unfold lerp, px, py. cbn [fst snd]. f_equal; field.
  - exists (mkSeg (mkVec (Fd (-1) 0) (Fd (-1) 0) true) (mkVec (Fd 1 0) (Fd 1 0) true)), (mkVec (Fd 0 (-60)) (Fd 1 (-60)) true). cbn [s_origin s_terminal].
    destruct (W (-1)%Z (-1)%Z 0%Z ltac:(lia) ltac:(lia) ltac:(lia)) as [W1 ->]. destruct (W 1%Z 1%Z 0%Z ltac:(lia) ltac:(lia) ltac:(lia)) as [W2 ->]. destruct (W 0%Z 1%Z (-60)%Z ltac:(lia) ltac:(lia) ltac:(lia)) as [W3 ->].
    split; [exact W1|]. split; [exact W2|]. split; [exact W3|]. split; [|vm_compute; reflexivity].
    intros (t & Ht & E). unfold lerp, px, py in E. cbn [fst snd] in E. injection E as X Y. change (bpow radix2 0) with 1 in *. pose proof (bpow_gt_0 radix2 (-60)). lra.
Qed.
(** Two segments are equal exactly when both pairs of ends have the same coordinates; a
    segment is valid unless its ends agree within the tolerance, up to 2^-71. *)
Theorem C178_equality_F : forall (L : libm) (s o : seg F), within 900 (s_origin s) -> within 900 (s_terminal s) -> within 900 (s_origin o) -> within 900 (s_terminal o) ->
  (@Segment2D_eq F (NumF L) s o = true <-> fpt (s_origin s) = fpt (s_origin o) /\ fpt (s_terminal s) = fpt (s_terminal o)) /\
  decides (negb (@Segment2D_is_valid F (NumF L) s)) (chebyshev (fpt (s_origin s)) (fpt (s_terminal s))) (/ 1000000) (bpow radix2 (-71)).
Proof.
  intros L s o (A1 & A2 & A3 & A4) (B1 & B2 & B3 & B4) (C1 & C2 & C3 & C4) (D1 & D2 & D3 & D4). split.
  - unfold Segment2D_eq. rewrite andb_true_iff, !veq_F by (unfold ffin; apply andb_true_iff; split; assumption). tauto.
  - unfold Segment2D_is_valid. rewrite negb_involutive. apply decides_and; apply tol_sub; assumption.
Qed.
(** The perpendicular through a point has exactly the perpendicular direction, and its
    equation holds at the point up to rounding. *)
Theorem C178_perpendicular_F : forall (L : libm) (k : Z) (l : line F) (p : vec F), (-200 <= k <= 200)%Z -> line_within k l -> within k p ->
  let q := @Line2D_perpendicular F (NumF L) l p in
  B2R (l_a q) = B2R (l_b l) /\ B2R (l_b q) = - B2R (l_a l) /\ is_finite (l_c q) = true /\
  Rabs (B2R (l_a q) * B2R (vx p) + B2R (l_b q) * B2R (vy p) + B2R (l_c q)) <= bpow radix2 (2 * k - 52).
Proof.
  intros L k l p Hk (A & B & A' & B') (P1 & P2 & P3 & P4). unfold Line2D_perpendicular. cbn [l_a l_b l_c nneg nsub nmul NumF]. rewrite B2R_Bopp.
  destruct (cross_close k (l_a l) (l_b l) (vy p) (vx p) Hk A B P2 P1 A' B' P4 P3) as (C1 & _ & C2). split; [reflexivity|]. split; [reflexivity|]. split; [exact C1|].
  eapply Rle_trans; [|exact C2]. right. f_equal. ring.
Qed.
Example C178_nonvacuous : exists (s : seg F) (p : vec F), on_grid 0 (s_origin s) /\ on_grid 0 (s_terminal s) /\ on_grid 0 p /\ within 480 (s_origin s) /\ within 480 (s_terminal s) /\ within 480 p /\
  fpt (s_origin s) <> fpt (s_terminal s) /\ B2R (vy (s_origin s)) = B2R (vy (s_terminal s)) /\ on_seg (fpt (s_origin s)) (fpt (s_terminal s)) (fpt p).
Proof.
  exists (mkSeg (fv 0 1) (fv 4 1)), (fv 3 1). cbn [s_origin s_terminal].
  assert (G : forall a b, (Z.abs a <= 8)%Z -> (Z.abs b <= 8)%Z -> within 480 (fv a b)). { intros a b Ha Hb. destruct (within_fv a b Ha Hb) as (A & B & C & D). assert (bpow radix2 3 <= bpow radix2 480) by (apply bpow_le; lia). unfold within. repeat split; try assumption; lra. }
  assert (U : forall a b, (Z.abs a <= 8)%Z -> (Z.abs b <= 8)%Z -> on_grid 0 (fv a b)).
  { intros a b Ha Hb. exists a, b. split; [lia|]. split; [lia|]. unfold units, fv. cbn [vx vy]. change (bpow radix2 0) with 1. destruct (F_of_Z_exact a ltac:(lia)) as [A1 A2]. destruct (F_of_Z_exact b ltac:(lia)) as [B1 B2]. rewrite A1, B1. repeat split; try assumption; lra. }
  split; [apply U; lia|]. split; [apply U; lia|]. split; [apply U; lia|].
  split; [apply G; lia|]. split; [apply G; lia|]. split; [apply G; lia|]. rewrite !fpt_fv by reflexivity. split; [intros E; injection E; lra|].
  split; [reflexivity|]. exists (3 / 4). split; [lra|]. unfold lerp, px, py. cbn [fst snd]. f_equal; field.
Qed.
