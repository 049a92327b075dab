(** * P_PolyF: point in polygon on arbitrary doubles, away from the outline (C155) *)
From Coq Require Import ZArith List Bool String Reals Lra Lia Psatz.
From Flocq Require Import Core BinarySingleNaN.
From Verif Require Import Base Types NumR NumF R_Tac Spec Spec2 Abs M_Angle M_Vector M_Line M_Triangle M_Segment M_Sector M_Rect M_Polygon
  L_Angle P_Angle P_Vector P_Line L_Seg P_Segment P_Triangle P_Rect P_Polygon P_Polygon2 P_Polygon3 L_Float P_Float P_Grid P_Grid2 P_Robust P_Hull2 P_VecF P_LineF P_MatF P_SoccerF P_RectF.
Import ListNotations.
Local Open Scope R_scope.
Local Notation u := (bpow radix2 (-53)).

(** A usable coordinate: a finite double of magnitude at most 2^k, and either 0
    or not absurdly small (no underflow). *)
Definition usable (k : Z) (x : F) : Prop :=
  is_finite x = true /\ Rabs (B2R x) <= bpow radix2 k /\ (B2R x = 0 \/ bpow radix2 (-150) <= Rabs (B2R x)).

(** ** Differences of usable coordinates *)
Lemma usable_mult k x : usable k x -> exists n, B2R x = IZR n * bpow radix2 (-203).
Proof.
  intros (_ & _ & [Z|B]); [exists 0%Z; rewrite Z; ring|].
  pose proof (fmt_F x) as Fm. unfold fmt64, generic_format in Fm. set (m := Ztrunc _) in Fm. rewrite Fm. unfold F2R; cbn [Fnum Fexp].
  assert (C : (-203 <= cexp radix2 (FLT_exp (-1074) 53) (B2R x))%Z).
  { unfold cexp, FLT_exp. assert (M : (-149 <= mag radix2 (B2R x))%Z) by (change (-149)%Z with (-150 + 1)%Z; apply (mag_ge_bpow radix2 (B2R x) (-150 + 1)); replace (-150 + 1 - 1)%Z with (-150)%Z by lia; exact B). lia. }
  change (3 - 1024 - 53)%Z with (-1074)%Z in *.
  set (c := cexp radix2 _ (B2R x)) in *. exists (m * 2 ^ (c + 203))%Z. rewrite mult_IZR. replace c with ((c + 203) + -203)%Z at 1 by lia. rewrite bpow_plus.
  rewrite <- IZR_Zpower by lia. rewrite Rmult_assoc. reflexivity.
Qed.
(** nonzero and not absurdly small *)
Definition sized (d : R) : Prop := (d = 0 \/ bpow radix2 (-203) <= Rabs d) /\ Rabs d <= bpow radix2 110.
Definition rclose (d : R) (f : F) : Prop := is_finite f = true /\ Rabs (B2R f - d) <= u * Rabs d.
Lemma rnd_u x : (x = 0 \/ bpow radix2 (-1000) <= Rabs x) -> Rabs (rnd64 x - x) <= u * Rabs x.
Proof.
  intros [->|H]; [rewrite rnd_id by (apply (fmt_Z 0); lia); rewrite Rminus_eq_0, Rabs_R0; lra|].
  pose proof (rnd_err_le x (Rabs x) H (Rle_refl _)). lra.
Qed.
Lemma usable_diff k x y : (k <= 100)%Z -> usable k x -> usable k y -> sized (B2R x - B2R y).
Proof.
  intros Hk X Y. split.
  - destruct (usable_mult k x X) as (n & N), (usable_mult k y Y) as (m & M). rewrite N, M, <- Rmult_minus_distr_r, <- minus_IZR.
    destruct (Z.eq_dec (n - m) 0) as [->|NZ]; [left; ring|right]. rewrite Rabs_mult, (Rabs_pos_eq (bpow radix2 (-203))) by apply bpow_ge_0.
    rewrite <- abs_IZR. assert (1 <= IZR (Z.abs (n - m))) by (apply IZR_le; lia). pose proof (bpow_gt_0 radix2 (-203)). nra.
  - destruct X as (_ & X & _), Y as (_ & Y & _). unfold Rminus. eapply Rle_trans; [apply Rabs_triang|]. rewrite Rabs_Ropp.
    assert (bpow radix2 k <= bpow radix2 109) by (apply bpow_le; lia). change 110%Z with (1 + 109)%Z. rewrite bp2. lra.
Qed.
Lemma sub_rclose (x y : F) : is_finite x = true -> is_finite y = true -> sized (B2R x - B2R y) -> rclose (B2R x - B2R y) (Bminus mode_NE x y).
Proof.
  intros Fx Fy [S1 S2]. destruct (F_sub x y Fx Fy) as [E1 E2].
  { apply (finite_lt 110); [lia|]. apply rnd_err; [lia|exact S2]. }
  split; [exact E2|]. rewrite E1. apply rnd_u. destruct S1 as [S1|S1]; [now left|right]. eapply Rle_trans; [|exact S1]. apply bpow_le; lia.
Qed.

(** ** The sign of a computed area *)
Definition ssign (f : F) (s : R) : Prop :=
  is_finite f = true /\ Rabs (B2R f) <= bpow radix2 300 /\ (s = 0 -> B2R f = 0) /\
  (0 < s -> bpow radix2 (-480) <= B2R f) /\ (s < 0 -> B2R f <= - bpow radix2 (-480)).
Lemma u_small : u <= / 1000000000. Proof. cbn. lra. Qed.
Lemma mul_r4 (f g : F) d e : sized d -> sized e -> rclose d f -> rclose e g ->
  is_finite (Bmult mode_NE f g) = true /\ Rabs (B2R (Bmult mode_NE f g) - d * e) <= 4 * u * Rabs (d * e) /\ Rabs (B2R (Bmult mode_NE f g)) <= bpow radix2 222 /\
  (d * e = 0 \/ bpow radix2 (-406) <= Rabs (d * e)).
Proof.
  intros [D1 D2] [E1 E2] [Ff Rf] [Fg Rg]. pose proof u_pos as HU. pose proof u_small as U9.
  assert (FD : Rabs (B2R f) <= 2 * Rabs d). { replace (B2R f) with (B2R f - d + d) by ring. eapply Rle_trans; [apply Rabs_triang|]. pose proof (Rabs_pos d). nra. }
  assert (GE : Rabs (B2R g) <= 2 * Rabs e). { replace (B2R g) with (B2R g - e + e) by ring. eapply Rle_trans; [apply Rabs_triang|]. pose proof (Rabs_pos e). nra. }
  assert (PB : Rabs (B2R f * B2R g) <= bpow radix2 222).
  { rewrite Rabs_mult. replace (bpow radix2 222) with ((2 * bpow radix2 110) * (2 * bpow radix2 110)) by (rewrite <- !bp2, <- bpow_plus; f_equal; lia).
    apply Rmult_le_compat; try apply Rabs_pos; lra. }
  destruct (F_mul f g Ff Fg) as [M1 M2]. { apply (finite_lt 222); [lia|]. apply rnd_err; [lia|exact PB]. }
  assert (PE : d * e = 0 \/ bpow radix2 (-406) <= Rabs (d * e)).
  { destruct D1 as [->|D1]; [left; ring|]. destruct E1 as [->|E1]; [left; ring|]. right. rewrite Rabs_mult. change (-406)%Z with (-203 + -203)%Z. rewrite bpow_plus.
    apply Rmult_le_compat; try apply bpow_ge_0; assumption. }
  split; [exact M2|]. rewrite M1. split; [|split; [apply rnd_err; [lia|exact PB]|exact PE]].
  assert (FG : Rabs (B2R f * B2R g - d * e) <= (2 * u + u * u) * Rabs (d * e)).
  { replace (B2R f * B2R g - d * e) with ((B2R f - d) * (B2R g - e) + (B2R f - d) * e + d * (B2R g - e)) by ring.
    eapply Rle_trans; [apply Rabs_triang|]. eapply Rle_trans; [apply Rplus_le_compat_r, Rabs_triang|]. rewrite !Rabs_mult.
    set (a := Rabs (B2R f - d)) in *. set (b := Rabs (B2R g - e)) in *. set (D := Rabs d) in *. set (E := Rabs e) in *.
    assert (0 <= a) by apply Rabs_pos. assert (0 <= b) by apply Rabs_pos. assert (0 <= D) by apply Rabs_pos. assert (0 <= E) by apply Rabs_pos.
    assert (a * b <= (u * D) * (u * E)) by (apply Rmult_le_compat; assumption). assert (a * E <= u * D * E) by (apply Rmult_le_compat_r; assumption). assert (D * b <= D * (u * E)) by (apply Rmult_le_compat_l; assumption). lra. }
  set (A := Rabs (d * e)) in *. assert (0 <= A) by apply Rabs_pos. assert (UU : u * u <= u * / 1000000000) by (apply Rmult_le_compat_l; lra).
  assert (UA : 0 <= u * A) by (apply Rmult_le_pos; lra). assert (UUA : u * u * A <= u * A * / 1000000000) by (replace (u * A * / 1000000000) with (u * / 1000000000 * A) by ring; apply Rmult_le_compat_r; assumption).
  assert (AB : Rabs (B2R f * B2R g) <= 2 * A).
  { replace (B2R f * B2R g) with (B2R f * B2R g - d * e + d * e) by ring. eapply Rle_trans; [apply Rabs_triang|]. fold A. assert (u * A <= / 1000 * A) by (apply Rmult_le_compat_r; lra). nra. }
  assert (AB' : Rabs (B2R f * B2R g) <= (1 + (2 * u + u * u)) * A).
  { replace (B2R f * B2R g) with (B2R f * B2R g - d * e + d * e) by ring. eapply Rle_trans; [apply Rabs_triang|]. fold A. lra. }
  assert (RE : Rabs (rnd64 (B2R f * B2R g) - B2R f * B2R g) <= u * Rabs (B2R f * B2R g)).
  { apply rnd_u. destruct PE as [Z|P]; [left|right].
    - unfold A in *. rewrite Z, Rabs_R0, Rmult_0_r in AB. destruct (Req_dec (B2R f * B2R g) 0) as [Q|Q]; [exact Q|]. apply Rabs_pos_lt in Q. lra.
    - fold A in P. assert (A / 2 <= Rabs (B2R f * B2R g)).
      { assert (A <= Rabs (B2R f * B2R g - d * e) + Rabs (B2R f * B2R g)). { unfold A. replace (d * e) with (- (B2R f * B2R g - d * e) + B2R f * B2R g) at 1 by ring. eapply Rle_trans; [apply Rabs_triang|]. rewrite Rabs_Ropp. lra. }
        assert (u * A <= / 1000 * A) by (apply Rmult_le_compat_r; lra). lra. }
      assert (bpow radix2 (-1000) <= / 2 * bpow radix2 (-406)) by (apply Rmult_le_reg_l with 2; [lra|]; rewrite <- Rmult_assoc, Rinv_r, Rmult_1_l, <- bp2 by lra; apply bpow_le; lia). lra. }
  replace (rnd64 (B2R f * B2R g) - d * e) with ((rnd64 (B2R f * B2R g) - B2R f * B2R g) + (B2R f * B2R g - d * e)) by ring.
  eapply Rle_trans; [apply Rabs_triang|].
  assert (u * Rabs (B2R f * B2R g) <= u * ((1 + (2 * u + u * u)) * A)) by (apply Rmult_le_compat_l; lra).
  assert (u * (u * u * A) <= u * A) by (assert (u * u * A <= A) by nra; apply Rmult_le_compat_l; lra).
  nra.
Qed.
Lemma area_ssign (f1 f2 f3 f4 : F) d1 d2 d3 d4 : sized d1 -> sized d2 -> sized d3 -> sized d4 ->
  rclose d1 f1 -> rclose d2 f2 -> rclose d3 f3 -> rclose d4 f4 ->
  bpow radix2 (-50) * (Rabs (d1 * d2) + Rabs (d3 * d4)) <= Rabs (d1 * d2 + d3 * d4) ->
  ssign (Bplus mode_NE (Bmult mode_NE f1 f2) (Bmult mode_NE f3 f4)) (d1 * d2 + d3 * d4).
Proof.
  intros S1 S2 S3 S4 R1 R2 R3 R4 HM. pose proof u_pos as HU. pose proof u_small as U9.
  destruct (mul_r4 f1 f2 d1 d2 S1 S2 R1 R2) as (FA & EA & BA & ZA). destruct (mul_r4 f3 f4 d3 d4 S3 S4 R3 R4) as (FB & EB & BB & ZB).
  set (ma := Bmult mode_NE f1 f2) in *. set (mb := Bmult mode_NE f3 f4) in *. set (P := d1 * d2) in *. set (Q := d3 * d4) in *.
  assert (SB : Rabs (B2R ma + B2R mb) <= bpow radix2 223) by (eapply Rle_trans; [apply Rabs_triang|]; change 223%Z with (1 + 222)%Z; rewrite bp2; lra).
  destruct (F_add ma mb FA FB) as [M1 M2]. { apply (finite_lt 223); [lia|]. apply rnd_err; [lia|exact SB]. }
  replace (bpow radix2 (-50)) with (8 * u) in HM by (change (-50)%Z with (1 + (1 + (1 + -53)))%Z; rewrite !bp2; ring).
  set (Sg := Rabs P + Rabs Q) in *. pose proof (Rabs_pos P) as PP. pose proof (Rabs_pos Q) as QQ.
  assert (DS : Rabs (B2R ma + B2R mb - (P + Q)) <= 4 * u * Sg).
  { replace (B2R ma + B2R mb - (P + Q)) with ((B2R ma - P) + (B2R mb - Q)) by ring. eapply Rle_trans; [apply Rabs_triang|]. unfold Sg. lra. }
  split; [exact M2|]. split; [rewrite M1; apply Rle_trans with (bpow radix2 223); [apply rnd_err; [lia|exact SB]|apply bpow_le; lia]|].
  assert (HZ : P + Q = 0 -> B2R ma + B2R mb = 0).
  { intros Z. rewrite Z, Rabs_R0 in HM. assert (Sg = 0) by (unfold Sg in *; nra). rewrite Z, Rminus_0_r in DS. rewrite H, Rmult_0_r in DS.
    destruct (Req_dec (B2R ma + B2R mb) 0) as [K|K]; [exact K|]. apply Rabs_pos_lt in K. lra. }
  assert (HNZ : P + Q <> 0 -> Rabs (B2R (Bplus mode_NE ma mb) - (P + Q)) <= 3 / 4 * Rabs (P + Q) /\ bpow radix2 (-456) <= Rabs (P + Q)).
  { intros NZ. assert (SP : bpow radix2 (-406) <= Sg).
    { unfold Sg. destruct ZA as [ZA|ZA]; [destruct ZB as [ZB|ZB]; [exfalso; apply NZ; lra|]|]; lra. }
    assert (PQ : bpow radix2 (-456) <= Rabs (P + Q)).
    { eapply Rle_trans; [|exact HM]. replace (bpow radix2 (-456)) with (8 * u * bpow radix2 (-406)) by (replace 8 with (bpow radix2 3) by reflexivity; rewrite <- !bpow_plus; reflexivity). apply Rmult_le_compat_l; lra. }
    split; [|exact PQ].
    assert (UP : Rabs (B2R ma + B2R mb) <= 2 * Sg).
    { replace (B2R ma + B2R mb) with ((B2R ma + B2R mb - (P + Q)) + (P + Q)) by ring. eapply Rle_trans; [apply Rabs_triang|]. assert (Rabs (P + Q) <= Sg) by apply Rabs_triang. nra. }
    assert (LO : Rabs (P + Q) / 2 <= Rabs (B2R ma + B2R mb)).
    { assert (Rabs (P + Q) <= Rabs (B2R ma + B2R mb - (P + Q)) + Rabs (B2R ma + B2R mb)). { replace (P + Q) with (- (B2R ma + B2R mb - (P + Q)) + (B2R ma + B2R mb)) at 1 by ring. eapply Rle_trans; [apply Rabs_triang|]. rewrite Rabs_Ropp. lra. }
      lra. }
    assert (RE : Rabs (rnd64 (B2R ma + B2R mb) - (B2R ma + B2R mb)) <= u * Rabs (B2R ma + B2R mb)).
    { apply rnd_u. right. assert (bpow radix2 (-1000) <= / 2 * bpow radix2 (-456)) by (apply Rmult_le_reg_l with 2; [lra|]; rewrite <- Rmult_assoc, Rinv_r, Rmult_1_l, <- bp2 by lra; apply bpow_le; lia). lra. }
    rewrite M1. replace (rnd64 (B2R ma + B2R mb) - (P + Q)) with ((rnd64 (B2R ma + B2R mb) - (B2R ma + B2R mb)) + (B2R ma + B2R mb - (P + Q))) by ring.
    eapply Rle_trans; [apply Rabs_triang|]. assert (u * Rabs (B2R ma + B2R mb) <= u * (2 * Sg)) by (apply Rmult_le_compat_l; lra). lra. }
  assert (Q4 : bpow radix2 (-480) <= / 4 * bpow radix2 (-456)).
  { apply Rmult_le_reg_l with 4; [lra|]. rewrite <- Rmult_assoc, Rinv_r, Rmult_1_l by lra. replace 4 with (bpow radix2 2) by reflexivity. rewrite <- bpow_plus. apply bpow_le; lia. }
  split; [|split].
  - intros Z. rewrite M1, (HZ Z). apply rnd_id, (fmt_Z 0). lia.
  - intros Z. destruct HNZ as [H1 H2]; [lra|]. rewrite (Rabs_pos_eq (P + Q)) in H1, H2 by lra. apply Rabs_le_inv in H1. lra.
  - intros Z. destruct HNZ as [H1 H2]; [lra|]. rewrite (Rabs_left (P + Q)) in H1, H2 by lra. apply Rabs_le_inv in H1. lra.
Qed.
(** what the program does with such numbers *)
Lemma ssign_eq0 L f s : ssign f s -> @neqb F (NumF L) f (@nlit F (NumF L) 0 1) = Req_bool s 0.
Proof.
  intros (F1 & _ & Z & P & N). change (@nlit F (NumF L) 0 1) with (F_of_Z 0). destruct (F_of_Z_exact 0 eq_refl) as [Z1 Z2]. cbn [neqb NumF]. rewrite eqb_F by assumption. rewrite Z1.
  pose proof (bpow_gt_0 radix2 (-480)). destruct (Req_bool_spec s 0) as [E|E]; [apply Req_bool_true; auto|]. apply Req_bool_false.
  destruct (Rtotal_order s 0) as [K|[K|K]]; [specialize (N K); lra|lra|specialize (P K); lra].
Qed.
Lemma ssign_mul L f s g t : ssign f s -> ssign g t -> @nltb F (NumF L) (@nmul F (NumF L) f g) (@nlit F (NumF L) 0 1) = Rlt_bool (s * t) 0.
Proof.
  intros (F1 & BF & Zf & Pf & Nf) (G1 & BG & Zg & Pg & Ng). change (@nlit F (NumF L) 0 1) with (F_of_Z 0). destruct (F_of_Z_exact 0 eq_refl) as [Z1 Z2]. cbn [nltb nmul NumF].
  assert (PB : Rabs (B2R f * B2R g) <= bpow radix2 600) by (rewrite Rabs_mult; change 600%Z with (300 + 300)%Z; rewrite bpow_plus; apply Rmult_le_compat; try apply Rabs_pos; assumption).
  destruct (F_mul f g F1 G1) as [M1 M2]. { apply (finite_lt 600); [lia|]. apply rnd_err; [lia|exact PB]. }
  rewrite ltb_F by assumption. rewrite M1, Z1. set (e := bpow radix2 (-480)) in *. assert (E0 : 0 < e) by apply bpow_gt_0. assert (EE : e * e = bpow radix2 (-960)) by (unfold e; rewrite <- bpow_plus; reflexivity).
  assert (LOW : forall x, x <= - (e * e) -> rnd64 x < 0).
  { intros x Hx. apply rnd_le in Hx. rewrite rnd_opp, (rnd_id (e * e)) in Hx by (rewrite EE; apply fmt_bpow; lia). assert (0 < e * e) by (apply Rmult_lt_0_compat; assumption). lra. }
  assert (HIGH : forall x, 0 <= x -> 0 <= rnd64 x).
  { intros x Hx. apply rnd_le in Hx. rewrite (rnd_id 0) in Hx by (apply (fmt_Z 0); lia). exact Hx. }
  destruct (Rtotal_order s 0) as [K|[K|K]]; destruct (Rtotal_order t 0) as [K'|[K'|K']].
  - specialize (Nf K). specialize (Ng K'). rewrite !Rlt_bool_false; [easy|nra|apply HIGH; nra].
  - rewrite (Zg K'), K', !Rmult_0_r. rewrite !Rlt_bool_false; [easy|lra|apply HIGH; lra].
  - specialize (Nf K). specialize (Pg K'). rewrite !Rlt_bool_true; [easy|nra|apply LOW; nra].
  - rewrite (Zf K), K, !Rmult_0_l. rewrite !Rlt_bool_false; [easy|lra|apply HIGH; lra].
  - rewrite (Zf K), K, !Rmult_0_l. rewrite !Rlt_bool_false; [easy|lra|apply HIGH; lra].
  - rewrite (Zf K), K, !Rmult_0_l. rewrite !Rlt_bool_false; [easy|lra|apply HIGH; lra].
  - specialize (Pf K). specialize (Ng K'). rewrite !Rlt_bool_true; [easy|nra|apply LOW; nra].
  - rewrite (Zg K'), K', !Rmult_0_r. rewrite !Rlt_bool_false; [easy|lra|apply HIGH; lra].
  - specialize (Pf K). specialize (Pg K'). rewrite !Rlt_bool_false; [easy|nra|apply HIGH; nra].
Qed.

(** ** One edge *)
Definition gdiff (x y : F) : Prop := is_finite x = true /\ is_finite y = true /\ sized (B2R x - B2R y).
Lemma gdiff_sym x y : gdiff x y -> gdiff y x.
Proof. intros (A & B & C & D). split; [exact B|]. split; [exact A|]. unfold sized. rewrite Rabs_minus_sym. split; [destruct C as [C|C]; [left; lra|now right]|exact D]. Qed.
Lemma area_F L a b c : gdiff (vx a) (vx c) -> gdiff (vy b) (vy c) -> gdiff (vx b) (vx c) -> gdiff (vy c) (vy a) ->
  bpow radix2 (-50) * (Rabs ((B2R (vx a) - B2R (vx c)) * (B2R (vy b) - B2R (vy c))) + Rabs ((B2R (vx b) - B2R (vx c)) * (B2R (vy c) - B2R (vy a)))) <=
    Rabs ((B2R (vx a) - B2R (vx c)) * (B2R (vy b) - B2R (vy c)) + (B2R (vx b) - B2R (vx c)) * (B2R (vy c) - B2R (vy a))) ->
  ssign (@double_signed_area_st F (NumF L) a b c) (double_signed_area_st (rvec a) (rvec b) (rvec c)).
Proof.
  intros (A1 & A2 & A3) (B1 & B2 & B3) (C1 & C2 & C3) (D1 & D2 & D3) HM. unfold double_signed_area_st. rnum. cbn [rvec vx vy nadd nsub nmul NumF].
  apply area_ssign; try assumption; apply sub_rclose; assumption.
Qed.
Lemma same_dir P Q : 0 <= P * Q -> bpow radix2 (-50) * (Rabs P + Rabs Q) <= Rabs (P + Q).
Proof.
  intros H. assert (E : Rabs (P + Q) = Rabs P + Rabs Q) by (unfold Rabs; destruct (Rcase_abs P), (Rcase_abs Q), (Rcase_abs (P + Q)); nra).
  rewrite E. pose proof (Rabs_pos P). pose proof (Rabs_pos Q). assert (bpow radix2 (-50) <= 1) by (change 1 with (bpow radix2 0); apply bpow_le; lia). nra.
Qed.
Definition vfin (v : vec F) : Prop := is_finite (vx v) = true /\ is_finite (vy v) = true.
Lemma check_FR L s q : vfin (s_origin s) -> vfin (s_terminal s) -> vfin q ->
  @check_intersects_on_line F (NumF L) s q = check_intersects_on_line (mkSeg (rvec (s_origin s)) (rvec (s_terminal s))) (rvec q).
Proof.
  intros [A1 A2] [B1 B2] [C1 C2]. unfold check_intersects_on_line. cbn [s_origin s_terminal neqb nleb NumF]. rewrite eqb_F, !leb_F by assumption. rnum. reflexivity.
Qed.
Lemma veq_FR L v w : vfin v -> vfin w -> @Vector2D_eq F (NumF L) v w = Vector2D_eq (rvec v) (rvec w).
Proof. intros [A1 A2] [B1 B2]. unfold Vector2D_eq. cbn [neqb NumF]. rewrite !eqb_F by assumption. rnum. reflexivity. Qed.

(** an edge wholly above or below the level of q, with q in its horizontal range: the area is not zero, in either arithmetic *)
Lemma off_level L o t q : gdiff (vx o) (vx q) -> gdiff (vy t) (vy q) -> gdiff (vx t) (vx q) -> gdiff (vy q) (vy o) ->
  0 < (B2R (vy o) - B2R (vy q)) * (B2R (vy t) - B2R (vy q)) ->
  check_intersects_on_line (mkSeg (rvec o) (rvec t)) (rvec q) = true ->
  Req_bool (double_signed_area_st (rvec o) (rvec t) (rvec q)) 0 = false /\
  @neqb F (NumF L) (@double_signed_area_st F (NumF L) o t q) (@nlit F (NumF L) 0 1) = false.
Proof.
  intros G1 G2 G3 G4 HL HC. unfold check_intersects_on_line in HC. cbn [s_origin s_terminal rvec vx vy] in HC. rnum. revert HC. rnum.
  set (ox := B2R (vx o)) in *. set (oy := B2R (vy o)) in *. set (tx := B2R (vx t)) in *. set (ty := B2R (vy t)) in *. set (qx := B2R (vx q)) in *. set (qy := B2R (vy q)) in *.
  destruct (Req_bool_spec ox tx) as [E|E]; rewrite orb_true_iff, !andb_true_iff, !Rle_bool_iff; intros HC; [exfalso; nra|].
  assert (PQ : 0 <= ((ox - qx) * (ty - qy)) * ((tx - qx) * (qy - oy))).
  { replace (((ox - qx) * (ty - qy)) * ((tx - qx) * (qy - oy))) with (((oy - qy) * (ty - qy)) * ((ox - qx) * (qx - tx))) by ring. apply Rmult_le_pos; [lra|]. nra. }
  assert (NZ : (ox - qx) * (ty - qy) + (tx - qx) * (qy - oy) <> 0).
  { intros Z. set (P := (ox - qx) * (ty - qy)) in *. set (Q := (tx - qx) * (qy - oy)) in *. assert (P0 : P = 0) by nra. assert (Q0 : Q = 0) by nra. unfold P, Q in *.
    assert (ty - qy <> 0) by nra. assert (qy - oy <> 0) by nra. apply Rmult_integral in P0, Q0. destruct P0; [|lra]. destruct Q0; [|lra]. lra. }
  assert (RZ : Req_bool (double_signed_area_st (rvec o) (rvec t) (rvec q)) 0 = false).
  { unfold double_signed_area_st. rnum. cbn [rvec vx vy]. now apply Req_bool_false. }
  split; [exact RZ|]. rewrite (ssign_eq0 L _ (double_signed_area_st (rvec o) (rvec t) (rvec q))); [exact RZ|].
  apply area_F; try assumption. now apply same_dir.
Qed.

Lemma on_level_point ox oy tx ty y : oy <> ty -> (oy <= y <= ty \/ ty <= y <= oy) -> on_seg (ox, oy) (tx, ty) (ox + (y - oy) / (ty - oy) * (tx - ox), y).
Proof. intros N H. apply (on_seg_level (ox, oy) (tx, ty) y); cbn [py snd px fst]; assumption. Qed.

Lemma straddle_margin (m ox oy tx ty x y : R) : 0 <= m ->
  oy <> ty -> (oy <= y <= ty \/ ty <= y <= oy) ->
  (forall x', on_seg (ox, oy) (tx, ty) (x', y) -> m * Rmax (Rabs (ox - x)) (Rabs (tx - x)) <= Rabs (x' - x)) ->
  m * (Rabs ((ox - x) * (ty - y)) + Rabs ((tx - x) * (y - oy))) <= Rabs ((ox - x) * (ty - y) + (tx - x) * (y - oy)).
Proof.
  intros Hm N HL H. specialize (H _ (on_level_point ox oy tx ty y N HL)). set (xc := ox + (y - oy) / (ty - oy) * (tx - ox)) in H.
  assert (E : (xc - x) * (ty - oy) = (ox - x) * (ty - y) + (tx - x) * (y - oy)) by (unfold xc; field; lra).
  rewrite <- E, !Rabs_mult. pose proof (Rmax_l (Rabs (ox - x)) (Rabs (tx - x))). pose proof (Rmax_r (Rabs (ox - x)) (Rabs (tx - x))).
  set (M := Rmax (Rabs (ox - x)) (Rabs (tx - x))) in *. assert (EA : Rabs (ty - oy) = Rabs (ty - y) + Rabs (y - oy)).
  { unfold Rabs. destruct (Rcase_abs (ty - oy)), (Rcase_abs (ty - y)), (Rcase_abs (y - oy)); lra. }
  pose proof (Rabs_pos (ty - y)). pose proof (Rabs_pos (y - oy)).
  apply Rle_trans with (m * M * Rabs (ty - oy)); [|apply Rmult_le_compat_r; [apply Rabs_pos|exact H]].
  rewrite Rmult_assoc. apply Rmult_le_compat_l; [exact Hm|]. rewrite EA, Rmult_plus_distr_l. apply Rplus_le_compat; apply Rmult_le_compat_r; assumption.
Qed.

(** the half line from p to (X, py p), an edge o t not lying on p's level *)
Record edge_ok (p : vec F) (X : F) (o t : vec F) : Prop := {
  e_po : gdiff (vx o) (vx p) /\ gdiff (vy o) (vy p);
  e_pt : gdiff (vx t) (vx p) /\ gdiff (vy t) (vy p);
  e_X : gdiff X (vx o) /\ gdiff X (vx t);
  e_far : B2R (vx o) <= B2R X /\ B2R (vx t) <= B2R X /\ B2R (vx p) <= B2R X;
  e_wo : Rabs (B2R (vx p) - B2R (vx o)) + Rabs (B2R X - B2R (vx o)) <= bpow radix2 50 * (B2R X - B2R (vx p));
  e_wt : Rabs (B2R (vx p) - B2R (vx t)) + Rabs (B2R X - B2R (vx t)) <= bpow radix2 50 * (B2R X - B2R (vx p)) }.
Definition edge_clear (p o t : vec F) : Prop :=
  ~ on_seg (fpt o) (fpt t) (fpt p) /\
  (B2R (vy o) <> B2R (vy t) -> forall x', on_seg (fpt o) (fpt t) (x', B2R (vy p)) ->
     bpow radix2 (-50) * Rmax (Rabs (B2R (vx o) - B2R (vx p))) (Rabs (B2R (vx t) - B2R (vx p))) <= Rabs (x' - B2R (vx p))).

Lemma area_a L p X o : gdiff (vx o) (vx p) -> gdiff (vy o) (vy p) -> gdiff X (vx o) ->
  Rabs (B2R (vx p) - B2R (vx o)) + Rabs (B2R X - B2R (vx o)) <= bpow radix2 50 * (B2R X - B2R (vx p)) -> B2R (vx p) <= B2R X ->
  ssign (@double_signed_area_st F (NumF L) (Vector2D_of_vec p) (mkVec X (vy p) true) o) (double_signed_area_st (rvec (Vector2D_of_vec p)) (rvec (mkVec X (vy p) true)) (rvec o)).
Proof.
  intros G1 G2 G3 HW HX. apply area_F; cbn [vx vy Vector2D_of_vec V]; try assumption; try (apply gdiff_sym; assumption).
  set (x := B2R (vx p)) in *. set (y := B2R (vy p)) in *. set (ox := B2R (vx o)) in *. set (oy := B2R (vy o)) in *. set (x2 := B2R X) in *.
  replace ((x - ox) * (y - oy) + (x2 - ox) * (oy - y)) with ((x2 - x) * (oy - y)) by ring. rewrite !Rabs_mult. rewrite (Rabs_minus_sym y oy), <- Rmult_plus_distr_r.
  rewrite (Rabs_pos_eq (x2 - x)) by lra. rewrite <- Rmult_assoc. apply Rmult_le_compat_r; [apply Rabs_pos|].
  apply Rmult_le_reg_l with (bpow radix2 50); [apply bpow_gt_0|]. rewrite <- Rmult_assoc, <- bpow_plus. change (bpow radix2 (50 + -50)) with 1. lra.
Qed.
Lemma area_b0 L p o t X : edge_ok p X o t -> edge_clear p o t -> (B2R (vy o) - B2R (vy p)) * (B2R (vy t) - B2R (vy p)) <= 0 ->
  ssign (@double_signed_area_st F (NumF L) o t p) (double_signed_area_st (rvec o) (rvec t) (rvec p)).
Proof.
  intros [[P1 P2] [T1 T2] _ _ _ _] [_ C] HL. apply area_F; try assumption; try (apply gdiff_sym; assumption).
  destruct (Req_dec (B2R (vy o)) (B2R (vy t))) as [E|N].
  - assert (B2R (vy t) - B2R (vy p) = 0) by (rewrite E in HL; nra). replace (B2R (vy p) - B2R (vy o)) with 0 by lra. rewrite H. apply same_dir. lra.
  - apply straddle_margin; [apply bpow_ge_0|exact N|nra|]. exact (C N).
Qed.
Lemma area_b1 L p o t X : edge_ok p X o t -> (B2R (vy o) - B2R (vy p)) * (B2R (vy t) - B2R (vy p)) <= 0 ->
  ssign (@double_signed_area_st F (NumF L) o t (mkVec X (vy p) true)) (double_signed_area_st (rvec o) (rvec t) (rvec (mkVec X (vy p) true))).
Proof.
  intros [[P1 P2] [T1 T2] [X1 X2] (F1 & F2 & F3) _ _] HL. apply area_F; cbn [vx vy]; try assumption; try (apply gdiff_sym; assumption).
  apply same_dir. set (x2 := B2R X) in *.
  replace (((B2R (vx o) - x2) * (B2R (vy t) - B2R (vy p))) * ((B2R (vx t) - x2) * (B2R (vy p) - B2R (vy o)))) with (((x2 - B2R (vx o)) * (x2 - B2R (vx t))) * (- ((B2R (vy o) - B2R (vy p)) * (B2R (vy t) - B2R (vy p))))) by ring.
  apply Rmult_le_pos; [apply Rmult_le_pos; lra|lra].
Qed.
Lemma exist_FR L p X o t : edge_ok p X o t -> edge_clear p o t ->
  @Segment2D_exist_intersection_seg F (NumF L) (mkSeg (Vector2D_of_vec p) (mkVec X (vy p) true)) (mkSeg o t) =
  Segment2D_exist_intersection_seg (mkSeg (rvec (Vector2D_of_vec p)) (rvec (mkVec X (vy p) true))) (mkSeg (rvec o) (rvec t)).
Proof.
  intros OK CL. pose proof OK as [[P1 P2] [T1 T2] [X1 X2] (F1 & F2 & F3) W1 W2].
  pose proof (area_a L p X o P1 P2 X1 W1 F3) as A0. pose proof (area_a L p X t T1 T2 X2 W2 F3) as A1.
  assert (Vp : vfin p) by (split; [apply P1|apply P2]). assert (Vo : vfin o) by (split; [apply P1|apply P2]). assert (Vt : vfin t) by (split; [apply T1|apply T2]).
  assert (VX : vfin (mkVec X (vy p) true)) by (split; [apply X1|apply P2]). assert (Vp' : vfin (Vector2D_of_vec p)) by exact Vp.
  unfold Segment2D_exist_intersection_seg. cbn [s_origin s_terminal]. rewrite !check_FR, !veq_FR by assumption. cbn [s_origin s_terminal].
  rewrite (ssign_mul L _ _ _ _ A0 A1), (ssign_eq0 L _ _ A0), (ssign_eq0 L _ _ A1).
  destruct (Rle_lt_dec ((B2R (vy o) - B2R (vy p)) * (B2R (vy t) - B2R (vy p))) 0) as [HL|HL].
  - pose proof (area_b0 L p o t X OK CL HL) as B0. pose proof (area_b1 L p o t X OK HL) as B1.
    change (@double_signed_area_st F (NumF L) o t (Vector2D_of_vec p)) with (@double_signed_area_st F (NumF L) o t p).
    rewrite (ssign_mul L _ _ _ _ B0 B1), (ssign_eq0 L _ _ B0), (ssign_eq0 L _ _ B1). rnum. reflexivity.
  - set (a0 := double_signed_area_st (rvec (Vector2D_of_vec p)) (rvec (mkVec X (vy p) true)) (rvec o)). set (a1 := double_signed_area_st (rvec (Vector2D_of_vec p)) (rvec (mkVec X (vy p) true)) (rvec t)).
    assert (AA : a0 * a1 = (B2R X - B2R (vx p)) * (B2R X - B2R (vx p)) * ((B2R (vy o) - B2R (vy p)) * (B2R (vy t) - B2R (vy p)))).
    { unfold a0, a1, double_signed_area_st. rnum. cbn [rvec Vector2D_of_vec V vx vy]. ring. }
    rewrite (Rlt_bool_false (a0 * a1)) by (rewrite AA; apply Rmult_le_pos; [apply Rle_0_sqr|lra]). cbn [andb].
    assert (OB : forall q, vfin q -> gdiff (vx o) (vx q) -> gdiff (vx t) (vx q) -> vy q = vy p ->
      @neqb F (NumF L) (@double_signed_area_st F (NumF L) o t q) (@nlit F (NumF L) 0 1) && check_intersects_on_line (mkSeg (rvec o) (rvec t)) (rvec q) =
      Req_bool (double_signed_area_st (rvec o) (rvec t) (rvec q)) 0 && check_intersects_on_line (mkSeg (rvec o) (rvec t)) (rvec q)).
    { intros q Vq Q1 Q2 Qy. destruct (check_intersects_on_line (mkSeg (rvec o) (rvec t)) (rvec q)) eqn:EC; [|now rewrite !andb_false_r].
      destruct (off_level L o t q) as [K1 K2]; try rewrite Qy; try assumption; [apply gdiff_sym; assumption|]. now rewrite K1, K2. }
    pose proof (OB (Vector2D_of_vec p) Vp' P1 T1 eq_refl) as O1. pose proof (OB (mkVec X (vy p) true) VX (gdiff_sym _ _ X1) (gdiff_sym _ _ X2) eq_refl) as O2.
    rewrite O1, O2. rnum. rewrite (Rlt_bool_false (a0 * a1)) by (rewrite AA; apply Rmult_le_pos; [apply Rle_0_sqr|lra]). reflexivity.
Qed.
Lemma on_segment_FR L p X o t : edge_ok p X o t -> edge_clear p o t ->
  @Segment2D_on_segment F (NumF L) (mkSeg o t) p = Segment2D_on_segment (mkSeg (rvec o) (rvec t)) (rvec p).
Proof.
  intros OK CL. pose proof OK as [[P1 P2] [T1 T2] [X1 X2] (F1 & F2 & F3) W1 W2].
  assert (Vp : vfin p) by (split; [apply P1|apply P2]). assert (Vo : vfin o) by (split; [apply P1|apply P2]). assert (Vt : vfin t) by (split; [apply T1|apply T2]).
  unfold Segment2D_on_segment. cbn [s_origin s_terminal]. rewrite check_FR by assumption. cbn [s_origin s_terminal].
  destruct (Rle_lt_dec ((B2R (vy o) - B2R (vy p)) * (B2R (vy t) - B2R (vy p))) 0) as [HL|HL].
  - pose proof (area_b0 L p o t X OK CL HL) as B0. rewrite (ssign_eq0 L _ _ B0). rnum. reflexivity.
  - destruct (check_intersects_on_line (mkSeg (rvec o) (rvec t)) (rvec p)) eqn:EC; [|now rewrite !andb_false_r].
    destruct (off_level L o t p) as [K1 K2]; try assumption; [apply gdiff_sym; assumption|]. rewrite K2. change (false && true = Req_bool (double_signed_area_st (rvec o) (rvec t) (rvec p)) 0 && true). now rewrite K1.
Qed.

(** ** The bounding box *)
Lemma usable_fin k x : usable k x -> is_finite x = true. Proof. now intros (H & _). Qed.
Definition vusable (k : Z) (v : vec F) : Prop := usable k (vx v) /\ usable k (vy v).
Lemma extent_F (upd : option F -> F -> option F) (updR : option R -> R -> option R) (proj : vec F -> F) (projR : vec R -> R) vs :
  (forall m m' x, orel m m' -> is_finite x = true -> orel (upd m x) (updR m' (B2R x))) ->
  (forall m x, upd m x = Some x \/ (exists y, m = Some y /\ upd m x = Some y)) ->
  (forall v, projR (rvec v) = B2R (proj v)) -> vs <> [] -> (forall v, In v vs -> is_finite (proj v) = true) ->
  exists v, In v vs /\ bbox_extent vs upd proj = Some (proj v) /\ bbox_extent (map rvec vs) updR projR = Some (B2R (proj v)).
Proof.
  intros U UI P NE FF. assert (FA : Forall (fun v => is_finite (proj v) = true) vs) by (apply Forall_forall; exact FF).
  pose proof (ext_F upd updR proj projR U P vs FA) as O.
  assert (S : exists v, In v vs /\ bbox_extent vs upd proj = Some (proj v)).
  { unfold bbox_extent. destruct vs as [|v0 vs']; [easy|]. cbn [fold_left].
    destruct (upd_in upd proj vs' UI (upd None (proj v0))) as [E|(v & I & E)]; rewrite E; [|exists v; cbn; auto].
    destruct (UI None (proj v0)) as [K|(y & K & _)]; [exists v0; cbn; auto|discriminate]. }
  destruct S as (v & I & S). exists v. split; [exact I|]. split; [exact S|]. rewrite S in O. unfold orel in O. destruct (bbox_extent (map rvec vs) updR projR); [|easy]. now destruct O as [_ <-].
Qed.
Lemma box_edge k (a b : F) : (-100 <= k <= 100)%Z -> usable k a -> usable k b -> B2R a <= B2R b ->
  close (k + 2) (bpow radix2 (k - 51)) (B2R b) (Bplus mode_NE a (Babs (Bminus mode_NE b a))).
Proof.
  intros Hk (A1 & A2 & _) (B1 & B2 & _) H. pose proof (close_sub k 0 (B2R b) 0 (B2R a) b a ltac:(lia) (close_exact k b B1 B2) (close_exact k a A1 A2)) as (D1 & D2 & D3).
  destruct (F_abs (Bminus mode_NE b a)) as [E1 E2].
  assert (C : close (k + 1) (bpow radix2 (k - 53)) (B2R b - B2R a) (Babs (Bminus mode_NE b a))).
  { split; [now rewrite E2|]. rewrite E1. split; [now rewrite Rabs_Rabsolu|]. replace (k + 1 - 54)%Z with (k - 53)%Z in D3 by lia.
    rewrite <- (Rabs_pos_eq (B2R b - B2R a)) by lra. eapply Rle_trans; [apply Rabs_triang_inv2|]. lra. }
  pose proof (close_add (k + 1) 0 (B2R a) _ (B2R b - B2R a) a _ ltac:(lia) (close_up k (k + 1) _ _ _ ltac:(lia) (close_exact k a A1 A2)) C) as S.
  replace (k + 1 + 1)%Z with (k + 2)%Z in S by lia. replace (B2R a + (B2R b - B2R a)) with (B2R b) in S by ring. eapply close_weaken; [|exact S].
  replace (k + 2 - 54)%Z with (1 + (k - 53))%Z by lia. replace (k - 51)%Z with (1 + (1 + (k - 53)))%Z by lia. rewrite !bp2. pose proof (bpow_gt_0 radix2 (k - 53)). lra.
Qed.
Lemma bbox_general L k vs : (-100 <= k <= 100)%Z -> vs <> [] -> (forall v, In v vs -> vusable k v) ->
  exists bb xm xM ym yM, @Polygon2D_get_bounding_box F (NumF L) vs = Ok bb /\
    usable k xm /\ usable k ym /\ Rect2D_left bb = xm /\ Rect2D_top bb = ym /\
    close (k + 2) (bpow radix2 (k - 51)) xM (@Rect2D_right F (NumF L) bb) /\ close (k + 2) (bpow radix2 (k - 51)) yM (@Rect2D_bottom F (NumF L) bb) /\
    (forall v, In v vs -> B2R xm <= B2R (vx v) <= xM /\ B2R ym <= B2R (vy v) <= yM) /\
    (exists v, In v vs /\ vx v = xm) /\ (exists v, In v vs /\ vy v = ym) /\ (exists v, In v vs /\ B2R (vx v) = xM) /\ (exists v, In v vs /\ B2R (vy v) = yM).
Proof.
  intros Hk NE U.
  assert (UMI : forall (m : option F) x, @upd_min F (NumF L) m x = Some x \/ (exists y, m = Some y /\ @upd_min F (NumF L) m x = Some y)).
  { intros [y|] x; cbn [upd_min]; [destruct (nltb x y); eauto|eauto]. }
  assert (UMA : forall (m : option F) x, @upd_max F (NumF L) m x = Some x \/ (exists y, m = Some y /\ @upd_max F (NumF L) m x = Some y)).
  { intros [y|] x; cbn [upd_max]; [destruct (nltb y x); eauto|eauto]. }
  assert (FX : forall v, In v vs -> is_finite (vx v) = true) by (intros v I; apply (usable_fin k), (U v I)).
  assert (FY : forall v, In v vs -> is_finite (vy v) = true) by (intros v I; apply (usable_fin k), (U v I)).
  destruct (extent_F _ _ (@vx F) (@vx R) vs (upd_min_F L) UMI (fun v => eq_refl) NE FX) as (a & A1 & A2 & A3).
  destruct (extent_F _ _ (@vx F) (@vx R) vs (upd_max_F L) UMA (fun v => eq_refl) NE FX) as (b & B1 & B2 & B3).
  destruct (extent_F _ _ (@vy F) (@vy R) vs (upd_min_F L) UMI (fun v => eq_refl) NE FY) as (c & C1 & C2 & C3).
  destruct (extent_F _ _ (@vy F) (@vy R) vs (upd_max_F L) UMA (fun v => eq_refl) NE FY) as (d & D1 & D2 & D3).
  assert (HV : forall v, In v vs -> B2R (vx a) <= B2R (vx v) <= B2R (vx b) /\ B2R (vy c) <= B2R (vy v) <= B2R (vy d)).
  { destruct vs as [|v0 vs']; [easy|]. cbn [map] in A3, B3, C3, D3.
    destruct (ext_min (map rvec vs') (@vx R) (rvec v0)) as (mx & E1 & _ & M1). destruct (ext_max (map rvec vs') (@vx R) (rvec v0)) as (Mx & E2 & _ & M2).
    destruct (ext_min (map rvec vs') (@vy R) (rvec v0)) as (my & E3 & _ & M3). destruct (ext_max (map rvec vs') (@vy R) (rvec v0)) as (My & E4 & _ & M4).
    rewrite A3 in E1. rewrite B3 in E2. rewrite C3 in E3. rewrite D3 in E4. injection E1 as <-. injection E2 as <-. injection E3 as <-. injection E4 as <-.
    intros v I. apply (in_map rvec (v0 :: vs')) in I. split; split; [apply (M1 _ I)|apply (M2 _ I)|apply (M3 _ I)|apply (M4 _ I)]. }
  unfold Polygon2D_get_bounding_box. rewrite A2, B2, C2, D2. eexists. exists (vx a), (B2R (vx b)), (vy c), (B2R (vy d)). split; [reflexivity|].
  unfold Rect2D_right, Rect2D_bottom, Rect2D_left, Rect2D_top, Rect2D_of_vec_size, Size2D_init, Vector2D_of_vec. cbn [r_top_left r_size sz_length sz_width vx vy V nadd nsub nabs NumF].
  split; [apply (U a A1)|]. split; [apply (U c C1)|]. split; [reflexivity|]. split; [reflexivity|].
  split; [apply box_edge; [exact Hk|apply (U a A1)|apply (U b B1)|apply (HV b B1)]|].
  split; [apply box_edge; [exact Hk|apply (U c C1)|apply (U d D1)|apply (HV d D1)]|].
  split; [exact HV|]. split; [now exists a|]. split; [now exists c|]. split; [now exists b|now exists d].
Qed.

(** ** The half line *)
Lemma sqrt_ok (x : F) j : is_finite x = true -> 0 <= B2R x <= bpow radix2 (j + j) -> (-400 <= j <= 400)%Z ->
  exists r, F_sqrt x = Ok r /\ is_finite r = true /\ 0 <= B2R r <= bpow radix2 j.
Proof.
  intros Fx Bx Hj. unfold F_sqrt. destruct (F_of_Z_exact 0 eq_refl) as [Z1 Z2]. rewrite ltb_F by easy. rewrite Z1, Rlt_bool_false by lra. eexists. split; [reflexivity|].
  destruct (Bsqrt_correct 53 1024 _ _ mode_NE x) as (S1 & S2 & _). change (round radix2 _ _ _) with (rnd64 (sqrt (B2R x))) in S1. split.
  - destruct x as [s|s| |s mm ee Hb]; cbn in Fx, S2; try discriminate; try exact S2. destruct s; [|exact S2]. exfalso.
    assert (K : B2R (B754_finite true mm ee Hb : F) < 0) by (cbn [B2R]; apply F2R_lt_0; reflexivity). lra.
  - rewrite S1. apply rnd_between; [apply (fmt_Z 0); lia|apply fmt_bpow; lia|]. split; [apply sqrt_pos|].
    rewrite <- (sqrt_square (bpow radix2 j)) by apply bpow_ge_0. apply sqrt_le_1_alt. rewrite <- bpow_plus. lra.
Qed.
Lemma r_ok L k (v p : vec F) : (-100 <= k <= 100)%Z -> vusable k v -> vusable k p ->
  exists r, @Vector2D_r F (NumF L) (@Vector2D_sub F (NumF L) v p) = Ok r /\ is_finite r = true /\ 0 <= B2R r <= bpow radix2 (k + 2).
Proof.
  intros Hk [(VX1 & VX2 & _) (VY1 & VY2 & _)] [(PX1 & PX2 & _) (PY1 & PY2 & _)].
  pose proof (close_sub k 0 _ 0 _ (vx v) (vx p) ltac:(lia) (close_exact k _ VX1 VX2) (close_exact k _ PX1 PX2)) as (A1 & A2 & _).
  pose proof (close_sub k 0 _ 0 _ (vy v) (vy p) ltac:(lia) (close_exact k _ VY1 VY2) (close_exact k _ PY1 PY2)) as (B1 & B2 & _).
  unfold Vector2D_r, Vector2D_r2, Vector2D_sub. cbn [V vx vy nsqrt nadd nsub nmul NumF].
  set (dx := Bminus mode_NE (vx v) (vx p)) in *. set (dy := Bminus mode_NE (vy v) (vy p)) in *.
  assert (SQ : forall d : F, is_finite d = true -> Rabs (B2R d) <= bpow radix2 (k + 1) -> is_finite (Bmult mode_NE d d) = true /\ 0 <= B2R (Bmult mode_NE d d) <= bpow radix2 (k + 1 + (k + 1))).
  { intros d Fd Bd. assert (B : 0 <= B2R d * B2R d <= bpow radix2 (k + 1 + (k + 1))).
    { split; [apply Rle_0_sqr|]. rewrite bpow_plus. replace (B2R d * B2R d) with (Rabs (B2R d) * Rabs (B2R d)) by (rewrite <- Rabs_mult; apply Rabs_pos_eq, Rle_0_sqr). apply Rmult_le_compat; try apply Rabs_pos; assumption. }
    assert (RB : 0 <= rnd64 (B2R d * B2R d) <= bpow radix2 (k + 1 + (k + 1))) by (apply rnd_between; [apply (fmt_Z 0); lia|apply fmt_bpow; lia|exact B]).
    destruct (F_mul d d Fd Fd) as [E1 E2]; [apply (finite_lt (k + 1 + (k + 1))); [lia|apply Rabs_le; lra]|]. split; [exact E2|]. now rewrite E1. }
  destruct (SQ dx A1 A2) as [X1 X2]. destruct (SQ dy B1 B2) as [Y1 Y2].
  assert (E : bpow radix2 (k + 2 + (k + 2)) = 4 * bpow radix2 (k + 1 + (k + 1))) by (replace (k + 2 + (k + 2))%Z with (1 + (1 + (k + 1 + (k + 1))))%Z by lia; rewrite !bp2; ring).
  assert (RB : 0 <= rnd64 (B2R (Bmult mode_NE dx dx) + B2R (Bmult mode_NE dy dy)) <= bpow radix2 (k + 2 + (k + 2))).
  { apply rnd_between; [apply (fmt_Z 0); lia|apply fmt_bpow; lia|]. rewrite E. lra. }
  destruct (F_add _ _ X1 Y1) as [E1 E2]; [apply (finite_lt (k + 2 + (k + 2))); [lia|apply Rabs_le; lra]|].
  apply sqrt_ok; [exact E2|now rewrite E1|lia].
Qed.
Lemma half_general L k v0 p bb xM yM : (-100 <= k <= 100)%Z -> vusable k v0 -> vusable k p ->
  usable k (Rect2D_left bb) -> usable k (Rect2D_top bb) ->
  close (k + 2) (bpow radix2 (k - 51)) xM (@Rect2D_right F (NumF L) bb) -> close (k + 2) (bpow radix2 (k - 51)) yM (@Rect2D_bottom F (NumF L) bb) ->
  let D := (xM - B2R (Rect2D_left bb)) + (yM - B2R (Rect2D_top bb)) in bpow radix2 (k - 40) <= D ->
  exists X, @half_line F (NumF L) v0 p bb = Ok (mkSeg (Vector2D_of_vec p) (mkVec X (vy p) true)) /\ is_finite X = true /\ 5 / 2 * D <= B2R X - B2R (vx p) <= bpow radix2 (k + 9).
Proof.
  intros Hk V0 Vp UL UT CR CB D HD. destruct (r_ok L k v0 p Hk V0 Vp) as (r & ER & Fr & R0 & R1). unfold half_line. rewrite ER. cbn [bind].
  destruct UL as (L1 & L2 & _), UT as (T1 & T2 & _).
  pose proof (close_sub (k + 2) _ _ _ _ _ _ ltac:(lia) CR (close_up k (k + 2) _ _ _ ltac:(lia) (close_exact k _ L1 L2))) as W1.
  pose proof (close_add (k + 2 + 1) _ _ _ _ _ _ ltac:(lia) W1 (close_up (k + 2) (k + 2 + 1) _ _ _ ltac:(lia) CB)) as W2.
  pose proof (close_sub (k + 2 + 1 + 1) _ _ _ _ _ _ ltac:(lia) W2 (close_up k (k + 2 + 1 + 1) _ _ _ ltac:(lia) (close_exact k _ T1 T2))) as (W3 & W4 & W5).
  set (w := Bminus mode_NE (Bplus mode_NE (Bminus mode_NE _ _) _) _) in *.
  set (g := bpow radix2 (k - 51)) in *. assert (G0 : 0 < g) by apply bpow_gt_0.
  assert (G1 : bpow radix2 (k + 2 + 1 - 54) = g) by (unfold g; f_equal; lia).
  assert (G2 : bpow radix2 (k + 2 + 1 + 1 - 54) = 2 * g) by (unfold g; rewrite <- bp2; f_equal; lia).
  assert (G3 : bpow radix2 (k + 2 + 1 + 1 + 1 - 54) = 4 * g) by (unfold g; replace 4 with (bpow radix2 2) by reflexivity; rewrite <- bpow_plus; f_equal; lia).
  rewrite G1, G2, G3 in W5. assert (GD : 2048 * g <= D) by (unfold g; replace 2048 with (bpow radix2 11) by reflexivity; rewrite <- bpow_plus; replace (11 + (k - 51))%Z with (k - 40)%Z by lia; exact HD).
  replace (xM - B2R (Rect2D_left bb) + yM - B2R (Rect2D_top bb)) with D in W5 by (unfold D; ring). apply Rabs_le_inv in W5.
  exists (Bplus mode_NE (vx p) (Bmult mode_NE (Bplus mode_NE w r) (F_of_Z 3))). split; [reflexivity|]. clearbody w.
  assert (K5 : bpow radix2 (k + 2 + 1 + 1 + 1) = bpow radix2 (k + 5)) by (f_equal; lia). rewrite K5 in W4.
  assert (R5 : bpow radix2 (k + 2) <= bpow radix2 (k + 5)) by (apply bpow_le; lia). assert (P6 : bpow radix2 (k + 6) = 2 * bpow radix2 (k + 5)) by (rewrite <- bp2; f_equal; lia).
  assert (P8 : bpow radix2 (k + 8) = 4 * bpow radix2 (k + 6)) by (replace 4 with (bpow radix2 2) by reflexivity; rewrite <- bpow_plus; f_equal; lia). pose proof (bpow_gt_0 radix2 (k + 5)) as P5.
  apply Rabs_le_inv in W4.
  (* w + r *)
  assert (SL : B2R w <= rnd64 (B2R w + B2R r) <= bpow radix2 (k + 6)) by (apply rnd_between; [apply fmt_F|apply fmt_bpow; lia|lra]).
  destruct (F_add w r W3 Fr) as [S1 S2]; [apply (finite_lt (k + 6)); [lia|apply Rabs_le; lra]|]. set (s := Bplus mode_NE w r) in *. rewrite <- S1 in SL.
  (* times 3 *)
  destruct (F_of_Z_exact 3 eq_refl) as [N1 N2]. pose proof u_pos as HU. pose proof u_small as U9.
  assert (TL : 0 <= rnd64 (B2R s * B2R (F_of_Z 3)) <= bpow radix2 (k + 8)) by (rewrite N1; apply rnd_between; [apply (fmt_Z 0); lia|apply fmt_bpow; lia|lra]).
  destruct (F_mul s (F_of_Z 3) S2 N2) as [M1 M2]; [apply (finite_lt (k + 8)); [lia|apply Rabs_le; lra]|].
  assert (TE : Rabs (rnd64 (B2R s * 3) - B2R s * 3) <= u * Rabs (B2R s * 3)).
  { apply rnd_u. right. rewrite Rabs_pos_eq by lra. apply Rle_trans with g; [apply bpow_le; lia|lra]. }
  rewrite N1 in M1, TL. rewrite (Rabs_pos_eq (B2R s * 3)) in TE by lra. apply Rabs_le_inv in TE. set (t := Bmult mode_NE s (F_of_Z 3)) in *. rewrite <- M1 in *.
  (* plus px *)
  destruct Vp as [(PX1 & PX2 & _) _].
  assert (P9 : bpow radix2 (k + 9) = 2 * bpow radix2 (k + 8)) by (rewrite <- bp2; f_equal; lia).
  assert (KP : bpow radix2 k <= bpow radix2 (k + 5)) by (apply bpow_le; lia). pose proof (bpow_gt_0 radix2 k).
  assert (XB : Rabs (B2R (vx p) + B2R t) <= bpow radix2 (k + 9)) by (eapply Rle_trans; [apply Rabs_triang|]; rewrite (Rabs_pos_eq (B2R t)) by lra; lra).
  destruct (rnd_err _ (k + 9) ltac:(lia) XB) as [XE XB2].
  destruct (F_add (vx p) t PX1 M2) as [X1 X2]; [apply (finite_lt (k + 9)); [lia|exact XB2]|]. split; [exact X2|].
  rewrite X1. replace (k + 9 - 54)%Z with (6 + (k - 51))%Z in XE by lia. rewrite bpow_plus in XE. change (bpow radix2 6) with 64 in XE. fold g in XE. apply Rabs_le_inv in XE.
  assert (US : u * (B2R s * 3) <= / 1000 * (B2R s * 3)) by (apply Rmult_le_compat_r; lra).
  assert (G9 : 64 * g <= bpow radix2 (k + 5)) by (unfold g; change 64 with (bpow radix2 6); rewrite <- bpow_plus; apply bpow_le; lia).
  lra.
Qed.

(** ** The loop *)
Lemma loop_FR L X p allow es inside :
  (forall q, In q es -> edge_ok p X (fst q) (snd q) /\ edge_clear p (fst q) (snd q)) ->
  @contains_loop F (NumF L) (mkSeg (Vector2D_of_vec p) (mkVec X (vy p) true)) p allow es inside =
  contains_loop (mkSeg (rvec (Vector2D_of_vec p)) (rvec (mkVec X (vy p) true))) (rvec p) allow (map rpair es) inside.
Proof.
  revert inside. induction es as [|[v w] es IH]; intros inside H; [reflexivity|].
  destruct (H (v, w) (or_introl eq_refl)) as [OK CL]. cbn [fst snd] in *. pose proof OK as [[P1 P2] [T1 T2] _ _ _ _].
  assert (IH' : forall i, @contains_loop F (NumF L) (mkSeg (Vector2D_of_vec p) (mkVec X (vy p) true)) p allow es i = contains_loop (mkSeg (rvec (Vector2D_of_vec p)) (rvec (mkVec X (vy p) true))) (rvec p) allow (map rpair es) i) by (intros; apply IH; intros; apply H; cbn; auto).
  change (map rpair ((v, w) :: es)) with ((rvec v, rvec w) :: map rpair es). cbn [contains_loop].
  assert (Vp : vfin p) by (split; [apply P1|apply P2]). assert (Vo : vfin v) by (split; [apply P1|apply P2]). assert (Vt : vfin w) by (split; [apply T1|apply T2]).
  assert (OK' : edge_ok p X (Vector2D_of_vec v) (Vector2D_of_vec w)) by (destruct OK; constructor; assumption).
  assert (CL' : edge_clear p (Vector2D_of_vec v) (Vector2D_of_vec w)) by exact CL.
  unfold Segment2D_of_points at 1 2. rewrite (on_segment_FR L p X _ _ OK' CL'), (exist_FR L p X _ _ OK' CL'), veq_FR by assumption. rewrite !IH'.
  destruct Vp as [_ Vp2], Vo as [_ Vo2], Vt as [_ Vt2]. cbn [neqb nltb NumF]. rewrite !eqb_F, !ltb_F by assumption. reflexivity.
Qed.

(** ** C155 *)
(** [p] is at least 2^(k-49) away, measured along its own horizontal, from every
    point of the outline at its level; and if some vertex is above [p], one is
    above it by 2^(k-50). *)
Definition clear_of (k : Z) (poly : list point) (p : point) : Prop :=
  ~ on_outline poly p /\
  (forall e x, In e (closed_edges poly) -> py (fst e) <> py (snd e) -> on_seg (fst e) (snd e) (x, py p) -> bpow radix2 (k - 49) <= Rabs (x - px p)) /\
  ((exists v, In v poly /\ py p < py v) -> exists v, In v poly /\ py p + bpow radix2 (k - 50) <= py v).
(** The polygon is not a speck: two vertices differ by 2^(k-40). *)
Definition extended (k : Z) (vs : list (vec F)) : Prop :=
  exists a b, In a vs /\ In b vs /\ bpow radix2 (k - 40) <= Rabs (B2R (vx a) - B2R (vx b)) + Rabs (B2R (vy a) - B2R (vy b)).
Lemma contains_clear L k vs p allow : (-100 <= k <= 100)%Z -> Forall (vusable k) vs -> vusable k p -> extended k vs ->
  clear_of k (map fpt vs) (fpt p) -> (allow = false -> forall e, In e (closed_edges (map fpt vs)) -> fst e <> snd e) ->
  @Polygon2D_contains F (NumF L) vs p allow = Polygon2D_contains (map rvec vs) (rvec p) allow.
Proof.
  intros Hk US Up (a & b & Ia & Ib & SP) (NO & HM & HT) ND. set (poly := map fpt vs) in *. rewrite Forall_forall in US.
  assert (EPOLY : poly = map pt (map rvec vs)) by (unfold poly; now rewrite map_map).
  assert (HP : Polygon2D_contains (map rvec vs) (rvec p) allow = Ok (par (crossb (fpt p)) (closed_edges poly))) by (rewrite EPOLY in *; apply contains_parity; [exact NO|exact ND]).
  rewrite HP. clear HP.
  assert (HT' : (exists v, In v vs /\ B2R (vy p) < B2R (vy v)) -> exists v, In v vs /\ B2R (vy p) + bpow radix2 (k - 50) <= B2R (vy v)).
  { intros (v & I & H). destruct HT as (q & Iq & Hq); [exists (fpt v); split; [apply in_map; exact I|exact H]|]. apply in_map_iff in Iq. destruct Iq as (w & <- & Iw). exists w. split; [exact Iw|exact Hq]. }
  clear HT. rename HT' into HT.
  destruct vs as [|v0 [|v1 vs]]; [easy| |].
  { destruct Ia as [<-|[]], Ib as [<-|[]]. rewrite !Rminus_eq_0, Rabs_R0 in SP. pose proof (bpow_gt_0 radix2 (k - 40)). lra. }
  set (l := v0 :: v1 :: vs) in *.
  assert (U : @Polygon2D_contains F (NumF L) l p allow = (bb <- @Polygon2D_get_bounding_box F (NumF L) l ;;
      if negb (@Rect2D_contains F (NumF L) bb p) then Ok false else hl <- @half_line F (NumF L) v0 p bb ;; Ok (@contains_loop F (NumF L) hl p allow (cyc_pairs l) false))%py) by reflexivity.
  rewrite U. clear U.
  destruct (bbox_general L k l Hk ltac:(discriminate) US) as (bb & xm & xM & ym & yM & -> & Uxm & Uym & El & Et & CR & CB & HV & (vl & Il & Evl) & (vt & It & Evt) & (vr & Ir & Evr) & (vb & Ivb & Evb)). cbn [bind].
  pose proof CR as (FR & _ & ER). pose proof CB as (FB & _ & EB). apply Rabs_le_inv in ER, EB. set (g := bpow radix2 (k - 51)) in *. assert (G0 : 0 < g) by apply bpow_gt_0.
  assert (Fp : vfin p) by (split; [apply (usable_fin k), (proj1 Up)|apply (usable_fin k), (proj2 Up)]). destruct Fp as [Fpx Fpy].
  assert (RC : @Rect2D_contains F (NumF L) bb p = true <-> B2R xm <= B2R (vx p) <= B2R (@Rect2D_right F (NumF L) bb) /\ B2R ym <= B2R (vy p) <= B2R (@Rect2D_bottom F (NumF L) bb)).
  { unfold Rect2D_contains. rewrite El, Et. cbn [nleb NumF]. rewrite !leb_F by (assumption || exact (usable_fin k _ Uxm) || exact (usable_fin k _ Uym)). rewrite !andb_true_iff, !Rle_bool_iff. tauto. }
  assert (EPN : closed_edges poly = map (fun q => (fpt (fst q), fpt (snd q))) (cyc_pairs l)) by (unfold poly; rewrite cyc_pairs_closed; apply closed_edges_map).
  assert (HE : forall q, In q (cyc_pairs l) -> In (fst q) l /\ In (snd q) l) by (intros q; rewrite cyc_pairs_closed; apply in_closed).
  assert (INP : forall q, In q (cyc_pairs l) -> In (fpt (fst q), fpt (snd q)) (closed_edges poly)) by (intros q Hq; rewrite EPN; apply in_map_iff; now exists q).
  assert (G51 : bpow radix2 (k - 50) = 2 * g) by (unfold g; rewrite <- bp2; f_equal; lia). assert (G49 : bpow radix2 (k - 49) = 4 * g) by (unfold g; replace 4 with (bpow radix2 2) by reflexivity; rewrite <- bpow_plus; f_equal; lia).
  assert (GD : bpow radix2 (k - 40) = 2048 * g) by (unfold g; replace 2048 with (bpow radix2 11) by reflexivity; rewrite <- bpow_plus; f_equal; lia).
  destruct (@Rect2D_contains F (NumF L) bb p) eqn:EC; cbn [negb].
  - (* in the reported box *)
    destruct (proj1 RC eq_refl) as [CX CY]. clear RC.
    set (D := (xM - B2R (Rect2D_left bb)) + (yM - B2R (Rect2D_top bb))).
    assert (HD : bpow radix2 (k - 40) <= D).
    { unfold D. rewrite El, Et. eapply Rle_trans; [exact SP|]. pose proof (HV a Ia). pose proof (HV b Ib). apply Rplus_le_compat; apply Rabs_le; lra. }
    destruct (half_general L k v0 p bb xM yM Hk (US v0 ltac:(cbn; auto)) Up) as (X & -> & FX & XL & XU); [rewrite El; exact Uxm|rewrite Et; exact Uym|exact CR|exact CB|exact HD|]. fold D in XL. cbn [bind]. f_equal.
    assert (DX : xM - B2R xm <= D) by (unfold D; rewrite El, Et; pose proof (HV v0 ltac:(cbn; auto)); lra). rewrite GD in HD.
    assert (OKE : forall q, In q (cyc_pairs l) -> edge_ok p X (fst q) (snd q) /\ edge_clear p (fst q) (snd q)).
    { intros q Hq. destruct (HE q Hq) as [I1 I2]. pose proof (US _ I1) as [O1 O2]. pose proof (US _ I2) as [Q1 Q2]. destruct Up as [U1 U2].
      assert (GDF : forall x y, usable k x -> usable k y -> gdiff x y) by (intros x y A B; split; [now apply (usable_fin k)|split; [now apply (usable_fin k)|now apply (usable_diff k); [lia| |]]]).
      assert (XV : forall v, In v l -> B2R (vx v) <= B2R X /\ gdiff X (vx v) /\ Rabs (B2R (vx p) - B2R (vx v)) + Rabs (B2R X - B2R (vx v)) <= bpow radix2 50 * (B2R X - B2R (vx p))).
      { intros v Iv. destruct (HV v Iv) as [B1 _]. assert (PV : Rabs (B2R (vx p) - B2R (vx v)) <= 3 / 2 * D) by (apply Rabs_le; lra).
        assert (XV : D - g <= B2R X - B2R (vx v)) by lra. split; [lra|]. split.
        - split; [exact FX|]. split; [apply (usable_fin k), (US v Iv)|]. rewrite <- (Rabs_pos_eq (B2R X - B2R (vx v))) by lra. unfold sized. rewrite Rabs_Rabsolu. rewrite Rabs_pos_eq by lra.
          split; [right; apply Rle_trans with (2047 * g); [|lra]; apply Rle_trans with g; [apply bpow_le; lia|lra]|].
          apply Rle_trans with (bpow radix2 (k + 9) + bpow radix2 (k + 9)); [|replace 110%Z with (1 + 109)%Z by lia; rewrite bp2; assert (bpow radix2 (k + 9) <= bpow radix2 109) by (apply bpow_le; lia); lra].
          apply Rabs_le_inv in PV. lra.
        - rewrite (Rabs_pos_eq (B2R X - B2R (vx v))) by lra. apply Rabs_le_inv in PV. assert (4 <= bpow radix2 50) by (replace 4 with (bpow radix2 2) by reflexivity; apply bpow_le; lia).
          assert (4 * (B2R X - B2R (vx p)) <= bpow radix2 50 * (B2R X - B2R (vx p))) by (apply Rmult_le_compat_r; lra). assert (Rabs (B2R (vx p) - B2R (vx v)) <= 3 / 2 * D) by (apply Rabs_le; lra). lra. }
      destruct (XV _ I1) as (Y1 & Y2 & Y3). destruct (XV _ I2) as (Z1 & Z2 & Z3). split.
      - constructor; [split; apply GDF; assumption|split; apply GDF; assumption|split; assumption|lra|exact Y3|exact Z3].
      - split; [intros K; apply NO; exists (fpt (fst q), fpt (snd q)); split; [now apply INP|exact K]|].
        intros N x' Hx. pose proof (HM _ x' (INP q Hq) N Hx) as M. change (px (fpt p)) with (B2R (vx p)) in M. eapply Rle_trans; [|exact M]. rewrite G49.
        assert (BD : forall v, In v l -> Rabs (B2R (vx v) - B2R (vx p)) <= bpow radix2 (k + 1)).
        { intros v Iv. destruct (US v Iv) as [(_ & V1 & _) _]. destruct U1 as (_ & V2 & _). unfold Rminus. eapply Rle_trans; [apply Rabs_triang|]. rewrite Rabs_Ropp. replace (k + 1)%Z with (1 + k)%Z by lia. rewrite bp2. lra. }
        replace (4 * g) with (bpow radix2 (-50) * bpow radix2 (k + 1)) by (rewrite <- G49, <- bpow_plus; f_equal; lia).
        apply Rmult_le_compat_l; [apply bpow_ge_0|]. apply Rmax_lub; now apply BD. }
    rewrite (loop_FR L X p allow _ false OKE).
    assert (XB : forall q, In q (cyc_pairs l) -> B2R (vx (fst q)) <= B2R X /\ B2R (vx (snd q)) <= B2R X) by (intros q Hq; destruct (OKE q Hq) as [[_ _ _ (A & B & _) _ _] _]; auto).
    assert (XP : B2R (vx p) <= B2R X) by lra.
    rewrite contains_loop_R.
    + rewrite xorb_false_l. rewrite EPN, !par_map. apply par_ext. reflexivity.
    + intros e He. apply in_map_iff in He. destruct He as (q & <- & Hq). apply (OKE q Hq).
    + intros HA e He. apply in_map_iff in He. destruct He as (q & <- & Hq). apply (ND HA _ (INP q Hq)).
    + intros e He. apply in_map_iff in He. destruct He as (q & <- & Hq). destruct (XB q Hq) as [X1 X2]. destruct (OKE q Hq) as [_ [CL _]].
      replace (mkSeg (rvec (Vector2D_of_vec p)) (rvec (mkVec X (vy p) true))) with (Segment2D_of_points (rvec p) (V (vx (rvec p) + (B2R X - B2R (vx p))) (vy (rvec p)))).
      * apply toggle_R; cbn [rpair rvec vx vy fst snd]; try lra. exact CL.
      * unfold Segment2D_of_points, rvec, Vector2D_of_vec, V. cbn [vx vy v_valid]. do 2 f_equal. ring.
  - (* outside the reported box *)
    f_equal. symmetry. assert (RC' : ~ (B2R xm <= B2R (vx p) <= B2R (@Rect2D_right F (NumF L) bb) /\ B2R ym <= B2R (vy p) <= B2R (@Rect2D_bottom F (NumF L) bb))) by (rewrite <- RC; discriminate). clear RC.
    destruct (Rlt_dec (B2R (vx p)) (B2R xm)) as [C1|C1].
    + (* all vertices to the right: the ideal program answers false *)
      assert (EI : Polygon2D_contains (map rvec l) (rvec p) true = Ok (par (crossb (fpt p)) (closed_edges poly))).
      { rewrite EPOLY. change (fpt p) with (pt (rvec p)). apply contains_parity; [rewrite <- EPOLY; exact NO|discriminate]. }
      assert (EF : Polygon2D_contains (map rvec l) (rvec p) true = Ok false).
      { assert (U : Polygon2D_contains (map rvec l) (rvec p) true = (bb <- Polygon2D_get_bounding_box (map rvec l) ;;
          if negb (Rect2D_contains bb (rvec p)) then Ok false else hl <- half_line (rvec v0) (rvec p) bb ;; Ok (contains_loop hl (rvec p) true (cyc_pairs (map rvec l)) false))%py) by reflexivity.
        rewrite U. destruct (C67_bounding_box_R (map rvec l)) as (bR & -> & _ & _ & (v & Iv & Ev) & _); [discriminate|]. cbn [bind].
        apply in_map_iff in Iv. destruct Iv as (v' & <- & Iv'). replace (Rect2D_contains bR (rvec p)) with false; [reflexivity|]. symmetry. apply not_true_iff_false. unfold Rect2D_contains. rnum. rewrite !andb_true_iff, !Rle_bool_iff. rewrite <- Ev. cbn [rvec vx vy].
        pose proof (HV v' Iv'). intros K. lra. }
      rewrite EF in EI. clear - EI. congruence.
    + apply par_false. intros e He. apply not_true_iff_false. rewrite <- crosses_iff. intros [K1 (x & K2 & K3)].
      assert (N : py (fst e) <> py (snd e)) by lra. pose proof (HM e x He N K3) as M. rewrite EPN in He. apply in_map_iff in He. destruct He as (q & <- & Hq). destruct (HE q Hq) as [I1 I2].
      pose proof (HV _ I1) as H1. pose proof (HV _ I2) as H2. apply on_seg_bounds in K3. destruct K3 as (K3 & _ & _).
      change (px (x, py (fpt p))) with x in K3. unfold fpt in *. cbn [fst snd px py] in *.
      assert (XX : x <= xM) by (eapply Rle_trans; [exact K3|]; apply Rmax_lub; lra). rewrite Rabs_pos_eq in M by lra.
      apply RC'. split; [lra|]. split; [lra|]. destruct HT as (v & Iv & Hv); [destruct K1 as [K1|K1]; [exists (snd q)|exists (fst q)]; (split; [assumption|lra])|]. pose proof (HV v Iv). lra.
Qed.

(** Point in polygon on arbitrary doubles: parity of crossings, for every point
    that is not within rounding distance of the outline. *)
Theorem C155_parity_F : forall (L : libm) (k : Z) (vs : list (vec F)) (p : vec F) (allow : bool) (n : nat),
  (-100 <= k <= 100)%Z -> Forall (vusable k) vs -> vusable k p -> extended k vs ->
  let poly := map fpt vs in
  clear_of k poly (fpt p) -> (allow = false -> forall e, In e (closed_edges poly) -> fst e <> snd e) ->
  count (crosses_right (fpt p)) (closed_edges poly) n ->
  @Polygon2D_contains F (NumF L) vs p allow = Ok (Nat.odd n).
Proof.
  intros L k vs p allow n Hk US Up EX poly CL ND HC. rewrite (contains_clear L k) by assumption.
  assert (EP : poly = map pt (map rvec vs)) by (unfold poly; now rewrite map_map). rewrite EP in *. apply C69_parity_R; [apply CL|exact ND|exact HC].
Qed.
Theorem C155_convex_F : forall (L : libm) (k : Z) (vs : list (vec F)) (p : vec F) (b : bool),
  (-100 <= k <= 100)%Z -> Forall (vusable k) vs -> vusable k p -> extended k vs ->
  let poly := map fpt vs in
  (2 <= List.length vs)%nat -> clear_of k poly (fpt p) ->
  @Polygon2D_contains F (NumF L) vs p true = Ok b ->
  (strictly_convex poly -> (b = true <-> strictly_inside poly (fpt p))) /\
  (strictly_convex (rev poly) -> (b = true <-> strictly_inside (rev poly) (fpt p))).
Proof.
  intros L k vs p b Hk US Up EX poly HL CL. rewrite (contains_clear L k) by (assumption || discriminate).
  assert (EP : poly = map pt (map rvec vs)) by (unfold poly; now rewrite map_map). rewrite EP in *. apply C71_convex_R; [now rewrite map_length|apply CL].
Qed.
Example C155_nonvacuous :
  let tiny : F := @B754_finite 53 1024 false 4503599627370496 (-112) eq_refl in
  let vs : list (vec F) := [mkVec tiny (F_of_Z 0) true; fv 7 1; fv 3 6] in let p := fv 3 2 in
  Forall (vusable 3) vs /\ vusable 3 p /\ extended 3 vs /\ clear_of 3 (map fpt vs) (fpt p) /\ count (crosses_right (fpt p)) (closed_edges (map fpt vs)) 1.
Proof.
  intros tiny vs p.
  assert (TV : B2R tiny = bpow radix2 (-60)).
  { unfold tiny. cbn [B2R cond_Zopp]. unfold F2R; cbn [Fnum Fexp]. change (IZR 4503599627370496) with (bpow radix2 52). rewrite <- bpow_plus. reflexivity. }
  assert (TB : 0 < bpow radix2 (-60) <= / 1000) by (split; [apply bpow_gt_0|cbn; lra]). set (tv := bpow radix2 (-60)) in *.
  assert (EV : map fpt vs = [(tv, 0); (7, 1); (3, 6)]). { unfold vs. cbn [map]. rewrite !fpt_fv by lia. unfold fpt. cbn [vx vy]. rewrite TV, (proj1 (F_of_Z_exact 0 eq_refl)). reflexivity. }
  assert (EPp : fpt p = (3, 2)) by (unfold p; now rewrite fpt_fv by lia).
  assert (UZ : forall n, (Z.abs n <= 7)%Z -> usable 3 (F_of_Z n)).
  { intros n Hn. destruct (F_of_Z_exact n ltac:(lia)) as [E1 E2]. split; [exact E2|]. rewrite E1, <- abs_IZR. change (bpow radix2 3) with 8. split; [apply IZR_le; lia|].
    destruct (Z.eq_dec n 0) as [->|N]; [now left|right]. apply Rle_trans with 1; [change 1 with (bpow radix2 0); apply bpow_le; lia|apply IZR_le; lia]. }
  assert (B46 : bpow radix2 (3 - 49) <= 1 / 8) by (apply Rle_trans with (bpow radix2 (-3)); [apply bpow_le; lia|change (bpow radix2 (-3)) with (/ 8); lra]).
  assert (B47 : bpow radix2 (3 - 50) <= 1) by (change 1 with (bpow radix2 0); apply bpow_le; lia).
  split; [|split; [|split; [|split]]].
  - assert (V : forall x y, (Z.abs x <= 7)%Z -> (Z.abs y <= 7)%Z -> vusable 3 (fv x y)) by (intros x y Hx Hy; split; apply UZ; assumption).
    apply Forall_cons; [|apply Forall_cons; [apply V; lia|apply Forall_cons; [apply V; lia|apply Forall_nil]]]. split; [|apply UZ; lia]. split; [reflexivity|]. cbn [vx]. rewrite TV. unfold tv. rewrite Rabs_pos_eq by apply bpow_ge_0. split; [apply bpow_le; lia|right; apply bpow_le; lia].
  - split; apply UZ; lia.
  - exists (fv 7 1), (fv 3 6). split; [cbn; auto|]. split; [cbn; auto|]. unfold fv. cbn [vx vy]. rewrite (proj1 (F_of_Z_exact 7 eq_refl)), (proj1 (F_of_Z_exact 3 eq_refl)), (proj1 (F_of_Z_exact 1 eq_refl)), (proj1 (F_of_Z_exact 6 eq_refl)).
    apply Rle_trans with 1; [change 1 with (bpow radix2 0); apply bpow_le; lia|]. replace (7 - 3) with 4 by lra. rewrite (Rabs_pos_eq 4) by lra. pose proof (Rabs_pos (1 - 6)). lra.
  - rewrite EV, EPp. split; [|split].
    + intros (q & He & (t & Ht & E)). cbn in He. destruct He as [<-|[<-|[<-|[]]]]; unfold lerp in E; cbn [fst snd px py] in E; injection E as E1 E2; nra.
    + intros e x He N (t & Ht & E). cbn in He. destruct He as [<-|[<-|[<-|[]]]]; unfold lerp in E; cbn [fst snd px py] in *; injection E as E1 E2.
      * exfalso; nra.
      * eapply Rle_trans; [exact B46|]. rewrite Rabs_pos_eq; lra.
      * eapply Rle_trans; [exact B46|]. rewrite Rabs_left; nra.
    + intros _. exists (3, 6). split; [cbn; auto|]. cbn [py snd]. lra.
  - rewrite EV, EPp. cbn [closed_edges combine app]. apply count_no; [intros [K _]; cbn in K; lra|]. apply count_yes.
    { split; cbn; [lra|]. exists (31 / 5). split; [lra|]. exists (1 / 5). split; [lra|]. unfold lerp; apply point_eq; cbn; lra. }
    apply count_no; [|constructor]. intros [_ (x & K1 & (t & Ht & E))]. unfold lerp in E; cbn [fst snd px py] in *; injection E as E1 E2. nra.
Qed.
