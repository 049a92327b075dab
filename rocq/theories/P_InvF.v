(** * P_InvF: tangent and inverse trigonometry in doubles (C173) *)
From Coq Require Import ZArith List Bool String Reals Lra Lia Psatz.
From Flocq Require Import Core BinarySingleNaN.
From Verif Require Import Base Types NumR NumF R_Tac Spec Spec2 Abs M_Angle
  L_Angle P_Angle P_Vector L_Float P_Float P_AngleF P_AngleF2 P_Hull2 P_Robust P_VecF P_TrigF.
Import ListNotations.
Local Open Scope R_scope.

(** ** What is asked of the C library: on their domains, acos, asin and atan of a
    double are finite and at most 2^-51 (acos) or 2^-52 off; tan is, away from its
    poles, finite and at most 2^-51 * (1 + |tan x|) off. *)
Definition inverse_accurate (L : libm) : Prop := forall x : F, is_finite x = true ->
  (Rabs (B2R x) < 1 -> is_finite (lm_acos L x) = true /\ Rabs (B2R (lm_acos L x) - acos (B2R x)) <= bpow radix2 (-51) /\
                       is_finite (lm_asin L x) = true /\ Rabs (B2R (lm_asin L x) - asin (B2R x)) <= bpow radix2 (-52)) /\
  is_finite (lm_atan L x) = true /\ Rabs (B2R (lm_atan L x) - atan (B2R x)) <= bpow radix2 (-52).
Definition tan_accurate (L : libm) : Prop := forall x : F, is_finite x = true -> Rabs (B2R x) <= 16 -> bpow radix2 (-30) <= Rabs (cos (B2R x)) ->
  is_finite (lm_tan L x) = true /\ Rabs (B2R (lm_tan L x) - tan (B2R x)) <= bpow radix2 (-51) * (1 + Rabs (tan (B2R x))).
(** radians to degrees *)
Definition deg (t : R) : R := t * (180 / PI).

(** ** Radians to degrees in doubles *)
Lemma rad2deg_close L (r : F) (t : R) : is_finite r = true -> Rabs t <= PI -> Rabs (B2R r - t) <= bpow radix2 (-51) ->
  is_finite (@rad2deg F (NumF L) r) = true /\ Rabs (B2R (@rad2deg F (NumF L) r) - deg t) <= bpow radix2 (-44).
Proof.
  intros Fr T E. pose proof pi_bounds. destruct (rad2deg_const L) as (C1 & C2 & C3). assert (S : bpow radix2 (-51) <= / 1000) by (change (bpow radix2 (-51)) with (/ 2251799813685248); lra).
  assert (X : close (2 + 6) (bpow radix2 2 * bpow radix2 (-48) + bpow radix2 6 * bpow radix2 (-51) + bpow radix2 (2 + 6 - 54)) (t * (180 / PI)) (@nmul F (NumF L) r (@RAD2DEG F (NumF L)))).
  { apply close_mul; [lia|change (bpow radix2 2) with 4; lra| |split; [exact C1|split; assumption]]. split; [exact Fr|]. split; [|exact E].
    change (bpow radix2 2) with 4. apply Rabs_le_inv in E, T. apply Rabs_le. lra. }
  destruct X as (X1 & _ & X3). split; [exact X1|]. eapply Rle_trans; [exact X3|]. rewrite <- !bpow_plus.
  change (2 + -48)%Z with (-46)%Z. change (6 + -51)%Z with (1 + -46)%Z. change (2 + 6 - 54)%Z with (-46)%Z. change (-44)%Z with (1 + (1 + -46))%Z. rewrite !bp2. lra.
Qed.
Lemma rad_deg t : rad (deg t) = t.
Proof. unfold rad, deg. pose proof PI_RGT_0. field. lra. Qed.
Lemma rad_err x y e : Rabs (x - y) <= e -> Rabs (rad x - rad y) <= e / 57.
Proof.
  intros H. pose proof pi_bounds. unfold rad. rewrite <- Rmult_minus_distr_r, Rabs_mult, (Rabs_pos_eq (PI / 180)) by lra. unfold Rdiv at 2. apply Rmult_le_compat; try apply Rabs_pos; lra.
Qed.
(** a double below 1 is at most 1 - 2^-53 *)
Lemma below_one (c : F) : is_finite c = true -> B2R c < 1 -> B2R c <= 1 - bpow radix2 (-53).
Proof.
  intros Fc H. assert (F1 : fmt64 1) by (change 1 with (bpow radix2 0); apply generic_format_bpow; cbn; lia).
  assert (P := pred_ge_gt radix2 (FLT_exp (-1074) 53) (B2R c) 1 (fmt_F c) F1 H). change 1 with (bpow radix2 0) in P at 1. rewrite pred_bpow in P. exact P.
Qed.
Lemma cos_low x : 1 - x * x / 2 <= cos x.
Proof.
  replace x with (2 * (x / 2)) at 3 by field. rewrite cos_2a_sin. pose proof (sin_lip (x / 2) 0) as S. rewrite sin_0, !Rminus_0_r in S.
  assert (Q : sin (x / 2) * sin (x / 2) <= x / 2 * (x / 2)). { rewrite <- (Rabs_pos_eq (sin (x / 2) * sin (x / 2))), <- (Rabs_pos_eq (x / 2 * (x / 2))) by apply Rle_0_sqr. rewrite !Rabs_mult. apply Rmult_le_compat; try apply Rabs_pos; exact S. }
  lra.
Qed.
Lemma acos_margin (c : F) : is_finite c = true -> Rabs (B2R c) < 1 -> bpow radix2 (-27) <= acos (B2R c) <= PI - bpow radix2 (-27).
Proof.
  intros Fc H. apply Rabs_lt_inv in H. assert (A := acos_bound (B2R c)). assert (E := cos_acos (B2R c) ltac:(lra)).
  assert (U : B2R c <= 1 - bpow radix2 (-53)) by (apply below_one; [exact Fc|lra]).
  assert (V : - B2R c <= 1 - bpow radix2 (-53)) by (rewrite <- B2R_Bopp; apply below_one; [now rewrite is_finite_Bopp|rewrite B2R_Bopp; lra]).
  assert (G : forall t, 0 <= t -> cos t <= 1 - bpow radix2 (-53) -> bpow radix2 (-27) <= t).
  { intros t T C. apply Rnot_lt_le. intros N. pose proof (cos_low t). assert (t * t <= bpow radix2 (-27) * bpow radix2 (-27)) by (apply Rmult_le_compat; lra). rewrite <- bpow_plus in H1. change (-27 + -27)%Z with (-54)%Z in H1. change (bpow radix2 (-53)) with (/ 9007199254740992) in *. change (bpow radix2 (-54)) with (/ 18014398509481984) in *. lra. }
  split; [apply G; lra|]. assert (bpow radix2 (-27) <= PI - acos (B2R c)); [|lra]. apply G; [lra|]. rewrite Rtrigo_facts.cos_pi_minus. lra.
Qed.

(** ** acos_deg *)
(** In doubles: exact outside (-1, 1), within 2^-44 degree of the arc cosine and in
    [0, 180] everywhere, and cos_deg undoes it up to 2^-48.  No argument makes it raise. *)
Theorem C173_acos_F : forall (L : libm) (c : F), inverse_accurate L -> trig_accurate L ->
  (is_finite c = true -> exists d v, @acos_deg F (NumF L) c = Ok d /\ is_finite d = true /\ 0 <= B2R d <= 180 /\
     Rabs (B2R d - deg (acos (clamp1 (B2R c)))) <= bpow radix2 (-44) /\ @cos_deg F (NumF L) d = Ok v /\ Rabs (B2R v - clamp1 (B2R c)) <= bpow radix2 (-48) /\
     (1 <= B2R c -> B2R d = 0) /\ (B2R c <= -1 -> B2R d = 180)) /\
  @acos_deg F (NumF L) (B754_infinity false) = Ok (F_of_Z 0) /\ @acos_deg F (NumF L) (B754_infinity true) = Ok (F_of_Z 180) /\
  exists r, @acos_deg F (NumF L) B754_nan = Ok r.
Proof.
  intros L c IA TA. destruct (F_of_Z_exact 0 eq_refl) as [Z1 Z2]. destruct (F_of_Z_exact 1 eq_refl) as [O1 O2]. destruct (F_of_Z_exact (-1) eq_refl) as [M1 M2]. destruct (F_of_Z_exact 180 eq_refl) as [H1 H2]. pose proof pi_bounds as PB.
  split; [|split; [reflexivity|split; [reflexivity|]]].
  - intros Fc. assert (K : exists d, @acos_deg F (NumF L) c = Ok d /\ is_finite d = true /\ 0 <= B2R d <= 180 /\ Rabs (B2R d - deg (acos (clamp1 (B2R c)))) <= bpow radix2 (-44) /\ (1 <= B2R c -> B2R d = 0) /\ (B2R c <= -1 -> B2R d = 180)).
    { assert (EA : @acos_deg F (NumF L) c = if Bleb (F_of_Z 1) c then Ok (F_of_Z 0) else if Bleb c (F_of_Z (-1)) then Ok (F_of_Z 180) else r <- F_math1 (lm_acos L) false c ;; Ok (@rad2deg F (NumF L) r)) by reflexivity.
      rewrite EA. rewrite !leb_F by assumption. rewrite O1, M1. unfold clamp1. destruct (Rle_bool_spec 1 (B2R c)) as [C|C]; [|destruct (Rle_bool_spec (B2R c) (-1)) as [C'|C']].
      - exists (F_of_Z 0). rewrite Z1. rewrite Rmin_left, Rmax_right, acos_1 by lra. unfold deg. rewrite Rmult_0_l, Rminus_0_r, Rabs_R0. repeat split; try assumption; try lra. apply bpow_ge_0.
      - exists (F_of_Z 180). rewrite H1. rewrite Rmin_right, Rmax_left by lra. replace (acos (-1)) with PI by (replace (-1) with (- (1)) by lra; rewrite acos_opp, acos_1; lra). unfold deg. replace (180 - PI * (180 / PI)) with 0 by (field; lra). rewrite Rabs_R0. repeat split; try assumption; try lra. apply bpow_ge_0.
      - rewrite Rmin_right, Rmax_right by lra. assert (AC : Rabs (B2R c) < 1) by (apply Rabs_lt; lra). destruct (proj1 (IA c Fc) AC) as (A1 & A2 & _). destruct (acos_margin c Fc AC) as [G1 G2]. assert (AB := acos_bound (B2R c)).
        rewrite math1_finite by exact A1. cbn [bind]. destruct (rad2deg_close L _ (acos (B2R c)) A1 ltac:(apply Rabs_le; lra) A2) as [D1 D2]. eexists. split; [reflexivity|]. split; [exact D1|].
        assert (DG : 57 * bpow radix2 (-27) <= deg (acos (B2R c)) <= 180 - 57 * bpow radix2 (-27)).
        { unfold deg. assert (57 <= 180 / PI) by (apply Rmult_le_reg_r with PI; [lra|]; unfold Rdiv; rewrite Rmult_assoc, Rinv_l by lra; lra). pose proof (bpow_gt_0 radix2 (-27)). split.
          - rewrite Rmult_comm. apply Rmult_le_compat; lra.
          - replace 180 with (PI * (180 / PI)) at 2 by (field; lra). assert (bpow radix2 (-27) * 57 <= (PI - acos (B2R c)) * (180 / PI)) by (apply Rmult_le_compat; lra). lra. }
        change (bpow radix2 (-27)) with (/ 134217728) in DG. apply Rabs_le_inv in D2 as D3. change (bpow radix2 (-44)) with (/ 17592186044416) in D3. split; [lra|]. split; [exact D2|]. split; intros; lra. }
    destruct K as (d & E & D1 & D2 & D3 & D4 & D5). destruct (trig_close L d TA D1 ltac:(apply Rabs_le; lra)) as ((v & V1 & V2 & _ & V3) & _).
    exists d, v. split; [exact E|]. split; [exact D1|]. split; [exact D2|]. split; [exact D3|]. split; [exact V1|]. split; [|split; assumption].
    assert (CL : -1 <= clamp1 (B2R c) <= 1) by (unfold clamp1, Rmin, Rmax; repeat destruct (Rle_dec _ _); lra).
    assert (RE := rad_err _ _ _ D3). rewrite rad_deg in RE. pose proof (cos_lip (rad (B2R d)) (acos (clamp1 (B2R c)))) as CC. rewrite cos_acos in CC by exact CL.
    replace (B2R v - clamp1 (B2R c)) with ((B2R v - cos (rad (B2R d))) + (cos (rad (B2R d)) - clamp1 (B2R c))) by ring. eapply Rle_trans; [apply Rabs_triang|].
    change (bpow radix2 (-44)) with (/ 17592186044416) in RE. change (bpow radix2 (-49)) with (/ 562949953421312) in V3. change (bpow radix2 (-48)) with (/ 281474976710656). lra.
  - assert (EA : @acos_deg F (NumF L) B754_nan = (r <- F_math1 (lm_acos L) false B754_nan ;; Ok (@rad2deg F (NumF L) r))) by reflexivity. rewrite EA. unfold F_math1. cbn [is_nan negb]. rewrite andb_false_r. cbn [is_finite]. rewrite andb_false_r. cbn [bind]. eexists. reflexivity.
Qed.

(** ** asin_deg and atan_deg *)
Theorem C173_asin_F : forall (L : libm) (s : F), inverse_accurate L -> trig_accurate L ->
  (is_finite s = true -> exists d v, @asin_deg F (NumF L) s = Ok d /\ is_finite d = true /\ -90 <= B2R d <= 90 /\
     Rabs (B2R d - deg (asin (clamp1 (B2R s)))) <= bpow radix2 (-44) /\ @sin_deg F (NumF L) d = Ok v /\ Rabs (B2R v - clamp1 (B2R s)) <= bpow radix2 (-48) /\
     (1 <= B2R s -> B2R d = 90) /\ (B2R s <= -1 -> B2R d = -90)) /\
  @asin_deg F (NumF L) (B754_infinity false) = Ok (F_of_Z 90) /\ @asin_deg F (NumF L) (B754_infinity true) = Ok (F_of_Z (-90)) /\
  exists r, @asin_deg F (NumF L) B754_nan = Ok r.
Proof.
  intros L c IA TA. destruct (F_of_Z_exact 90 eq_refl) as [Z1 Z2]. destruct (F_of_Z_exact 1 eq_refl) as [O1 O2]. destruct (F_of_Z_exact (-1) eq_refl) as [M1 M2]. destruct (F_of_Z_exact (-90) eq_refl) as [H1 H2]. pose proof pi_bounds as PB.
  split; [|split; [reflexivity|split; [reflexivity|]]].
  - intros Fc. assert (K : exists d, @asin_deg F (NumF L) c = Ok d /\ is_finite d = true /\ -90 <= B2R d <= 90 /\ Rabs (B2R d - deg (asin (clamp1 (B2R c)))) <= bpow radix2 (-44) /\ (1 <= B2R c -> B2R d = 90) /\ (B2R c <= -1 -> B2R d = -90)).
    { assert (EA : @asin_deg F (NumF L) c = if Bleb (F_of_Z 1) c then Ok (F_of_Z 90) else if Bleb c (F_of_Z (-1)) then Ok (F_of_Z (-90)) else r <- F_math1 (lm_asin L) false c ;; Ok (@rad2deg F (NumF L) r)) by reflexivity.
      rewrite EA. rewrite !leb_F by assumption. rewrite O1, M1. unfold clamp1. destruct (Rle_bool_spec 1 (B2R c)) as [C|C]; [|destruct (Rle_bool_spec (B2R c) (-1)) as [C'|C']].
      - exists (F_of_Z 90). rewrite Z1. rewrite Rmin_left, Rmax_right, asin_1 by lra. unfold deg. replace (90 - PI / 2 * (180 / PI)) with 0 by (field; lra). rewrite Rabs_R0. repeat split; try assumption; try lra. apply bpow_ge_0.
      - exists (F_of_Z (-90)). rewrite H1. rewrite Rmin_right, Rmax_left by lra. replace (asin (-1)) with (- (PI / 2)) by (replace (-1) with (- (1)) by lra; rewrite asin_opp, asin_1; lra). unfold deg. replace (-90 - - (PI / 2) * (180 / PI)) with 0 by (field; lra). rewrite Rabs_R0. repeat split; try assumption; try lra. apply bpow_ge_0.
      - rewrite Rmin_right, Rmax_right by lra. assert (AC : Rabs (B2R c) < 1) by (apply Rabs_lt; lra). destruct (proj1 (IA c Fc) AC) as (_ & _ & A1 & A2). destruct (acos_margin c Fc AC) as [G1 G2]. assert (AB := asin_bound (B2R c)).
        assert (AS : asin (B2R c) = PI / 2 - acos (B2R c)) by (rewrite acos_asin by lra; lra).
        rewrite math1_finite by exact A1. cbn [bind]. destruct (rad2deg_close L _ (asin (B2R c)) A1 ltac:(apply Rabs_le; lra)) as [D1 D2]; [eapply Rle_trans; [exact A2|apply bpow_le; lia]|]. eexists. split; [reflexivity|]. split; [exact D1|].
        assert (DG : -90 + 57 * bpow radix2 (-27) <= deg (asin (B2R c)) <= 90 - 57 * bpow radix2 (-27)).
        { rewrite AS. unfold deg. assert (57 <= 180 / PI) by (apply Rmult_le_reg_r with PI; [lra|]; unfold Rdiv; rewrite Rmult_assoc, Rinv_l by lra; lra). pose proof (bpow_gt_0 radix2 (-27)).
          assert (bpow radix2 (-27) * 57 <= (PI - acos (B2R c)) * (180 / PI)) by (apply Rmult_le_compat; lra). assert (bpow radix2 (-27) * 57 <= acos (B2R c) * (180 / PI)) by (apply Rmult_le_compat; lra). assert (EP : PI * (180 / PI) = 180) by (field; lra). lra. }
        change (bpow radix2 (-27)) with (/ 134217728) in DG. apply Rabs_le_inv in D2 as D3. change (bpow radix2 (-44)) with (/ 17592186044416) in D3. split; [lra|]. split; [exact D2|]. split; intros; lra. }
    destruct K as (d & E & D1 & D2 & D3 & D4 & D5). destruct (trig_close L d TA D1 ltac:(apply Rabs_le; lra)) as (_ & (v & V1 & V2 & _ & V3)).
    exists d, v. split; [exact E|]. split; [exact D1|]. split; [exact D2|]. split; [exact D3|]. split; [exact V1|]. split; [|split; assumption].
    assert (CL : -1 <= clamp1 (B2R c) <= 1) by (unfold clamp1, Rmin, Rmax; repeat destruct (Rle_dec _ _); lra).
    assert (RE := rad_err _ _ _ D3). rewrite rad_deg in RE. pose proof (sin_lip (rad (B2R d)) (asin (clamp1 (B2R c)))) as CC. rewrite sin_asin in CC by exact CL.
    replace (B2R v - clamp1 (B2R c)) with ((B2R v - sin (rad (B2R d))) + (sin (rad (B2R d)) - clamp1 (B2R c))) by ring. eapply Rle_trans; [apply Rabs_triang|].
    change (bpow radix2 (-44)) with (/ 17592186044416) in RE. change (bpow radix2 (-49)) with (/ 562949953421312) in V3. change (bpow radix2 (-48)) with (/ 281474976710656). lra.
  - assert (EA : @asin_deg F (NumF L) B754_nan = (r <- F_math1 (lm_asin L) false B754_nan ;; Ok (@rad2deg F (NumF L) r))) by reflexivity. rewrite EA. unfold F_math1. cbn [is_nan negb]. rewrite andb_false_r. cbn [is_finite]. rewrite andb_false_r. cbn [bind]. eexists. reflexivity.
Qed.
Theorem C173_atan_F : forall (L : libm) (t : F), inverse_accurate L -> is_finite t = true ->
  exists d, @atan_deg F (NumF L) t = Ok d /\ is_finite d = true /\ Rabs (B2R d - deg (atan (B2R t))) <= bpow radix2 (-44).
Proof.
  intros L t IA Ft. destruct (IA t Ft) as (_ & A1 & A2). pose proof (atan_bound (B2R t)). pose proof pi_bounds.
  destruct (rad2deg_close L _ (atan (B2R t)) A1 ltac:(apply Rabs_le; lra)) as [D1 D2]; [eapply Rle_trans; [exact A2|apply bpow_le; lia]|].
  assert (EA : @atan_deg F (NumF L) t = (r <- F_math1 (lm_atan L) false t ;; Ok (@rad2deg F (NumF L) r))) by reflexivity. rewrite EA, math1_finite by exact A1. eexists. split; [reflexivity|]. split; assumption.
Qed.

(** ** tan *)
(** AngleDeg.tan and tan_deg: the error grows with 1 / cos^2. *)
Theorem C173_tan_F : forall (L : libm) (a : angle F), tan_accurate L -> is_finite (a_degree a) = true -> Rabs (B2R (a_degree a)) <= 512 ->
  let C := Rabs (cos (rad (B2R (a_degree a)))) in bpow radix2 (-20) <= C ->
  exists v, @AngleDeg_tan F (NumF L) a = Ok v /\ @tan_deg F (NumF L) (a_degree a) = Ok v /\ is_finite v = true /\ Rabs (B2R v - tan (rad (B2R (a_degree a)))) <= bpow radix2 (-48) / (C * C).
Proof.
  intros L a TA Fa Ba C HC. destruct (rad_close L (a_degree a) Fa Ba) as (R1 & R2 & R3). set (xh := @nmul F (NumF L) (a_degree a) (@DEG2RAD F (NumF L))) in *. set (x := rad (B2R (a_degree a))) in *.
  change (bpow radix2 4) with 16 in R2. set (w := bpow radix2 (-52)) in *. assert (WV : w = / 4503599627370496) by reflexivity. change (bpow radix2 (-20)) with (/ 1048576) in HC.
  pose proof (cos_lip (B2R xh) x) as CL. assert (CH : C / 2 <= Rabs (cos (B2R xh))).
  { pose proof (Rabs_triang_inv (cos x) (cos x - cos (B2R xh))) as T. rewrite (Rabs_minus_sym (cos x) (cos (B2R xh))) in T. replace (cos x - (cos x - cos (B2R xh))) with (cos (B2R xh)) in T by ring. fold C in T. lra. }
  destruct (TA xh R1 R2) as [T1 T2]; [change (bpow radix2 (-30)) with (/ 1073741824); lra|]. exists (lm_tan L xh).
  split; [unfold AngleDeg_tan; fold xh; cbn [ntan NumF]; now apply math1_finite|]. split; [unfold tan_deg, deg2rad; fold xh; cbn [ntan NumF]; now apply math1_finite|]. split; [exact T1|].
  set (ch := Rabs (cos (B2R xh))) in *. assert (PC : 0 < C) by lra. assert (N1 : cos x <> 0) by (intros Z; unfold C in PC; rewrite Z, Rabs_R0 in PC; lra). assert (N2 : cos (B2R xh) <> 0) by (intros Z; assert (ch = 0) by (unfold ch; rewrite Z; apply Rabs_R0); lra).
  assert (D : Rabs (tan (B2R xh) - tan x) <= 10 * w / (C * C)).
  { replace (tan (B2R xh) - tan x) with (sin (B2R xh - x) / (cos (B2R xh) * cos x)) by (rewrite sin_minus; unfold tan; field; split; assumption).
    unfold Rdiv. rewrite Rabs_mult, Rabs_inv, Rabs_mult. fold ch C. pose proof (sin_lip (B2R xh - x) 0) as S. rewrite sin_0, !Rminus_0_r in S.
    replace (10 * w * / (C * C)) with (5 * w * / (C / 2 * C)) by (field; lra). apply Rmult_le_compat; [apply Rabs_pos|left; apply Rinv_0_lt_compat; apply Rmult_lt_0_compat; lra|lra|].
    apply Rinv_le_contravar; [apply Rmult_lt_0_compat; lra|]. apply Rmult_le_compat_r; lra. }
  assert (TB : Rabs (tan (B2R xh)) <= 2 / C).
  { unfold tan, Rdiv. rewrite Rabs_mult, Rabs_inv. fold ch. replace (2 * / C) with (1 * / (C / 2)) by (field; lra). apply Rmult_le_compat; [apply Rabs_pos|left; apply Rinv_0_lt_compat; lra|apply Rabs_le; pose proof (SIN_bound (B2R xh)); lra|apply Rinv_le_contravar; lra]. }
  assert (C1 : C <= 1) by (unfold C; apply Rabs_le; pose proof (COS_bound x); lra).
  assert (IC : 1 <= / C) by (rewrite <- Rinv_1 at 1; apply Rinv_le_contravar; lra). assert (I2 : / (C * C) = / C * / C) by (field; lra).
  replace (bpow radix2 (-51)) with (2 * w) in T2 by (rewrite WV; change (bpow radix2 (-51)) with (/ 2251799813685248); lra). replace (bpow radix2 (-48)) with (16 * w) by (rewrite WV; change (bpow radix2 (-48)) with (/ 281474976710656); lra).
  replace (B2R (lm_tan L xh) - tan x) with ((B2R (lm_tan L xh) - tan (B2R xh)) + (tan (B2R xh) - tan x)) by ring. eapply Rle_trans; [apply Rabs_triang|]. unfold Rdiv in *. rewrite I2 in *. set (i := / C) in *.
  assert (PW : 0 < w) by (rewrite WV; lra). assert (II : i <= i * i) by (rewrite <- (Rmult_1_r i) at 1; apply Rmult_le_compat_l; lra).
  assert (B1 : 2 * w * (1 + Rabs (tan (B2R xh))) <= 2 * w * (3 * (i * i))) by (apply Rmult_le_compat_l; lra). lra.
Qed.

(** ** A C library that rounds correctly has these properties *)
Lemma libm_round_inverse : inverse_accurate libm_round.
Proof.
  pose proof pi_bounds. assert (G : forall t k, (0 <= k <= 100)%Z -> Rabs t <= bpow radix2 k -> is_finite (F_of_R t) = true /\ Rabs (B2R (F_of_R t) - t) <= bpow radix2 (k - 53)).
  { intros t k Hk Ht. destruct (F_of_R_ok t) as [G1 G2]; [eapply Rle_trans; [exact Ht|apply bpow_le; lia]|]. split; [exact G1|]. rewrite G2. destruct (rnd_err t k ltac:(lia) Ht) as [E _]. eapply Rle_trans; [exact E|]. apply bpow_le. lia. }
  intros x _. cbn [lm_acos lm_asin lm_atan libm_round]. split.
  - intros _. pose proof (acos_bound (B2R x)). pose proof (asin_bound (B2R x)).
    destruct (G (acos (B2R x)) 2%Z ltac:(lia)) as [A1 A2]; [change (bpow radix2 2) with 4; apply Rabs_le; lra|]. destruct (G (asin (B2R x)) 1%Z ltac:(lia)) as [B1 B2]; [change (bpow radix2 1) with 2; apply Rabs_le; lra|].
    repeat split; assumption.
  - pose proof (atan_bound (B2R x)). destruct (G (atan (B2R x)) 1%Z ltac:(lia)) as [A1 A2]; [change (bpow radix2 1) with 2; apply Rabs_le; lra|]. split; assumption.
Qed.
Lemma libm_round_tan : tan_accurate libm_round.
Proof.
  intros x Fx Bx C. cbn [lm_tan libm_round]. set (t := tan (B2R x)). assert (T : Rabs t <= bpow radix2 30).
  { unfold t, tan, Rdiv. rewrite Rabs_mult, Rabs_inv. replace (bpow radix2 30) with (1 * / bpow radix2 (-30)) by (rewrite <- bpow_opp, Rmult_1_l; reflexivity). pose proof (bpow_gt_0 radix2 (-30)).
    apply Rmult_le_compat; [apply Rabs_pos|left; apply Rinv_0_lt_compat; lra|apply Rabs_le; pose proof (SIN_bound (B2R x)); lra|apply Rinv_le_contravar; lra]. }
  destruct (F_of_R_ok t) as [G1 G2]; [eapply Rle_trans; [exact T|apply bpow_le; lia]|]. split; [exact G1|]. rewrite G2. pose proof (rnd_rel t) as RR. pose proof (Rabs_pos t).
  assert (bpow radix2 (-1075) <= bpow radix2 (-53)) by (apply bpow_le; lia). change (bpow radix2 (-51)) with (/ 2251799813685248). change (bpow radix2 (-53)) with (/ 9007199254740992) in *. lra.
Qed.
Example C173_nonvacuous : inverse_accurate libm_round /\ trig_accurate libm_round /\ tan_accurate libm_round /\ is_finite (Fd 1 (-2)) = true /\ B2R (Fd 1 (-2)) = / 4 /\
  is_finite (F_of_Z 60) = true /\ Rabs (B2R (F_of_Z 60)) <= 512 /\ bpow radix2 (-20) <= Rabs (cos (rad (B2R (F_of_Z 60)))).
Proof.
  destruct (F_of_Z_exact 60 eq_refl) as [E1 E2]. rewrite E1. split; [exact libm_round_inverse|]. split; [exact libm_round_trig|]. split; [exact libm_round_tan|]. split; [vm_compute; reflexivity|]. split; [vm_compute; lra|].
  split; [exact E2|]. split; [apply Rabs_le; lra|]. replace (rad 60) with (PI / 3) by (unfold rad; field). rewrite cos_PI3, Rabs_pos_eq by lra. change (bpow radix2 (-20)) with (/ 1048576). lra.
Qed.
