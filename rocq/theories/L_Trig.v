(** * L_Trig: atan2, acos/asin over the reals *)
From Coq Require Import ZArith List Bool String Reals Lra Lia Psatz.
From Flocq Require Import Core.
From Verif Require Import Base Types NumR R_Tac Spec M_Angle L_Angle.
Local Open Scope R_scope.

Lemma hyp_atan x y : 0 < x -> sqrt (x*x + y*y) = x * sqrt (1 + (y/x)²).
Proof.
  intros Hx. replace (x*x+y*y) with (x*x * (1 + (y/x)²)).
  2:{ unfold Rsqr. field. lra. }
  rewrite sqrt_mult; [|nra|unfold Rsqr; nra]. rewrite sqrt_square by lra. easy.
Qed.
Lemma one_sq_pos t : 0 < sqrt (1 + t²).
Proof. apply sqrt_lt_R0. unfold Rsqr; nra. Qed.

Lemma Ratan2_polar y x : (x <> 0 \/ y <> 0) ->
  sqrt (x*x + y*y) * cos (Ratan2 y x) = x /\ sqrt (x*x + y*y) * sin (Ratan2 y x) = y.
Proof.
  intros H. unfold Ratan2.
  destruct (Rlt_bool_spec 0 x).
  { rewrite hyp_atan by easy. rewrite cos_atan, sin_atan.
    pose proof (one_sq_pos (y/x)). split; field; lra. }
  destruct (Rlt_bool_spec x 0).
  { replace (x*x+y*y) with ((-x)*(-x) + y * y) by ring. rewrite hyp_atan by lra.
    replace ((y / - x)²) with ((y/x)²). 2:{ unfold Rsqr; field; lra. }
    pose proof (one_sq_pos (y/x)).
    destruct (Rle_bool_spec 0 y).
    - rewrite neg_cos, neg_sin, cos_atan, sin_atan. split; field; lra.
    - replace (atan (y/x) - PI) with (- (- atan (y/x) + PI)) by ring.
      rewrite cos_neg, sin_neg, neg_cos, neg_sin, cos_neg, sin_neg, cos_atan, sin_atan.
      split; field; lra. }
  assert (x = 0) by lra; subst x. replace (0*0+y*y) with (y*y) by ring.
  destruct (Rlt_bool_spec 0 y).
  { rewrite sqrt_square by lra. rewrite cos_PI2, sin_PI2. lra. }
  destruct (Rlt_bool_spec y 0).
  { replace (y*y) with ((-y)*(-y)) by ring. rewrite sqrt_square by lra.
    rewrite cos_neg, sin_neg, cos_PI2, sin_PI2. lra. }
  lra.
Qed.

Lemma Ratan2_range y x : - PI < Ratan2 y x <= PI.
Proof.
  unfold Ratan2. pose proof PI_RGT_0.
  pose proof (atan_bound (y/x)).
  destruct (Rlt_bool_spec 0 x); [lra|].
  destruct (Rlt_bool_spec x 0).
  { destruct (Rle_bool_spec 0 y).
    - assert (Hyx : y / x <= 0).
      { apply Rmult_le_reg_l with (-x). lra. replace (-x * (y/x)) with (-y) by (field; lra). lra. }
      assert (atan (y/x) <= 0).
      { destruct Hyx as [Hyx|Hyx]. rewrite <- atan_0. left; now apply atan_increasing.
        rewrite Hyx, atan_0; lra. }
      lra.
    - assert (0 < y / x).
      { apply Rmult_lt_reg_l with (-x). lra. replace (-x * (y/x)) with (-y) by (field; lra). lra. }
      assert (0 < atan (y/x)). { rewrite <- atan_0. now apply atan_increasing. }
      lra. }
  rcasesp; lra.
Qed.

Lemma rad_deg r : rad (r * (180 / PI)) = r.
Proof. unfold rad. field. pose proof PI_RGT_0; lra. Qed.
Lemma rad2deg_R r : rad2deg r = r * (180 / PI).
Proof. unfold rad2deg. rewrite RAD2DEG_R. reflexivity. Qed.
Lemma deg2rad_R d : deg2rad d = rad d.
Proof. unfold deg2rad. rewrite DEG2RAD_R. reflexivity. Qed.
Lemma deg_scale_le a b : a <= b -> a * (180/PI) <= b * (180/PI).
Proof.
  intros. apply Rmult_le_compat_r; [|easy]. pose proof PI_RGT_0.
  left; apply Rdiv_lt_0_compat; lra.
Qed.
Lemma deg_scale_lt a b : a < b -> a * (180/PI) < b * (180/PI).
Proof.
  intros. apply Rmult_lt_compat_r; [|easy]. pose proof PI_RGT_0.
  apply Rdiv_lt_0_compat; lra.
Qed.
Lemma PI_deg : PI * (180 / PI) = 180.
Proof. field. pose proof PI_RGT_0; lra. Qed.

Lemma atan2_deg_range y x : -180 < atan2_deg y x <= 180.
Proof.
  unfold atan2_deg. destruct (_ && _); rnum; [lra|]. rewrite rad2deg_R.
  destruct (Ratan2_range y x) as [H1 H2].
  apply deg_scale_lt in H1. apply deg_scale_le in H2.
  rewrite Ropp_mult_distr_l_reverse, PI_deg in H1. rewrite PI_deg in H2. lra.
Qed.

(** [x], [y] are both smaller than 1e-6 in magnitude *)

Lemma atan2_deg_tiny y x : tiny x y -> atan2_deg y x = 0.
Proof.
  intros [H1 H2]. unfold atan2_deg; rnum. now rewrite !Rlt_bool_true.
Qed.
Lemma atan2_deg_nontiny y x : ~ tiny x y -> atan2_deg y x = Ratan2 y x * (180 / PI) /\ (x <> 0 \/ y <> 0).
Proof.
  intros H. unfold atan2_deg; rnum. split.
  - destruct (Rlt_bool_spec (Rabs x) (1/1000000)); destruct (Rlt_bool_spec (Rabs y) (1/1000000)); cbn [andb];
    try (exfalso; apply H; split; easy); apply rad2deg_R.
  - destruct (Req_dec x 0); destruct (Req_dec y 0); auto. subst. exfalso; apply H; split; rewrite Rabs_R0; lra.
Qed.
Lemma tiny_dec x y : {tiny x y} + {~ tiny x y}.
Proof.
  unfold tiny. destruct (Rlt_dec (Rabs x) (1/1000000)); destruct (Rlt_dec (Rabs y) (1/1000000));
  try (right; tauto); left; tauto.
Qed.
