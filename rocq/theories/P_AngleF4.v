(** * P_AngleF4: scaling, negating and copying angles in doubles (C170) *)
From Coq Require Import ZArith List Bool String Reals Lra Lia Psatz.
From Flocq Require Import Core BinarySingleNaN.
From Verif Require Import Base Types NumR NumF R_Tac Spec Spec2 Abs M_Angle
  L_Angle P_Angle L_Float P_Float P_AngleF P_AngleF2 P_Robust P_VecF P_TrigF P_AngleF3 P_BisF.
Import ListNotations.
Local Open Scope R_scope.

(** The direction of [a] times (or divided by) a number is that multiple of its degree,
    rounded once, up to whole turns; dividing by zero raises. *)
Theorem C170_scale_F : forall (L : libm) (a : angle F) (x : F), good_degree (a_degree a) -> is_finite x = true ->
  let d := B2R (a_degree a) in let z := B2R x in
  (Rabs (d * z) <= bpow radix2 1000 -> Forall (fun r : res (angle F) => exists b y, r = Ok b /\ good_degree (a_degree b) /\ cong360 (B2R (a_degree b)) y /\
      Rabs (y - d * z) <= bpow radix2 (-53) * Rabs (d * z) + bpow radix2 (-1075))
    [@AngleDeg_mul F (NumF L) a x; @AngleDeg_imul F (NumF L) a x]) /\
  (z <> 0 -> Rabs (d / z) <= bpow radix2 1000 -> exists b y, @AngleDeg_floordiv F (NumF L) a x = Ok b /\ good_degree (a_degree b) /\ cong360 (B2R (a_degree b)) y /\
      Rabs (y - d / z) <= bpow radix2 (-53) * Rabs (d / z) + bpow radix2 (-1075)) /\
  (z = 0 -> @AngleDeg_floordiv F (NumF L) a x = Raise ZeroDivisionError).
Proof.
  intros L a x G Fx d z. split; [|split].
  - intros B. destruct (F_mul (a_degree a) x (proj1 G) Fx) as [E1 E2]; [apply (finite_lt 1000); [lia|]; apply rnd_err; [lia|exact B]|].
    destruct (of_num_rnd L _ E2) as (b & B1 & B2 & B3).
    assert (K : exists b y, @AngleDeg_mul F (NumF L) a x = Ok b /\ good_degree (a_degree b) /\ cong360 (B2R (a_degree b)) y /\ Rabs (y - d * z) <= bpow radix2 (-53) * Rabs (d * z) + bpow radix2 (-1075)).
    { exists b, (rnd64 (d * z)). split; [exact B1|]. split; [exact B2|]. split; [unfold d, z; now rewrite <- E1|apply rnd_rel]. }
    repeat constructor; exact K.
  - intros NZ B. unfold AngleDeg_floordiv. rewrite (fdiv_F L _ _ Fx NZ). cbn [bind].
    destruct (F_quot (a_degree a) x (proj1 G) NZ) as [E1 E2]; [apply (finite_lt 1000); [lia|]; apply rnd_err; [lia|exact B]|].
    destruct (of_num_rnd L _ E2) as (b & B1 & B2 & B3). exists b, (rnd64 (d / z)). split; [exact B1|]. split; [exact B2|]. split; [unfold d, z; now rewrite <- E1|apply rnd_rel].
  - intros Z. unfold AngleDeg_floordiv. cbn [ndiv NumF]. unfold F_div, F_is_zero. rewrite eqb_F by (try exact Fx; reflexivity). change (B2R (F_of_Z 0)) with 0. fold z. rewrite Z, Req_bool_true by reflexivity. reflexivity.
Qed.
(** Negating, copying and subtracting an angle from itself are exact; negating twice
    gives the very same angle; the reading in radians is within 5 * 2^-52. *)
Theorem C170_exact_F : forall (L : libm) (a : angle F), good_degree (a_degree a) ->
  let d := B2R (a_degree a) in
  (exists b, @AngleDeg_neg F (NumF L) a = Ok b /\ good_degree (a_degree b) /\ B2R (a_degree b) = - d /\ @AngleDeg_neg F (NumF L) b = Ok a) /\
  @AngleDeg_copy F (NumF L) a = Ok a /\
  (exists b, @AngleDeg_sub F (NumF L) a (AA a) = Ok b /\ is_finite (a_degree b) = true /\ B2R (a_degree b) = 0) /\
  (exists r, @AngleDeg_radian F (NumF L) a = Ok r /\ is_finite r = true /\ Rabs (B2R r - d * PI / 180) <= 5 * bpow radix2 (-52)).
Proof.
  intros L a G d. assert (GN : good_degree (Bopp (a_degree a))) by (destruct G as [G1 G2]; split; [now rewrite is_finite_Bopp|rewrite B2R_Bopp; lra]).
  split; [|split; [|split]].
  - exists (mkAngle (Bopp (a_degree a))). split; [exact (proj1 (of_arg_good L (mkAngle (Bopp (a_degree a))) GN))|]. cbn [a_degree]. split; [exact GN|]. split; [apply B2R_Bopp|].
    unfold AngleDeg_neg. cbn [a_degree nneg NumF]. rewrite Bopp_involutive. apply (of_arg_good L a G).
  - apply (of_arg_good L a G).
  - cbn [AngleDeg_sub nsub NumF]. destruct (F_sub (a_degree a) (a_degree a) (proj1 G) (proj1 G)) as [E1 E2].
    { rewrite Rminus_eq_0. unfold rnd64. rewrite round_0 by apply valid_rnd_N. rewrite Rabs_R0. apply bpow_gt_0. }
    assert (GZ : good_degree (Bminus mode_NE (a_degree a) (a_degree a))) by (split; [exact E2|rewrite E1, Rminus_eq_0; unfold rnd64; rewrite round_0 by apply valid_rnd_N; lra]).
    exists (mkAngle (Bminus mode_NE (a_degree a) (a_degree a))). split; [exact (proj1 (of_arg_good L (mkAngle _) GZ))|]. cbn [a_degree]. split; [exact E2|]. rewrite E1, Rminus_eq_0. unfold rnd64. apply round_0, valid_rnd_N.
  - unfold AngleDeg_radian. rewrite degree_F_good by now right. cbn [bind]. destruct (rad_close L (a_degree a) (proj1 G) (good_512 _ G)) as (R1 & _ & R2). eexists. split; [reflexivity|]. split; [exact R1|]. replace (d * PI / 180) with (rad (B2R (a_degree a))) by (unfold rad, d; field). exact R2.
Qed.
Example C170_nonvacuous : exists (a : angle F) (x : F), good_degree (a_degree a) /\ is_finite x = true /\ B2R x <> 0 /\ Rabs (B2R (a_degree a) * B2R x) <= bpow radix2 1000 /\ Rabs (B2R (a_degree a) / B2R x) <= bpow radix2 1000 /\
  ~ (-180 <= B2R (a_degree a) * B2R x <= 180).
Proof.
  exists (mkAngle (F_of_Z 150)), (F_of_Z 3). cbn [a_degree]. destruct (F_of_Z_exact 150 eq_refl) as [E1 E2]. destruct (F_of_Z_exact 3 eq_refl) as [E3 E4].
  assert (B : bpow radix2 9 <= bpow radix2 1000) by (apply bpow_le; lia). change (bpow radix2 9) with 512 in B. unfold good_degree. rewrite E1, E3.
  split; [split; [exact E2|lra]|]. split; [exact E4|]. split; [lra|]. split; [rewrite Rabs_pos_eq; lra|]. split; [rewrite Rabs_pos_eq; lra|lra].
Qed.
