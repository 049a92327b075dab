(** * P_AngleF3: bisect of equal directions (C08), the readings of an angle in doubles (C01) *)
From Coq Require Import ZArith List Bool String Reals Lra Lia Psatz.
From Flocq Require Import Core BinarySingleNaN.
From Verif Require Import Base Types NumR NumF R_Tac Spec M_Angle L_Angle P_Angle L_Float P_AngleF P_Robust P_VecF.
Import ListNotations.
Local Open Scope R_scope.

(** Two arguments with the same direction: the opposite direction is returned,
    except for bisect(-180, 180), the one pair of stored degrees that differ
    although the directions agree and whose result is that same direction. *)
Theorem C08_equal_R : forall l r : R, -180 <= l <= 180 -> -180 <= r <= 180 -> cong360 l r ->
  exists b, AngleDeg_bisect (AN l) (AN r) = Ok b /\
    (l = -180 /\ r = 180 -> a_degree b = -180) /\
    (~ (l = -180 /\ r = 180) -> cong360 (a_degree b) (l + 180)).
Proof.
  intros l r Hl Hr C. unfold AngleDeg_bisect. rewrite !arg_R. cbn [bind arg_deg]. rewrite !nrm_id by assumption.
  unfold AngleDeg_sub. rewrite of_num_R. cbn [bind]. rewrite of_angle_R. cbn [bind].
  rewrite !degree_R. cbn [bind a_degree]. unfold AngleDeg_iadd, AngleDeg_add, ang_num. rewrite !nrm_nrm. cbn [bind a_degree arg_deg].
  rewrite (nrm_id l), (nrm_id r) by assumption. rnum. rewrite ?of_num_R. cbn [bind]. rewrite ?of_num_R. cbn [a_degree].
  match goal with |- context [if ?c then _ else _] => set (cond := c) end.
  exists (if cond then mkAngle (nrm (l + nrm (r - l) * (1/2))) else mkAngle (nrm (nrm (l + nrm (r - l) * (1/2)) + 180))).
  split; [destruct cond; reflexivity|].
  assert (K : l = r \/ (l = -180 /\ r = 180) \/ (l = 180 /\ r = -180)).
  { destruct C as [k Hk]. assert (B : (-2 < k < 2)%Z) by (split; apply lt_IZR; lra). assert (k = 0 \/ k = 1 \/ k = -1)%Z as [E|[E|E]] by lia; subst k; [left|right; right|right; left]; lra. }
  assert (Z0 : nrm (r - l) = 0).
  { destruct K as [-> | [[-> ->]|[-> ->]]].
    - rewrite nrm_id by lra. lra.
    - destruct (nrm_cong (180 - -180)) as [k Hk]. pose proof (nrm_range (180 - -180)) as B. assert (k = -1)%Z; [|subst k; lra].
      assert (-2 < k < 0)%Z; [split; apply lt_IZR; lra|lia].
    - destruct (nrm_cong (-180 - 180)) as [k Hk]. pose proof (nrm_range (-180 - 180)) as B. assert (k = 1)%Z; [|subst k; lra].
      assert (0 < k < 2)%Z; [split; apply lt_IZR; lra|lia]. }
  unfold cond; clear cond. rewrite Z0. replace (l + 0 * (1/2)) with l by ring. rewrite (nrm_id l) by lra.
  pose proof (nrm_cong (l + 180)) as [j Ej].
  split.
  - intros [-> ->]. repeat (rcase1; try (exfalso; lra); cbn [andb orb negb]). reflexivity.
  - intros N. destruct K as [E|[E|[E1 E2]]]; [|tauto|].
    + repeat (rcase1; try (exfalso; lra); cbn [andb orb negb]); cbn [a_degree]; exists j; lra.
    + repeat (rcase1; try (exfalso; lra); cbn [andb orb negb]); cbn [a_degree]; exists j; lra.
Qed.
Example C08_equal_nonvacuous : -180 <= 30 <= 180 /\ cong360 30 30 /\ ~ (30 = -180 /\ 30 = 180) /\ cong360 (-180) 180.
Proof. split; [lra|]. split; [apply cong360_refl|]. split; [lra|]. exists (-1)%Z. lra. Qed.

(** C01 in doubles: abs() is exact, get_normalized() stays in [0,1] and is
    (degree + 180) / 360 up to rounding. *)
Lemma babs_F (x : F) : is_finite x = true -> B2R (Babs x) = Rabs (B2R x) /\ is_finite (Babs x) = true.
Proof. intros H. split; [apply B2R_Babs|rewrite is_finite_Babs; exact H]. Qed.
Lemma fdiv_F (L : libm) (x y : F) : is_finite y = true -> B2R y <> 0 -> @ndiv F (NumF L) x y = Ok (Bdiv mode_NE x y).
Proof.
  intros Hy H. cbn [ndiv NumF]. unfold F_div, F_is_zero. rewrite eqb_F by (try exact Hy; reflexivity). replace (B2R (F_of_Z 0)) with 0 by reflexivity. now rewrite Req_bool_false.
Qed.
Theorem C01_readings_F : forall (L : libm) (x : F), is_finite x = true -> exists a m v,
  @AngleDeg_init F (NumF L) [VNum x] [] = Ok a /\
  @AngleDeg_abs F (NumF L) a = Ok m /\ B2R m = Rabs (B2R (a_degree a)) /\ 0 <= B2R m <= 180 /\
  @AngleDeg_get_normalized F (NumF L) a = Ok v /\ is_finite v = true /\ 0 <= B2R v <= 1 /\
  Rabs (B2R (a_degree a) - (360 * B2R v - 180)) <= / IZR (2 ^ 44).
Proof.
  intros L x Hx. destruct (proj1 (C01_C02_normalise_F L x) Hx) as (a & E & A1 & A2 & _ & _ & E2).
  exists a, (Babs (a_degree a)). unfold AngleDeg_abs, AngleDeg_get_normalized. rewrite E, E2. cbn [bind nabs nadd NumF].
  change (@nlit F (NumF L) 180 1) with (F_of_Z 180). change (@nlit F (NumF L) 360 1) with (F_of_Z 360).
  destruct (F_of_Z_exact 180 eq_refl) as [B1 B2]. destruct (F_of_Z_exact 360 eq_refl) as [C1 C2].
  assert (D0 : 0 <= B2R (a_degree a) + 180 <= 360) by lra.
  assert (D1 : 0 <= rnd64 (B2R (a_degree a) + 180) <= 360).
  { pose proof (rnd_le _ _ (proj1 D0)) as R1. pose proof (rnd_le _ _ (proj2 D0)) as R2.
    rewrite (rnd_id 0) in R1 by (apply (fmt_Z 0); reflexivity). rewrite (rnd_id 360) in R2 by (apply (fmt_Z 360); reflexivity). lra. }
  destruct (rnd_err (B2R (a_degree a) + 180) 9 ltac:(lia)) as [Er _]; [change (bpow radix2 9) with 512; apply Rabs_le; lra|].
  destruct (F_add (a_degree a) (F_of_Z 180) A1 B2) as [S1 S2].
  { rewrite B1. apply (finite_lt 9); [lia|]. change (bpow radix2 9) with 512. apply Rabs_le; lra. }
  rewrite B1 in S1. set (s := Bplus mode_NE (a_degree a) (F_of_Z 180)) in *.
  assert (Q0 : 0 <= B2R s / 360 <= 1) by (rewrite S1; lra).
  assert (Q1 : 0 <= rnd64 (B2R s / 360) <= 1).
  { pose proof (rnd_le _ _ (proj1 Q0)) as R1. pose proof (rnd_le _ _ (proj2 Q0)) as R2.
    rewrite (rnd_id 0) in R1 by (apply (fmt_Z 0); reflexivity). rewrite (rnd_id 1) in R2 by (apply (fmt_Z 1); reflexivity). lra. }
  destruct (rnd_err (B2R s / 360) 0 ltac:(lia)) as [Eq _]; [change (bpow radix2 0) with 1; apply Rabs_le; lra|].
  destruct (F_quot s (F_of_Z 360) S2) as [V1 V2].
  { rewrite C1. lra. } { rewrite C1. apply (finite_lt 0); [lia|]. change (bpow radix2 0) with 1. apply Rabs_le; lra. }
  rewrite C1 in V1. exists (Bdiv mode_NE s (F_of_Z 360)).
  split; [reflexivity|]. split; [reflexivity|]. destruct (babs_F (a_degree a) A1) as [M1 _]. rewrite M1.
  split; [reflexivity|]. split; [split; [apply Rabs_pos|apply Rabs_le; lra]|].
  rewrite fdiv_F by (try exact C2; rewrite C1; lra). split; [reflexivity|]. split; [exact V2|]. rewrite V1. split; [exact Q1|].
  replace (IZR (2 ^ 44)) with 17592186044416 by reflexivity.
  change (bpow radix2 (9 - 54)) with (/ 35184372088832) in Er. change (bpow radix2 (0 - 54)) with (/ 18014398509481984) in Eq.
  rewrite S1 in *. apply Rabs_le_inv in Er. apply Rabs_le_inv in Eq. apply Rabs_le. split; lra.
Qed.
Example C01_readings_F_nonvacuous : forall L, is_finite (F_of_Z 1000) = true /\
  match @AngleDeg_init F (NumF L) [VNum (F_of_Z 1000)] [] with Ok a => Beqb (a_degree a) (F_of_Z (-80)) | Raise _ => false end = true.
Proof. intros L. vm_compute. split; reflexivity. Qed.
