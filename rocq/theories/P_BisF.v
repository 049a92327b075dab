(** * P_BisF: the bisector of two directions in doubles (C156) *)
From Coq Require Import ZArith List Bool String Reals Lra Lia Psatz.
From Flocq Require Import Core BinarySingleNaN.
From Verif Require Import Base Types NumR NumF R_Tac Spec M_Angle L_Angle P_Angle L_Float P_AngleF P_AngleF2 P_Float P_Robust P_VecF P_QuantF.
Import ListNotations.
Local Open Scope R_scope.

Lemma of_arg_good L (a : angle F) : good_degree (a_degree a) -> @AngleDeg_of_num F (NumF L) (a_degree a) = Ok a /\ @AngleDeg_of_arg F (NumF L) (AA a) = Ok a.
Proof.
  intros H. assert (SELF : @AngleDeg_of_num F (NumF L) (a_degree a) = Ok a).
  { unfold AngleDeg_of_num. destruct (normal_F L (a_degree a) (proj1 H)) as (d & -> & _ & _ & _ & E). cbn [bind]. rewrite E by apply H. now destruct a. }
  split; [exact SELF|]. cbn [AngleDeg_of_arg]. unfold AngleDeg_of_angle. rewrite degree_F_good by now right. exact SELF.
Qed.
Lemma fmt_180 : fmt64 (180 + u45).
Proof.
  replace (180 + u45) with (F2R (Float radix2 (180 * 2 ^ 45 + 1) (-45))); [apply fmt_F2R; lia|].
  unfold F2R; cbn [Fnum Fexp]. rewrite plus_IZR, mult_IZR, u45_bpow. change (IZR (2 ^ 45)) with (bpow radix2 45). rewrite Rmult_plus_distr_r, Rmult_assoc, <- bpow_plus. change (bpow radix2 (45 + -45)) with 1. lra.
Qed.
(** the reduced difference *)
Lemma rel_F L (l r : angle F) : good_degree (a_degree l) -> good_degree (a_degree r) ->
  let d := B2R (a_degree l) - B2R (a_degree r) in u45 <= Rabs (Rabs d - 180) ->
  exists c, @AngleDeg_sub F (NumF L) r (AA l) = Ok c /\ good_degree (a_degree c) /\
    (Rabs d < 180 -> Rabs (B2R (a_degree c) + d) <= u45) /\ (180 < d -> Rabs (B2R (a_degree c) - (360 - d)) <= u45) /\ (d < -180 -> Rabs (B2R (a_degree c) - (-360 - d)) <= u45).
Proof.
  intros [L1 L2] [R1 R2] d HD. cbn [AngleDeg_sub]. cbn [nsub NumF]. assert (U : 0 < u45) by (rewrite u45_bpow; apply bpow_gt_0).
  destruct (rnd_err (B2R (a_degree r) - B2R (a_degree l)) 9 ltac:(lia)) as [E1 EB]; [change (bpow radix2 9) with 512; apply Rabs_le; lra|].
  destruct (F_sub (a_degree r) (a_degree l) R1 L1) as [K1 K2]; [apply (finite_lt 9); [lia|exact EB]|].
  change (bpow radix2 (9 - 54)) with (bpow radix2 (-45)) in E1. rewrite <- u45_bpow in E1.
  replace (B2R (a_degree r) - B2R (a_degree l)) with (- d) in * by (unfold d; ring). rewrite rnd_opp in *. replace (- rnd64 d - - d) with (- (rnd64 d - d)) in E1 by ring. rewrite Rabs_Ropp in E1.
  unfold AngleDeg_of_num. destruct (normal_F L _ K2) as (c & -> & C1 & C2 & [k C3] & C4). cbn [bind]. eexists. split; [reflexivity|]. cbn [a_degree]. split; [now split|]. rewrite K1 in *.
  assert (F180 : fmt64 180) by (apply (fmt_Z 180); lia). assert (DB : -360 <= d <= 360) by (unfold d; lra).
  assert (F360 : fmt64 360) by (apply (fmt_Z 360); lia). assert (R360 : -360 <= rnd64 d <= 360) by (apply rnd_between; [apply fmt_opp; exact F360|exact F360|exact DB]).
  apply Rabs_le_inv in E1. split; [|split]; intros D.
  - assert (B : -180 <= rnd64 d <= 180) by (apply rnd_between; [apply fmt_opp; exact F180|exact F180|]; apply Rabs_lt_inv in D; lra).
    rewrite (C4 ltac:(lra)), K1. apply Rabs_le. lra.
  - assert (B : 180 + u45 <= rnd64 d). { rewrite <- (rnd_id _ fmt_180). apply rnd_le. rewrite (Rabs_pos_eq d), (Rabs_pos_eq (d - 180)) in HD by lra. lra. }
    assert (KZ : k = 1%Z). { assert (-1 < IZR (k - 1) < 1) by (rewrite minus_IZR; lra). assert (-1 < k - 1 < 1)%Z by (split; apply lt_IZR; lra). lia. }
    subst k. apply Rabs_le. lra.
  - assert (B : rnd64 d <= - (180 + u45)). { rewrite <- (rnd_id _ fmt_180), <- rnd_opp. apply rnd_le. rewrite (Rabs_left d), (Rabs_pos_eq (- d - 180)) in HD by lra. lra. }
    assert (KZ : k = (-1)%Z). { assert (-1 < IZR (k + 1) < 1) by (rewrite plus_IZR; lra). assert (-1 < k + 1 < 1)%Z by (split; apply lt_IZR; lra). lia. }
    subst k. apply Rabs_le. lra.
Qed.
Lemma half_F L (x : F) : good_degree x -> is_finite (Bmult mode_NE x (@nlit F (NumF L) 1 2)) = true /\ Rabs (B2R (Bmult mode_NE x (@nlit F (NumF L) 1 2)) - B2R x / 2) <= u45 / 2 /\ Rabs (B2R (Bmult mode_NE x (@nlit F (NumF L) 1 2))) <= 90.
Proof.
  intros [X1 X2]. destruct (half_lit L) as [H1 H2]. set (h := @nlit F (NumF L) 1 2) in *.
  destruct (rnd_err (B2R x * / 2) 8 ltac:(lia)) as [E1 E2]; [change (bpow radix2 8) with 256; apply Rabs_le; lra|].
  destruct (F_mul x h X1 H2) as [K1 K2]; [rewrite H1; apply (finite_lt 8); [lia|exact E2]|]. rewrite H1 in K1. split; [exact K2|]. rewrite K1.
  split. - rewrite u45_bpow. change (8 - 54)%Z with (-45 + -1)%Z in E1. rewrite bpow_plus in E1. change (bpow radix2 (-1)) with (/ 2) in E1. unfold Rdiv. lra.
  - assert (F90 : fmt64 90) by (apply (fmt_Z 90); lia). apply Rabs_le. apply rnd_between; [apply fmt_opp; exact F90|exact F90|lra].
Qed.
Lemma sub_any L (l r : angle F) : good_degree (a_degree l) -> good_degree (a_degree r) ->
  exists c, @AngleDeg_sub F (NumF L) r (AA l) = Ok c /\ good_degree (a_degree c) /\ exists z, cong360 (B2R (a_degree c)) z /\ Rabs (z - (B2R (a_degree r) - B2R (a_degree l))) <= u45.
Proof. intros [L1 L2] [R1 R2]. apply (sub_num_F L); try assumption. apply Rabs_le. lra. Qed.

(** the result is [l + c / 2], turned round unless r is to the left of l *)
Lemma bisect_core L (l r c : angle F) : good_degree (a_degree l) -> good_degree (a_degree r) -> good_degree (a_degree c) -> @AngleDeg_sub F (NumF L) r (AA l) = Ok c ->
  exists b s y, @AngleDeg_bisect F (NumF L) (AA l) (AA r) = Ok b /\ good_degree (a_degree b) /\
    (s = 0 /\ left_rule (B2R (a_degree l) - B2R (a_degree r)) \/ s = 180 /\ ~ left_rule (B2R (a_degree l) - B2R (a_degree r))) /\
    cong360 (B2R (a_degree b)) y /\ Rabs (y - (B2R (a_degree l) + B2R (a_degree c) / 2 + s)) <= 5 / 2 * u45.
Proof.
  intros GL GR GC EC. unfold AngleDeg_bisect. rewrite !(proj2 (of_arg_good L _ GL)), !(proj2 (of_arg_good L _ GR)). cbn [bind]. rewrite EC. cbn [bind].
  change (@AngleDeg_of_angle F (NumF L) c) with (@AngleDeg_of_arg F (NumF L) (AA c)). rewrite (proj2 (of_arg_good L _ GC)). cbn [bind]. rewrite !degree_F_good by now right. cbn [bind].
  change (@nlit F (NumF L) 0 1) with (F_of_Z 0). change (@nlit F (NumF L) 180 1) with (F_of_Z 180). change (@nlit F (NumF L) (-180) 1) with (F_of_Z (-180)).
  cbn [nsub nltb nmul nadd NumF]. destruct (half_F L _ GC) as (H1 & H2 & H3). set (h := Bmult mode_NE (a_degree c) (@nlit F (NumF L) 1 2)) in *.
  assert (U : 0 < u45) by (rewrite u45_bpow; apply bpow_gt_0).
  unfold AngleDeg_iadd, AngleDeg_add, ang_num. cbn [bind nadd NumF]. destruct GL as [L1 L2]. apply Rabs_le_inv in H2, H3.
  destruct (add_num_F L (a_degree l) h L1 H1) as (b1 & E1 & G1 & z1 & [k1 C1] & Q1); [apply Rabs_le; lra|].
  change (@nadd F (NumF L) (a_degree l) h) with (Bplus mode_NE (a_degree l) h). rewrite E1. cbn [bind].
  destruct (test_F (a_degree r) (a_degree l) GR (conj L1 L2)) as [T _]. apply Rabs_le_inv in Q1.
  match goal with |- context [if ?t then _ else _] => assert (TT : t = true <-> left_rule (B2R (a_degree l) - B2R (a_degree r))) by exact T; clear T; destruct t eqn:ET end.
  - exists b1, 0, z1. split; [reflexivity|]. split; [exact G1|]. split; [left; split; [reflexivity|now apply TT]|]. split; [exists k1; exact C1|]. apply Rabs_le. lra.
  - destruct (F_of_Z_exact 180 eq_refl) as [W1 W2]. destruct (add_num_F L (a_degree b1) (F_of_Z 180) (proj1 G1) W2) as (b & E2 & G2 & z2 & [k2 C2] & Q2); [rewrite W1; destruct G1; apply Rabs_le; lra|]. rewrite W1 in Q2.
    change (@nadd F (NumF L) (a_degree b1) (F_of_Z 180)) with (Bplus mode_NE (a_degree b1) (F_of_Z 180)). rewrite E2. apply Rabs_le_inv in Q2.
    exists b, 180, (z2 - 360 * IZR k1). split; [reflexivity|]. split; [exact G2|]. split; [right; split; [reflexivity|intros K; apply TT in K; discriminate]|].
    split; [exists (k2 + k1)%Z; rewrite plus_IZR; lra|]. apply Rabs_le. lra.
Qed.

(** Bisecting two stored directions in doubles always succeeds with a stored
    direction.  Twice the result is l + r modulo 360 up to 6 * 2^-45 degrees.
    Unless the directions are equal or within 2^-45 degrees of opposite, the
    result is reached from r by half of the clockwise turn from r to l, up to
    3 * 2^-45 degrees.  For equal directions it is the opposite direction. *)
Theorem C156_bisect_F : forall (L : libm) (l r : angle F), good_degree (a_degree l) -> good_degree (a_degree r) ->
  let dl := B2R (a_degree l) in let dr := B2R (a_degree r) in
  exists b, @AngleDeg_bisect F (NumF L) (AA l) (AA r) = Ok b /\ good_degree (a_degree b) /\
   (exists y, cong360 (2 * B2R (a_degree b)) y /\ Rabs (y - (dl + dr)) <= 6 * bpow radix2 (-45)) /\
   (dl <> dr -> Rabs (dl - dr) < 360 -> bpow radix2 (-45) <= Rabs (Rabs (dl - dr) - 180) ->
      exists t y, turn dr dl (2 * t) /\ cong360 (B2R (a_degree b)) y /\ Rabs (y - (dr + t)) <= 3 * bpow radix2 (-45)) /\
   (dl = dr -> exists y, cong360 (B2R (a_degree b)) y /\ Rabs (y - (dl + 180)) <= 3 * bpow radix2 (-45)).
Proof.
  intros L l r GL GR dl dr. rewrite <- u45_bpow. assert (U : 0 < u45) by (rewrite u45_bpow; apply bpow_gt_0).
  assert (U1 : u45 <= 1) by (rewrite u45_bpow; apply (bpow_le radix2 (-45) 0); lia). assert (U2 : bpow radix2 (-46) < u45) by (rewrite u45_bpow; apply bpow_lt; lia). assert (U3 : 0 < bpow radix2 (-46)) by apply bpow_gt_0.
  destruct (sub_any L l r GL GR) as (c & EC & GC & z & [k CZ] & QZ). destruct (bisect_core L l r c GL GR GC EC) as (b & s & y & EB & GB & SS & [m CY] & QY).
  exists b. split; [exact EB|]. split; [exact GB|]. fold dl dr in SS, QY, QZ. unfold left_rule in SS. apply Rabs_le_inv in QY, QZ.
  assert (DB : -360 <= dl - dr <= 360) by (destruct GL, GR; unfold dl, dr; lra).
  split; [|split].
  - destruct SS as [[-> S]|[-> S]].
    + exists (2 * (y + 360 * IZR m) - 360 * IZR (k + 2 * m)). split; [exists (k + 2 * m)%Z; rewrite CY; ring|]. rewrite plus_IZR, mult_IZR. apply Rabs_le. lra.
    + exists (2 * (y + 360 * IZR m) - 360 * IZR (k + 2 * m + 1)). split; [exists (k + 2 * m + 1)%Z; rewrite CY; ring|]. rewrite !plus_IZR, mult_IZR. apply Rabs_le. lra.
  - intros NE D360 D180. destruct (rel_F L l r GL GR D180) as (c' & EC' & _ & C1 & C2 & C3). assert (c' = c) as -> by congruence. fold dl dr in C1, C2, C3. apply Rabs_lt_inv in D360.
    destruct (Rtotal_order 0 (dl - dr)) as [P|[P|P]]; [|exfalso; apply NE; lra|].
    + rewrite (Rabs_pos_eq (dl - dr)) in * by now apply Rlt_le. destruct (Rlt_le_dec (dl - dr) 180) as [Q|Q].
      * specialize (C1 Q). apply Rabs_le_inv in C1. rewrite Rabs_left in D180 by lra. exists ((dl - dr) / 2), y. split; [split; [lra|exists 0%Z; lra]|]. split; [exists m; exact CY|]. destruct SS as [[-> S]|[-> S]]; [|exfalso; apply S; left; lra]. apply Rabs_le. lra.
      * rewrite Rabs_pos_eq in D180 by lra. specialize (C2 ltac:(lra)). apply Rabs_le_inv in C2. destruct SS as [[-> S]|[-> S]]; [exfalso; lra|].
        exists ((dl - dr) / 2), (y - 360). split; [split; [lra|exists 0%Z; lra]|]. split; [exists (m + 1)%Z; rewrite plus_IZR; lra|]. apply Rabs_le. lra.
    + rewrite (Rabs_left (dl - dr)) in * by exact P. destruct (Rlt_le_dec (- (dl - dr)) 180) as [Q|Q].
      * specialize (C1 Q). apply Rabs_le_inv in C1. rewrite Rabs_left in D180 by lra. exists ((360 + (dl - dr)) / 2), y. split; [split; [lra|exists 1%Z; lra]|]. split; [exists m; exact CY|]. destruct SS as [[-> S]|[-> S]]; [exfalso; lra|]. apply Rabs_le. lra.
      * rewrite Rabs_pos_eq in D180 by lra. specialize (C3 ltac:(lra)). apply Rabs_le_inv in C3. destruct SS as [[-> S]|[-> S]]; [|exfalso; apply S; right; lra].
        exists ((360 + (dl - dr)) / 2), (y + 360). split; [split; [lra|exists 1%Z; lra]|]. split; [exists (m - 1)%Z; rewrite minus_IZR; lra|]. apply Rabs_le. lra.
  - intros EQ. destruct (rel_F L l r GL GR) as (c' & EC' & _ & C1 & _ & _).
    { fold dl dr. replace (dl - dr) with 0 by lra. rewrite Rabs_R0, Rabs_left by lra. lra. }
    assert (c' = c) as -> by congruence. fold dl dr in C1. replace (dl - dr) with 0 in * by lra. rewrite Rabs_R0 in C1. specialize (C1 ltac:(lra)). apply Rabs_le_inv in C1.
    destruct SS as [[-> S]|[-> S]]; [exfalso; lra|]. exists y. split; [exists m; exact CY|]. apply Rabs_le. lra.
Qed.

(** Plain numbers are first reduced to stored directions: bisecting two
    finite numbers is bisecting the AngleDeg objects made from them. *)
Theorem C156_bisect_numbers_F : forall (L : libm) (x y : F), is_finite x = true -> is_finite y = true ->
  exists a b, @AngleDeg_of_num F (NumF L) x = Ok a /\ @AngleDeg_of_num F (NumF L) y = Ok b /\ good_degree (a_degree a) /\ good_degree (a_degree b) /\
    cong360 (B2R (a_degree a)) (B2R x) /\ cong360 (B2R (a_degree b)) (B2R y) /\
    @AngleDeg_bisect F (NumF L) (AN x) (AN y) = @AngleDeg_bisect F (NumF L) (AA a) (AA b).
Proof.
  intros L x y X Y. destruct (of_num_rnd L x X) as (a & EA & GA & CA). destruct (of_num_rnd L y Y) as (b & EB & GB & CB). exists a, b.
  repeat (split; [assumption|]). unfold AngleDeg_bisect. rewrite !(proj2 (of_arg_good L _ GA)), !(proj2 (of_arg_good L _ GB)). cbn [AngleDeg_of_arg]. rewrite EA, EB. reflexivity.
Qed.
Example C156_nonvacuous : good_degree (F_of_Z 30) /\ good_degree (F_of_Z (-170)) /\ B2R (F_of_Z 30) <> B2R (F_of_Z (-170)) /\
  Rabs (B2R (F_of_Z 30) - B2R (F_of_Z (-170))) < 360 /\ bpow radix2 (-45) <= Rabs (Rabs (B2R (F_of_Z 30) - B2R (F_of_Z (-170))) - 180) /\ turn (-170) 30 (2 * 100).
Proof.
  destruct (F_of_Z_exact 30 eq_refl) as [E1 E2]. destruct (F_of_Z_exact (-170) eq_refl) as [E3 E4]. unfold good_degree. rewrite E1, E3.
  assert (U1 : bpow radix2 (-45) <= 1) by (apply (bpow_le radix2 (-45) 0); lia). rewrite (Rabs_pos_eq (30 - -170)) by lra. rewrite (Rabs_pos_eq (30 - -170 - 180)) by lra.
  split; [split; [exact E2|lra]|]. split; [split; [exact E4|lra]|]. split; [lra|]. split; [lra|]. split; [lra|]. split; [lra|]. exists 0%Z. lra.
Qed.
