(** * P_Int3: ints and floats of the same value (C197)

    Whole coordinates up to 2^25 give the same numbers whether they are ints or floats, because every float operation on
    them is exact.  The one difference left is the sign of zero, which a float product has and an int does not: it turns
    the direction of a vector from 180 to -180 degrees. *)
From Coq Require Import ZArith List Bool String Reals Lra Lia.
From Flocq Require Import Core BinarySingleNaN.
From Verif Require Import Base Types NumR NumF NumP R_Tac Spec Spec2 Abs M_Angle M_Vector M_Triangle M_Segment L_Angle L_Float P_Float P_AngleF P_VecF P_Int.
Import ListNotations.
Local Open Scope R_scope.

(** the same number, as an int and as a float *)
Definition same (x : pynum) (f : F) : Prop := is_finite f = true /\ value x = B2R f.
Definition same_vec (v : vec pynum) (w : vec F) : Prop := same (vx v) (vx w) /\ same (vy v) (vy w) /\ v_valid v = v_valid w.

Definition rel (b : Z) (x : pynum) (f : F) : Prop := exists z, x = PyI z /\ (Z.abs z <= b)%Z /\ is_finite f = true /\ B2R f = IZR z.
Lemma rel_same b x f : rel b x f -> same x f. Proof. intros (z & -> & _ & H1 & H2). now split. Qed.
Lemma rel_Z b z : (Z.abs z <= b)%Z -> (b <= 2 ^ 53)%Z -> rel b (PyI z) (F_of_Z z).
Proof. intros H B. exists z. destruct (F_of_Z53 z ltac:(lia)). now repeat split. Qed.
Lemma big_ok z : (Z.abs z <= 2 ^ 53)%Z -> fmt64 (IZR z) /\ Rabs (IZR z) <= IZR (2 ^ 53) /\ IZR (2 ^ 53) <= IZR (2 ^ 1000).
Proof. intros H. split; [now apply fmt_Z53|]. split; [rewrite <- abs_IZR; now apply IZR_le|apply IZR_le; vm_compute; discriminate]. Qed.
Section Ops.
  Variable L : libm.
  Lemma rel_add b c x y f g : rel b x f -> rel c y g -> (b + c <= 2 ^ 53)%Z -> rel (b + c) (@nadd pynum (NumP L) x y) (@nadd F (NumF L) f g).
  Proof.
    intros (z & -> & Z1 & Z2 & Z3) (w & -> & W1 & W2 & W3) B. exists (z + w)%Z. split; [reflexivity|]. split; [lia|]. destruct (big_ok (z + w) ltac:(lia)) as (A1 & A2 & A3). rewrite plus_IZR in *. rewrite <- Z3, <- W3 in *.
    cbn [nadd NumF]. destruct (F_add_exact f g _ Z2 W2 A1 A2 A3). now split.
  Qed.
  Lemma rel_sub b c x y f g : rel b x f -> rel c y g -> (b + c <= 2 ^ 53)%Z -> rel (b + c) (@nsub pynum (NumP L) x y) (@nsub F (NumF L) f g).
  Proof.
    intros (z & -> & Z1 & Z2 & Z3) (w & -> & W1 & W2 & W3) B. exists (z - w)%Z. split; [reflexivity|]. split; [lia|]. destruct (big_ok (z - w) ltac:(lia)) as (A1 & A2 & A3). rewrite minus_IZR in *. rewrite <- Z3, <- W3 in *.
    cbn [nsub NumF]. destruct (F_sub_exact f g _ Z2 W2 A1 A2 A3). now split.
  Qed.
  Lemma rel_mul b c x y f g : rel b x f -> rel c y g -> (b * c <= 2 ^ 53)%Z -> rel (b * c) (@nmul pynum (NumP L) x y) (@nmul F (NumF L) f g).
  Proof.
    intros (z & -> & Z1 & Z2 & Z3) (w & -> & W1 & W2 & W3) B. exists (z * w)%Z. split; [reflexivity|]. assert (Z.abs (z * w) <= b * c)%Z by (rewrite Z.abs_mul; nia). split; [lia|]. destruct (big_ok (z * w) ltac:(lia)) as (A1 & A2 & A3). rewrite mult_IZR in *. rewrite <- Z3, <- W3 in *.
    cbn [nmul NumF]. pose proof (rnd_id _ A1) as R1. destruct (F_mul f g Z2 W2) as [E1 E2]; [rewrite R1; now apply small_lt_emax with (IZR (2 ^ 53))|]. rewrite R1 in E1. now split.
  Qed.
  Lemma rel_ltb b c x y f g : rel b x f -> rel c y g -> @nltb pynum (NumP L) x y = @nltb F (NumF L) f g.
  Proof. intros (z & -> & Z1 & Z2 & Z3) (w & -> & W1 & W2 & W3). cbn [nltb NumP NumF]. rewrite ltb_I, ltb_F by assumption. now rewrite Z3, W3. Qed.
  Lemma rel_eqb b c x y f g : rel b x f -> rel c y g -> @neqb pynum (NumP L) x y = @neqb F (NumF L) f g.
  Proof. intros (z & -> & Z1 & Z2 & Z3) (w & -> & W1 & W2 & W3). cbn [neqb NumP NumF]. rewrite eqb_I, eqb_F by assumption. now rewrite Z3, W3. Qed.
End Ops.

Definition small (p : Z * Z) : Prop := (Z.abs (fst p) <= 2 ^ 25)%Z /\ (Z.abs (snd p) <= 2 ^ 25)%Z.
Lemma small_rel p : small p -> rel (2 ^ 25) (vx (ivec p)) (vx (fvec p)) /\ rel (2 ^ 25) (vy (ivec p)) (vy (fvec p)).
Proof. intros [H1 H2]. split; apply rel_Z; try assumption; lia. Qed.

(** C197: for whole coordinates up to 2^25, ints and floats give the same numbers *)
Theorem C197_same : forall (L : libm) (a b c : Z * Z) (k : Z), small a -> small b -> small c -> (Z.abs k <= 2 ^ 25)%Z ->
  same_vec (@Vector2D_add pynum (NumP L) (ivec a) (ivec b)) (@Vector2D_add F (NumF L) (fvec a) (fvec b)) /\
  same_vec (@Vector2D_sub pynum (NumP L) (ivec a) (ivec b)) (@Vector2D_sub F (NumF L) (fvec a) (fvec b)) /\
  same_vec (@Vector2D_mul pynum (NumP L) (ivec a) (PyI k)) (@Vector2D_mul F (NumF L) (fvec a) (F_of_Z k)) /\
  same (@Vector2D_inner_product pynum (NumP L) (ivec a) (ivec b)) (@Vector2D_inner_product F (NumF L) (fvec a) (fvec b)) /\
  same (@Vector2D_outer_product pynum (NumP L) (ivec a) (ivec b)) (@Vector2D_outer_product F (NumF L) (fvec a) (fvec b)) /\
  same (@Vector2D_r2 pynum (NumP L) (ivec a)) (@Vector2D_r2 F (NumF L) (fvec a)) /\
  same (@double_signed_area_st pynum (NumP L) (ivec a) (ivec b) (ivec c)) (@double_signed_area_st F (NumF L) (fvec a) (fvec b) (fvec c)) /\
  @tri_ccw pynum (NumP L) (ivec a) (ivec b) (ivec c) = @tri_ccw F (NumF L) (fvec a) (fvec b) (fvec c) /\
  @Vector2D_eq pynum (NumP L) (ivec a) (ivec b) = @Vector2D_eq F (NumF L) (fvec a) (fvec b) /\
  (exists s t, @Vector2D_r pynum (NumP L) (ivec a) = Ok (PyF s) /\ @Vector2D_r F (NumF L) (fvec a) = Ok t /\ is_finite s = true /\ is_finite t = true /\ B2R s = B2R t).
Proof.
  intros L a b c k Ha Hb Hc Hk. apply small_rel in Ha, Hb, Hc. destruct Ha as [AX AY], Hb as [BX BY], Hc as [CX CY].
  pose proof (rel_Z _ k Hk ltac:(lia)) as K.
  assert (R2 : rel (2 ^ 25 * 2 ^ 25 + 2 ^ 25 * 2 ^ 25) (@Vector2D_r2 pynum (NumP L) (ivec a)) (@Vector2D_r2 F (NumF L) (fvec a))).
  { unfold Vector2D_r2. apply rel_add; [apply rel_mul; try assumption; lia..|lia]. }
  assert (AR : rel ((2 ^ 25 + 2 ^ 25) * (2 ^ 25 + 2 ^ 25) + (2 ^ 25 + 2 ^ 25) * (2 ^ 25 + 2 ^ 25)) (@double_signed_area_st pynum (NumP L) (ivec a) (ivec b) (ivec c)) (@double_signed_area_st F (NumF L) (fvec a) (fvec b) (fvec c))).
  { unfold double_signed_area_st. apply rel_add; [apply rel_mul; [apply rel_sub..|]; try assumption; lia..|lia]. }
  split; [|split; [|split; [|split; [|split; [|split; [|split; [|split; [|split]]]]]]]].
  - split; [|split; [|reflexivity]]; eapply rel_same; apply rel_add; try eassumption; lia.
  - split; [|split; [|reflexivity]]; eapply rel_same; apply rel_sub; try eassumption; lia.
  - split; [|split; [|reflexivity]]; eapply rel_same; apply rel_mul; try eassumption; lia.
  - eapply rel_same. apply rel_add; [apply rel_mul; try eassumption; lia..|lia].
  - eapply rel_same. apply rel_sub; [apply rel_mul; try eassumption; lia..|lia].
  - eapply rel_same, R2.
  - eapply rel_same, AR.
  - unfold tri_ccw. eapply rel_ltb; [|exact AR]. apply (rel_Z 0 0); lia.
  - unfold Vector2D_eq. f_equal; eapply rel_eqb; eassumption.
  - unfold Vector2D_r. destruct R2 as (z & E & Z1 & Z2 & Z3). assert (Z0 : (0 <= z)%Z). { unfold Vector2D_r2 in E. cbn [nadd nmul NumP py_arith ivec vx vy V] in E. injection E as <-. nia. }
    rewrite E. cbn [nsqrt NumP]. unfold py_math. cbn [to_float]. destruct (F_of_Z53 z ltac:(lia)) as [F1 F2]. rewrite F2. cbn [bind].
    assert (P : 0 <= IZR z) by now apply (IZR_le 0). destruct (F_root L (F_of_Z z) F2 ltac:(rewrite F1; exact P)) as (s & S1 & S2 & S3). destruct (F_root L (@Vector2D_r2 F (NumF L) (fvec a)) Z2 ltac:(rewrite Z3; exact P)) as (t & T1 & T2 & T3).
    cbn [nsqrt NumF] in S1. rewrite S1, T1. cbn [bind]. exists s, t. repeat split; try assumption. now rewrite S3, T3, F1, Z3.
Qed.
(** ... but the sign of zero is lost: the direction of Vector2D(1, 0) * -1 is 180 for ints and -180 for floats, and these
    two angles are not ==.  The hypothesis is what C (F.10.1.4) requires of atan2. *)
Definition atan2_zeros (L : libm) : Prop := lm_atan2 L (B754_zero false) (F_of_Z (-1)) = F_PI /\ lm_atan2 L (B754_zero true) (F_of_Z (-1)) = Bopp F_PI.
Definition rad_F : F := match F_div (F_of_Z 180) F_PI with Ok v => v | Raise _ => F_PI end.
Lemma rad_P L : @RAD2DEG pynum (NumP L) = PyF rad_F.
Proof.
  unfold RAD2DEG, rad_F. cbn [ndiv NumP nlit nPI to_float]. replace (is_finite (F_of_Z 180)) with true by (vm_compute; reflexivity). cbn [bind]. now destruct (F_div (F_of_Z 180) F_PI).
Qed.
Lemma half_turn : Bmult mode_NE F_PI rad_F = F_of_Z 180 /\ Bmult mode_NE (Bopp F_PI) rad_F = F_of_Z (-180).
Proof. split; apply B2SF_inj; vm_compute; reflexivity. Qed.
Lemma keep_P L n : n = 180%Z \/ n = (-180)%Z -> @AngleDeg_of_num pynum (NumP L) (PyF (F_of_Z n)) = Ok (mkAngle (PyF (F_of_Z n))).
Proof.
  intros H. unfold AngleDeg_of_num, AngleDeg_normal. cbn [nltb nlit NumP].
  assert (E : py_ltb (PyF (F_of_Z n)) (PyI (-360)) = false /\ py_ltb (PyI 360) (PyF (F_of_Z n)) = false /\ py_ltb (PyF (F_of_Z n)) (PyI (-180)) = false /\ py_ltb (PyI 180) (PyF (F_of_Z n)) = false) by (destruct H as [-> | ->]; vm_compute; auto).
  destruct E as (E1 & E2 & E3 & E4). rewrite E1, E2. cbn [orb bind]. rewrite E3. rewrite E4. reflexivity.
Qed.
Theorem C197_direction_refuted : forall L : libm, atan2_zeros L -> exists (a b : angle pynum) (c : angle F),
  @Vector2D_th pynum (NumP L) (@Vector2D_mul pynum (NumP L) (ivec (1, 0)%Z) (PyI (-1))) = Ok a /\ value (a_degree a) = 180 /\
  @Vector2D_th F (NumF L) (@Vector2D_mul F (NumF L) (fvec (1, 0)%Z) (F_of_Z (-1))) = Ok c /\ B2R (a_degree c) = -180 /\
  (* the float vector, through the numbers a program mixes *)
  @Vector2D_th pynum (NumP L) (@Vector2D_mul pynum (NumP L) (V (PyF (F_of_Z 1)) (PyF (F_of_Z 0))) (PyI (-1))) = Ok b /\ value (a_degree b) = -180 /\
  @AngleDeg_eq pynum (NumP L) a (AA b) = Ok false.
Proof.
  intros L [Z1 Z2].
  assert (E1 : @Vector2D_mul pynum (NumP L) (ivec (1, 0)%Z) (PyI (-1)) = V (PyI (-1)) (PyI 0)) by reflexivity.
  assert (E2 : @Vector2D_mul F (NumF L) (fvec (1, 0)%Z) (F_of_Z (-1)) = V (F_of_Z (-1)) (B754_zero true)).
  { unfold Vector2D_mul, fvec, V. cbn [vx vy fst snd nmul NumF]. f_equal; apply B2SF_inj; vm_compute; reflexivity. }
  assert (E3 : @Vector2D_mul pynum (NumP L) (V (PyF (F_of_Z 1)) (PyF (F_of_Z 0))) (PyI (-1)) = V (PyF (F_of_Z (-1))) (PyF (B754_zero true))).
  { unfold Vector2D_mul, V. cbn [vx vy nmul NumP py_arith fl]. f_equal; f_equal; apply B2SF_inj; vm_compute; reflexivity. }
    destruct half_turn as [HP HN]. destruct (F_of_Z_exact 180 eq_refl) as [V1 W1]. destruct (F_of_Z_exact (-180) eq_refl) as [V2 W2].
  assert (D1 : @atan2_deg pynum (NumP L) (PyI 0) (PyI (-1)) = PyF (F_of_Z 180)).
  { unfold atan2_deg, rad2deg. replace (@nltb pynum (NumP L) (@nabs pynum (NumP L) (PyI (-1))) _) with false by (vm_compute; reflexivity). cbn [andb natan2 NumP fl]. rewrite rad_P. change (F_of_Z 0) with (B754_zero false : F). rewrite Z1. cbn [nmul py_arith NumP fl]. now rewrite HP. }
  assert (D3 : @atan2_deg pynum (NumP L) (PyF (B754_zero true)) (PyF (F_of_Z (-1))) = PyF (F_of_Z (-180))).
  { unfold atan2_deg, rad2deg. replace (@nltb pynum (NumP L) (@nabs pynum (NumP L) (PyF (F_of_Z (-1)))) _) with false by (vm_compute; reflexivity). cbn [andb natan2 NumP fl]. rewrite rad_P, Z2. cbn [nmul py_arith NumP fl]. now rewrite HN. }
  assert (D2 : @atan2_deg F (NumF L) (B754_zero true) (F_of_Z (-1)) = F_of_Z (-180)).
  { unfold atan2_deg, rad2deg. replace (@nltb F (NumF L) (@nabs F (NumF L) (F_of_Z (-1))) _) with false by (vm_compute; reflexivity). cbn [andb natan2 NumF]. rewrite Z2. exact HN. }
  exists (mkAngle (PyF (F_of_Z 180))), (mkAngle (PyF (F_of_Z (-180)))), (mkAngle (F_of_Z (-180))).
  rewrite E1, E2, E3. unfold Vector2D_th, V. cbn [vx vy]. rewrite D1, D2, D3, !keep_P by auto. cbn [a_degree value].
  split; [reflexivity|]. split; [exact V1|]. split.
  { destruct (normal_F L (F_of_Z (-180)) W2) as (d & N1 & _ & _ & _ & N5). unfold AngleDeg_of_num. rewrite N1. rewrite N5 by (rewrite V2; lra). reflexivity. }
  split; [exact V2|]. split; [reflexivity|]. split; [exact V2|].
  unfold AngleDeg_eq, ang_num, AngleDeg_degree. cbn [a_degree]. rewrite !keep_P by auto. cbn [bind a_degree]. vm_compute. reflexivity.
Qed.
Example C197_nonvacuous : small (3, -4)%Z /\ small (2 ^ 25, 7)%Z /\ small (0, 0)%Z /\ (exists L, atan2_zeros L).
Proof.
  split; [split; vm_compute; discriminate|]. split; [split; vm_compute; discriminate|]. split; [split; vm_compute; discriminate|]. set (i := fun x : F => x). set (i2 := fun x _ : F => x).
  exists (Build_libm i i i i i i (fun y _ => match y with B754_zero true => Bopp F_PI | _ => F_PI end) i i i2). split; reflexivity.
Qed.
