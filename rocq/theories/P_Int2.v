(** * P_Int2: angles and lengths from whole numbers of any size (C196)

    An angle given as an int is reduced by math.fmod, which converts it to a float: exactly up to 2^53, to the nearest
    float beyond, and with an OverflowError beyond all floats.  Whole-valued literals (360.0) are ints in [NumP]; the
    theorems speak of the value of the result, not of its type. *)
From Coq Require Import ZArith List Bool String Reals Lra Lia.
From Flocq Require Import Core BinarySingleNaN.
From Verif Require Import Base Types NumR NumF NumP R_Tac Spec Spec2 Abs M_Angle M_Vector M_Fail L_Angle L_Float P_Float P_AngleF P_VecF P_Fail P_Int.
Import ListNotations.
Local Open Scope R_scope.

(** the ints that have a float: beyond, int.__float__ raises OverflowError *)
Definition float_limit : Z := (2 ^ 1024 - 2 ^ 970)%Z.
Lemma max_fmt : fmt64 (bpow radix2 1024 - bpow radix2 971).
Proof.
  replace (bpow radix2 1024 - bpow radix2 971) with (F2R (Float radix2 (2 ^ 53 - 1) 971)).
  - apply fmt_F2R; [reflexivity|lia].
  - unfold F2R. cbn [Fnum Fexp]. rewrite minus_IZR. replace 1024%Z with (53 + 971)%Z by reflexivity. rewrite bpow_plus. change (IZR (2 ^ 53)) with (bpow radix2 53). ring.
Qed.
Lemma of_Z_finite z : (Z.abs z < float_limit)%Z -> B2R (F_of_Z z) = rnd64 (IZR z) /\ is_finite (F_of_Z z) = true.
Proof.
  intros H. apply F_of_Z_rnd.
  assert (G : forall x, 0 <= x < bpow radix2 1024 - bpow radix2 970 -> rnd64 x <= bpow radix2 1024 - bpow radix2 971).
  { intros x Hx. set (m := bpow radix2 1024 - bpow radix2 971). apply (round_N_le_midp radix2 (FLT_exp (-1074) 53)); [exact max_fmt|].
    assert (S : succ radix2 (FLT_exp (-1074) 53) m = bpow radix2 1024).
    { rewrite succ_eq_pos by (unfold m; pose proof (bpow_le radix2 971 1024 ltac:(lia)); lra). rewrite ulp_neq_0 by (unfold m; pose proof (bpow_lt radix2 971 1024 ltac:(lia)); lra). unfold cexp.
      rewrite (mag_unique_pos radix2 m 1024); [change (FLT_exp (-1074) 53 1024) with 971%Z; unfold m; ring|]. unfold m. split; [|pose proof (bpow_gt_0 radix2 971); lra].
      replace (bpow radix2 1024) with (2 * bpow radix2 (1024 - 1)) by (replace 1024%Z with (1 + (1024 - 1))%Z at 2 by lia; rewrite bpow_plus; reflexivity). pose proof (bpow_le radix2 971 (1024 - 1) ltac:(lia)). lra. }
    rewrite S. unfold m. replace (bpow radix2 971) with (2 * bpow radix2 970) by (change 971%Z with (1 + 970)%Z; rewrite bpow_plus; reflexivity). lra. }
  assert (E : IZR float_limit = bpow radix2 1024 - bpow radix2 970) by (unfold float_limit; rewrite minus_IZR, !(IZR_Zpower radix2) by lia; reflexivity).
  assert (P : bpow radix2 971 > 0) by apply bpow_gt_0.
  assert (B : IZR (Z.abs z) < IZR float_limit) by now apply IZR_lt. rewrite E in B.
  assert (Rabs (rnd64 (IZR z)) = rnd64 (IZR (Z.abs z))) as ->.
  { rewrite abs_IZR. unfold rnd64. symmetry. apply round_NE_abs. apply FLT_exp_valid; exact prec53. }
  assert (0 <= IZR (Z.abs z)) by (apply (IZR_le 0); lia). specialize (G (IZR (Z.abs z)) ltac:(lra)). lra.
Qed.
Lemma of_Z_infinite z : (float_limit <= Z.abs z)%Z -> is_finite (F_of_Z z) = false.
Proof.
  intros H. pose proof (binary_normalize_correct 53 1024 prec53 emax1024 mode_NE z 0 false) as K. cbn beta iota zeta in K.
  assert (E : F2R (Float radix2 z 0) = IZR z) by (unfold F2R; cbn; ring). rewrite E in K. change (round radix2 (SpecFloat.fexp 53 1024) (round_mode mode_NE) (IZR z)) with (rnd64 (IZR z)) in K. change (SpecFloat.emin 53 1024) with (-1074)%Z in K.
  rewrite Rlt_bool_false in K.
  - fold (F_of_Z z) in K. rewrite <- is_finite_SF_B2SF, K. now destruct (Rlt_bool _ _).
  - assert (Rabs (rnd64 (IZR z)) = rnd64 (IZR (Z.abs z))) as ->.
    { rewrite abs_IZR. unfold rnd64. symmetry. apply round_NE_abs. apply FLT_exp_valid; exact prec53. }
    apply Rle_trans with (rnd64 (IZR float_limit)); [|apply rnd_le; now apply IZR_le].
    destruct (Rle_or_lt (bpow radix2 1024) (rnd64 (IZR float_limit))) as [Q|Q]; [exact Q|]. exfalso.
    assert (F : is_finite (F_of_Z float_limit) = true). { apply F_of_Z_rnd. rewrite Rabs_pos_eq; [exact Q|]. rewrite <- (rnd_id 0) by apply (fmt_Z 0 eq_refl). apply rnd_le. apply (IZR_le 0). vm_compute. discriminate. }
    vm_compute in F. discriminate.
Qed.

Section Ang.
  Variable L : libm.
  Notation N := (NumP L).
  Definition foldP (d1 : pynum) : pynum :=
    let d2 := if py_ltb d1 (PyI (-180)) then @nadd _ N d1 (PyI 360) else d1 in
    if py_ltb (PyI 180) d2 then @nsub _ N d2 (PyI 360) else d2.
  Lemma fold_ok x : finite_num x = true -> -360 <= value x <= 360 ->
    finite_num (foldP x) = true /\ -180 <= value (foldP x) <= 180 /\ cong360 (value (foldP x)) (value x).
  Proof.
    destruct x as [z|f]; intros Hf H.
    - unfold foldP. cbn [value] in H. destruct H as [H1 H2]. apply le_IZR in H1, H2. rewrite ltb_I. destruct (Rlt_bool_spec (IZR z) (IZR (-180))) as [C|C].
      + apply lt_IZR in C. cbn [nadd NumP py_arith]. rewrite ltb_I. rewrite Rlt_bool_false by (apply IZR_le; lia). cbn [finite_num value]. repeat split; [apply (IZR_le (-180)); lia|apply (IZR_le _ 180); lia|]. exists 1%Z. rewrite plus_IZR. lra.
      + apply le_IZR in C. rewrite ltb_I. destruct (Rlt_bool_spec (IZR 180) (IZR z)) as [D|D]; [apply lt_IZR in D|apply le_IZR in D]; cbn [nsub NumP py_arith finite_num value];
        (repeat split; [apply (IZR_le (-180)); lia|apply (IZR_le _ 180); lia|]); [exists (-1)%Z; rewrite minus_IZR; lra|exists 0%Z; lra].
    - cbn [finite_num value] in Hf, H. destruct (fold_F_ok f Hf H) as (A & B & C & _).
      assert (E : foldP (PyF f) = PyF (fold_F f)).
      { unfold foldP, fold_F. destruct (F_of_Z_exact (-180) eq_refl) as [A1 A2]. destruct (F_of_Z_exact 180 eq_refl) as [B1 B2].
        rewrite (py_ltb_ok (PyF f)) by easy. rewrite (ltb_F f) by easy. rewrite A1. cbn [value]. destruct (Rlt_bool_spec (B2R f) (-180)) as [D|D].
        - destruct (up_exact f Hf ltac:(lra)) as [U1 U2]. cbn [nadd NumP py_arith fl]. rewrite py_ltb_ok by easy. rewrite ltb_F by easy. rewrite B1. cbn [value]. now destruct (Rlt_bool 180 _).
        - rewrite py_ltb_ok by easy. rewrite ltb_F by easy. rewrite B1. cbn [value]. now destruct (Rlt_bool 180 _). }
      rewrite E. now repeat split.
  Qed.
  Lemma normal_fold x : @AngleDeg_normal pynum N x =
    bind (if py_ltb x (PyI (-360)) || py_ltb (PyI 360) x then @nfmod _ N x (PyI 360) else Ok x) (fun d => Ok (foldP d)).
  Proof. reflexivity. Qed.
  (** the float that stands for a number in math.fmod *)
  Definition as_float (x : pynum) : R := match x with PyI z => rnd64 (IZR z) | PyF f => B2R f end.
  Definition has_float (x : pynum) : Prop := match x with PyI z => (Z.abs z < float_limit)%Z | PyF f => is_finite f = true end.
  Lemma small_limit z : (Z.abs z <= 2 ^ 1000)%Z -> (Z.abs z < float_limit)%Z.
  Proof. intros H. assert (E : (2 ^ 1000 < float_limit)%Z) by (vm_compute; reflexivity). lia. Qed.
  Lemma normal_P x : has_float x -> exists v, @AngleDeg_normal pynum N x = Ok v /\ finite_num v = true /\ -180 <= value v <= 180 /\ cong360 (value v) (as_float x).
  Proof.
    intros Hx. rewrite normal_fold. destruct (F_of_Z_exact 360 eq_refl) as [B1 B2].
    assert (HF : finite_num x = true) by (destruct x; [reflexivity|exact Hx]).
    rewrite !py_ltb_ok by easy. cbn [value].
    assert (G : exists d1, (if Rlt_bool (value x) (-360) || Rlt_bool 360 (value x) then @nfmod _ N x (PyI 360) else Ok x) = Ok d1 /\ finite_num d1 = true /\ -360 <= value d1 <= 360 /\ cong360 (value d1) (as_float x)).
    { assert (FM : exists d1, @nfmod _ N x (PyI 360) = Ok d1 /\ finite_num d1 = true /\ -360 <= value d1 <= 360 /\ cong360 (value d1) (as_float x)).
      { assert (X : exists f, to_float x = Ok f /\ is_finite f = true /\ B2R f = as_float x).
        { destruct x as [z|f]; cbn [to_float as_float]; [|exists f; now repeat split]. destruct (of_Z_finite z Hx) as [E1 E2]. rewrite E2. exists (F_of_Z z). now repeat split. }
        destruct X as (f & X1 & X2 & X3). cbn [nfmod NumP]. rewrite X1. cbn [bind to_float]. rewrite B2. cbn [bind].
        assert (EF : F_fmod f (F_of_Z 360) = Ok (F_fmod_fin f (F_of_Z 360))) by (destruct f; easy). rewrite EF. cbn [bind]. eexists. split; [reflexivity|]. cbn [finite_num value].
        destruct (F_fmod_fin_exact f (F_of_Z 360) X2 B2 ltac:(rewrite B1; lra)) as [E1 E2]. rewrite B1 in E1. rewrite E1. split; [exact E2|]. rewrite <- X3.
        assert (-360 < B2R f - 360 * IZR (Ztrunc (B2R f / 360)) < 360).
        { destruct (Rlt_dec (B2R f) 0) as [Q|Q]; [pose proof (trunc_frac_neg (B2R f / 360)); lra|pose proof (trunc_frac (B2R f / 360)); lra]. }
        split; [lra|]. exists (- Ztrunc (B2R f / 360))%Z. rewrite opp_IZR. lra. }
      destruct (Rlt_bool_spec (value x) (-360)); cbn [orb]; [exact FM|]. destruct (Rlt_bool_spec 360 (value x)); [exact FM|].
      exists x. split; [reflexivity|]. split; [exact HF|]. split; [lra|]. exists 0%Z. destruct x as [z|f]; cbn [value as_float] in *; [|lra].
      rewrite rnd_id; [lra|]. apply fmt_Z. assert (Z.abs z <= 360)%Z by (apply Z.abs_le; split; apply le_IZR; rewrite ?opp_IZR; lra). lia. }
    destruct G as (d1 & -> & D1 & D2 & D3). cbn [bind]. eexists. split; [reflexivity|]. destruct (fold_ok d1 D1 D2) as (E1 & E2 & E3). split; [exact E1|]. split; [exact E2|]. eapply cong360_trans; eassumption.
  Qed.
  Lemma normal_over z : (float_limit <= Z.abs z)%Z -> @AngleDeg_normal pynum N (PyI z) = Raise OverflowError.
  Proof.
    intros H. rewrite normal_fold. rewrite !ltb_I. assert (A : (z < -360 \/ 360 < z)%Z) by (assert (360 < float_limit)%Z by (vm_compute; reflexivity); lia).
    assert (E : (Rlt_bool (IZR z) (IZR (-360)) || Rlt_bool (IZR 360) (IZR z))%bool = true) by (apply orb_true_iff; rewrite !Rlt_bool_iff; destruct A; [left|right]; now apply IZR_lt). rewrite E. cbn [nfmod NumP to_float]. now rewrite (of_Z_infinite z H).
  Qed.
End Ang.

(** C196: AngleDeg(n) for an int n: within [-180, 180], the direction of n up to 2^53, that of the nearest float beyond, and
    OverflowError from 2^1024 - 2^970 on *)
Theorem C196_angle : forall (L : libm) (n : Z),
  ((Z.abs n <= 2 ^ 53)%Z -> exists v, @AngleDeg_init pynum (NumP L) [VNum (PyI n)] [] = Ok (mkAngle v) /\ -180 <= value v <= 180 /\ cong360 (value v) (IZR n)) /\
  ((Z.abs n < float_limit)%Z -> exists v, @AngleDeg_init pynum (NumP L) [VNum (PyI n)] [] = Ok (mkAngle v) /\ -180 <= value v <= 180 /\ cong360 (value v) (rnd64 (IZR n))) /\
  ((float_limit <= Z.abs n)%Z -> @AngleDeg_init pynum (NumP L) [VNum (PyI n)] [] = Raise OverflowError).
Proof.
  intros L n. cbn [AngleDeg_init AngleDeg_ctor_val]. unfold AngleDeg_of_num.
  assert (G : (Z.abs n < float_limit)%Z -> exists v, bind (@AngleDeg_normal pynum (NumP L) (PyI n)) (fun d => Ok (mkAngle d)) = Ok (mkAngle v) /\ -180 <= value v <= 180 /\ cong360 (value v) (rnd64 (IZR n))).
  { intros H. destruct (normal_P L (PyI n) H) as (v & -> & _ & V2 & V3). exists v. now repeat split. }
  split; [|split; [exact G|intros H; now rewrite normal_over]].
  intros H. destruct (G (small_limit n ltac:(assert (2 ^ 53 <= 2 ^ 1000)%Z by (vm_compute; discriminate); lia))) as (v & E & R & C). exists v. rewrite rnd_id in C by now apply fmt_Z53. now repeat split.
Qed.
(** ... so from 2^53 + 1 on the direction may be wrong by whole degrees *)
Theorem C196_angle_refuted : exists n : Z, n = (2 ^ 53 + 1)%Z /\ forall L : libm, exists v, @AngleDeg_init pynum (NumP L) [VNum (PyI n)] [] = Ok (mkAngle v) /\ cong360 (value v) (IZR n - 1) /\ ~ cong360 (value v) (IZR n).
Proof.
  exists (2 ^ 53 + 1)%Z. split; [reflexivity|]. intros L. destruct (proj1 (proj2 (C196_angle L (2 ^ 53 + 1)))) as (v & E & R & C); [apply small_limit; vm_compute; discriminate|].
  exists v. split; [exact E|]. assert (K : rnd64 (IZR (2 ^ 53 + 1)) = IZR (2 ^ 53)).
  { destruct (of_Z_finite (2 ^ 53 + 1)) as [<- _]; [apply small_limit; vm_compute; discriminate|]. replace (F_of_Z (2 ^ 53 + 1)) with (F_of_Z (2 ^ 53)) by (apply B2SF_inj; vm_compute; reflexivity). apply F_of_Z53. vm_compute. discriminate. }
  rewrite K in C. rewrite plus_IZR. split; [now replace (IZR (2 ^ 53) + 1 - 1) with (IZR (2 ^ 53)) by ring|].
  intros [k D]. destruct C as [j C]. rewrite C in D. assert (E2 : (360 * j = 1 + 360 * k)%Z) by (apply eq_IZR; rewrite plus_IZR, !mult_IZR; lra). lia.
Qed.

(** C196: turning by whole degrees never drifts: after any number of += and -= of ints up to 2^52 the angle is exactly the sum, modulo 360 *)
Inductive turn_by := TAdd (n : Z) | TSub (n : Z).
Definition turn_call (t : turn_by) : @ang_call pynum := match t with TAdd n => AIadd (AN (PyI n)) | TSub n => AIsub (AN (PyI n)) end.
Definition turn_amount (t : turn_by) : Z := match t with TAdd n => n | TSub n => (- n)%Z end.
Definition whole_angle (a : angle pynum) : Prop := has_float (a_degree a) /\ -180 <= value (a_degree a) <= 180 /\ exists k : Z, value (a_degree a) = IZR k.
Lemma turn_step L t a : (Z.abs (turn_amount t) <= 2 ^ 52)%Z -> whole_angle a ->
  exists a', @st_ang pynum (NumP L) (turn_call t) a = (Ok tt, a') /\ whole_angle a' /\ cong360 (value (a_degree a')) (value (a_degree a) + IZR (turn_amount t)).
Proof.
  intros HT (A1 & A2 & k & A3). destruct a as [x]. cbn [a_degree] in *. assert (KB : (-180 <= k <= 180)%Z) by (split; apply le_IZR; lra).
  assert (NZ : (Z.abs (turn_amount t) < 2 ^ 53)%Z) by lia.
  assert (FIN : forall y, has_float y -> as_float y = value x + IZR (turn_amount t) -> exists a', @st_normal pynum (NumP L) (mkAngle y) = (Ok tt, a') /\ whole_angle a' /\ cong360 (value (a_degree a')) (value x + IZR (turn_amount t))).
  { intros y Hy Ey. destruct (normal_P L y Hy) as (v & V1 & V2 & V3 & V4). rewrite st_normal_ok. cbn [a_degree]. rewrite V1. exists (mkAngle v). split; [reflexivity|]. rewrite Ey in V4. split; [|exact V4]. split; cbn [a_degree].
    - destruct v as [z|f]; [|exact V2]. cbn [has_float]. cbn [value] in V3. apply small_limit. assert (-180 <= z <= 180)%Z by (split; apply le_IZR; lra). assert (1000 <= 2 ^ 1000)%Z by (vm_compute; discriminate). lia.
    - split; [exact V3|]. destruct V4 as [j V4]. exists (k + turn_amount t + 360 * j)%Z. rewrite V4, !plus_IZR, mult_IZR, A3. ring. }
  assert (BIG : forall z, (Z.abs z <= 2 ^ 53)%Z -> has_float (PyI z)) by (intros z Hz; cbn [has_float]; apply small_limit; assert (2 ^ 53 <= 2 ^ 1000)%Z by (vm_compute; discriminate); lia).
  assert (FS : fmt64 (IZR (k + turn_amount t))) by (apply fmt_Z53; lia).
  assert (RB : Rabs (IZR (k + turn_amount t)) <= IZR (2 ^ 53)) by (rewrite <- abs_IZR; apply IZR_le; lia).
  assert (RM : IZR (2 ^ 53) <= IZR (2 ^ 1000)) by (apply IZR_le; vm_compute; discriminate).
  destruct t as [n|n]; cbn [turn_call turn_amount st_ang ang_num] in *; unfold andthen, eval, write; cbn [a_degree]; apply FIN; destruct x as [z|f]; cbn [nadd nsub NumP py_arith fl value] in *.
  - apply eq_IZR in A3. subst z. apply BIG. lia.
  - destruct (F_of_Z53 n ltac:(lia)) as [E1 E2]. cbn. apply (F_add_exact f (F_of_Z n) (IZR (2 ^ 53)) A1 E2); rewrite ?E1, ?A3, <- ?plus_IZR; assumption.
  - apply eq_IZR in A3. subst z. cbn [as_float]. rewrite <- plus_IZR. now apply rnd_id.
  - destruct (F_of_Z53 n ltac:(lia)) as [E1 E2]. cbn [as_float]. rewrite <- E1. apply (F_add_exact f (F_of_Z n) (IZR (2 ^ 53)) A1 E2); rewrite ?E1, ?A3, <- ?plus_IZR; assumption.
  - apply eq_IZR in A3. subst z. apply BIG. lia.
  - destruct (F_of_Z53 n ltac:(lia)) as [E1 E2]. cbn. apply (F_sub_exact f (F_of_Z n) (IZR (2 ^ 53)) A1 E2); rewrite ?E1, ?A3, <- ?minus_IZR; replace (k - n)%Z with (k + - n)%Z by ring; assumption.
  - apply eq_IZR in A3. subst z. cbn [as_float]. rewrite <- plus_IZR. replace (k - n)%Z with (k + - n)%Z by ring. now apply rnd_id.
  - destruct (F_of_Z53 n ltac:(lia)) as [E1 E2]. cbn [as_float]. rewrite opp_IZR, <- E1. apply (F_sub_exact f (F_of_Z n) (IZR (2 ^ 53)) A1 E2); rewrite ?E1, ?A3, <- ?minus_IZR; replace (k - n)%Z with (k + - n)%Z by ring; assumption.
Qed.
Theorem C196_no_drift : forall (L : libm) (ts : list turn_by) (n : Z), (Z.abs n <= 2 ^ 53)%Z -> Forall (fun t => Z.abs (turn_amount t) <= 2 ^ 52)%Z ts ->
  exists a0 a, @AngleDeg_init pynum (NumP L) [VNum (PyI n)] [] = Ok a0 /\
    fold_left (fun r t => match r with (Ok _, b) => @st_ang pynum (NumP L) (turn_call t) b | _ => r end) ts (Ok tt, a0) = (Ok tt, a) /\
    -180 <= value (a_degree a) <= 180 /\ cong360 (value (a_degree a)) (IZR (n + fold_right Z.add 0%Z (map turn_amount ts))).
Proof.
  intros L ts n Hn. destruct (proj1 (C196_angle L n) Hn) as (v & E & V1 & V2). intros HT. exists (mkAngle v).
  assert (W : whole_angle (mkAngle v)).
  { destruct (normal_P L (PyI n)) as (v' & N1 & N2 & N3 & _); [cbn [has_float]; apply small_limit; assert (2 ^ 53 <= 2 ^ 1000)%Z by (vm_compute; discriminate); lia|].
    cbn [AngleDeg_init AngleDeg_ctor_val] in E. unfold AngleDeg_of_num in E. rewrite N1 in E. cbn [bind] in E. injection E as ->. split; cbn [a_degree].
    - destruct v as [z|f]; [|exact N2]. cbn [has_float value] in *. apply small_limit. assert (-180 <= z <= 180)%Z by (split; apply le_IZR; lra). assert (1000 <= 2 ^ 1000)%Z by (vm_compute; discriminate). lia.
    - split; [exact V1|]. destruct V2 as [j V2]. exists (n + 360 * j)%Z. rewrite V2, plus_IZR, mult_IZR. reflexivity. }
  assert (G : forall ts a0, Forall (fun t => Z.abs (turn_amount t) <= 2 ^ 52)%Z ts -> whole_angle a0 -> exists a, fold_left (fun r t => match r with (Ok _, b) => @st_ang pynum (NumP L) (turn_call t) b | _ => r end) ts (Ok tt, a0) = (Ok tt, a) /\
    whole_angle a /\ cong360 (value (a_degree a)) (value (a_degree a0) + IZR (fold_right Z.add 0%Z (map turn_amount ts)))).
  { clear. intros ts. induction ts as [|t ts IH]; intros a0 F W.
    - exists a0. split; [reflexivity|]. split; [exact W|]. exists 0%Z. cbn. lra.
    - inversion F as [|? ? F1 F2]; subst. destruct (turn_step L t a0 F1 W) as (a1 & S1 & S2 & S3). cbn [fold_left]. rewrite S1. destruct (IH a1 F2 S2) as (a & T1 & T2 & T3). exists a. split; [exact T1|]. split; [exact T2|].
      destruct S3 as [i S3], T3 as [j T3]. exists (i + j)%Z. cbn [map fold_right]. rewrite T3, S3, !plus_IZR. ring. }
  destruct (G ts (mkAngle v) HT W) as (a & G1 & G2 & G3). exists a. split; [exact E|]. split; [exact G1|]. split; [apply G2|]. destruct V2 as [i V2], G3 as [j G3]. exists (i + j)%Z. cbn [a_degree] in *. rewrite G3, V2, !plus_IZR. ring.
Qed.

(** C196: an angle set to an int beyond the floats raises OverflowError and keeps the int; reading the degree then raises again *)
Theorem C196_left_behind : forall (L : libm) (a : angle pynum) (n : Z), (float_limit <= Z.abs n)%Z ->
  @st_ang pynum (NumP L) (ASetDegree (PyI n)) a = (Raise OverflowError, mkAngle (PyI n)) /\
  @AngleDeg_degree pynum (NumP L) (mkAngle (PyI n)) = Raise OverflowError /\ @AngleDeg_radian pynum (NumP L) (mkAngle (PyI n)) = Raise OverflowError /\
  @AngleDeg_abs pynum (NumP L) (mkAngle (PyI n)) = Raise OverflowError /\
  (forall m, (Z.abs m < float_limit)%Z -> exists a', @st_ang pynum (NumP L) (ASetDegree (PyI m)) (mkAngle (PyI n)) = (Ok tt, a') /\ -180 <= value (a_degree a') <= 180).
Proof.
  intros L a n H. pose proof (normal_over L n H) as O. assert (D : @AngleDeg_degree pynum (NumP L) (mkAngle (PyI n)) = Raise OverflowError) by (unfold AngleDeg_degree, AngleDeg_of_num; cbn [a_degree]; now rewrite O).
  unfold AngleDeg_radian, AngleDeg_abs. rewrite D. split; [|repeat split; try reflexivity].
  - cbn [st_ang]. unfold andthen, write. rewrite st_normal_ok. cbn [a_degree]. now rewrite O.
  - intros m Hm. destruct (normal_P L (PyI m) Hm) as (v & V1 & _ & V2 & _). exists (mkAngle v). cbn [st_ang]. unfold andthen, write. rewrite st_normal_ok. cbn [a_degree]. rewrite V1. now split.
Qed.

(** C196: the length of an integer vector: relative error below 2^-52 whatever the size, until the squared length has no float *)
Theorem C196_length : forall (L : libm) (p : Z * Z), let n2 := (fst p * fst p + snd p * snd p)%Z in
  ((n2 < float_limit)%Z -> exists s, @Vector2D_r pynum (NumP L) (ivec p) = Ok (PyF s) /\ is_finite s = true /\ Rabs (B2R s - norm (zpt p)) <= bpow radix2 (-52) * norm (zpt p)) /\
  ((float_limit <= n2)%Z -> @Vector2D_r pynum (NumP L) (ivec p) = Raise OverflowError).
Proof.
  intros L p n2. assert (N0 : (0 <= n2)%Z) by (unfold n2; nia). unfold Vector2D_r, Vector2D_r2. pnum. fold n2. cbn [nsqrt NumP]. unfold py_math. cbn [to_float].
  split; [|intros H; rewrite of_Z_infinite by lia; reflexivity].
  intros H. destruct (of_Z_finite n2) as [E1 E2]; [lia|]. rewrite E2. cbn [bind].
  assert (P0 : 0 <= IZR n2) by now apply (IZR_le 0). assert (Q0 : 0 <= B2R (F_of_Z n2)) by (rewrite E1, <- (rnd_id 0) by apply (fmt_Z 0 eq_refl); now apply rnd_le).
  destruct (F_root L (F_of_Z n2) E2 Q0) as (s & S1 & S2 & S3). cbn [nsqrt NumF] in S1. rewrite S1. cbn [bind]. exists s. split; [reflexivity|]. split; [exact S2|]. rewrite S3, E1.
  assert (NN : norm (zpt p) = sqrt (IZR n2)) by (unfold norm, norm2, dot, zpt, px, py; cbn [fst snd]; unfold n2; now rewrite plus_IZR, !mult_IZR).
  rewrite NN. destruct (Z.eq_dec n2 0) as [Z0|Z0].
  - rewrite Z0. rewrite (rnd_id 0) by apply (fmt_Z 0 eq_refl). rewrite sqrt_0. rewrite (rnd_id 0) by apply (fmt_Z 0 eq_refl). rewrite Rminus_0_r, Rabs_R0. lra.
  - assert (N1 : 1 <= IZR n2) by (apply (IZR_le 1); lia). assert (S1' : 1 <= sqrt (IZR n2)) by (rewrite <- sqrt_1; now apply sqrt_le_1_alt).
    eapply Rle_trans; [apply (rnd_root (rnd64 (IZR n2)) (sqrt (IZR n2)) (3 / 2 * u))|].
    + apply Rle_trans with 1; [|exact S1']. change 1 with (bpow radix2 0). apply bpow_le. lia.
    + pose proof u_pos. lra.
    + rewrite sqrt_sqrt by exact P0. eapply Rle_trans; [apply rnd_rel|]. rewrite Rabs_pos_eq by exact P0.
      assert (T : bpow radix2 (-1075) <= / 2 * u) by (replace (/ 2) with (bpow radix2 (-1)) by (cbn; lra); rewrite <- bpow_plus; apply bpow_le; lia). pose proof u_pos. nra.
    + now rewrite <- E1.
    + apply Rmult_le_compat_r; [apply sqrt_pos|]. replace (bpow radix2 (-52)) with (2 * u) by (cbn; lra). pose proof u_pos. lra.
Qed.
Example C196_nonvacuous : (exists n : Z, (2 ^ 53 < n)%Z /\ (Z.abs n < float_limit)%Z) /\ (exists n : Z, (float_limit <= Z.abs n)%Z) /\
  Forall (fun t => Z.abs (turn_amount t) <= 2 ^ 52)%Z [TAdd 450; TSub 1000000007; TAdd (-7)] /\ (fst (3 * 2 ^ 500, 4 * 2 ^ 500) * fst (3 * 2 ^ 500, 4 * 2 ^ 500) + 4 * 2 ^ 500 * (4 * 2 ^ 500) < float_limit)%Z.
Proof.
  split; [exists (2 ^ 60)%Z; split; vm_compute; reflexivity|]. split; [exists float_limit; vm_compute; discriminate|]. split; [repeat constructor; vm_compute; discriminate|vm_compute; reflexivity].
Qed.
