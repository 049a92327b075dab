(** * P_AngleF: AngleDeg in IEEE binary64, for every C library *)
From Coq Require Import ZArith List Bool String Reals Lra Lia Psatz.
From Flocq Require Import Core BinarySingleNaN Sterbenz.
From Verif Require Import Base Types NumR NumF R_Tac Spec M_Angle L_Angle P_Angle L_Float.
Import ListNotations.
Local Open Scope R_scope.

Section FloatAngle.
  Variable L : libm.
  Existing Instance NumF.
  Local Notation NF := (NumF L).

  Lemma c360 n : n = 360%Z \/ n = (-360)%Z \/ n = 180%Z \/ n = (-180)%Z \/ n = 0%Z -> (Z.abs n < 2 ^ 53)%Z.
  Proof. intros [->|[->|[->|[->| ->]]]]; reflexivity. Qed.

  (** d + 360 and d - 360 are exact where [normal] uses them. *)
  Lemma up_exact (d : F) : is_finite d = true -> -360 <= B2R d < -180 ->
    B2R (Bplus mode_NE d (F_of_Z 360)) = B2R d + 360 /\ is_finite (Bplus mode_NE d (F_of_Z 360)) = true.
  Proof.
    intros Hf H. destruct (F_of_Z_exact 360 eq_refl) as [E1 E2].
    pose proof (F_add_exact d (F_of_Z 360) 360 Hf E2) as K. rewrite E1 in K. apply K.
    - replace (B2R d + 360) with (360 - (- B2R d)) by ring. apply sterbenz.
      + apply FLT_exp_valid; exact prec53. + apply FLT_exp_monotone. + apply (fmt_Z 360); reflexivity.
      + apply fmt_opp, fmt_F. + lra.
    - apply Rabs_le; lra.
    - apply IZR_le. now compute.
  Qed.
  Lemma down_exact (d : F) : is_finite d = true -> 180 < B2R d <= 360 ->
    B2R (Bminus mode_NE d (F_of_Z 360)) = B2R d - 360 /\ is_finite (Bminus mode_NE d (F_of_Z 360)) = true.
  Proof.
    intros Hf H. destruct (F_of_Z_exact 360 eq_refl) as [E1 E2].
    pose proof (F_sub_exact d (F_of_Z 360) 360 Hf E2) as K. rewrite E1 in K. apply K.
    - apply sterbenz.
      + apply FLT_exp_valid; exact prec53. + apply FLT_exp_monotone. + apply fmt_F. + apply (fmt_Z 360); reflexivity.
      + lra.
    - apply Rabs_le; lra.
    - apply IZR_le. now compute.
  Qed.

  (** The last two steps of [normal] (and of normalize_angle), on [-360,360]. *)
  Definition fold_F (d1 : F) : F :=
    let d2 := if Bltb d1 (F_of_Z (-180)) then Bplus mode_NE d1 (F_of_Z 360) else d1 in
    if Bltb (F_of_Z 180) d2 then Bminus mode_NE d2 (F_of_Z 360) else d2.
  Lemma fold_F_ok d : is_finite d = true -> -360 <= B2R d <= 360 ->
    is_finite (fold_F d) = true /\ -180 <= B2R (fold_F d) <= 180 /\ cong360 (B2R (fold_F d)) (B2R d) /\
    (-180 <= B2R d <= 180 -> fold_F d = d).
  Proof.
    intros Hf H. unfold fold_F.
    destruct (F_of_Z_exact (-180) eq_refl) as [A1 A2]. destruct (F_of_Z_exact 180 eq_refl) as [B1 B2].
    rewrite (ltb_F d) by easy. rewrite A1.
    destruct (Rlt_bool_spec (B2R d) (-180)) as [C|C].
    - destruct (up_exact d Hf ltac:(lra)) as [U1 U2]. rewrite ltb_F by easy. rewrite B1, U1.
      rewrite Rlt_bool_false by lra. split; [easy|]. rewrite U1. split; [lra|]. split; [|lra]. exists 1%Z; lra.
    - rewrite ltb_F by easy. rewrite B1. destruct (Rlt_bool_spec 180 (B2R d)) as [D|D].
      + destruct (down_exact d Hf ltac:(lra)) as [U1 U2]. split; [easy|]. rewrite U1. split; [lra|]. split; [|lra]. exists (-1)%Z; lra.
      + split; [easy|]. split; [lra|]. split; [apply cong360_refl|easy].
  Qed.

  Lemma normal_F x : is_finite x = true ->
    exists d, @AngleDeg_normal F NF x = Ok d /\ is_finite d = true /\ -180 <= B2R d <= 180 /\
      cong360 (B2R d) (B2R x) /\ (-180 <= B2R x <= 180 -> d = x).
  Proof.
    intros Hf. unfold AngleDeg_normal. cbn [nltb nfmod nadd nsub nlit NumF F_lit].
    destruct (F_of_Z_exact (-360) eq_refl) as [A1 A2]. destruct (F_of_Z_exact 360 eq_refl) as [B1 B2].
    rewrite (ltb_F x (F_of_Z (-360))), (ltb_F (F_of_Z 360) x) by easy. rewrite A1, B1.
    assert (FM : exists d1, (if Rlt_bool (B2R x) (-360) || Rlt_bool 360 (B2R x) then F_fmod x (F_of_Z 360) else Ok x) = Ok d1 /\
      is_finite d1 = true /\ -360 <= B2R d1 <= 360 /\ cong360 (B2R d1) (B2R x) /\ (-180 <= B2R x <= 180 -> d1 = x)).
    { assert (G : exists d1, F_fmod x (F_of_Z 360) = Ok d1 /\ is_finite d1 = true /\ -360 <= B2R d1 <= 360 /\ cong360 (B2R d1) (B2R x)).
      { assert (EF : F_fmod x (F_of_Z 360) = Ok (F_fmod_fin x (F_of_Z 360))) by (destruct x; easy).
        rewrite EF. eexists; split; [reflexivity|].
        destruct (F_fmod_fin_exact x (F_of_Z 360) Hf B2 ltac:(rewrite B1; lra)) as [E1 E2]. rewrite B1 in E1.
        split; [easy|]. rewrite E1.
        assert (-360 < B2R x - 360 * IZR (Ztrunc (B2R x / 360)) < 360).
        { destruct (Rlt_dec (B2R x) 0) as [N|N].
          - pose proof (trunc_frac_neg (B2R x / 360)). lra.
          - pose proof (trunc_frac (B2R x / 360)). lra. }
        split; [lra|]. exists (- Ztrunc (B2R x / 360))%Z. rewrite opp_IZR. lra. }
      destruct (Rlt_bool_spec (B2R x) (-360)); cbn [orb].
      - destruct G as (d1 & G1 & G2 & G3 & G4). exists d1. repeat split; try easy; lra.
      - destruct (Rlt_bool_spec 360 (B2R x)).
        + destruct G as (d1 & G1 & G2 & G3 & G4). exists d1. repeat split; try easy; lra.
        + exists x. repeat split; try easy; try lra. apply cong360_refl. }
    destruct FM as (d1 & -> & F1 & F2 & F3 & F4). cbn [bind].
    destruct (fold_F_ok d1 F1 F2) as (G1 & G2 & G3 & G4).
    exists (fold_F d1); split; [reflexivity|]. split; [easy|]. split; [lra|]. split; [eapply cong360_trans; eauto|].
    intros H. rewrite (F4 H) in *. now apply G4.
  Qed.
  Lemma normal_F_nan : @AngleDeg_normal F NF B754_nan = Ok B754_nan.
  Proof. reflexivity. Qed.
  Lemma normal_F_inf s : @AngleDeg_normal F NF (B754_infinity s) = Raise ValueError.
  Proof. destruct s; reflexivity. Qed.

  (** What a stored degree can be: NaN, or a finite double in [-180,180]. *)
  Definition good_degree (d : F) : Prop := is_finite d = true /\ -180 <= B2R d <= 180.
  Definition good_or_nan (d : F) : Prop := d = B754_nan \/ good_degree d.

  Lemma normal_F_any x d : @AngleDeg_normal F NF x = Ok d ->
    good_or_nan d /\ (is_nan x = false -> good_degree d).
  Proof.
    intros H. destruct (is_finite x) eqn:Hf.
    - destruct (normal_F x Hf) as (d' & E & H1 & H2 & _). rewrite E in H. injection H as <-.
      split; [right|]; now split.
    - destruct x as [| |  |]; try discriminate.
      + rewrite normal_F_inf in H. discriminate.
      + rewrite normal_F_nan in H. injection H as <-. split; [now left|discriminate].
  Qed.
  Lemma of_num_F_any x a : @AngleDeg_of_num F NF x = Ok a ->
    good_or_nan (a_degree a) /\ (is_nan x = false -> good_degree (a_degree a)).
  Proof.
    unfold AngleDeg_of_num. destruct (AngleDeg_normal x) as [d|] eqn:E; cbn [bind]; [|discriminate].
    intros [= <-]. now apply normal_F_any.
  Qed.
  Lemma degree_F_good a : good_or_nan (a_degree a) -> @AngleDeg_degree F NF a = Ok (a_degree a).
  Proof.
    intros [H|[H1 H2]].
    - destruct a; cbn in *. subst. reflexivity.
    - unfold AngleDeg_degree, AngleDeg_of_num. destruct (normal_F (a_degree a) H1) as (d & -> & _ & _ & _ & E).
      cbn. now rewrite E.
  Qed.
  Lemma degree_F_any a d : @AngleDeg_degree F NF a = Ok d -> good_or_nan d /\ (is_nan (a_degree a) = false -> good_degree d).
  Proof.
    unfold AngleDeg_degree. destruct (AngleDeg_of_num (a_degree a)) as [b|] eqn:E; cbn [bind]; [|discriminate].
    intros [= <-]. now apply of_num_F_any.
  Qed.
End FloatAngle.

(** C01/C02 (binary64).  For every finite double x the constructor returns; the
    stored degree is finite, in [-180,180], EXACTLY congruent to x modulo 360
    (no rounding), bit-identical to x when x was in range, and is what degree()
    returns.  NaN is kept, infinities raise ValueError. *)
Theorem C01_C02_normalise_F : forall (L : libm) (x : F),
  (is_finite x = true ->
   exists a, @AngleDeg_init F (NumF L) [VNum x] [] = Ok a /\
     is_finite (a_degree a) = true /\ -180 <= B2R (a_degree a) <= 180 /\
     cong360 (B2R (a_degree a)) (B2R x) /\
     (-180 <= B2R x <= 180 -> a_degree a = x) /\
     @AngleDeg_degree F (NumF L) a = Ok (a_degree a)) /\
  (x = B754_nan -> @AngleDeg_init F (NumF L) [VNum x] [] = Ok (mkAngle B754_nan)) /\
  (is_finite x = false -> x <> B754_nan -> @AngleDeg_init F (NumF L) [VNum x] [] = Raise ValueError).
Proof.
  intros L x. cbn [AngleDeg_init AngleDeg_ctor_val]. split; [|split].
  - intros Hf. unfold AngleDeg_of_num. destruct (normal_F L x Hf) as (d & -> & H1 & H2 & H3 & H4).
    cbn [bind]. eexists; split; [reflexivity|]. cbn [a_degree].
    repeat (split; [easy|]). apply degree_F_good. right. now split.
  - intros ->. reflexivity.
  - intros Hf Hn. destruct x as [|s| |]; try discriminate; [|easy]. destruct s; reflexivity.
Qed.
(** 1e20 is normalised to exactly the right residue. *)
Example C01_F_nonvacuous : forall L,
  match @AngleDeg_init F (NumF L) [VNum (F_of_Z 100000000000000000000)] [] with
  | Ok a => Beqb (a_degree a) (F_of_Z (-80)) | Raise _ => false end = true.
Proof. intros L. vm_compute. reflexivity. Qed.

(** C02 (binary64): the module-level normalize_angle, whose Python [%] may
    round: in range, and congruent up to 2^-45 degree. *)
Theorem C02_normalize_angle_F : forall (L : libm) (x : F), is_finite x = true ->
  exists d, @normalize_angle F (NumF L) x = Ok d /\ is_finite d = true /\ -180 <= B2R d <= 180 /\
    exists y, cong360 (B2R d) y /\ Rabs (y - B2R x) <= / IZR (2 ^ 45).
Proof.
  intros L x Hf. unfold normalize_angle. cbn [nltb nmod nadd nsub nlit NumF F_lit].
  destruct (F_of_Z_exact (-360) eq_refl) as [A1 A2]. destruct (F_of_Z_exact 360 eq_refl) as [B1 B2].
  rewrite (ltb_F x (F_of_Z (-360))), (ltb_F (F_of_Z 360) x) by easy. rewrite A1, B1.
  assert (P45 : 0 < / IZR (2 ^ 45)) by (apply Rinv_0_lt_compat, IZR_lt; reflexivity).
  assert (FM : exists d1, (if Rlt_bool (B2R x) (-360) || Rlt_bool 360 (B2R x) then F_mod x (F_of_Z 360) else Ok x) = Ok d1 /\
    is_finite d1 = true /\ -360 <= B2R d1 <= 360 /\ exists y, cong360 (B2R d1) y /\ Rabs (y - B2R x) <= / IZR (2 ^ 45)).
  { assert (G : exists d1, F_mod x (F_of_Z 360) = Ok d1 /\
        is_finite d1 = true /\ -360 <= B2R d1 <= 360 /\ exists y, cong360 (B2R d1) y /\ Rabs (y - B2R x) <= / IZR (2 ^ 45)).
    { set (m := F_fmod_fin x (F_of_Z 360)).
      destruct (F_fmod_fin_exact x (F_of_Z 360) Hf B2 ltac:(rewrite B1; lra)) as [E1 E2]. rewrite B1 in E1. fold m in E1, E2.
      assert (CM : cong360 (B2R m) (B2R x)). { rewrite E1. exists (- Ztrunc (B2R x / 360))%Z. rewrite opp_IZR. lra. }
      assert (RM : -360 < B2R m < 360).
      { rewrite E1. destruct (Rlt_dec (B2R x) 0) as [N|N].
        - pose proof (trunc_frac_neg (B2R x / 360)). lra.
        - pose proof (trunc_frac (B2R x / 360)). lra. }
      assert (EF : F_mod x (F_of_Z 360) = if is_nan m then Ok m else if F_is_zero m then Ok (B754_zero (Bsign (F_of_Z 360)))
         else if Bool.eqb (Bltb (F_of_Z 360) (F_of_Z 0)) (Bltb m (F_of_Z 0)) then Ok m else Ok (Bplus mode_NE m (F_of_Z 360))).
      { unfold m. destruct x; easy. }
      rewrite EF. replace (is_nan m) with false by (now destruct m). unfold F_is_zero.
      destruct (F_of_Z_exact 0 eq_refl) as [Z1 Z2].
      rewrite (eqb_F m) by easy. rewrite Z1.
      destruct (Req_bool_spec (B2R m) 0) as [Zm|Zm].
      { eexists; split; [reflexivity|]. split; [easy|]. cbn. split; [lra|]. exists (B2R x). rewrite <- Zm. split; [easy|].
        rewrite Rminus_diag_eq, Rabs_R0 by easy. lra. }
      change (Bltb (F_of_Z 360) (F_of_Z 0)) with false. rewrite (ltb_F m) by easy. rewrite Z1.
      destruct (Rlt_bool_spec (B2R m) 0) as [Nm|Nm]; cbn [Bool.eqb].
      - assert (RB : 0 <= rnd64 (B2R m + 360) <= 360).
        { apply rnd_between; [apply (fmt_Z 0); reflexivity|apply (fmt_Z 360); reflexivity|lra]. }
        destruct (F_add m (F_of_Z 360) E2 B2) as [P1 P2].
        { rewrite B1. eapply (small_lt_emax _ 360); [apply Rabs_le; lra|]. apply IZR_le; now compute. }
        rewrite B1 in P1. eexists; split; [reflexivity|]. split; [easy|]. rewrite P1. split; [lra|].
        exists (B2R x + (rnd64 (B2R m + 360) - (B2R m + 360))). split.
        + destruct CM as [k Ek]. exists (k + 1)%Z. rewrite plus_IZR. lra.
        + replace (_ - B2R x) with (rnd64 (B2R m + 360) - (B2R m + 360)) by ring.
          eapply Rle_trans; [apply error_le_half_ulp; apply FLT_exp_valid; exact prec53|].
          assert (U : ulp radix2 (FLT_exp (-1074) 53) (B2R m + 360) <= bpow radix2 (-44)).
          { replace (bpow radix2 (-44)) with (ulp radix2 (FLT_exp (-1074) 53) 360).
            - apply ulp_le; [apply FLT_exp_valid; exact prec53|apply FLT_exp_monotone|].
              rewrite !Rabs_pos_eq by lra. lra.
            - rewrite ulp_neq_0 by lra. f_equal. unfold cexp.
              rewrite (mag_unique radix2 360 9); [reflexivity|]. rewrite Rabs_pos_eq by lra. cbn; lra. }
          replace (/ IZR (2^45)) with (/ 2 * bpow radix2 (-44)); [lra|].
          change (bpow radix2 (-44)) with (/ IZR (2 ^ 44)). rewrite <- Rinv_mult, <- mult_IZR. reflexivity.
      - eexists; split; [reflexivity|]. split; [easy|]. split; [lra|]. exists (B2R x). split; [easy|].
        rewrite Rminus_diag_eq, Rabs_R0 by easy. lra. }
    destruct (Rlt_bool_spec (B2R x) (-360)); cbn [orb]; [exact G|].
    destruct (Rlt_bool_spec 360 (B2R x)); [exact G|].
    exists x. repeat split; try easy. exists (B2R x). split; [apply cong360_refl|].
    rewrite Rminus_diag_eq, Rabs_R0 by easy. lra. }
  destruct FM as (d1 & -> & F1 & F2 & y & F3 & F4). cbn [bind].
  destruct (fold_F_ok d1 F1 F2) as (G1 & G2 & G3 & G4).
  exists (fold_F d1); split; [reflexivity|]. split; [easy|]. split; [easy|]. exists y. split; [eapply cong360_trans; eauto|easy].
Qed.

(** ** C03 in binary64 *)
Section HistF.
  Variable L : libm.
  Local Notation NF := (NumF L).
  (** The operands of an operation are finite numbers / well-formed angles. *)
  Definition finite_arg (x : ang_arg F) : Prop :=
    match x with AA b => good_degree (a_degree b) | AN y => is_finite y = true end.
  Definition finite_op (o : angle_op F) : Prop :=
    match o with
    | OpSetDegree x | OpImul x | OpMul x | OpFloordiv x => is_finite x = true
    | OpSetAngle b => good_degree (a_degree b)
    | OpIadd x | OpIsub x | OpAdd x | OpSub x => finite_arg x
    | _ => True
    end.

  Lemma overflow_not_nan (z : F) s : B2SF z = binary_overflow 53 1024 mode_NE s -> is_nan z = false.
  Proof. destruct z; cbn; try easy. Qed.
  Lemma finite_not_nan (z : F) : is_finite z = true -> is_nan z = false.
  Proof. now destruct z. Qed.
  Lemma plus_not_nan (x y : F) : is_finite x = true -> is_finite y = true -> is_nan (Bplus mode_NE x y) = false.
  Proof.
    intros Hx Hy. generalize (Bplus_correct 53 1024 _ _ mode_NE x y Hx Hy). destruct Rlt_bool.
    - intros (_ & H & _). now apply finite_not_nan.
    - intros [H _]. eapply overflow_not_nan, H.
  Qed.
  Lemma minus_not_nan (x y : F) : is_finite x = true -> is_finite y = true -> is_nan (Bminus mode_NE x y) = false.
  Proof.
    intros Hx Hy. generalize (Bminus_correct 53 1024 _ _ mode_NE x y Hx Hy). destruct Rlt_bool.
    - intros (_ & H & _). now apply finite_not_nan.
    - intros [H _]. eapply overflow_not_nan, H.
  Qed.
  Lemma mult_not_nan (x y : F) : is_finite x = true -> is_finite y = true -> is_nan (Bmult mode_NE x y) = false.
  Proof.
    intros Hx Hy. generalize (Bmult_correct 53 1024 _ _ mode_NE x y). destruct Rlt_bool.
    - intros (_ & H & _). rewrite Hx, Hy in H. now apply finite_not_nan.
    - intros H. eapply overflow_not_nan, H.
  Qed.
  Lemma div_not_nan (x y : F) : is_finite x = true -> B2R y <> 0 -> is_nan (Bdiv mode_NE x y) = false.
  Proof.
    intros Hx Hy. generalize (Bdiv_correct 53 1024 _ _ mode_NE x y Hy). destruct Rlt_bool.
    - intros (_ & H & _). rewrite Hx in H. now apply finite_not_nan.
    - intros H. eapply overflow_not_nan, H.
  Qed.

  Lemma reverse_F_good a : good_degree (a_degree a) -> good_degree (a_degree (@AngleDeg_reverse F NF a)).
  Proof.
    intros [Hf Hr]. unfold AngleDeg_reverse. cbn [nleb nneg nsub nadd nlit NumF F_lit].
    destruct (F_of_Z_exact 0 eq_refl) as [Z1 Z2]. destruct (F_of_Z_exact 180 eq_refl) as [B1 B2].
    assert (M : 360 <= IZR (2 ^ 1000)) by (apply IZR_le; now compute).
    rewrite leb_F by easy. rewrite Z1. destruct (Rle_bool_spec 0 (B2R (a_degree a))); cbn [a_degree].
    - assert (RB : 0 <= rnd64 (180 - B2R (a_degree a)) <= 180).
      { apply rnd_between; [apply (fmt_Z 0); reflexivity|apply (fmt_Z 180); reflexivity|lra]. }
      destruct (F_sub (F_of_Z 180) (a_degree a) B2 Hf) as [E1 E2].
      { rewrite B1. apply (small_lt_emax _ 360); [apply Rabs_le; lra|easy]. }
      rewrite B1 in E1. split; [now rewrite is_finite_Bopp|]. rewrite B2R_Bopp, E1. lra.
    - assert (RB : 0 <= rnd64 (180 + B2R (a_degree a)) <= 180).
      { apply rnd_between; [apply (fmt_Z 0); reflexivity|apply (fmt_Z 180); reflexivity|lra]. }
      destruct (F_add (F_of_Z 180) (a_degree a) B2 Hf) as [E1 E2].
      { rewrite B1. apply (small_lt_emax _ 360); [apply Rabs_le; lra|easy]. }
      rewrite B1 in E1. split; [easy|]. rewrite E1. lra.
  Qed.
  Lemma reverse_F_any a : good_or_nan (a_degree a) -> good_or_nan (a_degree (@AngleDeg_reverse F NF a)).
  Proof.
    intros [H|H]; [left|right; now apply reverse_F_good]. destruct a; cbn in *; now subst.
  Qed.

  Lemma step_any o a b : good_or_nan (a_degree a) -> @angle_step F NF o a = Ok b -> good_or_nan (a_degree b).
  Proof.
    intros Ha. destruct o; cbn [angle_step];
    unfold AngleDeg_set_degree, AngleDeg_set_angle, AngleDeg_iadd, AngleDeg_isub, AngleDeg_imul,
      AngleDeg_add, AngleDeg_sub, AngleDeg_mul, AngleDeg_floordiv, AngleDeg_neg, AngleDeg_copy, AngleDeg_of_angle,
      AngleDeg_reverse_angle; rewrite ?(degree_F_good L a Ha); cbn [bind].
    - destruct (AngleDeg_normal x) eqn:E; cbn [bind]; [|discriminate]. intros [= <-]. eapply normal_F_any, E.
    - destruct (AngleDeg_degree b0) eqn:E; cbn [bind]; [|discriminate]. intros [= <-]. eapply degree_F_any, E.
    - destruct (ang_num x); cbn [bind]; [|discriminate]. intros E; eapply of_num_F_any, E.
    - destruct (ang_num x); cbn [bind]; [|discriminate]. intros E; eapply of_num_F_any, E.
    - intros E; eapply of_num_F_any, E.
    - destruct (ang_num x); cbn [bind]; [|discriminate]. intros E; eapply of_num_F_any, E.
    - destruct x; intros E; eapply of_num_F_any, E.
    - intros E; eapply of_num_F_any, E.
    - destruct (ndiv _ _); cbn [bind]; [|discriminate]. intros E; eapply of_num_F_any, E.
    - intros E; eapply of_num_F_any, E.
    - intros E; eapply of_num_F_any, E.
    - intros E; eapply of_num_F_any, E.
    - intros [= <-]. now apply reverse_F_any.
    - destruct (AngleDeg_of_num (a_degree a)) eqn:E; cbn [bind]; [|discriminate]. intros [= <-].
      apply reverse_F_any. eapply of_num_F_any, E.
  Qed.
  Lemma step_finite o a b : finite_op o -> good_degree (a_degree a) -> @angle_step F NF o a = Ok b -> good_degree (a_degree b).
  Proof.
    intros Ho Ha. assert (Hg : good_or_nan (a_degree a)) by now right. assert (Hf := proj1 Ha).
    assert (HA : forall x, finite_arg x -> exists y, @ang_num F NF x = Ok y /\ is_finite y = true).
    { intros [c|y] Hx; cbn in *; [|now exists y]. exists (a_degree c). rewrite degree_F_good by now right. now destruct Hx. }
    destruct o; cbn [angle_step finite_op] in *;
    unfold AngleDeg_set_degree, AngleDeg_set_angle, AngleDeg_iadd, AngleDeg_isub, AngleDeg_imul,
      AngleDeg_add, AngleDeg_sub, AngleDeg_mul, AngleDeg_floordiv, AngleDeg_neg, AngleDeg_copy, AngleDeg_of_angle,
      AngleDeg_reverse_angle; rewrite ?(degree_F_good L a Hg); cbn [bind].
    - destruct (AngleDeg_normal x) eqn:E; cbn [bind]; [|discriminate]. intros [= <-].
      eapply normal_F_any; [exact E|now apply finite_not_nan].
    - rewrite degree_F_good by now right. cbn [bind]. intros [= <-]. exact Ho.
    - destruct (HA _ Ho) as (y & -> & Hy). cbn [bind]. intros E; eapply of_num_F_any; [exact E|]. now apply plus_not_nan.
    - destruct (HA _ Ho) as (y & -> & Hy). cbn [bind]. intros E; eapply of_num_F_any; [exact E|]. now apply minus_not_nan.
    - intros E; eapply of_num_F_any; [exact E|]. now apply mult_not_nan.
    - destruct (HA _ Ho) as (y & -> & Hy). cbn [bind]. intros E; eapply of_num_F_any; [exact E|]. now apply plus_not_nan.
    - destruct x as [c|y]; cbn in Ho; intros E; (eapply of_num_F_any; [exact E|]); apply minus_not_nan; try easy. apply Ho.
    - intros E; eapply of_num_F_any; [exact E|]. now apply mult_not_nan.
    - cbn [ndiv NumF]. unfold F_div, F_is_zero. destruct (F_of_Z_exact 0 eq_refl) as [Z1 Z2].
      rewrite eqb_F by easy. rewrite Z1. destruct (Req_bool_spec (B2R x) 0); cbn [bind]; [discriminate|].
      intros E; eapply of_num_F_any; [exact E|]. now apply div_not_nan.
    - intros E; eapply of_num_F_any; [exact E|]. cbn [nneg NumF]. apply finite_not_nan. now rewrite is_finite_Bopp.
    - intros E; eapply of_num_F_any; [exact E|]. now apply finite_not_nan.
    - intros E; eapply of_num_F_any; [exact E|]. now apply finite_not_nan.
    - intros [= <-]. now apply reverse_F_good.
    - destruct (AngleDeg_of_num (a_degree a)) eqn:E; cbn [bind]; [|discriminate]. intros [= <-].
      apply reverse_F_good. eapply of_num_F_any; [exact E|]. now apply finite_not_nan.
  Qed.
End HistF.

(** Whatever the history of operations and operands (finite or not), an angle
    variable holds NaN or a finite double in [-180,180]; and if all the
    operands met are finite it never holds NaN. *)
Theorem C03_history_F : forall (L : libm) (os : list (angle_op F)) (x : F) (a b : angle F),
  @AngleDeg_init F (NumF L) [VNum x] [] = Ok a ->
  @angle_run F (NumF L) os a = Ok b ->
  (a_degree b = B754_nan \/ (is_finite (a_degree b) = true /\ -180 <= B2R (a_degree b) <= 180)) /\
  (is_finite x = true -> Forall finite_op os ->
     is_finite (a_degree b) = true /\ -180 <= B2R (a_degree b) <= 180).
Proof.
  intros L os x a b Hx. cbn [AngleDeg_init AngleDeg_ctor_val] in Hx. apply of_num_F_any in Hx.
  destruct Hx as [Hx1 Hx2]. intros Hr. split.
  - clear Hx2. revert a Hx1 Hr. induction os as [|o os IH]; intros a Ha; cbn [angle_run].
    + intros [= <-]. exact Ha.
    + destruct (angle_step o a) as [c|] eqn:E; cbn [bind]; [|discriminate].
      apply IH. eapply step_any; eauto.
  - intros Hf Hos. specialize (Hx2 (finite_not_nan _ Hf)). clear Hx1 Hf. revert a Hx2 Hr.
    induction Hos as [|o os Ho Hos IH]; intros a Ha; cbn [angle_run].
    + intros [= <-]. exact Ha.
    + destruct (angle_step o a) as [c|] eqn:E; cbn [bind]; [|discriminate].
      apply IH. eapply step_finite; eauto.
Qed.
Example C03_F_nonvacuous : forall L,
  match @AngleDeg_init F (NumF L) [VNum (F_of_Z 1000)] [] with
  | Ok a => match @angle_run F (NumF L) [OpIadd (AN (F_of_Z 100)); OpReverse; OpImul (Fd 1 70)] a with
            | Ok b => Bleb (Babs (a_degree b)) (F_of_Z 180) | _ => false end
  | _ => false end = true.
Proof. intros L. vm_compute. reflexivity. Qed.
