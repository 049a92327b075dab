(** * L_Float: facts about the binary64 instance used by the float theorems *)
From Coq Require Import ZArith List Bool Reals Lra Lia Psatz.
From Flocq Require Import Core BinarySingleNaN Sterbenz.
From Verif Require Import Base Types NumF.
Local Open Scope R_scope.

(** Round to nearest even in binary64, ignoring overflow. *)
Definition rnd64 (x : R) : R := round radix2 (FLT_exp (-1074) 53) ZnearestE x.
Definition fmt64 (x : R) : Prop := generic_format radix2 (FLT_exp (-1074) 53) x.


Lemma fmt_F (x : F) : fmt64 (B2R x).
Proof. exact (generic_format_B2R 53 1024 x). Qed.
Lemma rnd_id x : fmt64 x -> rnd64 x = x.
Proof. intros H. apply round_generic; [apply valid_rnd_N|exact H]. Qed.
Lemma rnd_le x y : x <= y -> rnd64 x <= rnd64 y.
Proof. intros H. apply round_le; [apply FLT_exp_valid; exact prec53|apply valid_rnd_N|exact H]. Qed.
Lemma rnd_opp x : rnd64 (- x) = - rnd64 x.
Proof. apply round_NE_opp. Qed.
Lemma fmt_rnd x : fmt64 (rnd64 x).
Proof. apply generic_format_round; [apply FLT_exp_valid; exact prec53|apply valid_rnd_N]. Qed.
Lemma fmt_opp x : fmt64 x -> fmt64 (- x).
Proof. apply generic_format_opp. Qed.
Lemma rnd_between x a b : fmt64 a -> fmt64 b -> a <= x <= b -> a <= rnd64 x <= b.
Proof.
  intros Ha Hb H. pose proof (rnd_le a x). pose proof (rnd_le x b). rewrite (rnd_id a Ha), (rnd_id b Hb) in *. lra.
Qed.
Lemma fmt_F2R m e : (Z.abs m < 2 ^ 53)%Z -> (-1074 <= e)%Z -> fmt64 (F2R (Float radix2 m e)).
Proof.
  intros H1 H2. apply generic_format_FLT. now exists (Float radix2 m e).
Qed.
Lemma fmt_Z n : (Z.abs n < 2 ^ 53)%Z -> fmt64 (IZR n).
Proof.
  intros H. replace (IZR n) with (F2R (Float radix2 n 0)) by (unfold F2R; cbn; ring).
  apply fmt_F2R; [easy|lia].
Qed.
Lemma bpow1024_big : IZR (2 ^ 1000) < bpow radix2 1024.
Proof. cbn [bpow]. apply IZR_lt. reflexivity. Qed.
Lemma small_lt_emax x y : Rabs x <= y -> y <= IZR (2 ^ 1000) -> Rabs x < bpow radix2 1024.
Proof. pose proof bpow1024_big. lra. Qed.

Lemma F_add (x y : F) : is_finite x = true -> is_finite y = true ->
  Rabs (rnd64 (B2R x + B2R y)) < bpow radix2 1024 ->
  B2R (Bplus mode_NE x y) = rnd64 (B2R x + B2R y) /\ is_finite (Bplus mode_NE x y) = true.
Proof.
  intros Hx Hy H. generalize (Bplus_correct 53 1024 _ _ mode_NE x y Hx Hy).
  change (round radix2 _ _ _) with (rnd64 (B2R x + B2R y)).
  rewrite Rlt_bool_true by exact H. tauto.
Qed.
Lemma F_sub (x y : F) : is_finite x = true -> is_finite y = true ->
  Rabs (rnd64 (B2R x - B2R y)) < bpow radix2 1024 ->
  B2R (Bminus mode_NE x y) = rnd64 (B2R x - B2R y) /\ is_finite (Bminus mode_NE x y) = true.
Proof.
  intros Hx Hy H. generalize (Bminus_correct 53 1024 _ _ mode_NE x y Hx Hy).
  change (round radix2 _ _ _) with (rnd64 (B2R x - B2R y)).
  rewrite Rlt_bool_true by exact H. tauto.
Qed.
Lemma F_mul (x y : F) : is_finite x = true -> is_finite y = true ->
  Rabs (rnd64 (B2R x * B2R y)) < bpow radix2 1024 ->
  B2R (Bmult mode_NE x y) = rnd64 (B2R x * B2R y) /\ is_finite (Bmult mode_NE x y) = true.
Proof.
  intros Hx Hy H. generalize (Bmult_correct 53 1024 _ _ mode_NE x y).
  change (round radix2 _ _ _) with (rnd64 (B2R x * B2R y)).
  rewrite Rlt_bool_true by exact H. rewrite Hx, Hy. tauto.
Qed.
Lemma F_quot (x y : F) : is_finite x = true -> B2R y <> 0 ->
  Rabs (rnd64 (B2R x / B2R y)) < bpow radix2 1024 ->
  B2R (Bdiv mode_NE x y) = rnd64 (B2R x / B2R y) /\ is_finite (Bdiv mode_NE x y) = true.
Proof.
  intros Hx Hy H. generalize (Bdiv_correct 53 1024 _ _ mode_NE x y Hy).
  change (round radix2 _ _ _) with (rnd64 (B2R x / B2R y)).
  rewrite Rlt_bool_true by exact H. rewrite Hx. tauto.
Qed.
(** Exact sums and differences *)
Lemma F_add_exact (x y : F) B : is_finite x = true -> is_finite y = true ->
  fmt64 (B2R x + B2R y) -> Rabs (B2R x + B2R y) <= B -> B <= IZR (2 ^ 1000) ->
  B2R (Bplus mode_NE x y) = B2R x + B2R y /\ is_finite (Bplus mode_NE x y) = true.
Proof.
  intros Hx Hy Hf HB HB'. destruct (F_add x y Hx Hy) as [E1 E2].
  - rewrite rnd_id by exact Hf. eapply small_lt_emax; eassumption.
  - rewrite rnd_id in E1 by exact Hf. now split.
Qed.
Lemma F_sub_exact (x y : F) B : is_finite x = true -> is_finite y = true ->
  fmt64 (B2R x - B2R y) -> Rabs (B2R x - B2R y) <= B -> B <= IZR (2 ^ 1000) ->
  B2R (Bminus mode_NE x y) = B2R x - B2R y /\ is_finite (Bminus mode_NE x y) = true.
Proof.
  intros Hx Hy Hf HB HB'. destruct (F_sub x y Hx Hy) as [E1 E2].
  - rewrite rnd_id by exact Hf. eapply small_lt_emax; eassumption.
  - rewrite rnd_id in E1 by exact Hf. now split.
Qed.

Lemma normalize_exact m e s : fmt64 (F2R (Float radix2 m e)) -> Rabs (F2R (Float radix2 m e)) < bpow radix2 1024 ->
  let z := binary_normalize 53 1024 prec53 emax1024 mode_NE m e s in
  B2R z = F2R (Float radix2 m e) /\ is_finite z = true.
Proof.
  intros Hf Hb. generalize (binary_normalize_correct 53 1024 prec53 emax1024 mode_NE m e s). cbv zeta.
  change (round radix2 _ _ _) with (rnd64 (F2R (Float radix2 m e))). rewrite rnd_id by exact Hf.
  rewrite Rlt_bool_true by exact Hb. tauto.
Qed.
Lemma F_of_Z_exact n : (Z.abs n < 2 ^ 53)%Z -> B2R (F_of_Z n) = IZR n /\ is_finite (F_of_Z n) = true.
Proof.
  intros H. assert (E : F2R (Float radix2 n 0) = IZR n) by (unfold F2R; cbn; ring).
  destruct (normalize_exact n 0 false) as [E1 E2].
  - apply fmt_F2R; [easy|lia].
  - rewrite E, <- abs_IZR. eapply Rlt_trans; [|apply bpow1024_big]. apply IZR_lt.
    eapply Z.lt_trans; [exact H|reflexivity].
  - rewrite E in E1. now split.
Qed.
Lemma num_F L n : (Z.abs n < 2 ^ 53)%Z -> B2R (@nlit F (NumF L) n 1) = IZR n /\ is_finite (@nlit F (NumF L) n 1) = true.
Proof. exact (F_of_Z_exact n). Qed.

(** comparisons *)
Lemma ltb_F (x y : F) : is_finite x = true -> is_finite y = true -> Bltb x y = Rlt_bool (B2R x) (B2R y).
Proof. apply Bltb_correct. Qed.
Lemma leb_F (x y : F) : is_finite x = true -> is_finite y = true -> Bleb x y = Rle_bool (B2R x) (B2R y).
Proof. apply Bleb_correct. Qed.
Lemma eqb_F (x y : F) : is_finite x = true -> is_finite y = true -> Beqb x y = Req_bool (B2R x) (B2R y).
Proof. apply Beqb_correct. Qed.
Lemma ltb_nan_l (y : F) : Bltb (@B754_nan 53 1024) y = false. Proof. easy. Qed.
Lemma ltb_nan_r (y : F) : Bltb y (@B754_nan 53 1024) = false. Proof. now destruct y. Qed.
Lemma Beqb_sym (x y : F) : Beqb x y = Beqb y x.
Proof.
  destruct (is_finite x) eqn:Hx; destruct (is_finite y) eqn:Hy.
  - rewrite !Beqb_correct by easy. destruct (Req_bool_spec (B2R x) (B2R y)), (Req_bool_spec (B2R y) (B2R x)); congruence.
  - destruct x, y as [| [] | |]; easy.
  - destruct x as [| [] | |], y; easy.
  - destruct x as [| [] | |], y as [| [] | |]; easy.
Qed.

(** fmod is exact *)
Lemma F2R_lt_emax_fin (x : F) : Rabs (B2R x) < bpow radix2 1024.
Proof. apply abs_B2R_lt_emax. Qed.
Lemma mant_bound m e : SpecFloat.bounded 53 1024 m e = true -> (Zpos m < 2 ^ 53)%Z /\ (-1074 <= e)%Z.
Proof.
  intros H. apply andb_true_iff in H. destruct H as [H _].
  apply (canonical_canonical_mantissa 53 1024 false m e) in H.
  assert (Fm := generic_format_canonical _ _ _ H). unfold canonical in H. cbn in H.
  split.
  - assert (H1 := H). unfold cexp, SpecFloat.fexp in H1.
    destruct (Z.lt_ge_cases (Zpos m) (2^53)) as [|C]; [easy|exfalso].
    assert (K : (54 <= mag radix2 (IZR (Zpos m)))%Z).
    { apply mag_ge_bpow. rewrite Rabs_pos_eq by (apply IZR_le; lia).
      change (bpow radix2 (54 - 1)) with (IZR (2 ^ 53)). now apply IZR_le. }
    rewrite mag_F2R in H1 by lia. unfold SpecFloat.emin in *. lia.
  - unfold cexp, SpecFloat.fexp in H. rewrite H. unfold SpecFloat.emin. lia.
Qed.
Lemma F_fmod_fin_exact (x y : F) : is_finite x = true -> is_finite y = true -> 0 < B2R y ->
  B2R (F_fmod_fin x y) = B2R x - B2R y * IZR (Ztrunc (B2R x / B2R y)) /\ is_finite (F_fmod_fin x y) = true.
Proof.
  intros Hx Hy Hp. destruct y as [| | |sy my ey Hyb]; cbn in Hy, Hp; try easy; try lra.
  destruct sy. { exfalso. assert (0 < F2R (Float radix2 (Zpos my) ey)) by now apply F2R_gt_0.
    unfold SpecFloat.cond_Zopp in Hp. rewrite F2R_Zopp in Hp. lra. }
  destruct x as [sx| | |sx mx ex Hxb]; try easy.
  { cbn [F_fmod_fin B2R]. unfold Rdiv; rewrite Rmult_0_l. change 0 with (IZR 0) at 3. rewrite Ztrunc_IZR. split; [ring|easy]. }
  cbn [F_fmod_fin]. set (e := Z.min ex ey).
  set (ix := (SpecFloat.cond_Zopp sx (Zpos mx) * 2 ^ (ex - e))%Z).
  set (iy := (Zpos my * 2 ^ (ey - e))%Z).
  assert (P : forall k, (0 <= k)%Z -> (0 < 2 ^ k)%Z) by (intros; apply Z.pow_pos_nonneg; lia).
  assert (Hiy : (0 < iy)%Z). { unfold iy. apply Z.mul_pos_pos; [easy|]. apply P. lia. }
  assert (Ex : B2R (B754_finite sx mx ex Hxb : F) = F2R (Float radix2 ix e)).
  { cbn [B2R]. rewrite (F2R_change_exp radix2 e) by lia. reflexivity. }
  assert (Ey : B2R (B754_finite false my ey Hyb : F) = F2R (Float radix2 iy e)).
  { cbn [B2R]. rewrite (F2R_change_exp radix2 e) by lia. reflexivity. }
  destruct (mant_bound mx ex Hxb) as [Bx1 Bx2]. destruct (mant_bound my ey Hyb) as [By1 By2].
  assert (R1 : (Z.abs (Z.rem ix iy) < iy)%Z).
  { rewrite <- (Z.abs_eq iy) at 2 by lia. apply Z.rem_bound_abs. lia. }
  assert (R2 : (Z.abs (Z.rem ix iy) <= Z.abs ix)%Z).
  { rewrite <- Z.rem_abs by lia. apply Z.rem_le; lia. }
  assert (Hfmt : fmt64 (F2R (Float radix2 (Z.rem ix iy) e))).
  { apply fmt_F2R; [|lia]. destruct (Z.min_spec ex ey) as [[Hlt Em]|[Hlt Em]]; fold e in Em.
    - eapply Z.le_lt_trans; [exact R2|]. unfold ix. rewrite Em, Z.sub_diag, Z.mul_1_r.
      destruct sx; cbn; lia.
    - eapply Z.lt_trans; [exact R1|]. unfold iy. rewrite Em, Z.sub_diag, Z.mul_1_r. easy. }
  assert (Hb : Rabs (F2R (Float radix2 (Z.rem ix iy) e)) < bpow radix2 1024).
  { eapply Rle_lt_trans; [|apply (abs_B2R_lt_emax 53 1024 (B754_finite sx mx ex Hxb))]. rewrite Ex.
    rewrite <- !F2R_Zabs. now apply F2R_le. }
  destruct (normalize_exact _ _ sx Hfmt Hb) as [E1 E2]. split; [|exact E2].
  rewrite E1, Ex, Ey.
  assert (EQ : Ztrunc (F2R (Float radix2 ix e) / F2R (Float radix2 iy e)) = Z.quot ix iy).
  { replace (F2R (Float radix2 ix e) / F2R (Float radix2 iy e)) with (IZR ix / IZR iy).
    - apply Ztrunc_div. lia.
    - unfold F2R; cbn [Fnum Fexp]. field. split; [apply Rgt_not_eq, bpow_gt_0|]. apply not_0_IZR; lia. }
  rewrite EQ. unfold F2R; cbn [Fnum Fexp]. rewrite (Z.quot_rem' ix iy) at 2.
  rewrite plus_IZR, mult_IZR. ring.
Qed.
