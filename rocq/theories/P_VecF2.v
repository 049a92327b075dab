(** * P_VecF2: the arithmetic operators of Vector2D in doubles (C163) *)
From Coq Require Import ZArith List Bool String Reals Lra Lia Psatz.
From Flocq Require Import Core BinarySingleNaN Plus_error Relative.
From Verif Require Import Base Types NumR NumF R_Tac Spec Spec2 Abs M_Angle M_Vector
  L_Angle P_Vector L_Float P_Float P_Robust P_VecF.
Import ListNotations.
Local Open Scope R_scope.

Lemma rnd_zero x y : fmt64 x -> fmt64 y -> rnd64 (x - y) = 0 -> x = y.
Proof.
  intros X Y H. pose proof (rnd_sum x (- y) X (fmt_opp _ Y)) as E. change (x + - y) with (x - y) in E. rewrite H in E. rewrite Rminus_0_l, Rabs_Ropp in E.
  pose proof u_pos. pose proof (Rabs_pos (x - y)). destruct (Req_dec (x - y) 0) as [Z|N]; [lra|]. apply Rabs_pos_lt in N. nra.
Qed.
Lemma eqb_iff (x y : F) : is_finite x = true -> is_finite y = true -> (Beqb x y = true <-> B2R x = B2R y).
Proof. intros A B. rewrite eqb_F by assumption. case Req_bool_spec; intros; split; intros; try easy. Qed.

(** ** C163: sums, differences, multiples and quotients of vectors *)
(** Each component of the result is the exact one up to a relative error of
    2^-53 (and, for multiples and quotients, an absolute one of 2^-1075). *)
Theorem C163_arith_F : forall (L : libm) (v w : vec F) (c : F), within 500 v -> within 500 w -> is_finite c = true -> Rabs (B2R c) <= bpow radix2 500 ->
  let rel (a : F) (x : R) := is_finite a = true /\ Rabs (B2R a - x) <= bpow radix2 (-53) * Rabs x in
  let rel' (a : F) (x : R) := is_finite a = true /\ Rabs (B2R a - x) <= bpow radix2 (-53) * Rabs x + bpow radix2 (-1075) in
  (** v + w, v += w, v.add(w), and the same with a minus *)
  Forall (fun s : vec F => rel (vx s) (B2R (vx v) + B2R (vx w)) /\ rel (vy s) (B2R (vy v) + B2R (vy w)))
    [@Vector2D_add F (NumF L) v w; @Vector2D_iadd F (NumF L) v w; @Vector2D_add_inplace F (NumF L) v w; @Vector2D_add_xy F (NumF L) v (vx w) (vy w)] /\
  Forall (fun s : vec F => rel (vx s) (B2R (vx v) - B2R (vx w)) /\ rel (vy s) (B2R (vy v) - B2R (vy w)))
    [@Vector2D_sub F (NumF L) v w; @Vector2D_isub F (NumF L) v w; @Vector2D_sub_inplace F (NumF L) v w; @Vector2D_sub_xy F (NumF L) v (vx w) (vy w)] /\
  (** v * c, v *= c, v.scale(c) *)
  Forall (fun s : vec F => rel' (vx s) (B2R (vx v) * B2R c) /\ rel' (vy s) (B2R (vy v) * B2R c))
    [@Vector2D_mul F (NumF L) v c; @Vector2D_imul F (NumF L) v c; @Vector2D_scale F (NumF L) v c] /\
  (** v / c and v.__idiv__(c): an error exactly for c = 0 *)
  (B2R c = 0 -> @Vector2D_truediv F (NumF L) v c = Raise ZeroDivisionError /\ @Vector2D_idiv F (NumF L) v c = Raise ZeroDivisionError) /\
  (bpow radix2 (-500) <= Rabs (B2R c) -> exists q q', @Vector2D_truediv F (NumF L) v c = Ok q /\ @Vector2D_idiv F (NumF L) v c = Ok q' /\
    Forall (fun s : vec F => rel' (vx s) (B2R (vx v) / B2R c) /\ rel' (vy s) (B2R (vy v) / B2R c)) [q; q']) /\
  (** abs() and the reversed vector are exact *)
  pt (rvec (@Vector2D_abs F (NumF L) v)) = (Rabs (B2R (vx v)), Rabs (B2R (vy v))) /\
  pt (rvec (@Vector2D_reverse F (NumF L) v)) = (- B2R (vx v), - B2R (vy v)) /\
  pt (rvec (@Vector2D_reverse_vector F (NumF L) v)) = (- B2R (vx v), - B2R (vy v)) /\
  (** a difference is zero only between equal vectors *)
  (@Vector2D_equals F (NumF L) (@Vector2D_sub F (NumF L) v w) (mkVec (F_of_Z 0) (F_of_Z 0) true) = true <-> pt (rvec v) = pt (rvec w)) /\
  (@Vector2D_equals F (NumF L) v w = true <-> pt (rvec v) = pt (rvec w)) /\
  (@Vector2D_eq F (NumF L) v w = true <-> pt (rvec v) = pt (rvec w)).
Proof.
  intros L v w c (X1 & Y1 & X2 & Y2) (X1' & Y1' & X2' & Y2') C1 C2 rel rel'.
  assert (A : forall a b : F, is_finite a = true -> is_finite b = true -> Rabs (B2R a) <= bpow radix2 500 -> Rabs (B2R b) <= bpow radix2 500 -> rel (Bplus mode_NE a b) (B2R a + B2R b)).
  { intros a b A1 B1 A2 B2. assert (B : Rabs (B2R a + B2R b) <= bpow radix2 501). { change 501%Z with (1 + 500)%Z. rewrite bp2. apply Rabs_le. apply Rabs_le_inv in A2, B2. lra. }
    destruct (rnd_err _ 501 ltac:(lia) B) as [_ E2]. destruct (F_add a b A1 B1) as [S1 S2]; [apply (finite_lt 501); [lia|exact E2]|]. split; [exact S2|]. rewrite S1. apply rnd_sum; apply fmt_F. }
  assert (S : forall a b : F, is_finite a = true -> is_finite b = true -> Rabs (B2R a) <= bpow radix2 500 -> Rabs (B2R b) <= bpow radix2 500 -> rel (Bminus mode_NE a b) (B2R a - B2R b) /\ (B2R (Bminus mode_NE a b) = 0 <-> B2R a = B2R b)).
  { intros a b A1 B1 A2 B2. assert (B : Rabs (B2R a - B2R b) <= bpow radix2 501). { change 501%Z with (1 + 500)%Z. rewrite bp2. apply Rabs_le. apply Rabs_le_inv in A2, B2. lra. }
    destruct (rnd_err _ 501 ltac:(lia) B) as [_ E2]. destruct (F_sub a b A1 B1) as [S1 S2]; [apply (finite_lt 501); [lia|exact E2]|]. split; [split; [exact S2|]|].
    - rewrite S1. apply (rnd_sum (B2R a) (- B2R b)); [apply fmt_F|apply fmt_opp, fmt_F].
    - rewrite S1. split; [apply rnd_zero; apply fmt_F|]. intros ->. replace (B2R b - B2R b) with 0 by ring. apply rnd_id, generic_format_0. }
  assert (M : forall a : F, is_finite a = true -> Rabs (B2R a) <= bpow radix2 500 -> rel' (Bmult mode_NE a c) (B2R a * B2R c)).
  { intros a A1 A2. assert (B : Rabs (B2R a * B2R c) <= bpow radix2 1000). { change 1000%Z with (500 + 500)%Z. rewrite bpow_plus, Rabs_mult. apply Rmult_le_compat; try apply Rabs_pos; assumption. }
    destruct (F_mul a c A1 C1) as [S1 S2]. { eapply Rle_lt_trans; [|apply (bpow_lt radix2 1000); lia]. rewrite <- (rnd_id (bpow radix2 1000)) by (apply generic_format_bpow; cbn; lia). apply Rabs_le. apply Rabs_le_inv in B. rewrite <- rnd_opp. split; apply rnd_le; lra. }
    split; [exact S2|]. rewrite S1. apply rnd_rel. }
  split; [repeat (apply Forall_cons; [split; apply A; assumption|]); apply Forall_nil|].
  split; [repeat (apply Forall_cons; [split; apply S; assumption|]); apply Forall_nil|].
  split; [repeat (apply Forall_cons; [split; apply M; assumption|]); apply Forall_nil|].
  assert (Z : F_is_zero c = Req_bool (B2R c) 0). { unfold F_is_zero. rewrite eqb_F; [|assumption|reflexivity]. destruct (F_of_Z_exact 0 eq_refl) as [-> _]. reflexivity. }
  split. { intros C0. unfold Vector2D_truediv, Vector2D_idiv. cbn [ndiv NumF]. unfold F_div. rewrite Z, Req_bool_true by exact C0. now split. }
  split.
  { intros C3. assert (CN : B2R c <> 0). { intros C0. rewrite C0, Rabs_R0 in C3. pose proof (bpow_gt_0 radix2 (-500)). lra. }
    assert (D : forall a : F, is_finite a = true -> Rabs (B2R a) <= bpow radix2 500 -> rel' (Bdiv mode_NE a c) (B2R a / B2R c)).
    { intros a A1 A2. assert (B : Rabs (B2R a / B2R c) <= bpow radix2 1000).
      { unfold Rdiv. rewrite Rabs_mult, Rabs_inv. change 1000%Z with (500 + 500)%Z. rewrite bpow_plus. apply Rmult_le_compat; try apply Rabs_pos; [|exact A2|]; [apply Rlt_le, Rinv_0_lt_compat, Rabs_pos_lt, CN|].
        replace (bpow radix2 500) with (/ bpow radix2 (-500)) by (rewrite <- bpow_opp; reflexivity). apply Rinv_le; [apply bpow_gt_0|exact C3]. }
      destruct (F_quot a c A1 CN) as [S1 S2]. { eapply Rle_lt_trans; [|apply (bpow_lt radix2 1000); lia]. rewrite <- (rnd_id (bpow radix2 1000)) by (apply generic_format_bpow; cbn; lia). apply Rabs_le. apply Rabs_le_inv in B. rewrite <- rnd_opp. split; apply rnd_le; lra. }
      split; [exact S2|]. rewrite S1. apply rnd_rel. }
    unfold Vector2D_truediv, Vector2D_idiv. cbn [ndiv NumF]. unfold F_div. rewrite Z, Req_bool_false by exact CN. cbn [bind]. do 2 eexists. split; [reflexivity|]. split; [reflexivity|].
    repeat (apply Forall_cons; [split; apply D; assumption|]); apply Forall_nil. }
  split. { unfold Vector2D_abs, rvec, pt, V. cbn [vx vy nabs NumF]. now rewrite !B2R_Babs. }
  split. { unfold Vector2D_reverse, rvec, pt. cbn [vx vy nmul nlit NumF F_lit]. now rewrite !Bmult_m1, !B2R_Bopp. }
  split. { unfold Vector2D_reverse_vector, Vector2D_reverse, rvec, pt, V. cbn [vx vy nmul nlit NumF F_lit]. now rewrite !Bmult_m1, !B2R_Bopp. }
  assert (PT : pt (rvec v) = pt (rvec w) <-> B2R (vx v) = B2R (vx w) /\ B2R (vy v) = B2R (vy w)). { unfold pt, rvec. cbn [vx vy]. split; [intros E; now injection E|intros [-> ->]; reflexivity]. }
  split.
  { unfold Vector2D_equals, Vector2D_sub, V. cbn [vx vy nsub neqb NumF]. destruct (S _ _ X1 X1' X2 X2') as [[S1 _] S2]. destruct (S _ _ Y1 Y1' Y2 Y2') as [[T1 _] T2].
    rewrite andb_true_iff, !eqb_iff by (assumption || reflexivity). destruct (F_of_Z_exact 0 eq_refl) as [-> _]. rewrite S2, T2, PT. reflexivity. }
  split; unfold Vector2D_equals, Vector2D_eq; cbn [neqb NumF]; rewrite andb_true_iff, !eqb_iff by assumption; rewrite PT; reflexivity.
Qed.
Example C163_nonvacuous : within 500 (mkVec (F_of_Z 3) (F_of_Z (-7)) true) /\ is_finite (F_of_Z 10) = true /\ Rabs (B2R (F_of_Z 10)) <= bpow radix2 500 /\ bpow radix2 (-500) <= Rabs (B2R (F_of_Z 10)).
Proof.
  destruct (F_of_Z_exact 3 eq_refl) as [E1 E2]. destruct (F_of_Z_exact (-7) eq_refl) as [E3 E4]. destruct (F_of_Z_exact 10 eq_refl) as [E5 E6].
  assert (K : 16 <= bpow radix2 500) by (change 16 with (bpow radix2 4); apply bpow_le; lia). assert (K' : bpow radix2 (-500) <= 1) by (change 1 with (bpow radix2 0); apply bpow_le; lia).
  unfold within. cbn [vx vy]. rewrite E1, E3, E5. rewrite (Rabs_pos_eq 10) by lra. repeat split; try assumption; try (apply Rabs_le); lra.
Qed.
(** The usual laws do not survive: (v + w) - w is not v, and (v / 49) * 49 is not v. *)
Theorem C163_laws_refuted_F : exists (v w : vec F) (c : F), within 500 v /\ within 500 w /\ is_finite c = true /\ Rabs (B2R c) <= bpow radix2 500 /\
  forall L : libm, @Vector2D_equals F (NumF L) (@Vector2D_sub F (NumF L) (@Vector2D_add F (NumF L) v w) w) v = false /\
    exists q, @Vector2D_truediv F (NumF L) v c = Ok q /\ @Vector2D_equals F (NumF L) (@Vector2D_mul F (NumF L) q c) v = false.
Proof.
  exists (mkVec (F_of_Z 1) (F_of_Z 1) true), (mkVec (Fd 1 60) (Fd 1 60) true), (F_of_Z 49).
  destruct (F_of_Z_exact 1 eq_refl) as [E1 E2]. destruct (F_of_Z_exact 49 eq_refl) as [E3 E4].
  assert (E5 : B2R (Fd 1 60) = bpow radix2 60) by (rewrite Fd_exact by (cbn; lia); lra).
  assert (K : 64 <= bpow radix2 500) by (change 64 with (bpow radix2 6); apply bpow_le; lia). assert (K' : bpow radix2 60 <= bpow radix2 500) by (apply bpow_le; lia). pose proof (bpow_gt_0 radix2 60).
  split; [unfold within; cbn [vx vy]; rewrite E1; repeat split; try assumption; apply Rabs_le; lra|].
  split; [unfold within; cbn [vx vy]; rewrite E5; repeat split; try (vm_compute; reflexivity); apply Rabs_le; lra|].
  split; [exact E4|]. split; [rewrite E3; apply Rabs_le; lra|]. intros L. split; [vm_compute; reflexivity|]. eexists. split; [reflexivity|]. vm_compute. reflexivity.
Qed.
