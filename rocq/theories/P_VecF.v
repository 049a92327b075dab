(** * P_VecF: lengths, distances and products of vectors in doubles (C134-C136) *)
From Coq Require Import ZArith List Bool String Reals Lra Lia Psatz.
From Flocq Require Import Core BinarySingleNaN Plus_error Relative.
From Verif Require Import Base Types NumR NumF R_Tac Spec Spec2 Abs M_Angle M_Vector M_Circle
  L_Angle P_Vector L_Float P_Float P_Robust.
Import ListNotations.
Local Open Scope R_scope.

(** ** Bit-for-bit symmetries of the operations *)
Lemma Bmult_comm (x y : F) : Bmult mode_NE x y = Bmult mode_NE y x.
Proof.
  apply B2SF_inj. destruct x as [sx|sx| |sx mx ex Hx], y as [sy|sy| |sy my ey Hy]; unfold Bmult; cbn [B2SF]; rewrite ?(xorb_comm sy sx); try reflexivity.
  rewrite !B2SF_SF2B. now rewrite (xorb_comm sy sx), (Pos.mul_comm my mx), (Z.add_comm ey ex).
Qed.
Lemma Bplus_comm (x y : F) : Bplus mode_NE x y = Bplus mode_NE y x.
Proof.
  destruct x as [sx|sx| |sx mx ex Hx], y as [sy|sy| |sy my ey Hy]; unfold Bplus; try reflexivity; try (destruct sx, sy; reflexivity).
  rewrite (Z.min_comm ey ex). f_equal. unfold Fplus_naive. apply Z.add_comm.
Qed.
Lemma Bmult_opp (x y : F) : Bmult mode_NE (Bopp x) (Bopp y) = Bmult mode_NE x y.
Proof.
  apply B2SF_inj. destruct x as [sx|sx| |sx mx ex Hx], y as [sy|sy| |sy my ey Hy]; unfold Bmult, Bopp; cbn [B2SF]; try reflexivity; try (destruct sx, sy; reflexivity).
  rewrite !B2SF_SF2B. f_equal. now destruct sx, sy.
Qed.
Definition is_zero (x : F) : Prop := exists s, x = B754_zero s.
Lemma Bminus_swap (x y : F) : Bminus mode_NE y x = Bopp (Bminus mode_NE x y) \/ (is_zero (Bminus mode_NE y x) /\ is_zero (Bminus mode_NE x y)).
Proof.
  destruct (is_finite x) eqn:Fx; [destruct (is_finite y) eqn:Fy|].
  - pose proof (Bminus_correct _ _ _ _ mode_NE x y Fx Fy) as H1. pose proof (Bminus_correct _ _ _ _ mode_NE y x Fy Fx) as H2. cbn [round_mode] in *.
    change (round radix2 (SpecFloat.fexp 53 1024) ZnearestE) with rnd64 in *. replace (B2R y - B2R x) with (- (B2R x - B2R y)) in H2 by ring. rewrite rnd_opp, Rabs_Ropp in H2.
    destruct (Rlt_bool _ _).
    + destruct H1 as (A1 & A2 & _), H2 as (B1 & B2 & _). destruct (Req_dec (rnd64 (B2R x - B2R y)) 0) as [E|N].
      * right. rewrite E in *. rewrite Ropp_0 in B1. split; [destruct (Bminus mode_NE y x) as [s|s| |s m e He]|destruct (Bminus mode_NE x y) as [s|s| |s m e He]]; try discriminate; try (now exists s); exfalso; cbn in A1, B1; [apply eq_0_F2R in B1|apply eq_0_F2R in A1]; now destruct s.
      * left. apply B2R_inj.
        -- apply is_finite_strict_B2R. rewrite B1. lra.
        -- apply is_finite_strict_B2R. rewrite B2R_Bopp, A1. lra.
        -- now rewrite B2R_Bopp, A1, B1.
    + left. destruct H1 as [A1 A2], H2 as [B1 B2]. apply B2SF_inj. assert (O : forall z : F, B2SF (Bopp z) = SpecFloat.SFopp (B2SF z)) by (now intros [| | |]). rewrite O, A1, B1, A2. now destruct (Bsign y).
  - left. destruct x as [sx|sx| |sx mx ex Hx], y as [sy|sy| |sy my ey Hy]; try discriminate; cbn; try reflexivity; destruct sy; reflexivity.
  - left. destruct x as [sx|sx| |sx mx ex Hx], y as [sy|sy| |sy my ey Hy]; try discriminate; cbn; try reflexivity; destruct sx; try destruct sy; reflexivity.
Qed.
Lemma Bmult_m1 (x : F) : Bmult mode_NE x (F_of_Z (-1)) = Bopp x.
Proof.
  destruct x as [s|s| |s m e H]; [apply B2SF_inj; destruct s; vm_compute; reflexivity|apply B2SF_inj; destruct s; vm_compute; reflexivity|reflexivity|].
  set (x := B754_finite s m e H). destruct (F_of_Z_exact (-1) eq_refl) as [E1 E2].
  assert (R : rnd64 (B2R x * B2R (F_of_Z (-1))) = - B2R x). { rewrite E1. replace (B2R x * -1) with (- B2R x) by ring. apply rnd_id, fmt_opp, fmt_F. }
  destruct (F_mul x (F_of_Z (-1)) eq_refl E2) as [M1 M2]. { rewrite R, Rabs_Ropp. apply F2R_lt_emax_fin. }
  assert (NZ : B2R x <> 0). { unfold x; cbn. intros K. apply eq_0_F2R in K. now destruct s. }
  rewrite R in M1. apply B2R_inj; [apply is_finite_strict_B2R; rewrite M1; lra|apply is_finite_strict_B2R; rewrite B2R_Bopp; lra|now rewrite M1, B2R_Bopp].
Qed.
Lemma sq_swap (x y : F) : Bmult mode_NE (Bminus mode_NE y x) (Bminus mode_NE y x) = Bmult mode_NE (Bminus mode_NE x y) (Bminus mode_NE x y).
Proof.
  destruct (Bminus_swap x y) as [->|[[s ->] [s' ->]]]; [apply Bmult_opp|]. now destruct s, s'.
Qed.

(** ** C134: symmetries that survive rounding *)
(** pow(-x, 2) = pow(x, 2), bit for bit *)
Definition pow_even (L : libm) : Prop := forall x : F, lm_pow L (Bopp x) (F_of_Z 2) = lm_pow L x (F_of_Z 2).
Lemma powi_swap L (x y : F) : pow_even L -> F_powi L (Bminus mode_NE y x) 2 = F_powi L (Bminus mode_NE x y) 2.
Proof.
  intros P. assert (Q : forall z : F, F_powi L (Bopp z) 2 = F_powi L z 2).
  { intros z. unfold F_powi. rewrite P, is_finite_Bopp. replace (F_is_zero (Bopp z)) with (F_is_zero z) by (destruct z as [s|s| |s m e H]; try reflexivity; now destruct s). reflexivity. }
  destruct (Bminus_swap x y) as [->|[[s ->] [s' ->]]]; [apply Q|]. destruct s, s'; try reflexivity; [exact (Q (B754_zero false))|exact (Q (B754_zero true))].
Qed.
(** For all doubles, infinities and NaN included. *)
Theorem C134_symmetry_F : forall (L : libm) (u v : vec F),
  @Vector2D_add F (NumF L) u v = @Vector2D_add F (NumF L) v u /\
  @Vector2D_inner_product F (NumF L) u v = @Vector2D_inner_product F (NumF L) v u /\
  (@Vector2D_outer_product F (NumF L) v u = Bopp (@Vector2D_outer_product F (NumF L) u v) \/
   is_zero (@Vector2D_outer_product F (NumF L) v u) /\ is_zero (@Vector2D_outer_product F (NumF L) u v)) /\
  @Vector2D_r F (NumF L) (@Vector2D_sub F (NumF L) u v) = @Vector2D_r F (NumF L) (@Vector2D_sub F (NumF L) v u) /\
  @Vector2D_reverse F (NumF L) (@Vector2D_reverse F (NumF L) v) = v /\
  @Vector2D_r F (NumF L) (@Vector2D_reverse F (NumF L) v) = @Vector2D_r F (NumF L) v /\
  (pow_even L -> @Vector2D_dist2 F (NumF L) u v = @Vector2D_dist2 F (NumF L) v u /\ @Vector2D_dist F (NumF L) u v = @Vector2D_dist F (NumF L) v u).
Proof.
  intros L u v. split; [|split; [|split; [|split; [|split; [|split]]]]].
  - unfold Vector2D_add. cbn [nadd NumF]. now rewrite (Bplus_comm (vx u)), (Bplus_comm (vy u)).
  - unfold Vector2D_inner_product. cbn [nadd nmul NumF]. now rewrite (Bmult_comm (vx u)), (Bmult_comm (vy u)).
  - unfold Vector2D_outer_product. cbn [nsub nmul NumF]. rewrite (Bmult_comm (vx v)), (Bmult_comm (vy v)). apply Bminus_swap.
  - unfold Vector2D_r, Vector2D_r2, Vector2D_sub, V. cbn [nsub nmul nadd NumF vx vy]. now rewrite (sq_swap (vx v)), (sq_swap (vy v)).
  - unfold Vector2D_reverse. cbn [nmul nlit NumF F_lit vx vy v_valid]. rewrite !Bmult_m1, !Bopp_involutive. now destruct v.
  - unfold Vector2D_r, Vector2D_r2, Vector2D_reverse. cbn [nmul nadd nlit NumF F_lit vx vy]. now rewrite !Bmult_m1, !Bmult_opp.
  - intros P. assert (E : @Vector2D_dist2 F (NumF L) u v = @Vector2D_dist2 F (NumF L) v u).
    { unfold Vector2D_dist2. cbn [npowi nsub nadd NumF]. now rewrite (powi_swap L (vx v) (vx u) P), (powi_swap L (vy v) (vy u) P). }
    split; [exact E|]. unfold Vector2D_dist. now rewrite E.
Qed.
(** a C library whose pow squares by one multiplication *)
Definition libm_sq : libm := {| lm_sin := fun x => x; lm_cos := fun x => x; lm_tan := fun x => x; lm_asin := fun x => x; lm_acos := fun x => x; lm_atan := fun x => x;
  lm_atan2 := fun _ x => x; lm_exp := fun x => x; lm_log := fun x => x; lm_pow := fun x _ => Bmult mode_NE x x |}.
Example C134_nonvacuous : pow_even libm_sq.
Proof. intros x. apply Bmult_opp. Qed.

(** ** Relative rounding errors *)
Notation u := (bpow radix2 (-53)).
Lemma u_pos : 0 < u <= / 1000. Proof. split; [apply bpow_gt_0|]. cbn. lra. Qed.
Lemma rnd_rel x : Rabs (rnd64 x - x) <= u * Rabs x + bpow radix2 (-1075).
Proof.
  destruct (error_N_FLT radix2 (-1074) 53 eq_refl (fun z => negb (Z.even z)) x) as (e & h & H1 & H2 & _ & H4). fold (rnd64 x) in H4. rewrite H4.
  replace (x * (1 + e) + h - x) with (x * e + h) by ring. eapply Rle_trans; [apply Rabs_triang|]. rewrite Rabs_mult.
  replace (/ 2 * bpow radix2 (- (53) + 1)) with u in H1 by (cbn; lra).
  replace (/ 2 * bpow radix2 (-1074)) with (bpow radix2 (-1075)) in H2 by (change (-1074)%Z with (1 + -1075)%Z; rewrite bp2; lra).
  apply Rplus_le_compat; [|exact H2]. rewrite (Rmult_comm u). apply Rmult_le_compat_l; [apply Rabs_pos|exact H1].
Qed.
Lemma rnd_sum x y : fmt64 x -> fmt64 y -> Rabs (rnd64 (x + y) - (x + y)) <= u * Rabs (x + y).
Proof.
  intros X Y. destruct (FLT_plus_error_N_ex radix2 (-1074) 53 (fun z => negb (Z.even z)) x y X Y) as (e & H1 & H4). fold (rnd64 (x + y)) in H4. rewrite H4.
  replace ((x + y) * (1 + e) - (x + y)) with ((x + y) * e) by ring. rewrite Rabs_mult, Rmult_comm.
  apply Rmult_le_compat_r; [apply Rabs_pos|]. eapply Rle_trans; [exact H1|]. unfold u_ro. cbn. lra.
Qed.
Lemma rnd_root S N d : bpow radix2 (-480) <= N -> 0 <= d <= / 64 -> Rabs (S - N * N) <= d * (N * N) -> 0 <= S ->
  Rabs (rnd64 (sqrt S) - N) <= (9 / 16 * d + 9 / 8 * u) * N.
Proof.
  intros HN Hd HS S0. assert (N0 : 0 < N) by (eapply Rlt_le_trans; [apply bpow_gt_0|exact HN]).
  assert (L1 : N * (1 - d) <= sqrt S). { apply Rsqr_incr_0_var; [|apply sqrt_pos]. unfold Rsqr. rewrite sqrt_sqrt by exact S0. apply Rabs_le_inv in HS. nra. }
  assert (L2 : Rabs (sqrt S - N) <= 17 / 32 * d * N).
  { assert (E : (sqrt S - N) * (sqrt S + N) = S - N * N) by (pose proof (sqrt_sqrt S S0); nra).
    assert (P : 0 < sqrt S + N) by (pose proof (sqrt_pos S); lra).
    replace (sqrt S - N) with ((S - N * N) / (sqrt S + N)) by (rewrite <- E; field; lra).
    unfold Rdiv. rewrite Rabs_mult, (Rabs_pos_eq (/ _)) by (left; now apply Rinv_0_lt_compat).
    apply Rmult_le_reg_r with (sqrt S + N); [exact P|]. rewrite Rmult_assoc, Rinv_l, Rmult_1_r by lra.
    eapply Rle_trans; [exact HS|]. assert (N * (63 / 64 + 1) <= sqrt S + N) by nra. assert (0 <= d * N) by nra. nra. }
  pose proof (rnd_rel (sqrt S)) as H. rewrite (Rabs_pos_eq (sqrt S)) in H by apply sqrt_pos.
  assert (Q : sqrt S <= N * (65 / 64)) by (apply Rabs_le_inv in L2; nra).
  assert (E : bpow radix2 (-1075) <= u * N * / 64).
  { replace (/ 64) with (bpow radix2 (-6)) by (cbn; lra). apply Rle_trans with (u * bpow radix2 (-480) * bpow radix2 (-6)).
    - rewrite <- !bpow_plus. apply bpow_le. lia.
    - apply Rmult_le_compat_r; [apply bpow_ge_0|]. apply Rmult_le_compat_l; [apply bpow_ge_0|exact HN]. }
  replace (rnd64 (sqrt S) - N) with ((rnd64 (sqrt S) - sqrt S) + (sqrt S - N)) by ring. eapply Rle_trans; [apply Rabs_triang|].
  pose proof u_pos. assert (u * sqrt S <= u * (N * (65 / 64))) by (apply Rmult_le_compat_l; lra). nra.
Qed.
Lemma F_root L (x : F) : is_finite x = true -> 0 <= B2R x -> exists s, @nsqrt F (NumF L) x = Ok s /\ is_finite s = true /\ B2R s = rnd64 (sqrt (B2R x)).
Proof.
  intros H1 H2. cbn [nsqrt NumF]. unfold F_sqrt. destruct (F_of_Z_exact 0 eq_refl) as [Z1 Z2]. rewrite ltb_F, Z1 by assumption. rewrite Rlt_bool_false by exact H2.
  eexists. split; [reflexivity|]. destruct (Bsqrt_correct _ _ _ _ mode_NE x) as (A & B & _). split; [|exact A]. rewrite B.
  destruct x as [s|s| |s m e He]; try discriminate; [reflexivity|]. destruct s; [|reflexivity]. exfalso. cbn in H2.
  assert (F2R (Float radix2 (Z.neg m) e) < 0) by (now apply F2R_lt_0). lra.
Qed.
Lemma sum_sq (A B X Y c : R) : fmt64 A -> fmt64 B -> 0 <= X -> 0 <= Y -> 0 <= c <= 5 * u -> bpow radix2 (-960) <= X + Y ->
  Rabs (A - X) <= c * X + bpow radix2 (-1073) -> Rabs (B - Y) <= c * Y + bpow radix2 (-1073) ->
  Rabs (rnd64 (A + B) - (X + Y)) <= (c + 33 / 32 * u) * (X + Y).
Proof.
  intros FA FB X0 Y0 Hc HN HA HB. pose proof (rnd_sum A B FA FB) as HS. pose proof u_pos as HU.
  assert (T : bpow radix2 (-1072) <= u * / 128 * (X + Y)).
  { replace (/ 128) with (bpow radix2 (-7)) by (cbn; lra). apply Rle_trans with (u * bpow radix2 (-7) * bpow radix2 (-960)).
    - rewrite <- !bpow_plus. apply bpow_le. lia.
    - apply Rmult_le_compat_l; [|exact HN]. rewrite <- bpow_plus. apply bpow_ge_0. }
  change (-1072)%Z with (1 + -1073)%Z in T. rewrite bp2 in T.
  assert (D : Rabs (A + B - (X + Y)) <= (c + u * / 128) * (X + Y)).
  { replace (A + B - (X + Y)) with ((A - X) + (B - Y)) by ring. eapply Rle_trans; [apply Rabs_triang|]. nra. }
  assert (M : Rabs (A + B) <= (65 / 64) * (X + Y)).
  { replace (A + B) with ((A + B - (X + Y)) + (X + Y)) by ring. eapply Rle_trans; [apply Rabs_triang|]. rewrite (Rabs_pos_eq (X + Y)) by lra.
    assert (c + u * / 128 <= / 64) by lra. nra. }
  replace (rnd64 (A + B) - (X + Y)) with ((rnd64 (A + B) - (A + B)) + (A + B - (X + Y))) by ring. eapply Rle_trans; [apply Rabs_triang|].
  assert (u * Rabs (A + B) <= u * (65 / 64 * (X + Y))) by (apply Rmult_le_compat_l; lra). nra.
Qed.
Lemma sum_fin (a b : F) X Y : is_finite a = true -> is_finite b = true -> 0 <= X -> 0 <= Y -> X + Y <= bpow radix2 1000 ->
  Rabs (B2R a - X) <= / 2 * X + bpow radix2 (-1073) -> Rabs (B2R b - Y) <= / 2 * Y + bpow radix2 (-1073) ->
  B2R (Bplus mode_NE a b) = rnd64 (B2R a + B2R b) /\ is_finite (Bplus mode_NE a b) = true.
Proof.
  intros Fa Fb X0 Y0 H HA HB. apply F_add; [exact Fa|exact Fb|].
  assert (T : bpow radix2 (-1073) <= bpow radix2 1000) by (apply bpow_le; lia).
  assert (K : Rabs (B2R a + B2R b) <= bpow radix2 1002).
  { change 1002%Z with (1 + (1 + 1000))%Z. rewrite !bp2. apply Rabs_le. apply Rabs_le_inv in HA, HB. lra. }
  apply rnd_err in K; [|lia]. eapply Rle_lt_trans; [apply K|]. apply bpow_lt. lia.
Qed.
Lemma mul_self (x : F) : is_finite x = true -> B2R x * B2R x <= bpow radix2 1002 ->
  is_finite (Bmult mode_NE x x) = true /\ Rabs (B2R (Bmult mode_NE x x) - B2R x * B2R x) <= u * (B2R x * B2R x) + bpow radix2 (-1075).
Proof.
  intros H1 H2. assert (P : 0 <= B2R x * B2R x) by nra. destruct (F_mul x x H1 H1) as [M1 M2].
  { assert (K : Rabs (B2R x * B2R x) <= bpow radix2 1002) by (rewrite Rabs_pos_eq; lra). apply rnd_err in K; [|lia]. eapply Rle_lt_trans; [apply K|]. apply bpow_lt. lia. }
  split; [exact M2|]. rewrite M1. pose proof (rnd_rel (B2R x * B2R x)) as K. rewrite (Rabs_pos_eq _ P) in K. lra.
Qed.

(** ** C135: the length of a vector *)
Theorem C135_length_F : forall (L : libm) (v : vec F), is_finite (vx v) = true -> is_finite (vy v) = true ->
  let N := norm (pt (rvec v)) in bpow radix2 (-480) <= N <= bpow radix2 500 ->
  is_finite (@Vector2D_r2 F (NumF L) v) = true /\ Rabs (B2R (@Vector2D_r2 F (NumF L) v) - N * N) <= 3 * bpow radix2 (-53) * (N * N) /\
  exists r, @Vector2D_r F (NumF L) v = Ok r /\ is_finite r = true /\ Rabs (B2R r - N) <= 5 * bpow radix2 (-54) * N.
Proof.
  intros L v Fx Fy N [H1 H2]. pose proof u_pos as HU.
  assert (E : N * N = B2R (vx v) * B2R (vx v) + B2R (vy v) * B2R (vy v)) by (unfold N; now rewrite norm_sq).
  assert (B1 : bpow radix2 (-960) <= N * N). { change (-960)%Z with (-480 + -480)%Z. rewrite bpow_plus. apply Rmult_le_compat; try apply bpow_ge_0; exact H1. }
  assert (B2 : N * N <= bpow radix2 1000). { change 1000%Z with (500 + 500)%Z. rewrite bpow_plus. pose proof (bpow_ge_0 radix2 (-480)). apply Rmult_le_compat; lra. }
  rewrite E in B1, B2. assert (X0 : 0 <= B2R (vx v) * B2R (vx v)) by nra. assert (Y0 : 0 <= B2R (vy v) * B2R (vy v)) by nra.
  assert (B3 : bpow radix2 1000 <= bpow radix2 1002) by (apply bpow_le; lia).
  destruct (mul_self (vx v) Fx ltac:(lra)) as [A1 A2]. destruct (mul_self (vy v) Fy ltac:(lra)) as [C1 C2].
  destruct (sum_fin _ _ _ _ A1 C1 X0 Y0 B2) as [S1 S2]; [assert (bpow radix2 (-1075) <= bpow radix2 (-1073)) by (apply bpow_le; lia); nra|assert (bpow radix2 (-1075) <= bpow radix2 (-1073)) by (apply bpow_le; lia); nra|].
  assert (T3 : bpow radix2 (-1075) <= bpow radix2 (-1073)) by (apply bpow_le; lia).
  assert (D : Rabs (B2R (@Vector2D_r2 F (NumF L) v) - N * N) <= 65 / 32 * u * (N * N)).
  { unfold Vector2D_r2. cbn [nadd nmul NumF]. rewrite S1, E. replace (65 / 32 * u) with (u + 33 / 32 * u) by lra. apply sum_sq; try apply fmt_F; try assumption; lra. }
  assert (P : 0 <= B2R (@Vector2D_r2 F (NumF L) v)). { rewrite <- E in B1. pose proof (bpow_ge_0 radix2 (-960)). apply Rabs_le_inv in D. nra. }
  split; [exact S2|]. split; [rewrite <- E in B1; pose proof (bpow_ge_0 radix2 (-960)); nra|].
  destruct (F_root L (@Vector2D_r2 F (NumF L) v) S2 P) as (s & R1 & R2 & R3). exists s. split; [exact R1|]. split; [exact R2|]. rewrite R3.
  eapply Rle_trans; [apply (rnd_root _ N (65 / 32 * u)); try assumption; lra|].
  assert (0 < N) by (pose proof (bpow_gt_0 radix2 (-480)); lra). apply Rmult_le_compat_r; [lra|]. replace (bpow radix2 (-54)) with (/ 2 * u) by (cbn; lra). lra.
Qed.
Example C135_nonvacuous : is_finite (F_of_Z 3) = true /\ is_finite (F_of_Z 4) = true /\ bpow radix2 (-480) <= norm (pt (rvec (mkVec (F_of_Z 3) (F_of_Z 4) true))) <= bpow radix2 500.
Proof.
  destruct (F_of_Z_exact 3 eq_refl) as [E1 E2]. destruct (F_of_Z_exact 4 eq_refl) as [E3 E4]. split; [exact E2|]. split; [exact E4|].
  assert (E : norm (pt (rvec (mkVec (F_of_Z 3) (F_of_Z 4) true))) = 5).
  { unfold norm, norm2, pt, px, py, rvec. cbn [fst snd vx vy]. rewrite E1, E3. replace (3 * 3 + 4 * 4) with (5 * 5) by lra. apply sqrt_square. lra. }
  rewrite E. split; [apply Rle_trans with 1; [apply (bpow_le radix2 (-480) 0); lia|lra]|apply Rle_trans with (bpow radix2 3); [cbn; lra|apply bpow_le; lia]].
Qed.
(** Outside that range the length of a non-zero vector can be 0, and that of a
    finite one infinite. *)
Theorem C135_range_refuted_F : exists v w : vec F, is_finite (vx v) = true /\ is_finite (vy v) = true /\ is_finite (vx w) = true /\ is_finite (vy w) = true /\
  B2R (vx v) = bpow radix2 (-600) /\ B2R (vx w) = bpow radix2 600 /\
  forall L : libm, @Vector2D_r F (NumF L) v = Ok (B754_zero false) /\ @Vector2D_r F (NumF L) w = Ok (B754_infinity false).
Proof.
  exists (mkVec (Fd 1 (-600)) (F_of_Z 0) true), (mkVec (Fd 1 600) (F_of_Z 0) true). cbn [vx vy].
  repeat split; try (vm_compute; reflexivity).
  - rewrite Fd_exact by (cbn; lia). lra.
  - rewrite Fd_exact by (cbn; lia). lra.
Qed.

(** ** C136: distances *)
(** What is asked of the C library: pow(x, 2) is finite for |x| <= 2^501, at
    most one unit in the last place (2^-52 of the value, or the smallest
    positive double) off, and pow(0, 2) = 0. *)
Definition pow_accurate (L : libm) : Prop := forall x : F, is_finite x = true -> Rabs (B2R x) <= bpow radix2 501 ->
  let p := lm_pow L x (F_of_Z 2) in is_finite p = true /\ Rabs (B2R p - B2R x * B2R x) <= bpow radix2 (-52) * (B2R x * B2R x) + bpow radix2 (-1074) /\ (B2R x = 0 -> B2R p = 0).
Lemma powi_acc L (x y : F) : pow_accurate L -> is_finite x = true -> is_finite y = true -> Rabs (B2R x - B2R y) <= bpow radix2 500 ->
  let D := B2R x - B2R y in
  exists p : F, @npowi F (NumF L) (@nsub F (NumF L) x y) 2 = Ok p /\ is_finite p = true /\ Rabs (B2R p - D * D) <= (4 + / 64) * u * (D * D) + bpow radix2 (-1073) /\ (D = 0 -> B2R p = 0).
Proof.
  intros P Fx Fy H D. pose proof u_pos as HU. cbn [nsub npowi NumF].
  destruct (F_sub x y Fx Fy) as [S1 S2]. { apply (finite_lt 500); [lia|]. apply rnd_err; [lia|exact H]. }
  assert (R : Rabs (B2R (Bminus mode_NE x y) - D) <= u * Rabs D).
  { rewrite S1. unfold D. unfold Rminus. apply (rnd_sum (B2R x) (- B2R y)); [apply fmt_F|apply fmt_opp, fmt_F]. }
  set (d := Bminus mode_NE x y) in *. fold D in H.
  assert (Bd : Rabs (B2R d) <= bpow radix2 501).
  { replace (B2R d) with ((B2R d - D) + D) by ring. eapply Rle_trans; [apply Rabs_triang|]. change 501%Z with (1 + 500)%Z. rewrite bp2. pose proof (Rabs_pos D). nra. }
  destruct (P d S2 Bd) as (P1 & P2 & P3). exists (lm_pow L d (F_of_Z 2)). split; [|split; [exact P1|split]].
  - unfold F_powi. change (is_finite (F_of_Z 2)) with true. rewrite S2. destruct (lm_pow L d (F_of_Z 2)); try discriminate; reflexivity.
  - change (-52)%Z with (1 + -53)%Z in P2. rewrite bp2 in P2. change (-1073)%Z with (1 + -1074)%Z. rewrite bp2.
    assert (Q : Rabs (B2R d * B2R d - D * D) <= (2 + / 1000) * u * (D * D)).
    { replace (B2R d * B2R d - D * D) with ((B2R d - D) * (B2R d + D)) by ring. rewrite Rabs_mult.
      assert (K : Rabs (B2R d + D) <= (2 + u) * Rabs D).
      { replace (B2R d + D) with ((B2R d - D) + 2 * D) by ring. eapply Rle_trans; [apply Rabs_triang|]. rewrite (Rabs_mult 2), (Rabs_pos_eq 2) by lra. lra. }
      apply Rle_trans with (u * Rabs D * ((2 + u) * Rabs D)); [apply Rmult_le_compat; try apply Rabs_pos; assumption|].
      replace (D * D) with (Rabs D * Rabs D) by (rewrite <- Rabs_mult; apply Rabs_pos_eq; nra). assert (0 <= Rabs D * Rabs D) by (pose proof (Rabs_pos D); nra). assert (0 <= u * (Rabs D * Rabs D)) by nra. nra. }
    assert (M : B2R d * B2R d <= (1 + 3 * u) * (D * D)). { apply Rabs_le_inv in Q. assert (0 <= D * D) by nra. nra. }
    replace (B2R (lm_pow L d (F_of_Z 2)) - D * D) with ((B2R (lm_pow L d (F_of_Z 2)) - B2R d * B2R d) + (B2R d * B2R d - D * D)) by ring. eapply Rle_trans; [apply Rabs_triang|].
    pose proof (bpow_ge_0 radix2 (-1074)). assert (0 <= D * D) by nra. assert (2 * u * (B2R d * B2R d) <= 2 * u * ((1 + 3 * u) * (D * D))) by (apply Rmult_le_compat_l; lra).
    assert (0 <= u * (D * D)) by nra. nra.
  - intros Z. apply P3. assert (K : Rabs (B2R d - D) <= 0) by (rewrite Z in R at 2; rewrite Rabs_R0 in R; lra). pose proof (Rabs_pos (B2R d - D)). rewrite Z in K. apply Rabs_le_inv in K. lra.
Qed.
Lemma diff_le (a b : vec F) : Rabs (B2R (vx a) - B2R (vx b)) <= edist (pt (rvec a)) (pt (rvec b)) /\ Rabs (B2R (vy a) - B2R (vy b)) <= edist (pt (rvec a)) (pt (rvec b)).
Proof.
  set (D := edist _ _). assert (E : D * D = (B2R (vx a) - B2R (vx b)) * (B2R (vx a) - B2R (vx b)) + (B2R (vy a) - B2R (vy b)) * (B2R (vy a) - B2R (vy b))) by (unfold D, edist; rewrite norm_sq; reflexivity).
  assert (D0 : 0 <= D) by apply edist_nonneg. split; apply Rsqr_incr_0_var; try exact D0; rewrite <- Rsqr_abs; unfold Rsqr; rewrite E; pose proof (Rle_0_sqr (B2R (vx a) - B2R (vx b))); pose proof (Rle_0_sqr (B2R (vy a) - B2R (vy b))); unfold Rsqr in *; lra.
Qed.
Lemma dist_acc L (a b : vec F) : pow_accurate L -> is_finite (vx a) = true -> is_finite (vy a) = true -> is_finite (vx b) = true -> is_finite (vy b) = true ->
  let D := edist (pt (rvec a)) (pt (rvec b)) in bpow radix2 (-480) <= D <= bpow radix2 500 ->
  exists q d : F, @Vector2D_dist2 F (NumF L) a b = Ok q /\ is_finite q = true /\ Rabs (B2R q - D * D) <= 6 * u * (D * D) /\
    @Vector2D_dist F (NumF L) a b = Ok d /\ is_finite d = true /\ Rabs (B2R d - D) <= 4 * u * D.
Proof.
  intros P A1 A2 B1 B2 D [H1 H2]. pose proof u_pos as HU. destruct (diff_le a b) as [X Y]. fold D in X, Y.
  destruct (powi_acc L (vx a) (vx b) P A1 B1 ltac:(lra)) as (p & P1 & P2 & P3 & _). destruct (powi_acc L (vy a) (vy b) P A2 B2 ltac:(lra)) as (q & Q1 & Q2 & Q3 & _).
  assert (E : D * D = (B2R (vx a) - B2R (vx b)) * (B2R (vx a) - B2R (vx b)) + (B2R (vy a) - B2R (vy b)) * (B2R (vy a) - B2R (vy b))) by (unfold D, edist; rewrite norm_sq; reflexivity).
  set (dx := B2R (vx a) - B2R (vx b)) in *. set (dy := B2R (vy a) - B2R (vy b)) in *. assert (X0 : 0 <= dx * dx) by nra. assert (Y0 : 0 <= dy * dy) by nra.
  assert (L1 : bpow radix2 (-960) <= dx * dx + dy * dy). { rewrite <- E. change (-960)%Z with (-480 + -480)%Z. rewrite bpow_plus. apply Rmult_le_compat; try apply bpow_ge_0; exact H1. }
  assert (L2 : dx * dx + dy * dy <= bpow radix2 1000). { rewrite <- E. change 1000%Z with (500 + 500)%Z. rewrite bpow_plus. pose proof (bpow_ge_0 radix2 (-480)). apply Rmult_le_compat; lra. }
  destruct (sum_fin p q _ _ P2 Q2 X0 Y0 L2) as [S1 S2]; [nra|nra|].
  assert (K : Rabs (B2R (Bplus mode_NE p q) - D * D) <= (5 + 3 / 64) * u * (D * D)).
  { rewrite S1, E. replace ((5 + 3 / 64) * u) with ((4 + / 64) * u + 33 / 32 * u) by lra. apply sum_sq; try apply fmt_F; try assumption; lra. }
  assert (N0 : 0 < D) by (pose proof (bpow_gt_0 radix2 (-480)); lra). assert (N1 : 0 < D * D) by nra.
  destruct (F_root L (Bplus mode_NE p q) S2) as (s & R1 & R2 & R3). { apply Rabs_le_inv in K. nra. }
  assert (DD : @Vector2D_dist2 F (NumF L) a b = Ok (Bplus mode_NE p q)). { unfold Vector2D_dist2. rewrite P1, Q1. reflexivity. }
  exists (Bplus mode_NE p q), s. split; [exact DD|]. split; [exact S2|]. split; [nra|].
  split; [unfold Vector2D_dist; rewrite DD; exact R1|]. split; [exact R2|]. rewrite R3.
  eapply Rle_trans; [apply (rnd_root _ D ((5 + 3 / 64) * u)); try assumption; try lra; apply Rabs_le_inv in K; nra|]. nra.
Qed.
Theorem C136_dist_F : forall (L : libm) (a b : vec F), pow_accurate L -> is_finite (vx a) = true -> is_finite (vy a) = true -> is_finite (vx b) = true -> is_finite (vy b) = true ->
  let D := edist (pt (rvec a)) (pt (rvec b)) in
  (bpow radix2 (-480) <= D <= bpow radix2 500 ->
   exists q d : F, @Vector2D_dist2 F (NumF L) a b = Ok q /\ is_finite q = true /\ Rabs (B2R q - D * D) <= 6 * bpow radix2 (-53) * (D * D) /\
    @Vector2D_dist F (NumF L) a b = Ok d /\ is_finite d = true /\ Rabs (B2R d - D) <= bpow radix2 (-51) * D) /\
  (D = 0 -> exists d : F, @Vector2D_dist F (NumF L) a b = Ok d /\ is_finite d = true /\ B2R d = 0).
Proof.
  intros L a b P A1 A2 B1 B2 D. split.
  - intros H. replace (bpow radix2 (-51)) with (4 * u) by (cbn; lra). now apply dist_acc.
  - intros Z. assert (Z' : edist (pt (rvec a)) (pt (rvec b)) = 0) by exact Z. apply edist_zero in Z'. injection Z' as Z1 Z2. cbn in Z1, Z2.
    assert (T : forall t, t = 0 -> Rabs t <= bpow radix2 500) by (intros t ->; rewrite Rabs_R0; apply bpow_ge_0).
    destruct (powi_acc L (vx a) (vx b) P A1 B1 (T (B2R (vx a) - B2R (vx b)) ltac:(lra))) as (p & P1 & P2 & _ & P3). destruct (powi_acc L (vy a) (vy b) P A2 B2 (T (B2R (vy a) - B2R (vy b)) ltac:(lra))) as (q & Q1 & Q2 & _ & Q3).
    specialize (P3 ltac:(lra)). specialize (Q3 ltac:(lra)).
    assert (S0 : rnd64 (B2R p + B2R q) = 0) by (rewrite P3, Q3, Rplus_0_r; apply round_0; apply valid_rnd_N).
    destruct (F_add p q P2 Q2) as [S1 S2]. { rewrite S0, Rabs_R0. apply bpow_gt_0. } rewrite S0 in S1.
    destruct (F_root L (Bplus mode_NE p q) S2) as (s & R1 & R2 & R3); [lra|]. exists s. split; [|split; [exact R2|]].
    + unfold Vector2D_dist, Vector2D_dist2. rewrite P1, Q1. exact R1.
    + rewrite R3, S1, sqrt_0. apply round_0. apply valid_rnd_N.
Qed.
Lemma pow_accurate_sq : pow_accurate libm_sq.
Proof.
  intros x H1 H2 p. assert (K : B2R x * B2R x <= bpow radix2 1002).
  { replace (B2R x * B2R x) with (Rabs (B2R x) * Rabs (B2R x)) by (rewrite <- Rabs_mult; apply Rabs_pos_eq; nra). change 1002%Z with (501 + 501)%Z. rewrite bpow_plus. apply Rmult_le_compat; try apply Rabs_pos; assumption. }
  destruct (mul_self x H1 K) as [M1 M2]. split; [exact M1|]. pose proof u_pos. assert (T : bpow radix2 (-1075) <= bpow radix2 (-1074)) by (apply bpow_le; lia). split.
  - cbn [p lm_pow libm_sq]. change (-52)%Z with (1 + -53)%Z. rewrite bp2. assert (0 <= u * (B2R x * B2R x)) by (assert (0 <= B2R x * B2R x) by nra; nra). change p with (Bmult mode_NE x x). lra.
  - intros Z. change p with (Bmult mode_NE x x). destruct (F_mul x x H1 H1) as [E _].
    { rewrite Z, Rmult_0_r. replace (rnd64 0) with 0; [rewrite Rabs_R0; apply bpow_gt_0|symmetry; apply round_0; apply valid_rnd_N]. }
    rewrite E, Z, Rmult_0_r. apply round_0. apply valid_rnd_N.
Qed.
(** Consequences: the triangle inequality up to 2^-49, and two distances that
    differ by more than 2^-49 of their size are compared correctly. *)
Theorem C136_triangle_order_F : forall (L : libm) (a b c : vec F), pow_accurate L ->
  (forall v, In v [a; b; c] -> is_finite (vx v) = true /\ is_finite (vy v) = true) ->
  (forall v w, In v [a; b; c] -> In w [a; b; c] -> v <> w -> bpow radix2 (-480) <= edist (pt (rvec v)) (pt (rvec w)) <= bpow radix2 500) -> a <> b -> b <> c -> a <> c ->
  exists ab bc ac : F, @Vector2D_dist F (NumF L) a b = Ok ab /\ @Vector2D_dist F (NumF L) b c = Ok bc /\ @Vector2D_dist F (NumF L) a c = Ok ac /\
    B2R ac <= (B2R ab + B2R bc) * (1 + bpow radix2 (-49)) /\
    (edist (pt (rvec a)) (pt (rvec b)) * (1 + bpow radix2 (-49)) < edist (pt (rvec a)) (pt (rvec c)) -> Bltb ab ac = true).
Proof.
  intros L a b c P HF HD N1 N2 N3. pose proof u_pos as HU.
  destruct (HF a ltac:(cbn; tauto)) as [A1 A2]. destruct (HF b ltac:(cbn; tauto)) as [B1 B2]. destruct (HF c ltac:(cbn; tauto)) as [C1 C2].
  pose proof (HD a b ltac:(cbn; tauto) ltac:(cbn; tauto) N1) as D1. pose proof (HD b c ltac:(cbn; tauto) ltac:(cbn; tauto) N2) as D2. pose proof (HD a c ltac:(cbn; tauto) ltac:(cbn; tauto) N3) as D3.
  destruct (dist_acc L a b P A1 A2 B1 B2 D1) as (_ & x & _ & _ & _ & X1 & X2 & X3). destruct (dist_acc L b c P B1 B2 C1 C2 D2) as (_ & y & _ & _ & _ & Y1 & Y2 & Y3).
  destruct (dist_acc L a c P A1 A2 C1 C2 D3) as (_ & z & _ & _ & _ & Z1 & Z2 & Z3). exists x, y, z. split; [exact X1|]. split; [exact Y1|]. split; [exact Z1|].
  pose proof (edist_triangle (pt (rvec a)) (pt (rvec b)) (pt (rvec c))) as T. pose proof (bpow_gt_0 radix2 (-480)) as E0.
  set (dab := edist (pt (rvec a)) (pt (rvec b))) in *. set (dbc := edist (pt (rvec b)) (pt (rvec c))) in *. set (dac := edist (pt (rvec a)) (pt (rvec c))) in *.
  apply Rabs_le_inv in X3, Y3, Z3. split.
  - replace (bpow radix2 (-49)) with (16 * u) by (cbn; lra). assert (K : (dab + dbc) * (1 - 4 * u) <= B2R x + B2R y) by lra.
    apply Rle_trans with ((dab + dbc) * (1 + 4 * u)); [nra|]. apply Rle_trans with ((dab + dbc) * (1 - 4 * u) * (1 + 16 * u)); [|apply Rmult_le_compat_r; lra].
    rewrite Rmult_assoc. apply Rmult_le_compat_l; [lra|]. nra.
  - replace (bpow radix2 (-49)) with (16 * u) by (cbn; lra). intros O. rewrite ltb_F by assumption. apply Rlt_bool_true.
    assert (dab * (1 + 16 * u) * (1 - 4 * u) < dac * (1 - 4 * u)) by (apply Rmult_lt_compat_r; lra).
    assert (dab * (1 + 4 * u) <= dab * ((1 + 16 * u) * (1 - 4 * u))) by (apply Rmult_le_compat_l; [lra|nra]). lra.
Qed.
Example C136_nonvacuous : let a := mkVec (F_of_Z 0) (F_of_Z 0) true in let b := mkVec (F_of_Z 3) (F_of_Z 0) true in let c := mkVec (F_of_Z 3) (F_of_Z 4) true in
  pow_accurate libm_sq /\ (forall v, In v [a; b; c] -> is_finite (vx v) = true /\ is_finite (vy v) = true) /\
  (forall v w, In v [a; b; c] -> In w [a; b; c] -> v <> w -> bpow radix2 (-480) <= edist (pt (rvec v)) (pt (rvec w)) <= bpow radix2 500) /\ a <> b /\ b <> c /\ a <> c /\
  edist (pt (rvec a)) (pt (rvec b)) * (1 + bpow radix2 (-49)) < edist (pt (rvec a)) (pt (rvec c)).
Proof.
  intros a b c. destruct (F_of_Z_exact 0 eq_refl) as [E1 E2]. destruct (F_of_Z_exact 3 eq_refl) as [E3 E4]. destruct (F_of_Z_exact 4 eq_refl) as [E5 E6].
  assert (Dab : edist (pt (rvec a)) (pt (rvec b)) = 3).
  { unfold edist, norm, norm2, psub, pt, px, py, rvec, a, b. cbn [fst snd vx vy]. rewrite E1, E3. replace ((0 - 3) * (0 - 3) + (0 - 0) * (0 - 0)) with (3 * 3) by lra. apply sqrt_square. lra. }
  assert (Dbc : edist (pt (rvec b)) (pt (rvec c)) = 4).
  { unfold edist, norm, norm2, psub, pt, px, py, rvec, b, c. cbn [fst snd vx vy]. rewrite E1, E3, E5. replace ((3 - 3) * (3 - 3) + (0 - 4) * (0 - 4)) with (4 * 4) by lra. apply sqrt_square. lra. }
  assert (Dac : edist (pt (rvec a)) (pt (rvec c)) = 5).
  { unfold edist, norm, norm2, psub, pt, px, py, rvec, a, c. cbn [fst snd vx vy]. rewrite E1, E3, E5. replace ((0 - 3) * (0 - 3) + (0 - 4) * (0 - 4)) with (5 * 5) by lra. apply sqrt_square. lra. }
  assert (B : forall t, 3 <= t <= 5 -> bpow radix2 (-480) <= t <= bpow radix2 500).
  { intros t Ht. assert (bpow radix2 (-480) <= 1) by (apply (bpow_le radix2 (-480) 0); lia). assert (bpow radix2 3 <= bpow radix2 500) by (apply bpow_le; lia). change (bpow radix2 3) with 8 in *. lra. }
  split; [exact pow_accurate_sq|]. split; [intros v [<-|[<-|[<-|[]]]]; split; assumption|]. split.
  - intros v w [<-|[<-|[<-|[]]]] [<-|[<-|[<-|[]]]] N; try (now elim N); try (rewrite edist_sym, ?Dab, ?Dbc, ?Dac; apply B; lra); rewrite ?Dab, ?Dbc, ?Dac; apply B; lra.
  - split; [discriminate|]. split; [discriminate|]. split; [discriminate|]. rewrite Dab, Dac. cbn. lra.
Qed.

(** ** C137: membership in a circle *)
Lemma sum_sq_abs (A B X Y c : R) : fmt64 A -> fmt64 B -> 0 <= X -> 0 <= Y -> 0 <= c <= 5 * u ->
  Rabs (A - X) <= c * X + bpow radix2 (-1073) -> Rabs (B - Y) <= c * Y + bpow radix2 (-1073) ->
  Rabs (rnd64 (A + B) - (X + Y)) <= (c + 33 / 32 * u) * (X + Y) + bpow radix2 (-1070).
Proof.
  intros FA FB X0 Y0 Hc HA HB. pose proof (rnd_sum A B FA FB) as HS. pose proof u_pos as HU. pose proof (bpow_ge_0 radix2 (-1073)) as T0.
  assert (D : Rabs (A + B - (X + Y)) <= c * (X + Y) + 2 * bpow radix2 (-1073)).
  { replace (A + B - (X + Y)) with ((A - X) + (B - Y)) by ring. eapply Rle_trans; [apply Rabs_triang|]. lra. }
  assert (M : Rabs (A + B) <= (65 / 64) * (X + Y) + 2 * bpow radix2 (-1073)).
  { replace (A + B) with ((A + B - (X + Y)) + (X + Y)) by ring. eapply Rle_trans; [apply Rabs_triang|]. rewrite (Rabs_pos_eq (X + Y)) by lra. nra. }
  change (-1070)%Z with (1 + (1 + (1 + -1073)))%Z. rewrite !bp2.
  replace (rnd64 (A + B) - (X + Y)) with ((rnd64 (A + B) - (A + B)) + (A + B - (X + Y))) by ring. eapply Rle_trans; [apply Rabs_triang|].
  assert (u * Rabs (A + B) <= u * (65 / 64 * (X + Y) + 2 * bpow radix2 (-1073))) by (apply Rmult_le_compat_l; lra). nra.
Qed.
Lemma dist2_abs L (a b : vec F) : pow_accurate L -> is_finite (vx a) = true -> is_finite (vy a) = true -> is_finite (vx b) = true -> is_finite (vy b) = true ->
  let D := edist (pt (rvec a)) (pt (rvec b)) in D <= bpow radix2 500 ->
  exists q : F, @Vector2D_dist2 F (NumF L) a b = Ok q /\ is_finite q = true /\ Rabs (B2R q - D * D) <= 6 * u * (D * D) + bpow radix2 (-1070).
Proof.
  intros P A1 A2 B1 B2 D H2. pose proof u_pos as HU. destruct (diff_le a b) as [X Y]. fold D in X, Y.
  destruct (powi_acc L (vx a) (vx b) P A1 B1 ltac:(lra)) as (p & P1 & P2 & P3 & _). destruct (powi_acc L (vy a) (vy b) P A2 B2 ltac:(lra)) as (q & Q1 & Q2 & Q3 & _).
  assert (E : D * D = (B2R (vx a) - B2R (vx b)) * (B2R (vx a) - B2R (vx b)) + (B2R (vy a) - B2R (vy b)) * (B2R (vy a) - B2R (vy b))) by (unfold D, edist; rewrite norm_sq; reflexivity).
  set (dx := B2R (vx a) - B2R (vx b)) in *. set (dy := B2R (vy a) - B2R (vy b)) in *. assert (X0 : 0 <= dx * dx) by nra. assert (Y0 : 0 <= dy * dy) by nra.
  assert (D0 : 0 <= D) by apply edist_nonneg.
  assert (L2 : dx * dx + dy * dy <= bpow radix2 1000). { rewrite <- E. change 1000%Z with (500 + 500)%Z. rewrite bpow_plus. apply Rmult_le_compat; lra. }
  destruct (sum_fin p q _ _ P2 Q2 X0 Y0 L2) as [S1 S2]; [nra|nra|].
  exists (Bplus mode_NE p q). split; [unfold Vector2D_dist2; rewrite P1, Q1; reflexivity|]. split; [exact S2|]. rewrite S1, E.
  eapply Rle_trans; [apply (sum_sq_abs _ _ _ _ ((4 + / 64) * u)); try apply fmt_F; try assumption; lra|]. nra.
Qed.
(** A point is reported inside when it is nearer than the radius by 2^-51 of
    it, and outside when it is farther by that much. *)
Theorem C137_circle_contains_F : forall (L : libm) (c : circle F) (p : vec F), pow_accurate L ->
  is_finite (vx (c_center c)) = true -> is_finite (vy (c_center c)) = true -> is_finite (vx p) = true -> is_finite (vy p) = true -> is_finite (c_radius c) = true ->
  let D := edist (pt (rvec (c_center c))) (pt (rvec p)) in let r := B2R (c_radius c) in
  bpow radix2 (-480) <= r <= bpow radix2 500 -> D <= bpow radix2 500 ->
  exists b, @Circle2D_contains F (NumF L) c p = Ok b /\
    (D <= r * (1 - bpow radix2 (-51)) -> b = true) /\ (r * (1 + bpow radix2 (-51)) <= D -> b = false).
Proof.
  intros L c p P C1 C2 P1 P2 R1 D r [H1 H2] HD. pose proof u_pos as HU. destruct (dist2_abs L (c_center c) p P C1 C2 P1 P2 HD) as (q & Q1 & Q2 & Q3). fold D in Q3.
  unfold Circle2D_contains. rewrite Q1. cbn [bind nltb nmul NumF].
  assert (RR : r * r <= bpow radix2 1002). { apply Rle_trans with (bpow radix2 1000); [|apply bpow_le; lia]. change 1000%Z with (500 + 500)%Z. rewrite bpow_plus. pose proof (bpow_ge_0 radix2 (-480)). apply Rmult_le_compat; lra. }
  assert (R0 : 0 < r) by (pose proof (bpow_gt_0 radix2 (-480)); lra).
  assert (RL : bpow radix2 (-1070) <= u * / 128 * (r * r)).
  { replace (/ 128) with (bpow radix2 (-7)) by (cbn; lra). apply Rle_trans with (u * bpow radix2 (-7) * (bpow radix2 (-480) * bpow radix2 (-480))).
    - rewrite <- !bpow_plus. apply bpow_le. lia.
    - apply Rmult_le_compat_l; [rewrite <- bpow_plus; apply bpow_ge_0|]. apply Rmult_le_compat; try apply bpow_ge_0; exact H1. }
  assert (T : bpow radix2 (-1075) <= bpow radix2 (-1070)) by (apply bpow_le; lia).
  destruct (mul_self (c_radius c) R1 RR) as [M1 M2]. fold r in M2. eexists. split; [reflexivity|]. rewrite ltb_F by assumption.
  replace (bpow radix2 (-51)) with (4 * u) by (cbn; lra). assert (D0 : 0 <= D) by apply edist_nonneg. assert (S0 : 0 < r * r) by nra.
  apply Rabs_le_inv in Q3, M2. assert (U2 : 0 <= u * u * (r * r)) by nra. assert (U1 : 0 < u * (r * r)) by nra. split; intros K.
  - apply Rlt_bool_true. assert (K2 : D * D <= r * (1 - 4 * u) * (r * (1 - 4 * u))) by (apply Rmult_le_compat; lra). 
    assert (B2R q <= (r * (1 - 4 * u) * (r * (1 - 4 * u))) * (1 + 6 * u) + bpow radix2 (-1070)) by nra.
    assert ((r * (1 - 4 * u) * (r * (1 - 4 * u))) * (1 + 6 * u) <= (1 - 2 * u + u * / 2) * (r * r)).
    { replace ((r * (1 - 4 * u) * (r * (1 - 4 * u))) * (1 + 6 * u)) with ((1 - 4 * u) * (1 - 4 * u) * (1 + 6 * u) * (r * r)) by ring. apply Rmult_le_compat_r; [lra|]. nra. }
    nra.
  - apply Rlt_bool_false. assert (K2 : r * (1 + 4 * u) * (r * (1 + 4 * u)) <= D * D) by (apply Rmult_le_compat; nra).
    assert ((r * (1 + 4 * u) * (r * (1 + 4 * u))) * (1 - 6 * u) - bpow radix2 (-1070) <= B2R q) by nra.
    assert ((1 + 2 * u - u * / 2) * (r * r) <= (r * (1 + 4 * u) * (r * (1 + 4 * u))) * (1 - 6 * u)).
    { replace ((r * (1 + 4 * u) * (r * (1 + 4 * u))) * (1 - 6 * u)) with ((1 + 4 * u) * (1 + 4 * u) * (1 - 6 * u) * (r * r)) by ring. apply Rmult_le_compat_r; [lra|]. nra. }
    nra.
Qed.
Example C137_nonvacuous : let c := mkCircle (mkVec (F_of_Z 0) (F_of_Z 0) true) (F_of_Z 5) in let p := mkVec (F_of_Z 3) (F_of_Z 0) true in
  pow_accurate libm_sq /\ is_finite (c_radius c) = true /\ bpow radix2 (-480) <= B2R (c_radius c) <= bpow radix2 500 /\
  edist (pt (rvec (c_center c))) (pt (rvec p)) <= bpow radix2 500 /\ edist (pt (rvec (c_center c))) (pt (rvec p)) <= B2R (c_radius c) * (1 - bpow radix2 (-51)).
Proof.
  intros c p. destruct (F_of_Z_exact 0 eq_refl) as [E1 E2]. destruct (F_of_Z_exact 3 eq_refl) as [E3 E4]. destruct (F_of_Z_exact 5 eq_refl) as [E5 E6].
  assert (D : edist (pt (rvec (c_center c))) (pt (rvec p)) = 3).
  { unfold edist, norm, norm2, psub, pt, px, py, rvec, c, p. cbn [fst snd vx vy c_center]. rewrite E1, E3. replace ((0 - 3) * (0 - 3) + (0 - 0) * (0 - 0)) with (3 * 3) by lra. apply sqrt_square. lra. }
  rewrite D. cbn [c c_radius]. rewrite E5. assert (bpow radix2 (-480) <= 1) by (apply (bpow_le radix2 (-480) 0); lia). assert (bpow radix2 3 <= bpow radix2 500) by (apply bpow_le; lia). change (bpow radix2 3) with 8 in *.
  split; [exact pow_accurate_sq|]. split; [exact E6|]. split; [lra|]. split; [lra|]. cbn. lra.
Qed.
