(** * P_EpsF: comparisons with the tolerance 1e-6 in doubles (C164) *)
From Coq Require Import ZArith List Bool String Reals Lra Lia Psatz.
From Flocq Require Import Core BinarySingleNaN Plus_error Relative.
From Verif Require Import Base Types NumR NumF R_Tac Spec Spec2 Abs M_Angle M_Vector M_Line M_Segment M_Sector M_Matrix
  L_Angle P_Vector L_Float P_Float P_Robust P_VecF P_Hull2 P_LineF.
Import ListNotations.
Local Open Scope R_scope.

Lemma eps_precise L : is_finite (@EPSILON F (NumF L)) = true /\ Rabs (B2R (@EPSILON F (NumF L)) - / 1000000) <= bpow radix2 (-73).
Proof. split; [vm_compute; reflexivity|]. apply Rabs_le. vm_compute. lra. Qed.
(** [b] answers the question x < t: right whenever x is not within m of t *)
Definition decides (b : bool) (x t m : R) : Prop := (x <= t - m -> b = true) /\ (t + m <= x -> b = false).

Lemma tol_sub L (x y : F) : is_finite x = true -> is_finite y = true -> Rabs (B2R x) <= bpow radix2 900 -> Rabs (B2R y) <= bpow radix2 900 ->
  decides (@nltb F (NumF L) (@nabs F (NumF L) (@nsub F (NumF L) x y)) (@EPSILON F (NumF L))) (Rabs (B2R x - B2R y)) (/ 1000000) (bpow radix2 (-71)).
Proof.
  intros X Y BX BY. destruct (eps_precise L) as [F1 F2]. set (e := @EPSILON F (NumF L)) in *. clearbody e. cbn [nltb nabs nsub NumF].
  assert (B : Rabs (B2R x - B2R y) <= bpow radix2 901). { change 901%Z with (1 + 900)%Z. rewrite bp2. apply Rabs_le. apply Rabs_le_inv in BX, BY. lra. }
  destruct (rnd_err _ 901 ltac:(lia) B) as [_ R2]. destruct (F_sub x y X Y) as [S1 S2]; [apply (finite_lt 901); [lia|exact R2]|].
  pose proof (rnd_sum (B2R x) (- B2R y) (fmt_F x) (fmt_opp _ (fmt_F y))) as E. change (B2R x + - B2R y) with (B2R x - B2R y) in E. rewrite <- S1 in E.
  rewrite ltb_F by (rewrite ?is_finite_Babs; assumption). rewrite B2R_Babs. set (d := B2R x - B2R y) in *. set (z := B2R (Bminus mode_NE x y)) in *. clearbody d z.
  pose proof (Rabs_triang_inv2 z d) as T. apply Rabs_le_inv in F2. change (-71)%Z with (1 + (1 + -73))%Z. rewrite !bp2. change u with (bpow radix2 (20 + -73)) in E. rewrite bpow_plus in E. change (bpow radix2 20) with 1048576 in E.
  assert (T' : Rabs (Rabs z - Rabs d) <= 1048576 * bpow radix2 (-73) * Rabs d) by lra. apply Rabs_le_inv in T'. pose proof (Rabs_pos d). pose proof (Rabs_pos z).
  set (q := bpow radix2 (-73)) in *. assert (Q0 : 0 < q <= / 1000000000000000) by (unfold q; split; [apply bpow_gt_0|vm_compute; lra]). clearbody q.
  split; intros H1.
  - apply Rlt_bool_true. assert (1048576 * q * Rabs d <= 1048576 * q * (/ 1000000)) by (apply Rmult_le_compat_l; lra). lra.
  - apply Rlt_bool_false. assert (Rabs z >= Rabs d * (1 - 1048576 * q)) by nra. assert ((/ 1000000 + 4 * q) * (1 - 1048576 * q) <= Rabs d * (1 - 1048576 * q)) by (apply Rmult_le_compat_r; lra). nra.
Qed.
(** x z - y w, with entries of magnitude at most 2^k *)
Lemma cross_close k (x y z w : F) : (-200 <= k <= 200)%Z -> is_finite x = true -> is_finite y = true -> is_finite z = true -> is_finite w = true ->
  Rabs (B2R x) <= bpow radix2 k -> Rabs (B2R y) <= bpow radix2 k -> Rabs (B2R z) <= bpow radix2 k -> Rabs (B2R w) <= bpow radix2 k ->
  close (2 * k + 1) (bpow radix2 (2 * k - 52)) (B2R x * B2R z - B2R y * B2R w) (Bminus mode_NE (Bmult mode_NE x z) (Bmult mode_NE y w)).
Proof.
  intros Hk X Y Z W BX BY BZ BW. replace (2 * k + 1)%Z with (k + k + 1)%Z by lia. eapply close_weaken; [|apply close_sub; [lia|apply close_mul; [lia|exact BX|apply close_exact; assumption|apply close_exact; assumption]|apply close_mul; [lia|exact BY|apply close_exact; assumption|apply close_exact; assumption]]].
  replace (k + k + 1 - 54)%Z with (1 + (2 * k - 54))%Z by lia. replace (k + k - 54)%Z with (2 * k - 54)%Z by lia. replace (2 * k - 52)%Z with (1 + (1 + (2 * k - 54)))%Z by lia. rewrite !bp2. lra.
Qed.
Lemma tol_close L j t d x : close j t d x -> decides (@nltb F (NumF L) (@nabs F (NumF L) x) (@EPSILON F (NumF L))) (Rabs d) (/ 1000000) (t + bpow radix2 (-72)) /\
  decides (negb (@nltb F (NumF L) (@EPSILON F (NumF L)) (@nabs F (NumF L) x))) (Rabs d) (/ 1000000) (t + bpow radix2 (-72)).
Proof.
  intros (A & _ & C). destruct (eps_precise L) as [F1 F2]. set (e := @EPSILON F (NumF L)) in *. clearbody e. cbn [nltb nabs NumF]. rewrite !ltb_F by (rewrite ?is_finite_Babs; assumption). rewrite B2R_Babs.
  pose proof (Rabs_triang_inv2 (B2R x) d) as T. assert (T' : Rabs (Rabs (B2R x) - Rabs d) <= t) by lra. apply Rabs_le_inv in T', F2. change (-72)%Z with (1 + -73)%Z. rewrite bp2. pose proof (bpow_gt_0 radix2 (-73)).
  split; split; intros H1.
  - apply Rlt_bool_true. lra.
  - apply Rlt_bool_false. lra.
  - apply negb_true_iff, Rlt_bool_false. lra.
  - apply negb_false_iff, Rlt_bool_true. lra.
Qed.
Lemma decides_and b b' x x' t m : decides b x t m -> decides b' x' t m -> decides (b && b') (Rmax x x') t m.
Proof.
  intros [A1 A2] [B1 B2]. split; intros H.
  - rewrite A1, B1; [reflexivity| |]; pose proof (Rmax_l x x'); pose proof (Rmax_r x x'); lra.
  - unfold Rmax in H. destruct (Rle_dec x x'); [rewrite B2 by lra; apply andb_false_r|now rewrite A2 by lra].
Qed.

(** ** C164: approximate equality and the parallel, invertible tests *)
Definition line_within (k : Z) (l : line F) : Prop := is_finite (l_a l) = true /\ is_finite (l_b l) = true /\ Rabs (B2R (l_a l)) <= bpow radix2 k /\ Rabs (B2R (l_b l)) <= bpow radix2 k.
(** the larger of the distances along x and along y *)
Definition chebyshev (p q : point) : R := Rmax (Rabs (px p - px q)) (Rabs (py p - py q)).
(** Comparing coordinates with the tolerance is right unless the exact
    difference is within 2^-71 of 1e-6. *)
Theorem C164_weak_equality_F : forall (L : libm) (v w v' w' : vec F) (s s' : size F), within 900 v -> within 900 w -> within 900 v' -> within 900 w' ->
  is_finite (sz_length s) = true -> is_finite (sz_width s) = true -> is_finite (sz_length s') = true -> is_finite (sz_width s') = true ->
  Rabs (B2R (sz_length s)) <= bpow radix2 900 -> Rabs (B2R (sz_width s)) <= bpow radix2 900 -> Rabs (B2R (sz_length s')) <= bpow radix2 900 -> Rabs (B2R (sz_width s')) <= bpow radix2 900 ->
  decides (@Vector2D_equals_weakly F (NumF L) v w) (chebyshev (fpt v) (fpt w)) (/ 1000000) (bpow radix2 (-71)) /\
  decides (@Segment2D_equals_weakly F (NumF L) (mkSeg v v') (mkSeg w w')) (Rmax (chebyshev (fpt v) (fpt w)) (chebyshev (fpt v') (fpt w'))) (/ 1000000) (bpow radix2 (-71)) /\
  decides (@Size2D_eq F (NumF L) s s') (Rmax (Rabs (B2R (sz_length s) - B2R (sz_length s'))) (Rabs (B2R (sz_width s) - B2R (sz_width s')))) (/ 1000000) (bpow radix2 (-71)).
Proof.
  intros L v w v' w' s s' (A1 & A2 & A3 & A4) (B1 & B2 & B3 & B4) (C1 & C2 & C3 & C4) (D1 & D2 & D3 & D4) E1 E2 E3 E4 E5 E6 E7 E8.
  assert (G : decides (@Vector2D_equals_weakly F (NumF L) v w) (chebyshev (fpt v) (fpt w)) (/ 1000000) (bpow radix2 (-71))) by (apply decides_and; apply tol_sub; assumption).
  split; [exact G|]. split; [apply decides_and; [exact G|apply decides_and; apply tol_sub; assumption]|apply decides_and; apply tol_sub; assumption].
Qed.
Example C164_weak_nonvacuous : within 900 (mkVec (F_of_Z 3) (F_of_Z (-7)) true) /\ within 900 (mkVec (F_of_Z 3) (F_of_Z (-7)) true) /\
  chebyshev (fpt (mkVec (F_of_Z 3) (F_of_Z (-7)) true)) (fpt (mkVec (F_of_Z 3) (F_of_Z (-7)) true)) <= / 1000000 - bpow radix2 (-71).
Proof.
  destruct (F_of_Z_exact 3 eq_refl) as [E1 E2]. destruct (F_of_Z_exact (-7) eq_refl) as [E3 E4].
  assert (K : 16 <= bpow radix2 900) by (change 16 with (bpow radix2 4); apply bpow_le; lia).
  assert (W : within 900 (mkVec (F_of_Z 3) (F_of_Z (-7)) true)) by (unfold within; cbn [vx vy]; rewrite E1, E3; repeat split; try assumption; apply Rabs_le; lra).
  split; [exact W|]. split; [exact W|]. unfold chebyshev. replace (px _ - px _) with 0 by ring. replace (py _ - py _) with 0 by ring. rewrite Rabs_R0, Rmax_left by lra. vm_compute. lra.
Qed.
(** The tests on a determinant are right unless it is within 2^(2k-52) + 2^-72 of 1e-6. *)
Theorem C164_determinant_tests_F : forall (L : libm) (k : Z) (l l' : line F) (M : matrix F), (-200 <= k <= 200)%Z -> line_within k l -> line_within k l' ->
  is_finite (m11 M) = true -> is_finite (m12 M) = true -> is_finite (m21 M) = true -> is_finite (m22 M) = true ->
  Rabs (B2R (m11 M)) <= bpow radix2 k -> Rabs (B2R (m12 M)) <= bpow radix2 k -> Rabs (B2R (m21 M)) <= bpow radix2 k -> Rabs (B2R (m22 M)) <= bpow radix2 k ->
  let m := bpow radix2 (2 * k - 52) + bpow radix2 (-72) in
  let D := B2R (l_a l) * B2R (l_b l') - B2R (l_a l') * B2R (l_b l) in
  let det := B2R (m11 M) * B2R (m22 M) - B2R (m12 M) * B2R (m21 M) in
  decides (@Line2D_is_parallel F (NumF L) l l') (Rabs D) (/ 1000000) m /\
  (is_finite (l_c l) = true -> is_finite (l_c l') = true ->
    (B2R (l_c l) = B2R (l_c l') -> decides (@Line2D_eq F (NumF L) l l') (Rabs D) (/ 1000000) m) /\ (B2R (l_c l) <> B2R (l_c l') -> @Line2D_eq F (NumF L) l l' = false)) /\
  decides (negb (@Matrix2D_invertible F (NumF L) M)) (Rabs det) (/ 1000000) m /\
  Rabs (B2R (@Matrix2D_det F (NumF L) M) - det) <= bpow radix2 (2 * k - 52).
Proof.
  intros L k l l' M Hk (A1 & A2 & A3 & A4) (B1 & B2 & B3 & B4) M1 M2 M3 M4 M5 M6 M7 M8 m D det.
  assert (C := cross_close k (l_a l) (l_a l') (l_b l') (l_b l) Hk A1 B1 B2 A2 A3 B3 B4 A4). assert (C' := cross_close k (m11 M) (m12 M) (m22 M) (m21 M) Hk M1 M2 M4 M3 M5 M6 M8 M7).
  fold D in C. fold det in C'. destruct (tol_close L _ _ _ _ C) as [P _]. destruct (tol_close L _ _ _ _ C') as [_ Q]. fold m in P, Q.
  split; [exact P|]. split; [|split; [exact Q|apply C']]. intros C1 C2.
  assert (E : @Line2D_eq F (NumF L) l l' = @Line2D_is_parallel F (NumF L) l l' && Req_bool (B2R (l_c l)) (B2R (l_c l'))). { unfold Line2D_eq, Line2D_is_parallel. cbn [neqb NumF]. now rewrite eqb_F by assumption. }
  split; intros EC; rewrite E; [rewrite Req_bool_true, andb_true_r by exact EC; exact P|rewrite Req_bool_false by exact EC; apply andb_false_r].
Qed.
Example C164_determinant_nonvacuous : line_within 3 (mkLine (F_of_Z 1) (F_of_Z (-2)) (F_of_Z 0)) /\ line_within 3 (mkLine (F_of_Z 2) (F_of_Z (-4)) (F_of_Z 1)) /\ line_within 3 (mkLine (F_of_Z 2) (F_of_Z 4) (F_of_Z 1)) /\
  Rabs (B2R (F_of_Z 1) * B2R (F_of_Z (-4)) - B2R (F_of_Z 2) * B2R (F_of_Z (-2))) <= / 1000000 - (bpow radix2 (2 * 3 - 52) + bpow radix2 (-72)) /\
  / 1000000 + (bpow radix2 (2 * 3 - 52) + bpow radix2 (-72)) <= Rabs (B2R (F_of_Z 1) * B2R (F_of_Z 4) - B2R (F_of_Z 2) * B2R (F_of_Z (-2))).
Proof.
  destruct (F_of_Z_exact 1 eq_refl) as [E1 E2]. destruct (F_of_Z_exact 2 eq_refl) as [E3 E4]. destruct (F_of_Z_exact (-2) eq_refl) as [E5 E6]. destruct (F_of_Z_exact (-4) eq_refl) as [E7 E8]. destruct (F_of_Z_exact 4 eq_refl) as [E9 E10].
  unfold line_within. cbn [l_a l_b]. rewrite E1, E3, E5, E7, E9. change (bpow radix2 3) with 8.
  assert (B : bpow radix2 (2 * 3 - 52) + bpow radix2 (-72) <= / 10000000) by (vm_compute; lra). set (b := bpow radix2 (2 * 3 - 52) + bpow radix2 (-72)) in *. clearbody b.
  replace (1 * -4 - 2 * -2) with 0 by ring. replace (1 * 4 - 2 * -2) with 8 by ring. rewrite Rabs_R0, (Rabs_pos_eq 8) by lra. repeat split; try assumption; try (apply Rabs_le); lra.
Qed.
