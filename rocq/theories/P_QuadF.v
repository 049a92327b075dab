(** * P_QuadF: quadratic_f in doubles (C151) *)
From Coq Require Import ZArith List Bool String Reals Lra Lia Psatz.
From Flocq Require Import Core BinarySingleNaN.
From Verif Require Import Base Types NumR NumF R_Tac Spec Spec2 Abs M_Angle M_Vector M_Line M_Circle
  L_Angle L_Float P_Float P_Robust P_Hull2 P_VecF P_LineF P_MatF P_SoccerF P_RectF P_AngleF3.
Import ListNotations.
Local Open Scope R_scope.

Lemma twice_F L (a : F) i : (-900 <= i <= 900)%Z -> fbound i a -> is_finite (@nmul F (NumF L) (F_of_Z 2) a) = true /\ B2R (@nmul F (NumF L) (F_of_Z 2) a) = 2 * B2R a.
Proof.
  intros Hi [A1 A2]. destruct (F_of_Z_exact 2 eq_refl) as [T1 T2]. cbn [nmul NumF].
  assert (FM : fmt64 (2 * B2R a)) by (apply fmt_double, fmt_F).
  destruct (F_mul (F_of_Z 2) a T2 A1) as [M1 M2]; rewrite T1, rnd_id in * by exact FM; [|split; [exact M2|exact M1]].
  apply (finite_lt (1 + i)); [lia|]. rewrite bp2, Rabs_mult, (Rabs_pos_eq 2) by lra. lra.
Qed.
(** the discriminant as computed *)
Lemma disc_close L i j (a b c : F) : (-200 <= i <= 200)%Z -> (-200 <= j <= 200)%Z -> fbound i a -> fbound j b -> fbound (2 * j - i) c ->
  close (2 * j + 3) (17 * bpow radix2 (2 * j - 54)) (B2R b * B2R b - 4 * B2R a * B2R c)
    (@nsub F (NumF L) (@nmul F (NumF L) b b) (@nmul F (NumF L) (@nmul F (NumF L) (F_of_Z 4) a) c)).
Proof.
  intros Hi Hj A B C. cbn [nsub nmul NumF].
  assert (BB := close_mul j j 0 _ 0 _ b b ltac:(lia) (proj2 B) (fb_close _ _ B) (fb_close _ _ B)).
  assert (F4 : close 2 0 4 (F_of_Z 4)) by (destruct (F_of_Z_exact 4 eq_refl) as [E1 E2]; split; [exact E2|]; rewrite E1; change (bpow radix2 2) with 4; split; [rewrite Rabs_pos_eq; lra|]; rewrite Rminus_eq_0, Rabs_R0; lra).
  assert (A4 := close_mul 2 i 0 4 0 _ _ a ltac:(lia) ltac:(change (bpow radix2 2) with 4; rewrite Rabs_pos_eq; lra) F4 (fb_close _ _ A)).
  assert (AB : Rabs (4 * B2R a) <= bpow radix2 (2 + i)) by (rewrite bpow_plus, Rabs_mult, (Rabs_pos_eq 4) by lra; change (bpow radix2 2) with 4; destruct A; lra).
  assert (AC := close_mul (2 + i) (2 * j - i) _ _ 0 _ _ c ltac:(lia) AB A4 (fb_close _ _ C)).
  replace (2 + i + (2 * j - i))%Z with (2 * j + 2)%Z in AC by lia. replace (j + j)%Z with (2 * j)%Z in BB by lia.
  apply (close_up (2 * j) (2 * j + 2)) in BB; [|lia].
  assert (S := close_sub (2 * j + 2) _ _ _ _ _ _ ltac:(lia) BB AC). replace (2 * j + 2 + 1)%Z with (2 * j + 3)%Z in S by lia.
  eapply close_weaken; [|exact S].
  replace (2 * j + 3 - 54)%Z with (3 + (2 * j - 54))%Z by lia. replace (2 * j + 2 - 54)%Z with (2 + (2 * j - 54))%Z by lia.
  replace (bpow radix2 (2 * j - i) * (bpow radix2 2 * 0 + bpow radix2 i * 0 + bpow radix2 (2 + i - 54))) with (bpow radix2 2 * bpow radix2 (2 * j - 54)).
  2:{ rewrite !Rmult_0_r, !Rplus_0_l. rewrite <- !bpow_plus. f_equal. lia. }
  rewrite !bpow_plus. change (bpow radix2 2) with 4. change (bpow radix2 3) with 8. lra.
Qed.
(** one root: numerator N known up to t, divided by 2a *)
Lemma root_F L i j (a n : F) (N t : R) : (-200 <= i <= 200)%Z -> (-200 <= j <= 200)%Z -> fbound i a -> bpow radix2 (-200) <= Rabs (B2R a) -> fbound (j + 3) n -> Rabs (B2R n - N) <= t ->
  exists s, @ndiv F (NumF L) n (@nmul F (NumF L) (F_of_Z 2) a) = Ok s /\ is_finite s = true /\ Rabs (2 * B2R a * B2R s - N) <= t + bpow radix2 (j - 50) + bpow radix2 (j - 54).
Proof.
  intros Hi Hj A A0 [N1 N2] T. destruct (twice_F L a i ltac:(lia) A) as [D1 D2]. set (d := @nmul F (NumF L) (F_of_Z 2) a) in *.
  pose proof (bpow_gt_0 radix2 (-200)) as P. assert (AN : B2R a <> 0) by (intros E; rewrite E, Rabs_R0 in A0; lra).
  assert (DN : B2R d <> 0) by (rewrite D2; lra).
  assert (QB : Rabs (B2R n / B2R d) <= bpow radix2 (j + 203)).
  { unfold Rdiv. rewrite Rabs_mult, Rabs_inv. replace (j + 203)%Z with ((j + 3) + 200)%Z by lia. rewrite bpow_plus. apply Rmult_le_compat; try apply Rabs_pos; [left; apply Rinv_0_lt_compat, Rabs_pos_lt, DN|exact N2|].
    replace (bpow radix2 200) with (/ bpow radix2 (-200)) by (change (-200)%Z with (Z.opp 200); rewrite bpow_opp, Rinv_inv; reflexivity). apply Rinv_le; [exact P|]. rewrite D2, Rabs_mult, (Rabs_pos_eq 2) by lra. lra. }
  destruct (rnd_err _ (j + 203) ltac:(lia) QB) as [_ E2]. destruct (F_quot n d N1 DN) as [Q1 Q2]; [apply (finite_lt (j + 203)); [lia|exact E2]|].
  exists (Bdiv mode_NE n d). split; [apply fdiv_F; assumption|]. split; [exact Q2|]. rewrite Q1. rewrite <- D2.
  pose proof (rnd_rel (B2R n / B2R d)) as RR.
  assert (G : Rabs (B2R d * rnd64 (B2R n / B2R d) - B2R n) <= bpow radix2 (j - 50) + bpow radix2 (j - 54)).
  { replace (B2R d * rnd64 (B2R n / B2R d) - B2R n) with (B2R d * (rnd64 (B2R n / B2R d) - B2R n / B2R d)) by (field; exact DN). rewrite Rabs_mult.
    apply Rle_trans with (Rabs (B2R d) * (u * Rabs (B2R n / B2R d) + bpow radix2 (-1075))); [apply Rmult_le_compat_l; [apply Rabs_pos|exact RR]|].
    rewrite Rmult_plus_distr_l. apply Rplus_le_compat.
    - replace (Rabs (B2R d) * (u * Rabs (B2R n / B2R d))) with (u * Rabs (B2R n)).
      + replace (j - 50)%Z with ((-53) + (j + 3))%Z by lia. rewrite bpow_plus. apply Rmult_le_compat_l; [pose proof u_pos; lra|exact N2].
      + unfold Rdiv. rewrite Rabs_mult, Rabs_inv. field. apply Rabs_no_R0. exact DN.
    - apply Rle_trans with (bpow radix2 (i + 1) * bpow radix2 (-1075)).
      + apply Rmult_le_compat_r; [apply bpow_ge_0|]. rewrite D2, Z.add_comm, bp2, Rabs_mult, (Rabs_pos_eq 2) by lra. destruct A; lra.
      + rewrite <- bpow_plus. apply bpow_le. lia. }
  apply Rabs_le_inv in G. apply Rabs_le_inv in T. apply Rabs_le. lra.
Qed.

Theorem C151_quadratic_F : forall (L : libm) (i j : Z) (a b c : F), (-200 <= i <= 200)%Z -> (-200 <= j <= 200)%Z -> fbound i a -> fbound j b -> fbound (2 * j - i) c ->
  let D := B2R b * B2R b - 4 * B2R a * B2R c in let e := bpow radix2 (2 * j - 49) in let res := @quadratic_f F (NumF L) a b c in
  (B2R a = 0 -> res = Raise GenericException) /\
  (bpow radix2 (-200) <= Rabs (B2R a) ->
    (1 / 999999 + e <= D -> exists s1 s2, res = Ok (Some (s1, s2)) /\ is_finite s1 = true /\ is_finite s2 = true /\
        Rabs (2 * B2R a * B2R s1 - (- B2R b + sqrt D)) <= e / sqrt D + bpow radix2 (j - 49) /\
        Rabs (2 * B2R a * B2R s2 - (- B2R b - sqrt D)) <= e / sqrt D + bpow radix2 (j - 49)) /\
    (D + e <= - (1 / 999999) -> res = Ok None) /\
    (Rabs D + e < 1 / 1000001 -> exists s, res = Ok (Some (s, s)) /\ is_finite s = true /\ Rabs (2 * B2R a * B2R s + B2R b) <= bpow radix2 (j - 49))).
Proof.
  intros L i j a b c Hi Hj A B C D e res. unfold res, quadratic_f. change (@nlit F (NumF L) 4 1) with (F_of_Z 4). change (@nlit F (NumF L) 0 1) with (F_of_Z 0). change (@nlit F (NumF L) 2 1) with (F_of_Z 2).
  assert (DC := disc_close L i j a b c Hi Hj A B C). fold D in DC. cbv zeta. set (delta := @nsub F (NumF L) _ _) in *.
  destruct DC as (D1 & D2 & D3). destruct (F_of_Z_exact 0 eq_refl) as [Z1 Z2].
  cbn [neqb nabs nltb NumF]. rewrite (eqb_F a) by (try apply A; exact Z2). rewrite Z1.
  destruct (eps_F L) as [P1 P2].
  rewrite (ltb_F (Babs delta)) by (rewrite ?is_finite_Babs; assumption). rewrite (ltb_F delta) by assumption. rewrite Z1, B2R_Babs.
  assert (EE : e = 32 * bpow radix2 (2 * j - 54)) by (unfold e; replace (2 * j - 49)%Z with (5 + (2 * j - 54))%Z by lia; now rewrite bpow_plus).
  assert (WP : 0 < bpow radix2 (2 * j - 54)) by apply bpow_gt_0. set (w := bpow radix2 (2 * j - 54)) in *.
  assert (JE : bpow radix2 (j - 49) = 32 * bpow radix2 (j - 54)) by (replace (j - 49)%Z with (5 + (j - 54))%Z by lia; now rewrite bpow_plus).
  assert (JE2 : bpow radix2 (j - 50) = 16 * bpow radix2 (j - 54)) by (replace (j - 50)%Z with (4 + (j - 54))%Z by lia; now rewrite bpow_plus).
  assert (FJ : 0 < bpow radix2 (j - 54)) by apply bpow_gt_0. set (f := bpow radix2 (j - 54)) in *.
  assert (OB : fbound (j + 3) (Bopp b)). { destruct B as [B1 B2]. split; [rewrite is_finite_Bopp; exact B1|]. rewrite B2R_Bopp, Rabs_Ropp. eapply Rle_trans; [exact B2|]. apply bpow_le. lia. }
  assert (D3' := D3). apply Rabs_le_inv in D3'.
  split.
  { intros E. rewrite Req_bool_true by exact E. reflexivity. }
  intros A0. pose proof (bpow_gt_0 radix2 (-200)) as P. assert (AN : B2R a <> 0) by (intros E; rewrite E, Rabs_R0 in A0; lra).
  rewrite Req_bool_false by exact AN. split; [|split].
  - intros H. assert (DP : 0 < B2R delta) by lra. rewrite (Rabs_pos_eq (B2R delta)) by lra. rewrite Rlt_bool_false by lra. rewrite Rlt_bool_false by lra.
    destruct (F_root L delta D1 ltac:(lra)) as (d & -> & R1 & R2). cbn [bind].
    assert (SP : 0 < sqrt D) by (apply sqrt_lt_R0; lra). pose proof (sqrt_pos (B2R delta)) as SD0.
    pose proof (sqrt_sqrt D ltac:(lra)) as SS. pose proof (sqrt_sqrt (B2R delta) ltac:(lra)) as SSd.
    assert (SB : Rabs (sqrt (B2R delta)) <= bpow radix2 (j + 2)).
    { rewrite Rabs_pos_eq by exact SD0. rewrite <- (sqrt_Rsqr (bpow radix2 (j + 2))) by apply bpow_ge_0. apply sqrt_le_1_alt. unfold Rsqr. rewrite <- bpow_plus. eapply Rle_trans; [apply Rle_abs|]. eapply Rle_trans; [exact D2|]. apply bpow_le. lia. }
    destruct (rnd_err _ (j + 2) ltac:(lia) SB) as [RE RB]. rewrite <- R2 in RE, RB.
    replace (j + 2 - 54)%Z with (2 + (j - 54))%Z in RE by lia. rewrite bpow_plus in RE. fold f in RE. change (bpow radix2 2) with 4 in RE.
    assert (SQ : Rabs (sqrt (B2R delta) - sqrt D) <= 17 * w / sqrt D).
    { apply (Rmult_le_reg_r (sqrt D)); [exact SP|]. unfold Rdiv. rewrite Rmult_assoc, Rinv_l, Rmult_1_r by lra.
      apply Rle_trans with (Rabs (sqrt (B2R delta) - sqrt D) * (sqrt (B2R delta) + sqrt D)).
      - apply Rmult_le_compat_l; [apply Rabs_pos|lra].
      - rewrite <- (Rabs_pos_eq (sqrt (B2R delta) + sqrt D)) by lra. rewrite <- Rabs_mult. replace ((sqrt (B2R delta) - sqrt D) * (sqrt (B2R delta) + sqrt D)) with (sqrt (B2R delta) * sqrt (B2R delta) - sqrt D * sqrt D) by ring. rewrite SS, SSd. exact D3. }
    destruct OB as [O1 O2]. rewrite B2R_Bopp, Rabs_Ropp in O2. destruct B as [B1 B2].
    assert (JJ : bpow radix2 (j + 3) = 8 * bpow radix2 j) by (rewrite Z.add_comm, bpow_plus; reflexivity).
    assert (JK : bpow radix2 (j + 2) = 4 * bpow radix2 j) by (rewrite Z.add_comm, bpow_plus; reflexivity).
    pose proof (bpow_gt_0 radix2 j) as JP. pose proof B2 as B2'. apply Rabs_le_inv in B2'. pose proof RB as RB'. apply Rabs_le_inv in RB'.
    assert (NB : Rabs (- B2R b + B2R d) <= bpow radix2 (j + 3)) by (apply Rabs_le; lra).
    assert (NB2 : Rabs (- B2R b - B2R d) <= bpow radix2 (j + 3)) by (apply Rabs_le; lra).
    destruct (rnd_err _ (j + 3) ltac:(lia) NB) as [NE NF]. destruct (rnd_err _ (j + 3) ltac:(lia) NB2) as [ME MF].
    replace (j + 3 - 54)%Z with (3 + (j - 54))%Z in NE, ME by lia. rewrite bpow_plus in NE, ME. fold f in NE, ME. change (bpow radix2 3) with 8 in NE, ME.
    destruct (F_add (Bopp b) d O1 R1) as [S1 S2]; [rewrite B2R_Bopp; apply (finite_lt (j + 3)); [lia|exact NF]|].
    destruct (F_sub (Bopp b) d O1 R1) as [T1 T2]; [rewrite B2R_Bopp; apply (finite_lt (j + 3)); [lia|exact MF]|].
    rewrite B2R_Bopp in S1, T1.
    apply Rabs_le_inv in RE. apply Rabs_le_inv in NE. apply Rabs_le_inv in ME. apply Rabs_le_inv in SQ.
    assert (QP : 0 <= w / sqrt D) by (apply Rlt_le, Rdiv_lt_0_compat; lra).
    destruct (root_F L i j a (Bplus mode_NE (Bopp b) d) (- B2R b + sqrt D) (17 * w / sqrt D + 12 * f) Hi Hj A A0) as (s1 & U1 & U2 & U3).
    { split; [exact S2|rewrite S1; exact NF]. } { rewrite S1. apply Rabs_le. lra. }
    destruct (root_F L i j a (Bminus mode_NE (Bopp b) d) (- B2R b - sqrt D) (17 * w / sqrt D + 12 * f) Hi Hj A A0) as (s2 & V1 & V2 & V3).
    { split; [exact T2|rewrite T1; exact MF]. } { rewrite T1. apply Rabs_le. lra. }
    fold f in U3, V3. change (@nneg F (NumF L) b) with (Bopp b). change (@nadd F (NumF L)) with (Bplus (prec := 53) (emax := 1024) mode_NE). change (@nsub F (NumF L)) with (Bminus (prec := 53) (emax := 1024) mode_NE).
    rewrite U1. cbn [bind]. rewrite V1. cbn [bind]. exists s1, s2. split; [reflexivity|]. split; [exact U2|]. split; [exact V2|].
    rewrite EE, JE. replace (32 * w / sqrt D) with (17 * w / sqrt D + 15 * (w / sqrt D)) by (field; lra). rewrite JE2 in U3, V3. split; eapply Rle_trans; try eassumption; lra.
  - intros H. rewrite Rlt_bool_false by (rewrite Rabs_left by lra; lra). rewrite Rlt_bool_true by lra. reflexivity.
  - intros H. rewrite Rlt_bool_true.
    2:{ apply Rle_lt_trans with (Rabs D + e); [|lra]. replace (B2R delta) with (D + (B2R delta - D)) by ring. eapply Rle_trans; [apply Rabs_triang|]. lra. }
    destruct (root_F L i j a (Bopp b) (- B2R b) 0 Hi Hj A A0 OB) as (s & U1 & U2 & U3); [rewrite B2R_Bopp, Rminus_eq_0, Rabs_R0; lra|].
    change (@nneg F (NumF L) b) with (Bopp b). rewrite U1. cbn [bind]. exists s. split; [reflexivity|]. split; [exact U2|]. replace (2 * B2R a * B2R s + B2R b) with (2 * B2R a * B2R s - - B2R b) by ring. eapply Rle_trans; [exact U3|]. fold f. rewrite JE, JE2. lra.
Qed.
Example C151_nonvacuous : forall L, let a := F_of_Z 1 in let b := F_of_Z (-3) in let c := F_of_Z 2 in
  fbound 0 a /\ fbound 2 b /\ fbound (2 * 2 - 0) c /\ 1 / 999999 + bpow radix2 (2 * 2 - 49) <= B2R b * B2R b - 4 * B2R a * B2R c /\
  match @quadratic_f F (NumF L) a b c with Ok (Some (s1, s2)) => Beqb s1 (F_of_Z 2) && Beqb s2 (F_of_Z 1) | _ => false end = true.
Proof.
  intros L a b c. unfold a, b, c. split; [apply fbound_Z; lia|]. split; [apply fbound_Z; lia|]. split; [apply fbound_Z; lia|]. split; [|vm_compute; reflexivity].
  destruct (F_of_Z_exact 1 eq_refl) as [-> _]. destruct (F_of_Z_exact (-3) eq_refl) as [-> _]. destruct (F_of_Z_exact 2 eq_refl) as [-> _].
  change (bpow radix2 (2 * 2 - 49)) with (/ 35184372088832). lra.
Qed.
