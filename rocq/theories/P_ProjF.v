(** * P_ProjF: projection onto a segment and on_segment_weakly in doubles (C165) *)
From Coq Require Import ZArith List Bool String Reals Lra Lia Psatz.
From Flocq Require Import Core BinarySingleNaN.
From Verif Require Import Base Types NumR NumF R_Tac Spec Spec2 Abs M_Angle M_Vector M_Segment
  L_Angle P_Vector L_Float P_Float P_Robust P_Hull2 P_VecF P_LineF P_MatF P_LenF P_EpsF.
Import ListNotations.
Local Open Scope R_scope.
Local Notation u := (bpow radix2 (-53)).

(** a coordinate of the direction divided by the length *)
Lemma unit_coord (x mg : F) (X N : R) : is_finite x = true -> is_finite mg = true -> bpow radix2 (-21) <= N -> Rabs X <= N -> Rabs (B2R x - X) <= u * Rabs X -> Rabs (B2R mg - N) <= 4 * u * N ->
  close 1 (bpow radix2 (-50)) (X / N) (Bdiv mode_NE x mg) /\ Rabs (X / N) <= bpow radix2 1 /\ B2R mg <> 0.
Proof.
  intros Fx Fm N1 XN XX MN. pose proof u_pos as HU. assert (U1 : u <= / 1000000000) by (cbn; lra). assert (NP : 0 < N) by (pose proof (bpow_gt_0 radix2 (-21)); lra).
  set (M := B2R mg) in *. set (x' := B2R x) in *.
  assert (UN : 0 < u * N) by (apply Rmult_lt_0_compat; lra). assert (UN1 : u * N <= / 1000000000 * N) by (apply Rmult_le_compat_r; lra).
  assert (M1 : 99 / 100 * N <= M) by (apply Rabs_le_inv in MN; lra). assert (MP : 0 < M) by lra.
  assert (XB : Rabs (X / N) <= 1). { unfold Rdiv. rewrite Rabs_mult, Rabs_inv, (Rabs_pos_eq N) by lra. apply (Rmult_le_reg_r N); [lra|]. rewrite Rmult_assoc, Rinv_l, Rmult_1_r by lra. lra. }
  assert (UX : u * Rabs X <= u * N) by (apply Rmult_le_compat_l; lra).
  assert (Q : Rabs (x' / M - X / N) <= 51 / 10 * u).
  { replace (x' / M - X / N) with (((x' - X) + (X / N) * (N - M)) / M) by (field; lra). unfold Rdiv at 1. rewrite Rabs_mult, Rabs_inv, (Rabs_pos_eq M) by lra. apply (Rmult_le_reg_r M); [lra|]. rewrite Rmult_assoc, Rinv_l, Rmult_1_r by lra.
    eapply Rle_trans; [apply Rabs_triang|]. rewrite Rabs_mult, (Rabs_minus_sym N M).
    assert (Rabs (X / N) * Rabs (M - N) <= 1 * (4 * u * N)) by (apply Rmult_le_compat; try apply Rabs_pos; assumption). assert (u * (99 / 100 * N) <= u * M) by (apply Rmult_le_compat_l; lra). lra. }
  assert (QB : Rabs (x' / M) <= 3 / 2). { replace (x' / M) with (X / N + (x' / M - X / N)) by ring. eapply Rle_trans; [apply Rabs_triang|]. lra. }
  assert (QB' : Rabs (x' / M) <= bpow radix2 1) by (change (bpow radix2 1) with 2; lra).
  destruct (rnd_err _ 1 ltac:(lia) QB') as [_ R2]. destruct (F_quot x mg Fx) as [K1 K2]; [fold M; lra|fold M x'; apply (finite_lt 1); [lia|exact R2]|]. fold M x' in K1.
  split; [|split; [change (bpow radix2 1) with 2; lra|lra]]. split; [exact K2|]. split; [rewrite K1; exact R2|]. rewrite K1.
  pose proof (rnd_rel (x' / M)) as E. assert (T : bpow radix2 (-1075) <= / 4 * u). { change (/ 4) with (bpow radix2 (-2)). rewrite <- bpow_plus. apply bpow_le. lia. }
  replace (rnd64 (x' / M) - X / N) with ((rnd64 (x' / M) - x' / M) + (x' / M - X / N)) by ring. eapply Rle_trans; [apply Rabs_triang|].
  change (-50)%Z with (3 + -53)%Z. rewrite bpow_plus. change (bpow radix2 3) with 8. assert (u * Rabs (x' / M) <= u * (3 / 2)) by (apply Rmult_le_compat_l; lra). lra.
Qed.
Lemma bp_k k i j : (i <= j)%Z -> bpow radix2 (k + i) <= bpow radix2 (k + j).
Proof. intros. apply bpow_le. lia. Qed.

Section Proj.
  Variables (L : libm) (k : Z) (o t p : vec F) (q : point) (lam : R).
  Hypothesis Hk : (-10 <= k <= 200)%Z.
  Hypothesis Wo : within k o. Hypothesis Wt : within k t. Hypothesis Wp : within k p.
  Notation N := (edist (fpt o) (fpt t)).
  Hypothesis HN : 1 / 999998 <= N.
  Hypothesis Hq : q = ((1 - lam) * px (fpt o) + lam * px (fpt t), (1 - lam) * py (fpt o) + lam * py (fpt t)).
  Hypothesis Hperp : dot (psub (fpt t) (fpt o)) (psub (fpt p) q) = 0.
  Notation m := (bpow radix2 (k - 46)).
  Notation lm := (lam * N).
  Lemma proj_core : exists len z1 z2 ip, @Vector2D_r F (NumF L) (@Vector2D_sub F (NumF L) t o) = Ok len /\
      @nltb F (NumF L) len (@EPSILON F (NumF L)) = false /\
      @Vector2D_truediv F (NumF L) (@Vector2D_sub F (NumF L) t o) len = Ok (V z1 z2) /\ @Vector2D_inner_product F (NumF L) (V z1 z2) (@Vector2D_sub F (NumF L) p o) = ip /\
      close 1 (bpow radix2 (-50)) ((px (fpt t) - px (fpt o)) / N) z1 /\ close 1 (bpow radix2 (-50)) ((py (fpt t) - py (fpt o)) / N) z2 /\
      Rabs ((px (fpt t) - px (fpt o)) / N) <= bpow radix2 1 /\ Rabs ((py (fpt t) - py (fpt o)) / N) <= bpow radix2 1 /\
      close (k + 3) (bpow radix2 (k - 47)) lm ip /\ close (k + 3) (bpow radix2 (k - 48)) (N + / 1000000) (Bplus mode_NE len (@EPSILON F (NumF L))).
  Proof.
    destruct Wo as (O1 & O2 & O3 & O4). destruct Wt as (T1 & T2 & T3 & T4). destruct Wp as (P1 & P2 & P3 & P4). pose proof u_pos as HU. assert (U1 : u <= / 1000000000) by (cbn; lra).
    destruct (within_sub k _ _ ltac:(lia) T1 O1 T3 O3) as [[D1 _] DB1]. destruct (within_sub k _ _ ltac:(lia) T2 O2 T4 O4) as [[D2 _] DB2].
    destruct (within_sub k _ _ ltac:(lia) P1 O1 P3 O3) as [E1 _]. destruct (within_sub k _ _ ltac:(lia) P2 O2 P4 O4) as [E2 _].
    set (X := px (fpt t) - px (fpt o)). set (Y := py (fpt t) - py (fpt o)). set (d1 := Bminus mode_NE (vx t) (vx o)) in *. set (d2 := Bminus mode_NE (vy t) (vy o)) in *.
    assert (R : forall a b : F, is_finite a = true -> is_finite b = true -> Rabs (B2R a) <= bpow radix2 k -> Rabs (B2R b) <= bpow radix2 k -> Rabs (B2R (Bminus mode_NE a b) - (B2R a - B2R b)) <= u * Rabs (B2R a - B2R b)).
    { intros a b A1 B1 A2 B2. destruct (within_sub k a b ltac:(lia) A1 B1 A2 B2) as [_ B]. destruct (rnd_err _ (k + 1) ltac:(lia) B) as [_ R2]. destruct (F_sub a b A1 B1) as [S1 _]; [apply (finite_lt (k + 1)); [lia|exact R2]|].
      rewrite S1. apply (rnd_sum (B2R a) (- B2R b)); [apply fmt_F|apply fmt_opp, fmt_F]. }
    assert (RX : Rabs (B2R d1 - X) <= u * Rabs X) by (apply R; assumption). assert (RY : Rabs (B2R d2 - Y) <= u * Rabs Y) by (apply R; assumption). clear R.
    assert (NE : N = norm (X, Y)). { unfold edist. unfold norm, norm2, psub, X, Y, px, py. cbn [fst snd]. f_equal. ring. }
    destruct (abs_le_norm X Y) as [AX AY]. rewrite <- NE in AX, AY.
    assert (NR := norm_rel (B2R d1) (B2R d2) X Y u 0 ltac:(lra) ltac:(lra) ltac:(lra) ltac:(lra)). rewrite <- NE in NR. rewrite Rmult_0_r, Rplus_0_r in NR.
    set (n := N) in *. assert (NP : 0 < n) by lra.
    assert (NU : n <= bpow radix2 (k + 2)).
    { rewrite NE. unfold norm, norm2, px, py. cbn [fst snd]. rewrite <- (sqrt_square (bpow radix2 (k + 2))) by apply bpow_ge_0. apply sqrt_le_1_alt. replace (k + 2)%Z with (1 + (k + 1))%Z by lia. rewrite bp2.
      assert (SX : X * X <= bpow radix2 (k + 1) * bpow radix2 (k + 1)). { replace (X * X) with (Rabs X * Rabs X) by (rewrite <- Rabs_mult; apply Rabs_pos_eq, Rle_0_sqr). apply Rmult_le_compat; try apply Rabs_pos; exact DB1. }
      assert (SY : Y * Y <= bpow radix2 (k + 1) * bpow radix2 (k + 1)). { replace (Y * Y) with (Rabs Y * Rabs Y) by (rewrite <- Rabs_mult; apply Rabs_pos_eq, Rle_0_sqr). apply Rmult_le_compat; try apply Rabs_pos; exact DB2. }
      assert (0 <= bpow radix2 (k + 1) * bpow radix2 (k + 1)) by (apply Rmult_le_pos; apply bpow_ge_0). lra. }
    assert (UN : 0 < u * n) by (apply Rmult_lt_0_compat; lra). assert (UN1 : u * n <= / 1000000000 * n) by (apply Rmult_le_compat_r; lra).
    set (n' := norm (B2R d1, B2R d2)) in *. assert (NB : bpow radix2 (-480) <= n' <= bpow radix2 500).
    { apply Rabs_le_inv in NR. split.
      - apply Rle_trans with (bpow radix2 (-21)); [apply bpow_le; lia|]. change (bpow radix2 (-21)) with (/ 2097152). lra.
      - apply Rle_trans with (2 * bpow radix2 (k + 2)); [lra|]. rewrite <- bp2. apply bpow_le. lia. }
    destruct (C135_length_F L (V d1 d2) D1 D2 NB) as (_ & _ & len & RL & FL & EL). change (norm (pt (rvec (V d1 d2)))) with n' in EL.
    assert (ML : Rabs (B2R len - n) <= 4 * u * n).
    { replace (5 * bpow radix2 (-54)) with (5 / 2 * u) in EL by (change (-53)%Z with (1 + -54)%Z; rewrite bp2; field). replace (B2R len - n) with ((B2R len - n') + (n' - n)) by ring. eapply Rle_trans; [apply Rabs_triang|].
      apply Rabs_le_inv in NR. assert (u * n' <= u * (101 / 100 * n)) by (apply Rmult_le_compat_l; lra). assert (0 <= u * n) by lra. apply Rabs_le in NR. lra. }
    assert (N21 : bpow radix2 (-21) <= n) by (change (bpow radix2 (-21)) with (/ 2097152); lra).
    destruct (unit_coord d1 len X n D1 FL N21 AX RX ML) as (Z1 & B1 & LN). destruct (unit_coord d2 len Y n D2 FL N21 AY RY ML) as (Z2 & B2 & _).
    exists len, (Bdiv mode_NE d1 len), (Bdiv mode_NE d2 len). eexists. split; [exact RL|].
    destruct (eps_precise L) as [G1 G2].
    split. { cbn [nltb NumF]. rewrite ltb_F by assumption. apply Rlt_bool_false. apply Rabs_le_inv in G2, ML. assert (bpow radix2 (-73) <= / 1000000000000000) by (vm_compute; lra). lra. }
    split. { unfold Vector2D_truediv. cbn [ndiv NumF]. unfold F_div. assert (Z0 : F_is_zero len = false). { unfold F_is_zero. rewrite eqb_F; [|exact FL|reflexivity]. destruct (F_of_Z_exact 0 eq_refl) as [-> _]. now apply Req_bool_false. } rewrite Z0. reflexivity. }
    split; [reflexivity|]. split; [exact Z1|]. split; [exact Z2|]. split; [exact B1|]. split; [exact B2|].
    split.
    - unfold Vector2D_inner_product, Vector2D_sub, V. cbn [vx vy nadd nmul nsub NumF].
      assert (C := lin_close 1 (k + 1) _ _ _ _ _ _ _ _ _ _ ltac:(lia) B1 B2 Z1 Z2 E1 E2). replace (1 + (k + 1) + 1)%Z with (k + 3)%Z in C by lia.
      replace (lam * n) with (X / n * (B2R (vx p) - B2R (vx o)) + Y / n * (B2R (vy p) - B2R (vy o))).
      2: { assert (NN : n * n = X * X + Y * Y) by (rewrite NE; apply (norm_sq (X, Y))).
        assert (PE : X * (B2R (vx p) - B2R (vx o)) + Y * (B2R (vy p) - B2R (vy o)) = lam * (n * n)).
        { rewrite NN. revert Hperp. rewrite Hq. unfold dot, psub, X, Y, fpt, px, py. cbn [fst snd]. intros PP. lra. }
        apply (Rmult_eq_reg_r n); [|lra]. replace (lam * n * n) with (lam * (n * n)) by ring. rewrite <- PE. field. lra. }
      eapply close_weaken; [|exact C]. rewrite <- !bpow_plus. replace (1 + (k - 53))%Z with (1 + (k - 53))%Z by lia. replace (k + 1 + -50)%Z with (4 + (k - 53))%Z by lia. replace (1 + (k + 1) - 54)%Z with (1 + (k - 53))%Z by lia. replace (k - 47)%Z with (6 + (k - 53))%Z by lia. rewrite !(bpow_plus radix2 _ (k - 53)).
      change (bpow radix2 6) with 64. change (bpow radix2 4) with 16. change (bpow radix2 1) with 2. pose proof (bpow_ge_0 radix2 (k - 53)). lra.
    - set (e := @EPSILON F (NumF L)) in *. clearbody e. assert (K : / 1024 <= bpow radix2 k) by (change (/ 1024) with (bpow radix2 (-10)); apply bpow_le; lia).
      assert (T73 : bpow radix2 (-73) <= / 1000000000000000) by (vm_compute; lra).
      assert (BB : Rabs (B2R len + B2R e) <= bpow radix2 (k + 3)). { replace (k + 2)%Z with (2 + k)%Z in NU by lia. replace (k + 3)%Z with (3 + k)%Z by lia. rewrite bpow_plus in *. change (bpow radix2 2) with 4 in NU. change (bpow radix2 3) with 8. apply Rabs_le_inv in ML, G2. apply Rabs_le. lra. }
      destruct (rnd_err _ (k + 3) ltac:(lia) BB) as [S1 S2]. destruct (F_add len e FL G1) as [A1 A2]; [apply (finite_lt (k + 3)); [lia|exact S2]|]. split; [exact A2|]. rewrite A1. split; [exact S2|].
      assert (UB : 4 * u * n <= bpow radix2 (k - 49)). { replace (4 * u * n) with ((4 * u) * n) by ring. replace (k - 49)%Z with (-51 + (k + 2))%Z by lia. rewrite bpow_plus. replace (bpow radix2 (-51)) with (4 * u) by (change (-51)%Z with (1 + (1 + -53))%Z; rewrite !bp2; ring). apply Rmult_le_compat_l; lra. }
      assert (SB : bpow radix2 (-73) <= bpow radix2 (k - 51)) by (apply bpow_le; lia).
      replace (k + 3 - 54)%Z with (k - 51)%Z in S1 by lia. replace (k - 48)%Z with (1 + (1 + (1 + (k - 51))))%Z by lia. replace (k - 49)%Z with (1 + (1 + (k - 51)))%Z in UB by lia. rewrite !bp2 in *. apply Rabs_le_inv in S1, ML, G2. apply Rabs_le. lra.
  Qed.
  Lemma proj_value : - / 1000000 + m <= lm <= N + / 1000000 - m ->
    exists v, @Segment2D_projection F (NumF L) (mkSeg o t) p = Ok v /\ v_valid v = true /\ is_finite (vx v) = true /\ is_finite (vy v) = true /\
      Rabs (B2R (vx v)) <= bpow radix2 (k + 5) /\ Rabs (B2R (vy v)) <= bpow radix2 (k + 5) /\ Rabs (B2R (vx v) - px q) <= bpow radix2 (k - 44) /\ Rabs (B2R (vy v) - py q) <= bpow radix2 (k - 44).
  Proof.
    intros [R1 R2]. destruct proj_core as (len & z1 & z2 & ip & C1 & C2 & C3 & C4 & Z1 & Z2 & B1 & B2 & CI & CL). pose proof u_pos as HU.
    destruct (eps_precise L) as [G1 G2]. destruct Wo as (O1 & O2 & O3 & O4).
    assert (K1 : bpow radix2 (-73) <= bpow radix2 (k - 48)) by (apply bpow_le; lia).
    unfold Segment2D_projection. cbn [s_origin s_terminal]. rewrite C1. cbn [bind]. rewrite C2, C3. cbn [bind]. rewrite C4.
    assert (CMP : @nltb F (NumF L) (@nneg F (NumF L) (@EPSILON F (NumF L))) ip && @nltb F (NumF L) ip (@nadd F (NumF L) len (@EPSILON F (NumF L))) = true).
    { destruct CI as (I1 & _ & I3). destruct CL as (L1 & _ & L3). cbn [nltb nneg nadd NumF]. set (e := @EPSILON F (NumF L)) in *. rewrite !ltb_F by (rewrite ?is_finite_Bopp; assumption). rewrite B2R_Bopp.
      replace (k - 46)%Z with (1 + (1 + (k - 48)))%Z in R1, R2 by lia. replace (k - 47)%Z with (1 + (k - 48))%Z in I3 by lia. rewrite !bp2 in *. pose proof (bpow_gt_0 radix2 (k - 48)). apply Rabs_le_inv in I3, L3, G2.
      rewrite !Rlt_bool_true by lra. reflexivity. }
    rewrite CMP. eexists. split; [reflexivity|]. unfold Vector2D_iadd, Vector2D_imul, Vector2D_of_vec, V. cbn [vx vy v_valid nadd nmul NumF]. split; [reflexivity|].
    assert (G : forall (z a : F) (Z : R), close 1 (bpow radix2 (-50)) Z z -> Rabs Z <= bpow radix2 1 -> is_finite a = true -> Rabs (B2R a) <= bpow radix2 k -> close (k + 5) (bpow radix2 (k - 44)) (B2R a + Z * lm) (Bplus mode_NE a (Bmult mode_NE z ip))).
    { intros z a Z CZ BZ A1 A2. assert (CM := close_mul 1 (k + 3) _ _ _ _ _ _ ltac:(lia) BZ CZ CI). replace (1 + (k + 3))%Z with (k + 4)%Z in CM by lia.
      assert (CA : close (k + 4) 0 (B2R a) a) by (apply (close_up k); [lia|apply close_exact; assumption]). assert (CS := close_add (k + 4) _ _ _ _ _ _ ltac:(lia) CA CM). replace (k + 4 + 1)%Z with (k + 5)%Z in CS by lia. eapply close_weaken; [|exact CS].
      rewrite <- !bpow_plus. replace (1 + (k - 47))%Z with (4 + (k - 50))%Z by lia. replace (k + 3 + -50)%Z with (3 + (k - 50))%Z by lia. replace (k + 4 - 54)%Z with (0 + (k - 50))%Z by lia. replace (k + 5 - 54)%Z with (1 + (k - 50))%Z by lia. replace (k - 44)%Z with (6 + (k - 50))%Z by lia. rewrite !(bpow_plus radix2 _ (k - 50)).
      change (bpow radix2 6) with 64. change (bpow radix2 4) with 16. change (bpow radix2 3) with 8. change (bpow radix2 1) with 2. change (bpow radix2 0) with 1. pose proof (bpow_ge_0 radix2 (k - 50)). lra. }
    destruct (G _ (vx o) _ Z1 B1 O1 O3) as (U1 & U2 & U3). destruct (G _ (vy o) _ Z2 B2 O2 O4) as (V1 & V2 & V3).
    split; [exact U1|]. split; [exact V1|]. split; [exact U2|]. split; [exact V2|].
    assert (NN : N <> 0) by lra.
    split; [replace (px q) with (B2R (vx o) + (px (fpt t) - px (fpt o)) / N * lm); [exact U3|]|replace (py q) with (B2R (vy o) + (py (fpt t) - py (fpt o)) / N * lm); [exact V3|]]; rewrite Hq; cbn [px py fst snd fpt]; field; exact NN.
  Qed.
  Lemma proj_none : lm <= - / 1000000 - m \/ N + / 1000000 + m <= lm -> @Segment2D_projection F (NumF L) (mkSeg o t) p = Ok (@Vector2D_invalid F (NumF L)).
  Proof.
    intros R. destruct proj_core as (len & z1 & z2 & ip & C1 & C2 & C3 & C4 & _ & _ & _ & _ & CI & CL). destruct (eps_precise L) as [G1 G2].
    assert (K1 : bpow radix2 (-73) <= bpow radix2 (k - 48)) by (apply bpow_le; lia).
    unfold Segment2D_projection. cbn [s_origin s_terminal]. rewrite C1. cbn [bind]. rewrite C2, C3. cbn [bind]. rewrite C4.
    assert (CMP : @nltb F (NumF L) (@nneg F (NumF L) (@EPSILON F (NumF L))) ip && @nltb F (NumF L) ip (@nadd F (NumF L) len (@EPSILON F (NumF L))) = false).
    { destruct CI as (I1 & _ & I3). destruct CL as (L1 & _ & L3). cbn [nltb nneg nadd NumF]. set (e := @EPSILON F (NumF L)) in *. rewrite !ltb_F by (rewrite ?is_finite_Bopp; assumption). rewrite B2R_Bopp.
      replace (k - 46)%Z with (1 + (1 + (k - 48)))%Z in R by lia. replace (k - 47)%Z with (1 + (k - 48))%Z in I3 by lia. rewrite !bp2 in *. pose proof (bpow_gt_0 radix2 (k - 48)). apply Rabs_le_inv in I3, L3, G2.
      destruct R as [R|R]; [rewrite Rlt_bool_false by lra; reflexivity|rewrite (Rlt_bool_false (B2R ip)) by lra; apply andb_false_r]. }
    rewrite CMP. reflexivity.
  Qed.
End Proj.

(** ** C165: projecting a point onto a segment *)
(** q is the foot of the perpendicular from p on the line through the segment,
    at parameter lam (0 at the origin, 1 at the terminal). *)
Theorem C165_projection_F : forall (L : libm) (k : Z) (s : seg F) (p : vec F) (q : point) (lam : R), (-10 <= k <= 200)%Z ->
  within k (s_origin s) -> within k (s_terminal s) -> within k p ->
  let o := fpt (s_origin s) in let t := fpt (s_terminal s) in let N := edist o t in let m := bpow radix2 (k - 46) in
  1 / 999998 <= N -> q = ((1 - lam) * px o + lam * px t, (1 - lam) * py o + lam * py t) -> dot (psub t o) (psub (fpt p) q) = 0 ->
  (** the foot is on the segment, or beyond it by less than the tolerance *)
  (- / 1000000 + m <= lam * N <= N + / 1000000 - m ->
     (exists v, @Segment2D_projection F (NumF L) s p = Ok v /\ v_valid v = true /\ chebyshev (fpt v) q <= bpow radix2 (k - 44)) /\
     (exists b, @Segment2D_on_segment_weakly F (NumF L) s p = Ok b /\ decides b (chebyshev (fpt p) q) (/ 1000000) (bpow radix2 (k - 43)))) /\
  (** the foot is beyond an end by more *)
  (lam * N <= - / 1000000 - m \/ N + / 1000000 + m <= lam * N ->
     (exists v, @Segment2D_projection F (NumF L) s p = Ok v /\ v_valid v = false) /\ @Segment2D_on_segment_weakly F (NumF L) s p = Ok false).
Proof.
  intros L k s p q lam Hk Wo Wt Wp o t N m HN Hq Hp. destruct s as [so st]. cbn [s_origin s_terminal] in *. split.
  - intros R. destruct (proj_value L k so st p q lam Hk Wo Wt Wp HN Hq Hp R) as (v & E1 & E2 & F1 & F2 & B1 & B2 & X & Y). split.
    + exists v. split; [exact E1|]. split; [exact E2|]. unfold chebyshev. apply Rmax_lub; assumption.
    + unfold Segment2D_on_segment_weakly. rewrite E1. cbn [bind]. rewrite E2. cbn [andb]. eexists. split; [reflexivity|].
      destruct Wp as (P1 & P2 & P3 & P4).
      assert (K5 : bpow radix2 (k + 5) <= bpow radix2 900) by (apply bpow_le; lia). assert (K0 : bpow radix2 k <= bpow radix2 900) by (apply bpow_le; lia).
      assert (D : decides (@Vector2D_equals_weakly F (NumF L) p v) (chebyshev (fpt p) (fpt v)) (/ 1000000) (bpow radix2 (-71))) by (apply decides_and; apply tol_sub; try assumption; lra).
      assert (K1 : bpow radix2 (-71) <= bpow radix2 (k - 44)) by (apply bpow_le; lia). replace (k - 43)%Z with (1 + (k - 44))%Z by lia. rewrite bp2.
      assert (C : Rabs (chebyshev (fpt p) (fpt v) - chebyshev (fpt p) q) <= bpow radix2 (k - 44)).
      { unfold chebyshev. cbn [fpt px py fst snd]. change (fst q) with (px q). change (snd q) with (py q). apply Rabs_le_inv in X, Y. set (e := bpow radix2 (k - 44)) in *. apply Rabs_le.
        assert (A : forall a b c, - e <= b - c <= e -> - e <= Rabs (a - b) - Rabs (a - c) <= e) by (intros a b c H; unfold Rabs; destruct (Rcase_abs (a - b)), (Rcase_abs (a - c)); lra).
        specialize (A (B2R (vx p)) _ _ X) as AX. specialize (A (B2R (vy p)) _ _ Y) as AY. unfold Rmax. destruct (Rle_dec _ _), (Rle_dec _ _); lra. }
      apply Rabs_le_inv in C. destruct D as [D1 D2]. split; intros H; [apply D1|apply D2]; lra.
  - intros R. assert (E := proj_none L k so st p q lam Hk Wo Wt Wp HN Hq Hp R). split; [eexists; split; [exact E|reflexivity]|]. unfold Segment2D_on_segment_weakly. rewrite E. reflexivity.
Qed.
Example C165_nonvacuous : exists (s : seg F) (p : vec F) (q : point) (lam : R), within 4 (s_origin s) /\ within 4 (s_terminal s) /\ within 4 p /\
  let o := fpt (s_origin s) in let t := fpt (s_terminal s) in let N := edist o t in let m := bpow radix2 (4 - 46) in
  1 / 999998 <= N /\ q = ((1 - lam) * px o + lam * px t, (1 - lam) * py o + lam * py t) /\ dot (psub t o) (psub (fpt p) q) = 0 /\ - / 1000000 + m <= lam * N <= N + / 1000000 - m.
Proof.
  exists (mkSeg (mkVec (F_of_Z 0) (F_of_Z 0) true) (mkVec (F_of_Z 3) (F_of_Z 4) true)), (mkVec (F_of_Z (-1)) (F_of_Z 7) true), (3, 4), 1.
  destruct (F_of_Z_exact 0 eq_refl) as [E1 E2]. destruct (F_of_Z_exact 3 eq_refl) as [E3 E4]. destruct (F_of_Z_exact 4 eq_refl) as [E5 E6]. destruct (F_of_Z_exact (-1) eq_refl) as [E7 E8]. destruct (F_of_Z_exact 7 eq_refl) as [E9 E10].
  unfold within, fpt, edist, dot, psub, px, py. cbn [s_origin s_terminal vx vy fst snd]. rewrite E1, E3, E5, E7, E9. change (bpow radix2 4) with 16.
  replace (norm (0 - 3, 0 - 4)) with 5. 2: { unfold norm, norm2, px, py. cbn [fst snd]. replace ((0 - 3) * (0 - 3) + (0 - 4) * (0 - 4)) with (5 * 5) by lra. symmetry. apply sqrt_square. lra. }
  assert (B : bpow radix2 (4 - 46) <= / 10000000) by (vm_compute; lra). set (b := bpow radix2 (4 - 46)) in *. clearbody b.
  repeat split; try assumption; try (apply Rabs_le); try lra. f_equal; ring.
Qed.
