(** * P_Grid: exactness in binary64 for coordinates on a grid (C112)

    Coordinates that are integer multiples, up to 2^25, of a power of two 2^e:
    then orientation tests are exact in double arithmetic, and so are the
    algorithms built on them, although some intermediate values (the far end of
    the half line of Polygon2D.contains) are rounded. *)
From Coq Require Import ZArith List Bool String Reals Lra Lia Psatz Permutation Classical.
From Flocq Require Import Core BinarySingleNaN.
From Verif Require Import Base Types NumR NumF R_Tac Spec Spec2 Abs M_Angle M_Vector M_Line M_Triangle M_Segment M_Sector M_Rect M_Polygon M_Hull
  L_Angle P_Angle P_Vector P_Line L_Seg P_Segment P_Triangle P_Rect P_Polygon P_Polygon2 L_Float P_Float.
Import ListNotations.
Local Open Scope R_scope.

(** ** Results between representable bounds *)
Definition cap : R := bpow radix2 1000.
Lemma cap_lt x : Rabs x <= cap -> Rabs x < bpow radix2 1024.
Proof. intros H. apply Rle_lt_trans with (1 := H). apply bpow_lt. lia. Qed.
Lemma between_cap a b r : fmt64 a -> fmt64 b -> - cap <= a -> b <= cap -> a <= r <= b ->
  a <= rnd64 r <= b /\ Rabs (rnd64 r) < bpow radix2 1024.
Proof.
  intros Fa Fb Ca Cb H. pose proof (rnd_between r a b Fa Fb H) as K. split; [exact K|]. apply cap_lt. apply Rabs_le. lra.
Qed.
Lemma add_between x y a b : is_finite x = true -> is_finite y = true -> fmt64 a -> fmt64 b -> - cap <= a -> b <= cap ->
  a <= B2R x + B2R y <= b -> is_finite (Bplus mode_NE x y) = true /\ a <= B2R (Bplus mode_NE x y) <= b.
Proof.
  intros X Y Fa Fb Ca Cb H. destruct (between_cap _ _ _ Fa Fb Ca Cb H) as [K1 K2]. destruct (F_add x y X Y K2) as [E1 E2]. rewrite E1. now split.
Qed.
Lemma sub_between x y a b : is_finite x = true -> is_finite y = true -> fmt64 a -> fmt64 b -> - cap <= a -> b <= cap ->
  a <= B2R x - B2R y <= b -> is_finite (Bminus mode_NE x y) = true /\ a <= B2R (Bminus mode_NE x y) <= b.
Proof.
  intros X Y Fa Fb Ca Cb H. destruct (between_cap _ _ _ Fa Fb Ca Cb H) as [K1 K2]. destruct (F_sub x y X Y K2) as [E1 E2]. rewrite E1. now split.
Qed.
Lemma mul_between x y a b : is_finite x = true -> is_finite y = true -> fmt64 a -> fmt64 b -> - cap <= a -> b <= cap ->
  a <= B2R x * B2R y <= b -> is_finite (Bmult mode_NE x y) = true /\ a <= B2R (Bmult mode_NE x y) <= b.
Proof.
  intros X Y Fa Fb Ca Cb H. destruct (between_cap _ _ _ Fa Fb Ca Cb H) as [K1 K2]. destruct (F_mul x y X Y K2) as [E1 E2]. rewrite E1. now split.
Qed.
Lemma units_cap n e k : (Z.abs n <= 2 ^ k)%Z -> (0 <= k)%Z -> (e + k <= 1000)%Z -> - cap <= IZR n * bpow radix2 e <= cap.
Proof. intros. apply Rabs_le_inv. apply (units_small n e k); assumption. Qed.

(** The sign of a product of two numbers that are zero or not tiny *)
Definition tame (x : F) : Prop := is_finite x = true /\ (B2R x = 0 \/ bpow radix2 (-500) <= Rabs (B2R x) <= bpow radix2 470).
Lemma tame_mul_neg x y : tame x -> tame y -> Bltb (Bmult mode_NE x y) (F_of_Z 0) = Rlt_bool (B2R x * B2R y) 0.
Proof.
  intros [X1 X2] [Y1 Y2].
  assert (F0 : fmt64 0) by (apply (fmt_Z 0); lia).
  assert (FL : fmt64 (bpow radix2 (-1000))) by (apply fmt_bpow; lia). assert (FU : fmt64 (bpow radix2 940)) by (apply fmt_bpow; lia).
  assert (CU : bpow radix2 940 <= cap) by (apply bpow_le; lia). assert (P1 : 0 < bpow radix2 (-1000)) by apply bpow_gt_0.
  assert (CL : bpow radix2 (-1000) <= bpow radix2 940) by (apply bpow_le; lia).
  destruct (F_of_Z_exact 0 eq_refl) as [Z1 Z2].
  assert (M : B2R x * B2R y = 0 \/ bpow radix2 (-1000) <= Rabs (B2R x * B2R y) <= bpow radix2 940).
  { destruct X2 as [X2|[XL XU]]; [left; rewrite X2; ring|]. destruct Y2 as [Y2|[YL YU]]; [left; rewrite Y2; ring|]. right. rewrite Rabs_mult.
    replace (bpow radix2 (-1000)) with (bpow radix2 (-500) * bpow radix2 (-500)) by (rewrite <- bpow_plus; f_equal; lia).
    replace (bpow radix2 940) with (bpow radix2 470 * bpow radix2 470) by (rewrite <- bpow_plus; f_equal; lia).
    pose proof (bpow_gt_0 radix2 (-500)). split; apply Rmult_le_compat; lra. }
  destruct M as [M|[ML MU]].
  - destruct (mul_between x y 0 0 X1 Y1 F0 F0) as [A B]; try lra. rewrite ltb_F, Z1, M by easy. rewrite !Rlt_bool_false; auto; lra.
  - unfold Rabs in ML, MU. destruct Rcase_abs as [N|N].
    + destruct (mul_between x y (- bpow radix2 940) (- bpow radix2 (-1000)) X1 Y1 (fmt_opp _ FU) (fmt_opp _ FL)) as [A B]; try lra.
      rewrite ltb_F, Z1 by easy. rewrite !Rlt_bool_true; auto; lra.
    + destruct (mul_between x y (bpow radix2 (-1000)) (bpow radix2 940) X1 Y1 FL FU) as [A B]; try lra.
      rewrite ltb_F, Z1 by easy. rewrite !Rlt_bool_false; auto; lra.
Qed.

Lemma zmul_pos a b : (1 <= a -> 1 <= b -> 1 <= a * b)%Z. Proof. nia. Qed.
Lemma zmul_pos2 a b : (1 <= a -> 1 <= b -> 1 <= 2 * (a * b))%Z. Proof. nia. Qed.
Lemma zmul_neg a b : (1 <= a -> b <= -1 -> 2 * (a * b) <= -1)%Z. Proof. nia. Qed.
Lemma zmul_bound a b c d : (Z.abs a <= c -> Z.abs b <= d -> Z.abs (a * b) <= c * d)%Z.
Proof. intros. rewrite Z.abs_mul. apply Z.mul_le_mono_nonneg; lia. Qed.

(** ** A far point at the level of [p] *)
(** [p] = (pn, pm) units, [x] is at least 3 W units to the right of [p] *)
Section Far.
  Variables (L : libm) (e : Z) (p : vec F) (x : F) (pn pm W : Z).
  Hypothesis He : (-250 <= e <= 200)%Z.
  Hypothesis Pn : (Z.abs pn <= 2 ^ 25)%Z.
  Hypothesis Pm : (Z.abs pm <= 2 ^ 25)%Z.
  Hypothesis Px : units e pn (vx p).
  Hypothesis Py : units e pm (vy p).
  Hypothesis HW : (1 <= W <= 2 ^ 27)%Z.
  Hypothesis Fx : is_finite x = true.
  Hypothesis Lx : IZR (pn + 3 * W) * bpow radix2 e <= B2R x <= IZR (2 ^ 31) * bpow radix2 e.
  Let u := bpow radix2 e.
  Let E : vec F := mkVec x (vy p) true.
  Local Lemma u_pos : 0 < u. Proof. apply bpow_gt_0. Qed.
  Local Lemma u2_pos : 0 < u * u. Proof. pose proof u_pos. nra. Qed.
  Local Lemma uu : bpow radix2 (e + e) = u * u. Proof. apply bpow_plus. Qed.
  Local Lemma fu n : (Z.abs n <= 2 ^ 53)%Z -> fmt64 (IZR n * u). Proof. intros. apply fmt_units; lia. Qed.
  Local Lemma fuu n : (Z.abs n <= 2 ^ 53)%Z -> fmt64 (IZR n * (u * u)). Proof. intros. rewrite <- uu. apply fmt_units; lia. Qed.
  Local Lemma fuu2 n : (Z.abs n <= 2 ^ 53)%Z -> fmt64 (IZR (2 * n) * (u * u)).
  Proof. intros. replace (IZR (2 * n) * (u * u)) with (IZR n * bpow radix2 (e + e + 1)); [apply fmt_units; lia|]. rewrite bpow_plus, uu, mult_IZR. change (bpow radix2 1) with 2. ring. Qed.
  Local Lemma cu n : (Z.abs n <= 2 ^ 62)%Z -> - cap <= IZR n * u <= cap. Proof. intros. apply (units_cap n e 62); lia. Qed.
  Local Lemma cuu n : (Z.abs n <= 2 ^ 62)%Z -> - cap <= IZR n * (u * u) <= cap. Proof. intros. rewrite <- uu. apply (units_cap n (e + e) 62); lia. Qed.
  Local Lemma pow60 : fmt64 (IZR (2 ^ 60) * (u * u)).
  Proof. rewrite <- uu. replace (IZR (2 ^ 60) * bpow radix2 (e + e)) with (IZR 1 * bpow radix2 (e + e + 60)); [apply fmt_units; lia|]. rewrite bpow_plus. change (bpow radix2 60) with (IZR (2 ^ 60)). ring. Qed.
  Local Lemma pow59 : fmt64 (IZR (2 ^ 59) * (u * u)).
  Proof. rewrite <- uu. replace (IZR (2 ^ 59) * bpow radix2 (e + e)) with (IZR 1 * bpow radix2 (e + e + 59)); [apply fmt_units; lia|]. rewrite bpow_plus. change (bpow radix2 59) with (IZR (2 ^ 59)). ring. Qed.

  (** a vertex within W units of [p] horizontally *)
  Definition near (v : vec F) (n m : Z) : Prop :=
    (Z.abs n <= 2 ^ 25)%Z /\ (Z.abs m <= 2 ^ 25)%Z /\ units e n (vx v) /\ units e m (vy v) /\ (Z.abs (n - pn) <= W)%Z.

  (** ex - vx *)
  Lemma reach v n m : near v n m -> is_finite (Bminus mode_NE x (vx v)) = true /\
    IZR (2 * W) * u <= B2R (Bminus mode_NE x (vx v)) <= IZR (2 ^ 32) * u.
  Proof.
    intros (N1 & N2 & [N3 N3'] & N4 & N5). pose proof u_pos.
    apply sub_between; [exact Fx|exact N3|apply fu; lia|apply fu; lia|apply cu; lia|apply cu; lia|].
    rewrite N3'. fold u in Lx |- *. split.
    - apply Rle_trans with (IZR (pn + 3 * W - n) * u); [apply Rmult_le_compat_r; [lra|]; apply IZR_le; lia|]. rewrite minus_IZR. lra.
    - apply Rle_trans with (IZR (2 ^ 31 - n) * u); [rewrite minus_IZR; lra|]. apply Rmult_le_compat_r; [lra|]. apply IZR_le. lia.
  Qed.
  (** a reach times a vertical difference of k units *)
  Lemma reach_mul (s t : F) k : is_finite s = true -> IZR (2 * W) * u <= B2R s <= IZR (2 ^ 32) * u -> (Z.abs k <= 2 ^ 26)%Z -> units e k t ->
    is_finite (Bmult mode_NE s t) = true /\
    ((0 < k)%Z -> IZR (2 * (W * k)) * (u * u) <= B2R (Bmult mode_NE s t) <= IZR (2 ^ 59) * (u * u)) /\
    ((k < 0)%Z -> - IZR (2 ^ 59) * (u * u) <= B2R (Bmult mode_NE s t) <= IZR (2 * (W * k)) * (u * u)) /\
    (k = 0%Z -> B2R (Bmult mode_NE s t) = 0).
  Proof.
    intros Fs Ls Hk [T1 T2]. fold u in T2. pose proof u_pos as U. pose proof u2_pos as U2. pose proof pow59 as P59.
    assert (C59 : - cap <= IZR (2 ^ 59) * (u * u) <= cap) by (apply cuu; lia).
    assert (HWk : (Z.abs (W * k) <= 2 ^ 53)%Z) by (apply (zmul_bound W k (2 ^ 27) (2 ^ 26)); lia).
    assert (WU : IZR (2 * W) * u = 2 * IZR W * u) by (rewrite mult_IZR; ring). assert (W1 : 1 <= IZR W) by (apply IZR_le; lia).
    assert (WK : IZR (2 * (W * k)) * (u * u) = 2 * IZR W * u * (IZR k * u)) by (rewrite !mult_IZR; ring).
    assert (KB : Rabs (IZR k) <= IZR (2 ^ 26)) by (rewrite <- abs_IZR; now apply IZR_le).
    assert (CW : - cap <= IZR (2 * (W * k)) * (u * u) <= cap) by (apply cuu; lia).
    assert (FW : fmt64 (IZR (2 * (W * k)) * (u * u))) by (apply fuu2; easy).
    assert (S0 : 0 <= B2R s) by (rewrite WU in Ls; nra).
    assert (UB : B2R s * Rabs (IZR k * u) <= IZR (2 ^ 59) * (u * u)).
    { rewrite Rabs_mult, (Rabs_pos_eq u) by lra. pose proof (Rabs_pos (IZR k)).
      apply Rle_trans with (IZR (2 ^ 32) * u * (IZR (2 ^ 26) * u)); [|replace (IZR (2 ^ 32) * u * (IZR (2 ^ 26) * u)) with (IZR (2 ^ 32) * IZR (2 ^ 26) * (u * u)) by ring; apply Rmult_le_compat_r; lra].
      apply Rmult_le_compat; try lra; nra. }
    destruct (Z.lt_trichotomy k 0) as [K|[K|K]].
    - assert (K' : IZR k <= -1) by (apply IZR_le; lia). assert (KU : IZR k * u < 0) by nra.
      rewrite Rabs_left in UB by easy.
      destruct (mul_between s t (- (IZR (2 ^ 59) * (u * u))) (IZR (2 * (W * k)) * (u * u)) Fs T1 (fmt_opp _ P59) FW) as [A B]; try lra.
      { rewrite T2, WK. split; [lra|]. rewrite WU in Ls. nra. }
      split; [easy|]. split; [lia|]. split; [intros _; lra|lia].
    - subst k. destruct (mul_between s t 0 0 Fs T1) as [A B]; try (apply (fmt_Z 0); lia); try (pose proof (bpow_ge_0 radix2 1000); unfold cap; lra).
      { rewrite T2. lra. } split; [easy|]. split; [lia|]. split; [lia|]. intros _; lra.
    - assert (K' : 1 <= IZR k) by (apply IZR_le; lia). assert (KU : 0 < IZR k * u) by nra.
      rewrite Rabs_pos_eq in UB by lra.
      destruct (mul_between s t (IZR (2 * (W * k)) * (u * u)) (IZR (2 ^ 59) * (u * u)) Fs T1 FW P59) as [A B]; try lra.
      { rewrite T2, WK. split; [|lra]. rewrite WU in Ls. nra. }
      split; [easy|]. split; [intros _; lra|]. split; [lia|lia].
  Qed.
  Lemma diff_units y z n m : units e n y -> units e m z -> (Z.abs n <= 2 ^ 25)%Z -> (Z.abs m <= 2 ^ 25)%Z -> units e (n - m) (Bminus mode_NE y z).
  Proof. intros. apply units_sub; try assumption; lia. Qed.

  (** the orientation of (p, E, v) has the sign of vy - py *)
  Lemma area_a v n m : near v n m -> let a := @double_signed_area_st F (NumF L) p E v in
    tame a /\ ((pm < m)%Z -> 0 < B2R a) /\ ((m < pm)%Z -> B2R a < 0) /\ (m = pm -> B2R a = 0).
  Proof.
    intros N a. pose proof (reach v n m N) as [R1 R2]. destruct N as (N1 & N2 & N3 & N4 & N5).
    pose proof u_pos as U. pose proof u2_pos as U2.
    unfold a, double_signed_area_st. cbn [nadd nsub nmul NumF E vx vy].
    assert (D1 : units e (pn - n) (Bminus mode_NE (vx p) (vx v))) by (apply diff_units; assumption).
    assert (D2 : units e (pm - m) (Bminus mode_NE (vy p) (vy v))) by (apply diff_units; assumption).
    assert (D3 : units e (m - pm) (Bminus mode_NE (vy v) (vy p))) by (apply diff_units; assumption).
    assert (Q1 : units (e + e) ((pn - n) * (pm - m)) (Bmult mode_NE (Bminus mode_NE (vx p) (vx v)) (Bminus mode_NE (vy p) (vy v)))).
    { apply units_mul; [exact D1|exact D2| |lia]. apply Z.le_trans with (2 ^ 26 * 2 ^ 26)%Z; [apply zmul_bound; lia|lia]. }
    destruct (reach_mul _ _ (m - pm) R1 R2 ltac:(lia) D3) as (M1 & M2 & M3 & M4).
    set (q1 := Bmult mode_NE (Bminus mode_NE (vx p) (vx v)) _) in *. set (q2 := Bmult mode_NE (Bminus mode_NE x (vx v)) _) in *.
    destruct Q1 as [Q1 Q1']. rewrite uu in Q1'.
    assert (WA : (Z.abs ((pn - n) * (pm - m)) <= W * Z.abs (m - pm))%Z) by (rewrite Z.abs_mul; apply Z.mul_le_mono_nonneg; lia).
    assert (WB : (W * Z.abs (m - pm) <= 2 ^ 53)%Z) by (apply (Z.mul_le_mono_nonneg W (2 ^ 27) (Z.abs (m - pm)) (2 ^ 26)); lia).
    assert (B500 : bpow radix2 (-500) <= u * u) by (rewrite <- uu; apply bpow_le; lia).
    assert (B470 : IZR (2 ^ 60) * (u * u) <= bpow radix2 470).
    { rewrite <- uu. change (IZR (2 ^ 60)) with (bpow radix2 60). rewrite <- bpow_plus. apply bpow_le. lia. }
    pose proof pow60 as F60. assert (C60 : - cap <= IZR (2 ^ 60) * (u * u) <= cap) by (apply cuu; lia).
    assert (Z59 : IZR (2 ^ 60) = 2 * IZR (2 ^ 59)) by (rewrite <- mult_IZR; reflexivity).
    assert (Z53 : IZR (2 ^ 53) <= IZR (2 ^ 59)) by (apply IZR_le; lia).
    assert (QB : Rabs (B2R q1) <= IZR (W * Z.abs (m - pm)) * (u * u)).
    { rewrite Q1', Rabs_mult, (Rabs_pos_eq (u * u)), <- abs_IZR by lra. apply Rmult_le_compat_r; [lra|]. now apply IZR_le. }
    assert (QB' : IZR (W * Z.abs (m - pm)) * (u * u) <= IZR (2 ^ 53) * (u * u)) by (apply Rmult_le_compat_r; [lra|]; now apply IZR_le).
    apply Rabs_le_inv in QB.
    destruct (Z.lt_trichotomy (m - pm) 0) as [K|[K|K]].
    - specialize (M3 K). rewrite (Z.abs_neq (m - pm)) in * by lia.
      assert (EW : IZR (2 * (W * (m - pm))) = - (2 * IZR (W * - (m - pm)))) by (rewrite <- mult_IZR, <- opp_IZR; f_equal; lia).
      assert (W1 : 1 <= IZR (W * - (m - pm))) by (apply IZR_le, zmul_pos; lia).
      assert (FW : fmt64 (IZR (W * - (m - pm)) * (u * u))) by (apply fuu; lia).
      assert (CW : - cap <= IZR (W * - (m - pm)) * (u * u) <= cap) by (apply cuu; lia).
      rewrite EW in M3.
      destruct (add_between q1 q2 (- (IZR (2 ^ 60) * (u * u))) (- (IZR (W * - (m - pm)) * (u * u))) Q1 M1 (fmt_opp _ F60) (fmt_opp _ FW)) as [A B]; try nra.
      assert (B1 : u * u <= IZR (W * - (m - pm)) * (u * u)) by nra.
      split; [split; [exact A|]; right; rewrite Rabs_left by lra; lra|]. split; [lia|]. split; [intros _; lra|lia].
    - rewrite K in *. assert (Z0 : B2R q1 = 0) by (replace (W * Z.abs 0)%Z with 0%Z in QB by lia; lra).
      destruct (add_between q1 q2 0 0 Q1 M1) as [A B]; try (apply (fmt_Z 0); lia); try (pose proof (bpow_ge_0 radix2 1000); unfold cap; lra).
      { rewrite Z0, M4 by easy. lra. }
      split; [split; [exact A|left; lra]|]. split; [lia|]. split; [lia|]. intros _; lra.
    - specialize (M2 K). rewrite (Z.abs_eq (m - pm)) in * by lia.
      assert (EW : IZR (2 * (W * (m - pm))) = 2 * IZR (W * (m - pm))) by (rewrite <- mult_IZR; f_equal; lia).
      assert (W1 : 1 <= IZR (W * (m - pm))) by (apply IZR_le, zmul_pos; lia).
      assert (FW : fmt64 (IZR (W * (m - pm)) * (u * u))) by (apply fuu; lia).
      assert (CW : - cap <= IZR (W * (m - pm)) * (u * u) <= cap) by (apply cuu; lia).
      rewrite EW in M2.
      destruct (add_between q1 q2 (IZR (W * (m - pm)) * (u * u)) (IZR (2 ^ 60) * (u * u)) Q1 M1 FW F60) as [A B]; try nra.
      assert (B1 : u * u <= IZR (W * (m - pm)) * (u * u)) by nra.
      split; [split; [exact A|]; right; rewrite Rabs_pos_eq by lra; lra|]. split; [intros _; lra|]. split; lia.
  Qed.
  (** the same over the reals *)
  Lemma area_a_R v n m : near v n m -> let a := double_signed_area_st (rvec p) (rvec E) (rvec v) in
    ((pm < m)%Z -> 0 < a) /\ ((m < pm)%Z -> a < 0) /\ (m = pm -> a = 0).
  Proof.
    intros (N1 & N2 & [N3 N3'] & [N4 N4'] & N5) a. pose proof u_pos as U. destruct Px as [_ PX], Py as [_ PY]. fold u in PX, PY, N3', N4', Lx.
    assert (A : a = (B2R x - B2R (vx p)) * (IZR (m - pm) * u)).
    { unfold a, double_signed_area_st, rvec, E. cbn [vx vy]. rnum. rewrite N3', N4', PX, PY, minus_IZR. ring. }
    assert (X : 0 < B2R x - B2R (vx p)).
    { rewrite PX. assert (IZR pn + 1 <= IZR (pn + 3 * W)) by (rewrite <- plus_IZR; apply IZR_le; lia). nra. }
    rewrite A. split; [|split]; intros K.
    - assert (1 <= IZR (m - pm)) by (apply IZR_le; lia). apply Rmult_lt_0_compat; nra.
    - assert (IZR (m - pm) <= -1) by (apply IZR_le; lia). assert (IZR (m - pm) * u < 0) by nra. nra.
    - subst m. rewrite Z.sub_diag. ring.
  Qed.
  (** the orientation of (v, w, E) when one is above and one below, or one is
      level with p *)
  Lemma area_b v n m w n' m' : near v n m -> near w n' m' ->
    let b := @double_signed_area_st F (NumF L) v w E in let b' := double_signed_area_st (rvec v) (rvec w) (rvec E) in
    ((m <= pm <= m' /\ m < m')%Z -> tame b /\ B2R b < 0 /\ b' < 0) /\
    ((m' <= pm <= m /\ m' < m)%Z -> tame b /\ 0 < B2R b /\ 0 < b').
  Proof.
    intros V V' b b'. pose proof (reach v n m V) as [R1 R2]. pose proof (reach w n' m' V') as [R1' R2'].
    destruct V as (N1 & N2 & N3 & N4 & N5). destruct V' as (N1' & N2' & N3' & N4' & N5').
    pose proof u_pos as U. pose proof u2_pos as U2.
    (* vx v - x is the opposite of x - vx v *)
    assert (OPP : forall y z : F, is_finite y = true -> is_finite z = true -> Rabs (B2R (Bminus mode_NE y z)) <= cap -> is_finite (Bminus mode_NE y z) = true ->
      is_finite (Bminus mode_NE z y) = true /\ B2R (Bminus mode_NE z y) = - B2R (Bminus mode_NE y z)).
    { intros y z Y Z C FF.
      assert (K : Rabs (rnd64 (B2R y - B2R z)) < bpow radix2 1024).
      { generalize (Bminus_correct 53 1024 _ _ mode_NE y z Y Z). change (round radix2 _ _ _) with (rnd64 (B2R y - B2R z)).
        destruct (Rlt_bool_spec (Rabs (rnd64 (B2R y - B2R z))) (bpow radix2 1024)); [easy|]. intros [G _]. exfalso.
        destruct (Bminus mode_NE y z) as [| | |]; cbn in FF, G; try discriminate. }
      destruct (F_sub y z Y Z K) as [E1 E2].
      assert (K' : Rabs (rnd64 (B2R z - B2R y)) < bpow radix2 1024) by (replace (B2R z - B2R y) with (- (B2R y - B2R z)) by ring; now rewrite rnd_opp, Rabs_Ropp).
      destruct (F_sub z y Z Y K') as [E3 E4]. split; [easy|]. rewrite E3, E1. replace (B2R z - B2R y) with (- (B2R y - B2R z)) by ring. apply rnd_opp. }
    assert (C32 : IZR (2 ^ 32) * u <= cap) by (apply cu; lia).
    assert (W0 : 0 <= IZR (2 * W) * u) by (apply Rmult_le_pos; [apply IZR_le; lia|lra]).
    destruct (OPP x (vx v) Fx (proj1 N3)) as [S1 S2]; [apply Rabs_le; lra|easy|]. destruct (OPP x (vx w) Fx (proj1 N3')) as [S1' S2']; [apply Rabs_le; lra|easy|]. clear OPP.
    assert (D2 : units e (m' - pm) (Bminus mode_NE (vy w) (vy p))) by (apply diff_units; assumption).
    assert (D3 : units e (pm - m) (Bminus mode_NE (vy p) (vy v))) by (apply diff_units; assumption).
    (* products with the negated reach *)
    assert (MO : forall s s' t : F, is_finite s = true -> is_finite s' = true -> is_finite t = true -> B2R s' = - B2R s -> is_finite (Bmult mode_NE s t) = true -> Rabs (B2R (Bmult mode_NE s t)) <= cap ->
       is_finite (Bmult mode_NE s' t) = true /\ B2R (Bmult mode_NE s' t) = - B2R (Bmult mode_NE s t)).
    { intros s s' t A1 A2 A3 A4 A5 A6.
      assert (K : Rabs (rnd64 (B2R s * B2R t)) < bpow radix2 1024).
      { generalize (Bmult_correct 53 1024 _ _ mode_NE s t). change (round radix2 _ _ _) with (rnd64 (B2R s * B2R t)).
        destruct (Rlt_bool_spec (Rabs (rnd64 (B2R s * B2R t))) (bpow radix2 1024)); [easy|]. intros G. exfalso.
        destruct (Bmult mode_NE s t) as [| | |]; cbn in A5, G; try discriminate. }
      destruct (F_mul s t A1 A3 K) as [E1 E2].
      assert (K' : Rabs (rnd64 (B2R s' * B2R t)) < bpow radix2 1024) by (rewrite A4, Ropp_mult_distr_l_reverse, rnd_opp, Rabs_Ropp; easy).
      destruct (F_mul s' t A2 A3 K') as [E3 E4]. split; [easy|]. rewrite E3, E1, A4, Ropp_mult_distr_l_reverse. apply rnd_opp. }
    destruct (reach_mul _ _ (m' - pm) R1 R2 ltac:(lia) D2) as (M1 & M2 & M3 & M4).
    destruct (reach_mul _ _ (pm - m) R1' R2' ltac:(lia) D3) as (M1' & M2' & M3' & M4').
    set (s := Bminus mode_NE x (vx v)) in *. set (s' := Bminus mode_NE x (vx w)) in *.
    set (t := Bminus mode_NE (vy w) (vy p)) in *. set (t' := Bminus mode_NE (vy p) (vy v)) in *.
    assert (C59 : IZR (2 ^ 59) * (u * u) <= cap) by (apply cuu; lia).
    assert (B500 : bpow radix2 (-500) <= u * u) by (rewrite <- uu; apply bpow_le; lia).
    assert (B470 : IZR (2 ^ 60) * (u * u) <= bpow radix2 470).
    { rewrite <- uu. change (IZR (2 ^ 60)) with (bpow radix2 60). rewrite <- bpow_plus. apply bpow_le. lia. }
    pose proof pow60 as F60. assert (C60 : - cap <= IZR (2 ^ 60) * (u * u) <= cap) by (apply cuu; lia).
    assert (Z59 : IZR (2 ^ 60) = 2 * IZR (2 ^ 59)) by (rewrite <- mult_IZR; reflexivity).
    assert (Z53 : 1 <= IZR (2 ^ 59)) by (apply IZR_le; lia).
    assert (FU1 : fmt64 (u * u)) by (replace (u * u) with (IZR 1 * (u * u)) by ring; apply fuu; lia).
    assert (CU1 : - cap <= u * u <= cap) by (replace (u * u) with (IZR 1 * (u * u)) by ring; apply cuu; lia).
    assert (RB : b' = (IZR n * u - B2R x) * (IZR (m' - pm) * u) + (IZR n' * u - B2R x) * (IZR (pm - m) * u)).
    { unfold b', double_signed_area_st, rvec, E. cbn [vx vy]. rnum. destruct N3 as [_ ->], N4 as [_ ->], N3' as [_ ->], N4' as [_ ->], Py as [_ ->]. fold u. rewrite !minus_IZR. ring. }
    assert (XN : IZR n * u - B2R x <= - u).
    { fold u in Lx. assert (IZR n + 1 <= IZR (pn + 3 * W)) by (rewrite <- plus_IZR; apply IZR_le; lia). nra. }
    assert (XN' : IZR n' * u - B2R x <= - u).
    { fold u in Lx. assert (IZR n' + 1 <= IZR (pn + 3 * W)) by (rewrite <- plus_IZR; apply IZR_le; lia). nra. }
    unfold b, double_signed_area_st. cbn [nadd nsub nmul NumF E vx vy]. fold t t'. rewrite RB. split; intros K.
    - (* both factors >= 0, products <= 0 *)
      assert (A1 : 0 <= B2R (Bmult mode_NE s t) <= IZR (2 ^ 59) * (u * u) /\ ((pm < m')%Z -> u * u <= B2R (Bmult mode_NE s t))).
      { destruct (Z.eq_dec (m' - pm) 0) as [Q|Q]; [rewrite M4 by easy; split; [nra|lia]|].
        specialize (M2 ltac:(lia)). assert (1 <= IZR (2 * (W * (m' - pm)))) by (apply IZR_le, zmul_pos2; lia). split; [nra|intros; nra]. }
      assert (A2 : 0 <= B2R (Bmult mode_NE s' t') <= IZR (2 ^ 59) * (u * u) /\ ((m < pm)%Z -> u * u <= B2R (Bmult mode_NE s' t'))).
      { destruct (Z.eq_dec (pm - m) 0) as [Q|Q]; [rewrite M4' by easy; split; [nra|lia]|].
        specialize (M2' ltac:(lia)). assert (1 <= IZR (2 * (W * (pm - m)))) by (apply IZR_le, zmul_pos2; lia). split; [nra|intros; nra]. }
      destruct A1 as [A1 A1'], A2 as [A2 A2'].
      destruct (MO s _ t R1 S1 (proj1 D2) S2 M1) as [G1 G2]; [apply Rabs_le; lra|].
      destruct (MO s' _ t' R1' S1' (proj1 D3) S2' M1') as [G3 G4]; [apply Rabs_le; lra|].
      assert (UU : u * u <= B2R (Bmult mode_NE s t) + B2R (Bmult mode_NE s' t')).
      { destruct (Z.eq_dec (m' - pm) 0); [specialize (A2' ltac:(lia))|specialize (A1' ltac:(lia))]; lra. }
      destruct (add_between _ _ (- (IZR (2 ^ 60) * (u * u))) (- (u * u)) G1 G3 (fmt_opp _ F60) (fmt_opp _ FU1)) as [H1 H2]; try lra.
      split; [split; [exact H1|right; rewrite Rabs_left by lra; lra]|]. split; [lra|].
      assert (I1 : 0 <= IZR (m' - pm)) by (apply IZR_le; lia). assert (I2 : 0 <= IZR (pm - m)) by (apply IZR_le; lia).
      assert (I3 : 1 <= IZR (m' - pm) + IZR (pm - m)) by (rewrite <- plus_IZR; apply IZR_le; lia).
      assert (J1 : 0 <= IZR (m' - pm) * u) by nra. assert (J2 : 0 <= IZR (pm - m) * u) by nra. assert (J3 : u <= IZR (m' - pm) * u + IZR (pm - m) * u) by nra. nra.
    - assert (A1 : - IZR (2 ^ 59) * (u * u) <= B2R (Bmult mode_NE s t) <= 0 /\ ((m' < pm)%Z -> B2R (Bmult mode_NE s t) <= - (u * u))).
      { destruct (Z.eq_dec (m' - pm) 0) as [Q|Q]; [rewrite M4 by easy; split; [nra|lia]|].
        specialize (M3 ltac:(lia)). assert (IZR (2 * (W * (m' - pm))) <= -1) by (apply IZR_le, zmul_neg; lia). split; [nra|intros; nra]. }
      assert (A2 : - IZR (2 ^ 59) * (u * u) <= B2R (Bmult mode_NE s' t') <= 0 /\ ((pm < m)%Z -> B2R (Bmult mode_NE s' t') <= - (u * u))).
      { destruct (Z.eq_dec (pm - m) 0) as [Q|Q]; [rewrite M4' by easy; split; [nra|lia]|].
        specialize (M3' ltac:(lia)). assert (IZR (2 * (W * (pm - m))) <= -1) by (apply IZR_le, zmul_neg; lia). split; [nra|intros; nra]. }
      destruct A1 as [A1 A1'], A2 as [A2 A2'].
      destruct (MO s _ t R1 S1 (proj1 D2) S2 M1) as [G1 G2]; [apply Rabs_le; lra|].
      destruct (MO s' _ t' R1' S1' (proj1 D3) S2' M1') as [G3 G4]; [apply Rabs_le; lra|].
      assert (UU : B2R (Bmult mode_NE s t) + B2R (Bmult mode_NE s' t') <= - (u * u)).
      { destruct (Z.eq_dec (m' - pm) 0); [specialize (A2' ltac:(lia))|specialize (A1' ltac:(lia))]; lra. }
      destruct (add_between _ _ (u * u) (IZR (2 ^ 60) * (u * u)) G1 G3 FU1 F60) as [H1 H2]; try lra.
      split; [split; [exact H1|right; rewrite Rabs_pos_eq by lra; lra]|]. split; [lra|].
      assert (I1 : IZR (m' - pm) <= 0) by (apply IZR_le; lia). assert (I2 : IZR (pm - m) <= 0) by (apply IZR_le; lia).
      assert (I3 : IZR (m' - pm) + IZR (pm - m) <= -1) by (rewrite <- plus_IZR; apply IZR_le; lia).
      assert (J1 : IZR (m' - pm) * u <= 0) by nra. assert (J2 : IZR (pm - m) * u <= 0) by nra. assert (J3 : IZR (m' - pm) * u + IZR (pm - m) * u <= - u) by nra. nra.
  Qed.
  Lemma near_grid v n m : near v n m -> on_grid e v.
  Proof. intros (A & B & C & D & _). exists n, m. auto. Qed.
  Lemma tame_eq0 a : tame a -> Beqb a (F_of_Z 0) = Req_bool (B2R a) 0.
  Proof. intros [A _]. destruct (F_of_Z_exact 0 eq_refl) as [Z1 Z2]. rewrite eqb_F by easy. now rewrite Z1. Qed.
  Lemma tame_area a b c : on_grid e a -> on_grid e b -> on_grid e c ->
    tame (@double_signed_area_st F (NumF L) a b c) /\ B2R (@double_signed_area_st F (NumF L) a b c) = double_signed_area_st (rvec a) (rvec b) (rvec c).
  Proof.
    intros A B C. destruct (area_units L e a b c A B C ltac:(lia)) as (N & N1 & [N2 N2'] & N3). split; [|now rewrite N2', N3].
    split; [easy|]. rewrite N2'. destruct (Z.eq_dec N 0) as [->|K]; [left; ring|]. right.
    rewrite Rabs_mult, <- abs_IZR, (Rabs_pos_eq (bpow radix2 (e + e))) by apply bpow_ge_0. pose proof (bpow_gt_0 radix2 (e + e)). split.
    - apply Rle_trans with (bpow radix2 (e + e)); [apply bpow_le; lia|]. assert (1 <= IZR (Z.abs N)) by (apply IZR_le; lia). nra.
    - apply Rle_trans with (bpow radix2 53 * bpow radix2 (e + e)); [|rewrite <- bpow_plus; apply bpow_le; lia].
      apply Rmult_le_compat_r; [lra|]. change (bpow radix2 53) with (IZR (2 ^ 53)). now apply IZR_le.
  Qed.
  Lemma Rlt_mul_neg a b : Rlt_bool (a * b) 0 = (Rlt_bool a 0 && Rlt_bool 0 b) || (Rlt_bool 0 a && Rlt_bool b 0).
  Proof.
    destruct (Rlt_bool_spec a 0), (Rlt_bool_spec 0 a), (Rlt_bool_spec b 0), (Rlt_bool_spec 0 b); cbn; try lra; try (apply Rlt_bool_true; nra); apply Rlt_bool_false; try nra.
  Qed.
  Lemma exist_far v w n m n' m' : near v n m -> near w n' m' ->
    @Segment2D_exist_intersection_seg F (NumF L) (mkSeg p E) (mkSeg v w) = Segment2D_exist_intersection_seg (mkSeg (rvec p) (rvec E)) (mkSeg (rvec v) (rvec w)).
  Proof.
    intros V V'. pose proof (area_a v n m V) as (TA & A1 & A2 & A3). pose proof (area_a w n' m' V') as (TA' & A1' & A2' & A3').
    pose proof (area_a_R v n m V) as (AR1 & AR2 & AR3). pose proof (area_a_R w n' m' V') as (AR1' & AR2' & AR3').
    pose proof (area_b v n m w n' m' V V') as [B1 B2].
    assert (GP : on_grid e p) by (exists pn, pm; auto).
    pose proof (near_grid _ _ _ V) as GV. pose proof (near_grid _ _ _ V') as GW.
    destruct (tame_area v w p GV GW GP) as [TB EB].
    unfold Segment2D_exist_intersection_seg. cbn [s_origin s_terminal].
    set (a0 := @double_signed_area_st F (NumF L) p E v) in *. set (a1 := @double_signed_area_st F (NumF L) p E w) in *.
    set (b0 := @double_signed_area_st F (NumF L) v w p) in *. set (b1 := @double_signed_area_st F (NumF L) v w E) in *.
    set (ra0 := double_signed_area_st (rvec p) (rvec E) (rvec v)) in *. set (ra1 := double_signed_area_st (rvec p) (rvec E) (rvec w)) in *.
    set (rb0 := double_signed_area_st (rvec v) (rvec w) (rvec p)) in *. set (rb1 := double_signed_area_st (rvec v) (rvec w) (rvec E)) in *.
    rewrite num0_F. cbn [nltb neqb nmul NumF]. rnum.
    (* the vertical relation decides the signs *)
    assert (SA : Rlt_bool (B2R a0) 0 = Rlt_bool ra0 0 /\ Rlt_bool 0 (B2R a0) = Rlt_bool 0 ra0 /\ Req_bool (B2R a0) 0 = Req_bool ra0 0 /\ (Req_bool ra0 0 = true <-> m = pm)).
    { destruct (Z.lt_trichotomy m pm) as [K|[K|K]].
      - specialize (A2 K). specialize (AR2 K). rewrite !Rlt_bool_true, !(Rlt_bool_false 0), !Req_bool_false by lra. repeat split; try easy; lia.
      - rewrite (A3 K), (AR3 K). repeat split; try easy. now rewrite Req_bool_true.
      - specialize (A1 K). specialize (AR1 K). rewrite !(Rlt_bool_true 0), !(Rlt_bool_false _ 0), !Req_bool_false by lra. repeat split; try easy; lia. }
    assert (SA' : Rlt_bool (B2R a1) 0 = Rlt_bool ra1 0 /\ Rlt_bool 0 (B2R a1) = Rlt_bool 0 ra1 /\ Req_bool (B2R a1) 0 = Req_bool ra1 0 /\ (Req_bool ra1 0 = true <-> m' = pm)).
    { destruct (Z.lt_trichotomy m' pm) as [K|[K|K]].
      - specialize (A2' K). specialize (AR2' K). rewrite !Rlt_bool_true, !(Rlt_bool_false 0), !Req_bool_false by lra. repeat split; try easy; lia.
      - rewrite (A3' K), (AR3' K). repeat split; try easy. now rewrite Req_bool_true.
      - specialize (A1' K). specialize (AR1' K). rewrite !(Rlt_bool_true 0), !(Rlt_bool_false _ 0), !Req_bool_false by lra. repeat split; try easy; lia. }
    destruct SA as (SA1 & SA2 & SA3 & SA4), SA' as (SA1' & SA2' & SA3' & SA4').
    assert (NEG : Bltb (Bmult mode_NE a0 a1) (F_of_Z 0) && Bltb (Bmult mode_NE b0 b1) (F_of_Z 0) = Rlt_bool (ra0 * ra1) 0 && Rlt_bool (rb0 * rb1) 0).
    { rewrite (tame_mul_neg _ _ TA TA'). rewrite !(Rlt_mul_neg _ (B2R a1)), (Rlt_mul_neg ra0), SA1, SA2, SA1', SA2'.
      destruct (Rlt_bool ra0 0 && Rlt_bool 0 ra1) eqn:C1; [|destruct (Rlt_bool 0 ra0 && Rlt_bool ra1 0) eqn:C2; [|reflexivity]]; cbn [orb andb].
      - apply andb_true_iff in C1. rewrite !Rlt_bool_iff in C1. destruct C1 as [C1 C1'].
        assert (K : (m <= pm <= m' /\ m < m')%Z).
        { destruct (Z.lt_trichotomy m pm) as [Q|[Q|Q]]; [|specialize (AR3 Q); lra|specialize (AR1 Q); lra].
          destruct (Z.lt_trichotomy m' pm) as [Q'|[Q'|Q']]; [specialize (AR2' Q'); lra|specialize (AR3' Q'); lra|]. lia. }
        destruct (B1 K) as (T1 & T2 & T3). rewrite (tame_mul_neg _ _ TB T1). rewrite !Rlt_mul_neg, EB. fold rb0.
        rewrite (Rlt_bool_false 0 (B2R b1)), (Rlt_bool_true (B2R b1) 0), (Rlt_bool_false 0 rb1), (Rlt_bool_true rb1 0) by (exact T2 || exact T3 || lra). reflexivity.
      - apply andb_true_iff in C2. rewrite !Rlt_bool_iff in C2. destruct C2 as [C2 C2'].
        assert (K : (m' <= pm <= m /\ m' < m)%Z).
        { destruct (Z.lt_trichotomy m' pm) as [Q|[Q|Q]]; [|specialize (AR3' Q); lra|specialize (AR1' Q); lra].
          destruct (Z.lt_trichotomy m pm) as [Q'|[Q'|Q']]; [specialize (AR2 Q'); lra|specialize (AR3 Q'); lra|]. lia. }
        destruct (B2 K) as (T1 & T2 & T3). rewrite (tame_mul_neg _ _ TB T1). rewrite !Rlt_mul_neg, EB. fold rb0.
        rewrite (Rlt_bool_true 0 (B2R b1)), (Rlt_bool_false (B2R b1) 0), (Rlt_bool_true 0 rb1), (Rlt_bool_false rb1 0) by (exact T2 || exact T3 || lra). reflexivity. }
    rewrite NEG. rewrite !(tame_eq0 a0), !(tame_eq0 a1), !(tame_eq0 b0) by assumption. rewrite EB, SA3, SA3'. fold rb0.
    assert (FE : is_finite (vx E) = true /\ is_finite (vy E) = true) by (split; [exact Fx|apply Py]).
    destruct (grid_fin _ _ GP) as [FP1 FP2], (grid_fin _ _ GV) as [FV1 FV2], (grid_fin _ _ GW) as [FW1 FW2], FE as [FE1 FE2].
    assert (VE : forall c d : vec F, is_finite (vx c) = true -> is_finite (vy c) = true -> is_finite (vx d) = true -> is_finite (vy d) = true -> @Vector2D_eq F (NumF L) c d = Vector2D_eq (rvec c) (rvec d)).
    { intros c d ? ? ? ?. unfold Vector2D_eq. cbn [neqb NumF]. rewrite !eqb_F by easy. reflexivity. }
    rewrite !VE by assumption.
    assert (CK : forall c d g : vec F, is_finite (vx c) = true -> is_finite (vy c) = true -> is_finite (vx d) = true -> is_finite (vy d) = true -> is_finite (vx g) = true -> is_finite (vy g) = true ->
      @check_intersects_on_line F (NumF L) (mkSeg c d) g = check_intersects_on_line (mkSeg (rvec c) (rvec d)) (rvec g)).
    { intros. unfold check_intersects_on_line. cbn [neqb nleb NumF s_origin s_terminal]. rewrite !eqb_F, !leb_F by easy. reflexivity. }
    rewrite !CK by assumption.
    destruct (Rlt_bool (ra0 * ra1) 0 && Rlt_bool (rb0 * rb1) 0); [reflexivity|].
    destruct (Vector2D_eq (rvec p) (rvec E)); [reflexivity|].
    destruct (Vector2D_eq (rvec v) (rvec w)) eqn:VW; [reflexivity|].
    (* the far end is never on the edge *)
    pose proof u_pos as U.
    destruct V as (N1 & N2 & [_ N3] & [_ N4] & N5). destruct V' as (N1' & N2' & [_ N3'] & [_ N4'] & N5').
    fold u in N3, N4, N3', N4', Lx.
    assert (LAST : (Beqb b1 (F_of_Z 0) && check_intersects_on_line (mkSeg (rvec v) (rvec w)) (rvec E) = false) /\
                   (Req_bool rb1 0 && check_intersects_on_line (mkSeg (rvec v) (rvec w)) (rvec E) = false)).
    { unfold check_intersects_on_line. rnum. cbn [s_origin s_terminal rvec vx vy E].
      destruct (Req_bool_spec (B2R (vx v)) (B2R (vx w))) as [Q|Q].
      - assert (ND : m <> m').
        { intros ->. revert VW. unfold Vector2D_eq. rnum. cbn [rvec vx vy]. rewrite Q, N4, N4', !Req_bool_true by easy. discriminate. }
        rewrite N4, N4', (proj2 Py). fold u.
        assert (LE : forall i j, Rle_bool (IZR i * u) (IZR j * u) = (i <=? j)%Z).
        { intros i j. destruct (Z.leb_spec i j) as [K|K]; [apply Rle_bool_true; apply IZR_le in K; nra|apply Rle_bool_false; apply IZR_lt in K; nra]. }
        rewrite !LE. destruct (Z.leb_spec m pm), (Z.leb_spec pm m'), (Z.leb_spec m' pm), (Z.leb_spec pm m); cbn [andb orb]; rewrite ?andb_false_r; try (split; reflexivity); try lia.
        all: try (destruct (B1 ltac:(lia)) as (T1 & T2 & T3); rewrite (tame_eq0 _ T1), !Req_bool_false by lra; split; reflexivity).
        all: destruct (B2 ltac:(lia)) as (T1 & T2 & T3); rewrite (tame_eq0 _ T1), !Req_bool_false by lra; split; reflexivity.
      - assert (G1 : B2R (vx v) < B2R x). { rewrite N3. assert (IZR n + 1 <= IZR (pn + 3 * W)) by (rewrite <- plus_IZR; apply IZR_le; lia). nra. }
        assert (G2 : B2R (vx w) < B2R x). { rewrite N3'. assert (IZR n' + 1 <= IZR (pn + 3 * W)) by (rewrite <- plus_IZR; apply IZR_le; lia). nra. }
        rewrite (Rle_bool_false (B2R x) (B2R (vx w))), (Rle_bool_false (B2R x) (B2R (vx v))) by lra. rewrite !andb_false_r. split; reflexivity. }
    destruct LAST as [-> L2]. apply f_equal2; [reflexivity|]. symmetry. exact L2.
  Qed.
End Far.
