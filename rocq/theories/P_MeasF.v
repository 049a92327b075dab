(** * P_MeasF: lengths, extents and areas in doubles (C167) *)
From Coq Require Import ZArith List Bool String Reals Lra Lia Psatz.
From Flocq Require Import Core BinarySingleNaN.
From Verif Require Import Base Types NumR NumF R_Tac Spec Spec2 Abs M_Angle M_Vector M_Line M_Rect M_Circle M_Sector M_Segment
  L_Angle P_Vector P_Line P_Angle L_Float P_Float P_AngleF P_AngleF2 P_Robust P_Hull2 P_VecF P_TrigF P_LineF P_LenF P_BisF P_SectorF.
Import ListNotations.
Local Open Scope R_scope.

Lemma pi_const : is_finite F_PI = true /\ Rabs (B2R F_PI - PI) <= bpow radix2 (-52) /\ Rabs (B2R F_PI) <= bpow radix2 2.
Proof.
  assert (E : exists m, F_PI = m /\ B2SF m = SpecFloat.S754_finite false 7074237752028440 (-51)) by (eexists; split; [reflexivity|vm_compute; reflexivity]).
  destruct E as (m & -> & E).
  assert (V : is_finite m = true /\ B2R m = IZR 7074237752028440 * bpow radix2 (-51)) by (destruct m; try discriminate; injection E as -> -> ->; split; reflexivity).
  destruct V as [V1 V2]. split; [exact V1|]. rewrite V2. pose proof pi_bounds.
  change (bpow radix2 (-51)) with (/ 2251799813685248). change (bpow radix2 (-52)) with (/ 4503599627370496). change (bpow radix2 2) with 4.
  split; apply Rabs_le; lra.
Qed.

(** ** The angular extent of a sector *)
Lemma div_close L (s : sector F) t : good_degree (a_degree (sec_start s)) -> good_degree (a_degree (sec_end s)) ->
  turn (B2R (a_degree (sec_start s))) (B2R (a_degree (sec_end s))) t -> t <= 360 - bpow radix2 (-44) ->
  exists v, @Sector2D_div F (NumF L) s = Ok v /\ is_finite v = true /\ 0 <= B2R v <= 360 /\ Rabs (B2R v - t) <= bpow radix2 (-44).
Proof.
  intros [S1 S2] [E1 E2] [T1 [j J]] T2. set (a := a_degree (sec_start s)) in *. set (b := a_degree (sec_end s)) in *.
  assert (H44 : bpow radix2 (-44) = 2 * bpow radix2 (-45)) by (change (-44)%Z with (1 + -45)%Z; apply bp2). assert (P45 : 0 < bpow radix2 (-45)) by apply bpow_gt_0.
  destruct (rnd_err (B2R b - B2R a) 9 ltac:(lia)) as [R1 R2]; [change (bpow radix2 9) with 512; apply Rabs_le; lra|]. change (9 - 54)%Z with (-45)%Z in R1. apply Rabs_le_inv in R1.
  destruct (F_sub b a E1 S1) as [K1 K2]; [apply (finite_lt 9); [lia|exact R2]|].
  destruct (of_num_rnd L _ K2) as (c & C1 & [C2 C3] & [i C4]). rewrite K1 in C4.
  unfold Sector2D_div, AngleDeg_sub. cbn [nsub NumF]. fold a b. rewrite C1. cbn [bind]. unfold AngleDeg_degree_. eexists. split; [reflexivity|].
  set (z := rnd64 (B2R b - B2R a)) in *.
  assert (FJ : forall w : Z, (Z.abs w <= 4)%Z -> rnd64 (360 * IZR w) = 360 * IZR w).
  { intros w W. assert (M : (Z.abs (360 * w) < 2 ^ 53)%Z) by (change (2 ^ 53)%Z with 9007199254740992%Z; lia). destruct (F_of_Z_exact (360 * w) M) as [V1 V2]. rewrite <- mult_IZR, <- V1. apply rnd_id, fmt_F. }
  assert (JB : (Z.abs j <= 2)%Z). { assert (-2 < IZR j < 2) by lra. assert (-2 < j < 2)%Z by (split; apply lt_IZR; lra). lia. }
  assert (Z1 : 0 <= z + 360 * IZR j < 360 /\ Rabs (z + 360 * IZR j - t) <= bpow radix2 (-45)).
  { assert (ZL : - (360 * IZR j) <= z). { replace (- (360 * IZR j)) with (rnd64 (360 * IZR (- j))) by (rewrite FJ by lia; rewrite opp_IZR; ring). apply rnd_le. rewrite opp_IZR. lra. }
    split; [lra|]. apply Rabs_le. lra. }
  destruct Z1 as [Z1 Z2]. set (y := z + 360 * IZR j) in *.
  assert (Z3 : B2R (a_degree c) = y + 360 * IZR (i - j)) by (unfold y; rewrite minus_IZR; lra). set (w := (i - j)%Z) in *. clearbody y w.
  cbn [nltb nadd NumF]. change (@nlit F (NumF L) 0 1) with (F_of_Z 0). change (@nlit F (NumF L) 360 1) with (F_of_Z 360).
  destruct (F_of_Z_exact 0 eq_refl) as [N1 N2]. destruct (F_of_Z_exact 360 eq_refl) as [M1 M2].
  rewrite ltb_F by assumption. rewrite N1. apply Rabs_le_inv in Z2. case Rlt_bool_spec; intros C.
  - assert (w = -1)%Z as ->. { assert (-2 < IZR w < 0) by lra. assert (-2 < w < 0)%Z by (split; apply lt_IZR; lra). lia. }
    assert (YE : B2R (a_degree c) + B2R (F_of_Z 360) = y) by (rewrite M1, Z3; ring).
    destruct (rnd_err y 9 ltac:(lia)) as [Q1 Q2]; [change (bpow radix2 9) with 512; apply Rabs_le; lra|]. change (9 - 54)%Z with (-45)%Z in Q1. apply Rabs_le_inv in Q1.
    destruct (F_add (a_degree c) (F_of_Z 360) C2 M2) as [V1 V2]; [rewrite YE; apply (finite_lt 9); [lia|exact Q2]|]. rewrite V1, YE. split; [exact V2|]. split.
    + replace 0 with (rnd64 (360 * IZR 0)) by (rewrite FJ by (cbn; lia); ring). replace 360 with (rnd64 (360 * IZR 1)) by (rewrite FJ by (cbn; lia); ring). split; apply rnd_le; lra.
    + apply Rabs_le. lra.
  - assert (w = 0)%Z as ->. { assert (-1 < IZR w < 1) by lra. assert (-1 < w < 1)%Z by (split; apply lt_IZR; lra). lia. }
    split; [exact C2|]. split; [lra|]. apply Rabs_le. lra.
Qed.
Lemma close_div360 j t d x : (-500 <= j <= 900)%Z -> close j t d x -> exists z, F_div x (F_of_Z 360) = Ok z /\ close (j - 8) (t / 256 + bpow radix2 (j - 62)) (d / 360) z.
Proof.
  intros Hj (X1 & X2 & X3). destruct (F_of_Z_exact 360 eq_refl) as [M1 M2].
  assert (J : bpow radix2 j = 256 * bpow radix2 (j - 8)) by (replace j with (8 + (j - 8))%Z at 1 by lia; now rewrite bpow_plus).
  assert (B : Rabs (B2R x / 360) <= bpow radix2 (j - 8)) by (unfold Rdiv; rewrite Rabs_mult, (Rabs_pos_eq (/ 360)) by lra; pose proof (bpow_gt_0 radix2 (j - 8)); lra).
  destruct (rnd_err _ (j - 8) ltac:(lia) B) as [Q1 Q2]. destruct (F_quot x (F_of_Z 360) X1) as [V1 V2]; [rewrite M1; lra|rewrite M1; apply (finite_lt (j - 8)); [lia|exact Q2]|]. rewrite M1 in V1.
  exists (Bdiv mode_NE x (F_of_Z 360)). split.
  - unfold F_div, F_is_zero. rewrite eqb_F by (try assumption; reflexivity). replace (B2R (F_of_Z 0)) with 0 by reflexivity. rewrite Req_bool_false; [reflexivity|]. rewrite M1. lra.
  - split; [exact V2|]. rewrite V1. split; [exact Q2|]. replace (j - 8 - 54)%Z with (j - 62)%Z in Q1 by lia.
    replace (rnd64 (B2R x / 360) - d / 360) with ((B2R x - d) * / 360 + (rnd64 (B2R x / 360) - B2R x / 360)) by field. eapply Rle_trans; [apply Rabs_triang|]. apply Rplus_le_compat; [|exact Q1].
    rewrite Rabs_mult, (Rabs_pos_eq (/ 360)) by lra. pose proof (Rabs_pos (B2R x - d)). lra.
Qed.
Lemma pi_le : PI <= 4. Proof. pose proof pi_bounds. lra. Qed.
Lemma close_pi : close 2 (bpow radix2 (-52)) PI F_PI.
Proof. destruct pi_const as (A & B & C). split; [exact A|]. split; assumption. Qed.

(** C167: the arc lengths and the area of a sector spanning [t] degrees, for radii up to 2^k *)
Theorem C167_sector_F : forall (L : libm) (k : Z) (s : sector F) (t : R), (-200 <= k <= 200)%Z ->
  good_degree (a_degree (sec_start s)) -> good_degree (a_degree (sec_end s)) -> turn (B2R (a_degree (sec_start s))) (B2R (a_degree (sec_end s))) t -> t <= 360 - bpow radix2 (-44) ->
  is_finite (sec_min_r s) = true -> is_finite (sec_max_r s) = true -> Rabs (B2R (sec_min_r s)) <= bpow radix2 k -> Rabs (B2R (sec_max_r s)) <= bpow radix2 k ->
  exists lo hi ar, @Sector2D_circumference_min F (NumF L) s = Ok lo /\ @Sector2D_circumference_max F (NumF L) s = Ok hi /\ @Sector2D_area F (NumF L) s = Ok ar /\
    is_finite lo = true /\ is_finite hi = true /\ is_finite ar = true /\
    Rabs (B2R lo - 2 * PI * B2R (sec_min_r s) * (t / 360)) <= bpow radix2 (k - 47) /\ Rabs (B2R hi - 2 * PI * B2R (sec_max_r s) * (t / 360)) <= bpow radix2 (k - 47) /\
    Rabs (B2R ar - PI * (B2R (sec_max_r s) * B2R (sec_max_r s) - B2R (sec_min_r s) * B2R (sec_min_r s)) * (t / 360)) <= bpow radix2 (2 * k - 46).
Proof.
  intros L k s t Hk GS GE TT T1 F1 F2 B1 B2. destruct (div_close L s t GS GE TT T1) as (v & E & V1 & V2 & V3). destruct TT as [T0 _].
  assert (CV : close 9 (bpow radix2 (-44)) t v). { split; [exact V1|]. change (bpow radix2 9) with 512. split; [apply Rabs_le; lra|exact V3]. }
  destruct (close_div360 9 _ _ _ ltac:(lia) CV) as (q & Q1 & Q2). change (9 - 8)%Z with 1%Z in Q2.
  assert (Q3 : close 1 (bpow radix2 (-51)) (t / 360) q). { eapply close_weaken; [|exact Q2]. change (bpow radix2 (-44)) with (/ 17592186044416). change (bpow radix2 (9 - 62)) with (/ 9007199254740992). change (bpow radix2 (-51)) with (/ 2251799813685248). lra. }
  destruct (F_of_Z_exact 2 eq_refl) as [M1 M2]. pose proof pi_bounds as PB.
  assert (ARC : forall r : F, is_finite r = true -> Rabs (B2R r) <= bpow radix2 k ->
    close (k + 4) (bpow radix2 (k - 47)) (2 * PI * B2R r * (t / 360)) (Bmult mode_NE (Bmult mode_NE (Bmult mode_NE (F_of_Z 2) r) F_PI) q)).
  { intros r R1 R2. assert (C1 := close_mul 1 k 0 2 0 (B2R r) (F_of_Z 2) r ltac:(lia) ltac:(change (bpow radix2 1) with 2; rewrite Rabs_pos_eq; lra)).
    assert (C2 : close 1 0 2 (F_of_Z 2)) by (rewrite <- M1; apply close_exact; [exact M2|rewrite M1; change (bpow radix2 1) with 2; rewrite Rabs_pos_eq; lra]).
    specialize (C1 C2 (close_exact k r R1 R2)). rewrite !Rmult_0_r, !Rplus_0_l in C1.
    assert (A1 : Rabs (2 * B2R r) <= bpow radix2 (1 + k)) by (rewrite Rabs_mult, (Rabs_pos_eq 2), bp2 by lra; lra).
    assert (C3 := close_mul (1 + k) 2 _ _ _ _ _ _ ltac:(lia) A1 C1 close_pi). rewrite <- !bpow_plus in C3.
    assert (A2 : Rabs (2 * B2R r * PI) <= bpow radix2 (1 + k + 2)).
    { rewrite Rabs_mult, (bpow_plus radix2 (1 + k) 2). apply Rmult_le_compat; try apply Rabs_pos; [exact A1|]. change (bpow radix2 2) with 4. rewrite Rabs_pos_eq; lra. }
    assert (C4 := close_mul (1 + k + 2) 1 _ _ _ _ _ _ ltac:(lia) A2 C3 Q3). rewrite <- !bpow_plus in C4.
    replace (2 * PI * B2R r * (t / 360)) with (2 * B2R r * PI * (t / 360)) by ring. replace (k + 4)%Z with (1 + k + 2 + 1)%Z by lia. eapply close_weaken; [|exact C4].
    replace (1 + k + 2 + -51)%Z with (3 + (k - 51))%Z by lia. replace (1 + k + -52)%Z with (0 + (k - 51))%Z by lia. replace (2 + (1 + k - 54))%Z with (0 + (k - 51))%Z by lia.
    replace (1 + k + 2 - 54)%Z with (0 + (k - 51))%Z by lia. replace (1 + k + 2 + 1 - 54)%Z with (1 + (k - 51))%Z by lia. replace (k - 47)%Z with (4 + (k - 51))%Z by lia.
    rewrite !(bpow_plus radix2 _ (k - 51)). change (bpow radix2 3) with 8. change (bpow radix2 0) with 1. change (bpow radix2 1) with 2. change (bpow radix2 4) with 16. pose proof (bpow_gt_0 radix2 (k - 51)). lra. }
  destruct (ARC _ F1 B1) as (L1 & L2 & L3). destruct (ARC _ F2 B2) as (H1 & H2 & H3).
  unfold Sector2D_circumference_min, Sector2D_circumference_max, Sector2D_area. rewrite E. cbn [bind]. change (@nlit F (NumF L) 360 1) with (F_of_Z 360). change (@nlit F (NumF L) 2 1) with (F_of_Z 2).
  change (@ndiv F (NumF L)) with F_div. change (@nmul F (NumF L)) with (@Bmult 53 1024 _ _ mode_NE). change (@nsub F (NumF L)) with (@Bminus 53 1024 _ _ mode_NE). change (@nPI F (NumF L)) with F_PI. rewrite Q1. cbn [bind].
  assert (SQ : forall r : F, is_finite r = true -> Rabs (B2R r) <= bpow radix2 k -> close (2 * k + 2) (12 * bpow radix2 (2 * k - 54)) (B2R r * B2R r * PI) (Bmult mode_NE (Bmult mode_NE r r) F_PI) /\ 0 <= B2R r * B2R r * PI <= bpow radix2 (2 * k + 2)).
  { intros r R1 R2. assert (C1 := close_mul k k _ _ _ _ r r ltac:(lia) R2 (close_exact k r R1 R2) (close_exact k r R1 R2)). rewrite !Rmult_0_r, !Rplus_0_l in C1. replace (k + k)%Z with (2 * k)%Z in C1 by lia.
    assert (A1 : Rabs (B2R r * B2R r) <= bpow radix2 (2 * k)) by (replace (2 * k)%Z with (k + k)%Z by lia; now apply mul_abs).
    assert (C3 := close_mul (2 * k) 2 _ _ _ _ _ _ ltac:(lia) A1 C1 close_pi). rewrite <- !bpow_plus in C3. split.
    - eapply close_weaken; [|exact C3]. replace (2 * k + -52)%Z with (2 + (2 * k - 54))%Z by lia. replace (2 * k + 2 - 54)%Z with (2 + (2 * k - 54))%Z by lia. rewrite !(bpow_plus radix2 2 (2 * k - 54)). change (bpow radix2 2) with 4. lra.
    - pose proof (Rle_0_sqr (B2R r)) as SS. unfold Rsqr in SS. rewrite Rabs_pos_eq in A1 by exact SS. rewrite bpow_plus. change (bpow radix2 2) with 4. split; [apply Rmult_le_pos; lra|apply Rmult_le_compat; lra]. }
  destruct (SQ _ F2 B2) as [C1 A1]. destruct (SQ _ F1 B1) as [C2 A2]. assert (C3 := close_sub (2 * k + 2) _ _ _ _ _ _ ltac:(lia) C1 C2).
  set (x2 := B2R (sec_max_r s)) in *. set (x1 := B2R (sec_min_r s)) in *. set (b := bpow radix2 (2 * k - 54)) in *. assert (PB0 : 0 < b) by apply bpow_gt_0.
  assert (SC : forall j : Z, (0 <= j)%Z -> bpow radix2 (2 * k - 54 + j) = bpow radix2 j * b) by (intros j _; rewrite bpow_plus; unfold b; ring).
  assert (C4 : close (2 * k + 3) (32 * b) (x2 * x2 * PI - x1 * x1 * PI) (Bminus mode_NE (Bmult mode_NE (Bmult mode_NE (sec_max_r s) (sec_max_r s)) F_PI) (Bmult mode_NE (Bmult mode_NE (sec_min_r s) (sec_min_r s)) F_PI))).
  { replace (2 * k + 3)%Z with (2 * k + 2 + 1)%Z by lia. eapply close_weaken; [|exact C3]. replace (2 * k + 2 + 1 - 54)%Z with (2 * k - 54 + 3)%Z by lia. rewrite SC by lia. change (bpow radix2 3) with 8. lra. }
  assert (A3 : Rabs (x2 * x2 * PI - x1 * x1 * PI) <= bpow radix2 (2 * k + 3)).
  { replace (2 * k + 3)%Z with (1 + (2 * k + 2))%Z by lia. rewrite bp2. apply Rabs_le. lra. }
  assert (C5 := close_mul (2 * k + 3) 9 _ _ _ _ _ _ ltac:(lia) A3 C4 CV).
  destruct (close_div360 (2 * k + 3 + 9) _ _ _ ltac:(lia) C5) as (ar & AR & (R1 & R2 & R3)).
  eexists _, _, ar. split; [reflexivity|]. split; [reflexivity|]. split; [exact AR|]. do 3 (split; [assumption|]). do 2 (split; [assumption|]).
  replace (PI * (x2 * x2 - x1 * x1) * (t / 360)) with ((x2 * x2 * PI - x1 * x1 * PI) * t / 360) by field. eapply Rle_trans; [exact R3|].
  rewrite <- !bpow_plus. replace (2 * k + 3 + -44)%Z with (2 * k - 54 + 13)%Z by lia. replace (2 * k + 3 + 9 - 54)%Z with (2 * k - 54 + 12)%Z by lia. replace (2 * k + 3 + 9 - 62)%Z with (2 * k - 54 + 4)%Z by lia. replace (2 * k - 46)%Z with (2 * k - 54 + 8)%Z by lia.
  rewrite !SC by lia. change (bpow radix2 13) with 8192. change (bpow radix2 12) with 4096. change (bpow radix2 4) with 16. change (bpow radix2 8) with 256. change (bpow radix2 9) with 512. lra.
Qed.

(** ** Relative accuracy *)
Lemma mul_rel (x y : F) X Y e f : is_finite x = true -> is_finite y = true -> 0 <= e <= / 8 -> 0 <= f <= / 8 ->
  Rabs (B2R x - X) <= e * X -> Rabs (B2R y - Y) <= f * Y -> bpow radix2 (-1000) <= X * Y <= bpow radix2 990 -> 0 < X -> 0 < Y ->
  is_finite (Bmult mode_NE x y) = true /\ Rabs (B2R (Bmult mode_NE x y) - X * Y) <= (e + f + e * f + 2 * u) * (X * Y).
Proof.
  intros F1 F2 E G A B [P1 P2] PX PY. pose proof u_pos as UP. set (xy := B2R x * B2R y).
  assert (D : Rabs (xy - X * Y) <= (e + f + e * f) * (X * Y)).
  { replace (xy - X * Y) with ((B2R x - X) * (B2R y - Y) + X * (B2R y - Y) + Y * (B2R x - X)) by (unfold xy; ring).
    assert (Q1 : Rabs ((B2R x - X) * (B2R y - Y)) <= (e * X) * (f * Y)) by (rewrite Rabs_mult; apply Rmult_le_compat; try apply Rabs_pos; assumption).
    assert (Q2 : Rabs (X * (B2R y - Y)) <= X * (f * Y)) by (rewrite Rabs_mult, (Rabs_pos_eq X) by lra; apply Rmult_le_compat_l; lra).
    assert (Q3 : Rabs (Y * (B2R x - X)) <= Y * (e * X)) by (rewrite Rabs_mult, (Rabs_pos_eq Y) by lra; apply Rmult_le_compat_l; lra).
    eapply Rle_trans; [apply Rabs_triang|]. eapply Rle_trans; [apply Rplus_le_compat; [apply Rabs_triang|exact Q3]|]. lra. }
  assert (EF : e * f <= / 64) by (pose proof (Rmult_le_compat e (/ 8) f (/ 8) ltac:(lra) ltac:(lra) ltac:(lra) ltac:(lra)); lra). assert (EF0 : 0 <= e * f) by (apply Rmult_le_pos; lra).
  assert (PXY : 0 < X * Y) by (apply Rmult_lt_0_compat; assumption).
  assert (S : (e + f + e * f) * (X * Y) <= / 2 * (X * Y)) by (apply Rmult_le_compat_r; lra).
  assert (AX : Rabs xy <= 3 / 2 * (X * Y)) by (apply Rabs_le_inv in D; apply Rabs_le; lra).
  assert (T : bpow radix2 (-1075) <= / 64 * u * (X * Y)).
  { apply Rle_trans with (/ 64 * u * bpow radix2 (-1000)); [|apply Rmult_le_compat_l; lra]. change (/ 64) with (bpow radix2 (-6)). rewrite <- !bpow_plus. apply bpow_le. lia. }
  assert (FB : Rabs xy <= bpow radix2 991) by (change 991%Z with (1 + 990)%Z; rewrite bp2; lra).
  destruct (rnd_err xy 991 ltac:(lia) FB) as [_ R2]. destruct (F_mul x y F1 F2) as [K1 K2]; [apply (finite_lt 991); [lia|exact R2]|]. split; [exact K2|]. rewrite K1. fold xy.
  replace (rnd64 xy - X * Y) with ((rnd64 xy - xy) + (xy - X * Y)) by ring. eapply Rle_trans; [apply Rabs_triang|]. pose proof (rnd_rel xy) as RR.
  assert (UA : u * Rabs xy <= u * (3 / 2 * (X * Y))) by (apply Rmult_le_compat_l; lra). assert (0 < u * (X * Y)) by (apply Rmult_lt_0_compat; [apply bpow_gt_0|assumption]). lra.
Qed.

(** C167: the area of a disc, the area of a rectangle and the diagonal of a size have a small relative error. *)
Theorem C167_area_F : forall (L : libm) (c : circle F) (r : rect F) (s : size F),
  is_finite (c_radius c) = true -> bpow radix2 (-490) <= B2R (c_radius c) <= bpow radix2 490 ->
  is_finite (sz_length (r_size r)) = true -> is_finite (sz_width (r_size r)) = true ->
  (let A := B2R (sz_length (r_size r)) * B2R (sz_width (r_size r)) in bpow radix2 (-1000) <= A <= bpow radix2 990) -> 0 < B2R (sz_length (r_size r)) ->
  is_finite (sz_length s) = true -> is_finite (sz_width s) = true ->
  (let N := norm (B2R (sz_length s), B2R (sz_width s)) in bpow radix2 (-480) <= N <= bpow radix2 500) ->
  (is_finite (@Circle2D_area F (NumF L) c) = true /\
   let A := PI * (B2R (c_radius c) * B2R (c_radius c)) in Rabs (B2R (@Circle2D_area F (NumF L) c) - A) <= bpow radix2 (-50) * A) /\
  (is_finite (@Rect2D_area F (NumF L) r) = true /\
   let A := B2R (sz_length (r_size r)) * B2R (sz_width (r_size r)) in Rabs (B2R (@Rect2D_area F (NumF L) r) - A) <= bpow radix2 (-52) * A) /\
  exists d, @Size2D_diagonal F (NumF L) s = Ok d /\ is_finite d = true /\
   let N := norm (B2R (sz_length s), B2R (sz_width s)) in Rabs (B2R d - N) <= bpow radix2 (-51) * N.
Proof.
  intros L c r s C1 [C2 C3] R1 R2 RA R3 S1 S2 SN. pose proof u_pos as UP. pose proof pi_bounds as PB.
  assert (E50 : bpow radix2 (-50) = 8 * u) by (change (-50)%Z with (3 + -53)%Z; now rewrite bpow_plus). assert (E52 : bpow radix2 (-52) = 2 * u) by (change (-52)%Z with (1 + -53)%Z; now rewrite bpow_plus).
  assert (E51 : bpow radix2 (-51) = 4 * u) by (change (-51)%Z with (2 + -53)%Z; now rewrite bpow_plus). assert (U1 : u <= / 1000) by (change u with (/ 9007199254740992); lra).
  split; [|split].
  - destruct pi_const as (P1 & P2 & P3). set (x := B2R (c_radius c)) in *. assert (PX : 0 < x) by (pose proof (bpow_gt_0 radix2 (-490)); lra). unfold Circle2D_area. cbn [nmul nPI NumF].
    assert (X2 : bpow radix2 (-980) <= x * x <= bpow radix2 980). { change (-980)%Z with (-490 + -490)%Z. change 980%Z with (490 + 490)%Z. rewrite !bpow_plus. pose proof (bpow_ge_0 radix2 (-490)). split; apply Rmult_le_compat; lra. }
    assert (B1 : bpow radix2 (-1000) <= PI * x <= bpow radix2 990).
    { assert (bpow radix2 (-1000) <= bpow radix2 (-490)) by (apply bpow_le; lia). assert (4 * bpow radix2 490 <= bpow radix2 990) by (change 4 with (bpow radix2 2); rewrite <- bpow_plus; apply bpow_le; lia). assert (1 * x <= PI * x) by (apply Rmult_le_compat_r; lra). assert (PI * x <= 4 * x) by (apply Rmult_le_compat_r; lra). lra. }
    assert (X0 : Rabs (B2R (c_radius c) - x) <= 0 * x) by (fold x; rewrite Rminus_eq_0, Rabs_R0; lra).
    assert (P4 : Rabs (B2R F_PI - PI) <= 2 / 3 * u * PI) by (rewrite E52 in P2; assert (2 / 3 * u * 3 <= 2 / 3 * u * PI) by (apply Rmult_le_compat_l; lra); lra).
    destruct (mul_rel F_PI (c_radius c) PI x (2 / 3 * u) 0 P1 C1 ltac:(lra) ltac:(lra) P4 X0 B1 ltac:(lra) PX) as [M1 M2].
    replace (2 / 3 * u + 0 + 2 / 3 * u * 0 + 2 * u) with (8 / 3 * u) in M2 by field.
    destruct (mul_rel _ (c_radius c) (PI * x) x (8 / 3 * u) 0 M1 C1 ltac:(lra) ltac:(lra) M2 X0) as [N1 N2]; [|apply Rmult_lt_0_compat; lra|lra|].
    { rewrite Rmult_assoc. assert (bpow radix2 (-1000) <= bpow radix2 (-980)) by (apply bpow_le; lia). assert (4 * bpow radix2 980 <= bpow radix2 990) by (change 4 with (bpow radix2 2); rewrite <- bpow_plus; apply bpow_le; lia).
      assert (0 <= x * x) by apply Rle_0_sqr. assert (1 * (x * x) <= PI * (x * x)) by (apply Rmult_le_compat_r; lra). assert (PI * (x * x) <= 4 * (x * x)) by (apply Rmult_le_compat_r; lra). lra. }
    split; [exact N1|]. rewrite E50. replace (PI * (x * x)) with (PI * x * x) by ring. eapply Rle_trans; [exact N2|]. apply Rmult_le_compat_r; [apply Rmult_le_pos; [apply Rmult_le_pos|]; lra|lra].
  - cbv zeta in RA. set (l := B2R (sz_length (r_size r))) in *. set (w := B2R (sz_width (r_size r))) in *.
    assert (W : 0 < w). { apply Rnot_le_lt. intros H. assert (l * w <= 0) by (assert (0 <= l * - w) by (apply Rmult_le_pos; lra); lra). pose proof (bpow_gt_0 radix2 (-1000)). lra. }
    destruct (mul_rel _ _ l w 0 0 R1 R2) as [M1 M2]; try lra; [fold l; rewrite Rminus_eq_0, Rabs_R0; lra|fold w; rewrite Rminus_eq_0, Rabs_R0; lra|].
    unfold Rect2D_area. cbn [nmul NumF]. split; [exact M1|]. rewrite E52. replace (2 * u * (l * w)) with ((0 + 0 + 0 * 0 + 2 * u) * (l * w)) by ring. exact M2.
  - destruct (C135_length_F L (V (sz_length s) (sz_width s)) S1 S2 SN) as (_ & _ & d & D1 & D2 & D3). exists d. split; [exact D1|]. split; [exact D2|]. rewrite E51. cbv zeta in D3 |- *.
    change (pt (rvec (V (sz_length s) (sz_width s)))) with (B2R (sz_length s), B2R (sz_width s)) in D3. eapply Rle_trans; [exact D3|]. apply Rmult_le_compat_r; [apply sqrt_pos|]. change (-53)%Z with (1 + -54)%Z. rewrite bp2. pose proof (bpow_gt_0 radix2 (-54)). lra.
Qed.

(** C167: the length of a segment to a relative 2^-51, its direction to 2^-43 degrees *)
Theorem C167_segment_F : forall (L : libm) (s : seg F) (t : R), pow_accurate L -> atan2_accurate L ->
  is_finite (vx (s_origin s)) = true -> is_finite (vy (s_origin s)) = true -> is_finite (vx (s_terminal s)) = true -> is_finite (vy (s_terminal s)) = true ->
  let D := edist (fpt (s_origin s)) (fpt (s_terminal s)) in bpow radix2 (-18) <= D <= bpow radix2 499 ->
  psub (fpt (s_terminal s)) (fpt (s_origin s)) = (D * cos (rad t), D * sin (rad t)) ->
  exists d a, @Segment2D_length F (NumF L) s = Ok d /\ is_finite d = true /\ Rabs (B2R d - D) <= bpow radix2 (-51) * D /\
    @Segment2D_direction F (NumF L) s = Ok a /\ good_degree (a_degree a) /\ exists y, cong360 (B2R (a_degree a)) y /\ Rabs (y - t) <= bpow radix2 (-43).
Proof.
  intros L s t PA AT A1 A2 B1 B2 D [D1 D2] ED.
  assert (EN : D = norm (B2R (vx (s_terminal s)) - B2R (vx (s_origin s)), B2R (vy (s_terminal s)) - B2R (vy (s_origin s)))).
  { unfold D, edist, norm, norm2, psub, fpt, px, py. cbn [fst snd]. f_equal. ring. }
  destruct (proj1 (C136_dist_F L (s_origin s) (s_terminal s) PA A1 A2 B1 B2)) as (_ & d & _ & _ & _ & G1 & G2 & G3).
  { change (bpow radix2 (-480) <= D <= bpow radix2 500). split; [eapply Rle_trans; [|exact D1]|eapply Rle_trans; [exact D2|]]; apply bpow_le; lia. }
  rewrite EN in D1, D2, ED. unfold psub, fpt, px, py in ED. cbn [fst snd] in ED. set (nn := norm _) in ED. injection ED as E1 E2. unfold nn in E1, E2. clear nn.
  destruct (rel_dir L (s_origin s) (s_terminal s) A1 A2 B1 B2 D1 D2 t AT E1 E2) as (a & H1 & H2 & H3).
  exists d, a. split; [exact G1|]. split; [exact G2|]. split; [exact G3|]. split; [exact H1|]. split; assumption.
Qed.
Example C167_nonvacuous : pow_accurate libm_round /\ atan2_accurate libm_round /\ turn 170 (-170) 20 /\ good_degree (F_of_Z 170) /\ good_degree (F_of_Z (-170)) /\
  (bpow radix2 (-490) <= B2R (F_of_Z 3) <= bpow radix2 490) /\ (bpow radix2 (-1000) <= B2R (F_of_Z 3) * B2R (F_of_Z 4) <= bpow radix2 990) /\
  (bpow radix2 (-480) <= norm (B2R (F_of_Z 3), B2R (F_of_Z 4)) <= bpow radix2 500) /\
  edist (fpt (fv 1 1)) (fpt (fv 1 3)) = 2 /\ psub (fpt (fv 1 3)) (fpt (fv 1 1)) = (2 * cos (rad 90), 2 * sin (rad 90)).
Proof.
  split; [exact pow_accurate_sq|]. split; [exact libm_round_atan2|]. split; [split; [lra|exists 1%Z; lra]|]. rewrite !fpt_fv by (cbn; lia).
  destruct (F_of_Z_exact 170 eq_refl) as [A1 A2]. destruct (F_of_Z_exact (-170) eq_refl) as [B1 B2]. destruct (F_of_Z_exact 3 eq_refl) as [C1 C2]. destruct (F_of_Z_exact 4 eq_refl) as [D1 D2].
  split; [split; [exact A2|rewrite A1; lra]|]. split; [split; [exact B2|rewrite B1; lra]|]. rewrite C1, D1.
  assert (H1 : forall k : Z, (k <= 0)%Z -> bpow radix2 k <= 1) by (intros k K; apply (bpow_le radix2 k 0); exact K). assert (H2 : forall k : Z, (4 <= k)%Z -> 16 <= bpow radix2 k) by (intros k K; apply (bpow_le radix2 4 k); exact K).
  assert (N : norm (3, 4) = 5) by (unfold norm, norm2, px, py; cbn [fst snd]; replace (3 * 3 + 4 * 4) with (5 * 5) by ring; apply sqrt_square; lra). rewrite N.
  pose proof (H1 (-490)%Z ltac:(lia)). pose proof (H1 (-1000)%Z ltac:(lia)). pose proof (H1 (-480)%Z ltac:(lia)). pose proof (H2 490%Z ltac:(lia)). pose proof (H2 990%Z ltac:(lia)). pose proof (H2 500%Z ltac:(lia)).
  split; [lra|]. split; [lra|]. split; [lra|]. replace (rad 90) with (PI / 2) by (unfold rad; field). rewrite cos_PI2, sin_PI2.
  unfold edist, norm, norm2, psub, px, py. cbn [fst snd]. split; [|f_equal; ring]. replace (_ + _) with (2 * 2) by ring. apply sqrt_square. lra.
Qed.
