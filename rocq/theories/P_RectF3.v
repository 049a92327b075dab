(** * P_RectF3: setting a corner, uniting, and building from two corners, in doubles (C176) *)
From Coq Require Import ZArith List Bool String Reals Lra Lia Psatz.
From Flocq Require Import Core BinarySingleNaN.
From Verif Require Import Base Types NumR NumF R_Tac Spec Spec2 Abs M_Angle M_Vector M_Sector M_Rect
  L_Angle P_Vector P_Rect L_Float P_Float P_Robust P_RectF P_DistF P_RectF2 P_VecF2.
Import ListNotations.
Local Open Scope R_scope.

(** a coordinate used as its own length: the far side is exact *)
Lemma self_span k a : (-800 <= k <= 900)%Z -> is_finite a = true -> Rabs (B2R a) <= bpow radix2 k ->
  is_finite (Bplus mode_NE a (Babs a)) = true /\ B2R (Bplus mode_NE a (Babs a)) = B2R a + Rabs (B2R a).
Proof.
  intros Hk A1 A2. assert (F1 : is_finite (Babs a) = true) by now rewrite is_finite_Babs.
  assert (F2 : B2R (Babs a) = Rabs (B2R a)) by apply B2R_Babs.
  assert (FM : fmt64 (B2R a + Rabs (B2R a))).
  { unfold Rabs. destruct (Rcase_abs (B2R a)).
    - replace (B2R a + - B2R a) with 0 by ring. apply generic_format_0.
    - replace (B2R a + B2R a) with (2 * B2R a) by ring. apply fmt_double, fmt_F. }
  destruct (F_add a (Babs a) A1 F1) as [S1 S2].
  { rewrite F2, (rnd_id _ FM). apply (finite_lt (k + 1)); [lia|]. rewrite Z.add_comm, bp2. apply Rabs_le_inv in A2. apply Rabs_le. pose proof (Rabs_pos (B2R a)). pose proof (Rabs_le _ _ A2). lra. }
  split; [exact S2|]. now rewrite S1, F2, (rnd_id _ FM).
Qed.

(** ** C176: what set_top_left, set_bottom_right, united and Rect2D(p, q) give in doubles *)
(** The corner that was given is exact when it lies before the opposite one,
    but the right side ends up at left + |left| (exactly), whatever it was. *)
Theorem C176_set_corner_F : forall (L : libm) (k : Z) (r : rect F) (x y : F), (-700 <= k <= 700)%Z -> plain_rect k r ->
  is_finite x = true -> is_finite y = true -> Rabs (B2R x) <= bpow radix2 k -> Rabs (B2R y) <= bpow radix2 k ->
  let exactly (a : F) (v : R) := is_finite a = true /\ B2R a = v in
  let nearly (a : F) (v : R) := is_finite a = true /\ Rabs (B2R a - v) <= bpow radix2 (k - 50) in
  (let q := @Rect2D_set_top_left F (NumF L) r x y in
   let l := Rmin (B2R (@Rect2D_right F (NumF L) r)) (B2R x) in
   exactly (@Rect2D_left F q) l /\ exactly (@Rect2D_right F (NumF L) q) (l + Rabs l) /\
   exactly (@Rect2D_top F q) (Rmin (B2R (@Rect2D_bottom F (NumF L) r)) (B2R y)) /\
   nearly (@Rect2D_bottom F (NumF L) q) (Rmax (B2R (@Rect2D_bottom F (NumF L) r)) (B2R y))) /\
  (let q := @Rect2D_set_bottom_right F (NumF L) r x y in
   let l := Rmin (B2R (@Rect2D_left F r)) (B2R x) in
   exactly (@Rect2D_left F q) l /\ exactly (@Rect2D_right F (NumF L) q) (l + Rabs l) /\
   exactly (@Rect2D_top F q) (Rmin (B2R (@Rect2D_top F r)) (B2R y)) /\
   nearly (@Rect2D_bottom F (NumF L) q) (Rmax (B2R (@Rect2D_top F r)) (B2R y))).
Proof.
  intros L k r x y Hk ((X1 & Y1 & X2 & Y2) & L1 & W1 & L2 & W2) Fx Fy Bx By exactly nearly.
  destruct (far_side k _ _ ltac:(lia) X1 L1 X2 L2) as (R1 & _ & _ & R4 & _). destruct (far_side k _ _ ltac:(lia) Y1 W1 Y2 W2) as (S1 & _ & _ & S4 & _).
  assert (K : bpow radix2 k <= bpow radix2 (k + 1)) by (apply bpow_le; lia).
  assert (GX : forall a, is_finite a = true -> Rabs (B2R a) <= bpow radix2 (k + 1) ->
    exactly (@nmin F (NumF L) a x) (Rmin (B2R a) (B2R x)) /\ exactly (Bplus mode_NE (@nmin F (NumF L) a x) (Babs (@nmin F (NumF L) a x))) (Rmin (B2R a) (B2R x) + Rabs (Rmin (B2R a) (B2R x)))).
  { intros a A1 A2. destruct (nmin_F L a x A1 Fx) as [N1 N2]. split; [split; assumption|]. rewrite <- N2. apply (self_span (k + 1)); [lia|exact N1|]. rewrite N2. unfold Rmin. destruct (Rle_dec (B2R a) (B2R x)); lra. }
  assert (GY : forall a, is_finite a = true -> Rabs (B2R a) <= bpow radix2 (k + 1) ->
    exactly (@nmin F (NumF L) a y) (Rmin (B2R a) (B2R y)) /\ nearly (Bplus mode_NE (@nmin F (NumF L) a y) (Babs (Bminus mode_NE (@nmax F (NumF L) a y) (@nmin F (NumF L) a y)))) (Rmax (B2R a) (B2R y))).
  { intros a A1 A2. destruct (span_minmax L (k + 1) a y ltac:(lia) A1 Fy A2 ltac:(lra)) as (U & V1 & V2). split; [exact U|]. split; [exact V1|]. replace (k - 50)%Z with (k + 1 - 51)%Z by lia. exact V2. }
  split.
  - destruct (GX _ R1 R4) as [U1 U2]. destruct (GY _ S1 S4) as [V1 V2]. split; [exact U1|]. split; [exact U2|]. split; [exact V1|exact V2].
  - destruct (GX _ X1 ltac:(lra)) as [U1 U2]. destruct (GY _ Y1 ltac:(lra)) as [V1 V2]. split; [exact U1|]. split; [exact U2|]. split; [exact V1|exact V2].
Qed.

(** united never gives the union, unless the argument is so small against its
    position that it reports equal left and right sides. *)
Theorem C176_united_F : forall (L : libm) (k : Z) (r o : rect F), (-700 <= k <= 700)%Z -> plain_rect k r -> plain_rect k o ->
  @Rect2D_is_valid F (NumF L) o = true ->
  let u := @Rect2D_united F (NumF L) r o in let e := bpow radix2 (k - 50) in
  let l := Rmax (B2R (@Rect2D_left F r)) (B2R (@Rect2D_left F o)) in let t := Rmax (B2R (@Rect2D_top F r)) (B2R (@Rect2D_top F o)) in
  (B2R (@Rect2D_left F u) = l /\ B2R (@Rect2D_top F u) = t /\
   Rabs (B2R (@Rect2D_right F (NumF L) u) - (l + Rabs (Rmin (B2R (@Rect2D_left F r)) (B2R (@Rect2D_right F (NumF L) o)) - l))) <= e /\
   Rabs (B2R (@Rect2D_bottom F (NumF L) u) - (t + Rabs (Rmin (B2R (@Rect2D_top F r)) (B2R (@Rect2D_bottom F (NumF L) o)) - t))) <= e) /\
  (B2R (@Rect2D_left F o) < B2R (@Rect2D_right F (NumF L) o) ->
   ~ (@Rect2D_contains F (NumF L) u (@Rect2D_top_left F r) = true /\
      (forall p, @Rect2D_contains F (NumF L) o p = true -> @Rect2D_contains F (NumF L) u p = true))).
Proof.
  intros L k r o Hk PR PO HV u e l t. pose proof PR as ((X1 & Y1 & X2 & Y2) & L1 & W1 & L2 & W2). pose proof PO as ((X1' & Y1' & X2' & Y2') & L1' & W1' & L2' & W2').
  destruct (far_side k _ _ ltac:(lia) X1' L1' X2' L2') as (R1' & _ & _ & R4' & _). destruct (far_side k _ _ ltac:(lia) Y1' W1' Y2' W2') as (S1' & _ & _ & S4' & _).
  assert (K : bpow radix2 k <= bpow radix2 (k + 1)) by (apply bpow_le; lia).
  set (r1 := mkRect (r_top_left r) (@Size2D_assign F (NumF L) (r_size r) (@nlit F (NumF L) 0 1) (@nlit F (NumF L) 0 1)) (r_is_valid r)).
  assert (EU : u = @rect_set_all F (NumF L) r1
    (@nmax F (NumF L) (@Rect2D_left F r1) (@Rect2D_left F o)) (@nmax F (NumF L) (@Rect2D_top F r1) (@Rect2D_top F o))
    (Bminus mode_NE (@nmin F (NumF L) (@Rect2D_right F (NumF L) r1) (@Rect2D_right F (NumF L) o)) (@nmax F (NumF L) (@Rect2D_left F r1) (@Rect2D_left F o)))
    (Bminus mode_NE (@nmin F (NumF L) (@Rect2D_bottom F (NumF L) r1) (@Rect2D_bottom F (NumF L) o)) (@nmax F (NumF L) (@Rect2D_top F r1) (@Rect2D_top F o)))).
  { unfold u, Rect2D_united. rewrite HV. cbn [negb]. cbv zeta. fold r1. apply intersect_tail_F. }
  assert (Z0 : is_finite (Babs (@nlit F (NumF L) 0 1)) = true /\ B2R (Babs (@nlit F (NumF L) 0 1)) = 0).
  { split; [vm_compute; reflexivity|]. change (@nlit F (NumF L) 0 1) with (F_of_Z 0). rewrite B2R_Babs. destruct (F_of_Z_exact 0 eq_refl) as [-> _]. apply Rabs_R0. }
  assert (GZ : forall a, is_finite a = true -> Rabs (B2R a) <= bpow radix2 k -> is_finite (Bplus mode_NE a (Babs (@nlit F (NumF L) 0 1))) = true /\ B2R (Bplus mode_NE a (Babs (@nlit F (NumF L) 0 1))) = B2R a).
  { intros a A1 A2. destruct Z0 as [Z1 Z2]. destruct (F_add a _ A1 Z1) as [S1 S2].
    - rewrite Z2, Rplus_0_r, (rnd_id (B2R a)) by apply fmt_F. apply (finite_lt k); [lia|exact A2].
    - split; [exact S2|]. now rewrite S1, Z2, Rplus_0_r, (rnd_id (B2R a)) by apply fmt_F. }
  assert (G : forall a a' c' : F, is_finite a = true -> is_finite a' = true -> is_finite c' = true ->
    Rabs (B2R a) <= bpow radix2 k -> Rabs (B2R a') <= bpow radix2 k -> Rabs (B2R c') <= bpow radix2 (k + 1) ->
    let lo := @nmax F (NumF L) a a' in let hi := @nmin F (NumF L) (Bplus mode_NE a (Babs (@nlit F (NumF L) 0 1))) c' in let d := Bminus mode_NE hi lo in let far := Bplus mode_NE lo (Babs d) in
    is_finite lo = true /\ B2R lo = Rmax (B2R a) (B2R a') /\ is_finite far = true /\ Rabs (B2R far - (Rmax (B2R a) (B2R a') + Rabs (Rmin (B2R a) (B2R c') - Rmax (B2R a) (B2R a')))) <= e /\
    (B2R lo = B2R a -> B2R a <= B2R c' -> B2R far = B2R a)).
  { intros a a' c' A1 A1' C1' A2 A2' C2' lo hi d far. destruct (GZ a A1 A2) as [C1 C2]. destruct (nmax_F L a a' A1 A1') as [M1 M2]. destruct (nmin_F L _ c' C1 C1') as [N1 N2]. fold lo in M1, M2. fold hi in N1, N2. rewrite C2 in N2.
    assert (M3 : Rabs (B2R lo) <= bpow radix2 (k + 1)) by (rewrite M2; unfold Rmax; destruct (Rle_dec (B2R a) (B2R a')); lra).
    assert (N3 : Rabs (B2R hi) <= bpow radix2 (k + 1)) by (rewrite N2; unfold Rmin; destruct (Rle_dec (B2R a) (B2R c')); lra).
    destruct (span_F (k + 1) lo hi ltac:(lia) M1 N1 M3 N3) as (P1 & P2 & P3 & P4). fold d in P1, P2, P3, P4. fold far in P3, P4. rewrite M2, N2 in P4. replace (k + 1 - 51)%Z with (k - 50)%Z in P4 by lia.
    split; [exact M1|]. split; [exact M2|]. split; [exact P3|]. split; [exact P4|]. intros EL LE.
    assert (EH : B2R hi = B2R lo) by (rewrite N2, EL; unfold Rmin; destruct (Rle_dec (B2R a) (B2R c')); lra).
    destruct (F_sub hi lo N1 M1) as [D1 D2].
    { rewrite EH. replace (B2R lo - B2R lo) with 0 by ring. rewrite (rnd_id 0) by apply generic_format_0. rewrite Rabs_R0. apply bpow_gt_0. }
    fold d in D1, D2. rewrite EH in D1. replace (B2R lo - B2R lo) with 0 in D1 by ring. rewrite (rnd_id 0) in D1 by apply generic_format_0.
    assert (D3 : B2R (Babs d) = 0) by (rewrite B2R_Babs, D1; apply Rabs_R0).
    destruct (F_add lo (Babs d) M1 P1) as [Q1 _].
    { rewrite D3, Rplus_0_r, (rnd_id (B2R lo)) by apply fmt_F. apply (finite_lt (k + 1)); [lia|exact M3]. }
    unfold far. rewrite Q1, D3, Rplus_0_r, (rnd_id (B2R lo)) by apply fmt_F. exact EL. }
  destruct (G _ _ _ X1 X1' R1' X2 X2' R4') as (A1 & A2 & A3 & A4 & A5). destruct (G _ _ _ Y1 Y1' S1' Y2 Y2' S4') as (B1 & B2 & B3 & B4 & _). clear G GZ.
  clearbody u.
  assert (I1 : @Rect2D_left F u = @nmax F (NumF L) (vx (r_top_left r)) (vx (r_top_left o))) by now rewrite EU.
  assert (I2 : @Rect2D_top F u = @nmax F (NumF L) (vy (r_top_left r)) (vy (r_top_left o))) by now rewrite EU.
  match type of A3 with is_finite ?t = _ => assert (I3 : @Rect2D_right F (NumF L) u = t) by now rewrite EU end.
  match type of B3 with is_finite ?t = _ => assert (I4 : @Rect2D_bottom F (NumF L) u = t) by now rewrite EU end.
  rewrite <- I3 in A3, A4, A5. rewrite <- I4 in B3, B4. rewrite <- I1 in A1, A2, A5. rewrite <- I2 in B1, B2. clear I1 I2 I3 I4 EU.
  split; [split; [exact A2|split; [exact B2|split; [exact A4|exact B4]]]|]. intros PW [H1 H2].
  apply (contains_F L u (@Rect2D_top_left F r) A1 A3 B1 B3 X1 Y1) in H1. cbn [Rect2D_top_left Vector2D_of_vec V vx vy] in H1.
  assert (HC : forall p, is_finite (vx p) = true -> is_finite (vy p) = true -> @Rect2D_contains F (NumF L) o p = true -> B2R (@Rect2D_left F u) <= B2R (vx p) <= B2R (@Rect2D_right F (NumF L) u)).
  { intros p P1 P2 Q. specialize (H2 p Q). apply (contains_F L u p A1 A3 B1 B3 P1 P2) in H2. tauto. }
  destruct (C138_corners_F L k o ltac:(lia) PO) as [FC _]. inversion FC as [|q1 q2 TL FC1]; subst. inversion FC1 as [|q1 q2 TR FC2]; subst.
  pose proof (HC (@Rect2D_top_left F o) X1' Y1' TL) as TL'. pose proof (HC (@Rect2D_top_right F (NumF L) o) R1' Y1' TR) as TR'. cbn [Rect2D_top_left Rect2D_top_right Vector2D_of_vec V vx vy] in TL', TR'.
  change (@Rect2D_left F o) with (vx (r_top_left o)) in PW. rewrite A2 in *.
  assert (EL : Rmax (B2R (vx (r_top_left r))) (B2R (vx (r_top_left o))) = B2R (vx (r_top_left r))). { pose proof (Rmax_l (B2R (vx (r_top_left r))) (B2R (vx (r_top_left o)))). lra. }
  rewrite EL in *. specialize (A5 eq_refl).
  change (Bplus mode_NE (vx (r_top_left o)) (sz_length (r_size o))) with (@Rect2D_right F (NumF L) o) in A5.
  pose proof (Rmax_r (B2R (vx (r_top_left r))) (B2R (vx (r_top_left o)))) as MR. rewrite EL in MR.
  assert (E5 : B2R (@Rect2D_right F (NumF L) u) = B2R (vx (r_top_left r))) by (apply A5; lra). lra.
Qed.

(** Two corners: the size is always zero, as over the reals. *)
Theorem C176_two_corners_F : forall (L : libm) (k : Z) (p q : vec F) (r : rect F), (-900 <= k <= 900)%Z -> within k p -> within k q ->
  (exists c, @Rect2D_init F (NumF L) [VVec p; VVec q] = Ok c /\ B2R (sz_length (r_size c)) = 0 /\ B2R (sz_width (r_size c)) = 0 /\
     @Rect2D_is_valid F (NumF L) c = false /\
     (B2R (vy p) <= B2R (vy q) -> B2R (vx (r_top_left c)) = 0 /\ B2R (vy (r_top_left c)) = 0) /\
     (B2R (vy q) < B2R (vy p) -> B2R (vx (r_top_left c)) = Rmin (B2R (vx p)) (B2R (vx q)) /\ r_top_left c = mkVec (vx (r_top_left c)) (vy q) (v_valid (r_top_left c)))) /\
  B2R (sz_length (r_size (@Rect2D_assign_corners F (NumF L) r p q))) = 0 /\ B2R (sz_width (r_size (@Rect2D_assign_corners F (NumF L) r p q))) = 0.
Proof.
  intros L k p q r Hk (X1 & Y1 & X2 & Y2) (X1' & Y1' & X2' & Y2').
  assert (G : forall a b, is_finite a = true -> is_finite b = true -> Rabs (B2R a) <= bpow radix2 k -> Rabs (B2R b) <= bpow radix2 k ->
    @nltb F (NumF L) (Bminus mode_NE b a) (@nlit F (NumF L) 0 1) = Rlt_bool (B2R b) (B2R a)).
  { intros a b A1 B1 A2 B2. assert (B : Rabs (B2R b - B2R a) <= bpow radix2 (k + 1)). { rewrite Z.add_comm, bp2. apply Rabs_le. apply Rabs_le_inv in A2, B2. lra. }
    destruct (rnd_err _ (k + 1) ltac:(lia) B) as [_ E2]. destruct (F_sub b a B1 A1) as [S1 S2]; [apply (finite_lt (k + 1)); [lia|exact E2]|].
    change (@nlit F (NumF L) 0 1) with (F_of_Z 0). destruct (F_of_Z_exact 0 eq_refl) as [Z1 Z2]. cbn [nltb NumF]. rewrite ltb_F by assumption. rewrite S1, Z1.
    destruct (Rlt_bool_spec (B2R b) (B2R a)) as [H|H].
    - apply Rlt_bool_true. assert (LE : rnd64 (B2R b - B2R a) <= 0). { rewrite <- (rnd_id 0) by apply generic_format_0. apply rnd_le. lra. }
      destruct LE as [LE|LE]; [exact LE|exfalso]. apply rnd_zero in LE; [lra|apply fmt_F|apply fmt_F].
    - apply Rlt_bool_false. rewrite <- (rnd_id 0) by apply generic_format_0. apply rnd_le. lra. }
  assert (Z0 : B2R (Babs (@nlit F (NumF L) 0 1)) = 0).
  { change (@nlit F (NumF L) 0 1) with (F_of_Z 0). rewrite B2R_Babs. destruct (F_of_Z_exact 0 eq_refl) as [-> _]. apply Rabs_R0. }
  assert (Z1 : B2R (@nlit F (NumF L) 0 1) = 0) by (change (@nlit F (NumF L) 0 1) with (F_of_Z 0); now destruct (F_of_Z_exact 0 eq_refl) as [-> _]).
  unfold Rect2D_assign_corners. cbn [Rect2D_init]. unfold Rect2D_of_corners, two_corner_fields. cbn [vx vy Vector2D_of_vec V]. cbv zeta.
  cbn [nsub NumF]. rewrite !(G _ _ Y1 Y1' Y2 Y2'), !(G _ _ X1 X1' X2 X2').
  assert (HV : @Size2D_is_valid F (NumF L) (@size0 F (NumF L)) = false) by (vm_compute; reflexivity).
  split.
  - eexists; split; [reflexivity|]. destruct (Rlt_bool_spec (B2R (vy q)) (B2R (vy p))) as [H|H]; cbn [r_size r_top_left size0 Size2D_init sz_length sz_width vec0 V vx vy nabs NumF Vector2D_set_y].
    + split; [exact Z0|]. split; [exact Z0|]. split; [exact HV|]. split; [intros; lra|]. intros _. destruct (Rlt_bool_spec (B2R (vx q)) (B2R (vx p))) as [J|J]; cbn; split; try reflexivity; unfold Rmin; destruct (Rle_dec _ _); lra.
    + split; [exact Z0|]. split; [exact Z0|]. split; [exact HV|]. split; [intros _; split; exact Z1|]. intros; lra.
  - destruct (Rlt_bool (B2R (vy q)) (B2R (vy p))); cbn [r_size size0 Size2D_init sz_length sz_width nabs NumF]; split; exact Z0.
Qed.
Example C176_nonvacuous : exists r o : rect F, plain_rect 6 r /\ plain_rect 6 o /\ (forall L, @Rect2D_is_valid F (NumF L) o = true) /\
  (forall L, B2R (@Rect2D_left F o) < B2R (@Rect2D_right F (NumF L) o)).
Proof.
  set (o := mkRect (mkVec (F_of_Z (-50)) (F_of_Z (-34)) true) (mkSize (F_of_Z 5) (F_of_Z 60)) true : rect F).
  exists o, o. split; [exact C138_nonvacuous|]. split; [exact C138_nonvacuous|]. split; [intros L; vm_compute; reflexivity|]. intros L.
  unfold o, Rect2D_right, Rect2D_left. cbn [r_top_left r_size vx sz_length nadd NumF].
  assert (G : Bplus mode_NE (F_of_Z (-50)) (F_of_Z 5) = F_of_Z (-45)) by (apply B2SF_inj; vm_compute; reflexivity). rewrite G.
  destruct (F_of_Z_exact (-50) eq_refl) as [-> _]. destruct (F_of_Z_exact (-45) eq_refl) as [-> _]. lra.
Qed.
