(** * P_RectF2: setting the sides of a rectangle and intersecting two rectangles in doubles (C161, C162) *)
From Coq Require Import ZArith List Bool String Reals Lra Lia Psatz.
From Flocq Require Import Core BinarySingleNaN.
From Verif Require Import Base Types NumR NumF R_Tac Spec Spec2 Abs M_Angle M_Vector M_Sector M_Rect
  L_Angle P_Vector P_Rect L_Float P_Float P_Robust P_RectF P_DistF.
Import ListNotations.
Local Open Scope R_scope.

Lemma nmax_F L (a b : F) : is_finite a = true -> is_finite b = true -> is_finite (@nmax F (NumF L) a b) = true /\ B2R (@nmax F (NumF L) a b) = Rmax (B2R a) (B2R b).
Proof. intros A B. unfold nmax. cbn [nltb NumF]. rewrite ltb_F by assumption. unfold Rmax. destruct (Rlt_bool_spec (B2R a) (B2R b)), (Rle_dec (B2R a) (B2R b)); split; try assumption; lra. Qed.

(** near side a, far side b, length |b - a| rounded: the far side comes back within rounding *)
Lemma span_F k a b : (-800 <= k <= 800)%Z -> is_finite a = true -> is_finite b = true -> Rabs (B2R a) <= bpow radix2 k -> Rabs (B2R b) <= bpow radix2 k ->
  let l := Babs (Bminus mode_NE b a) in
  is_finite l = true /\ 0 <= B2R l <= bpow radix2 (k + 1) /\ is_finite (Bplus mode_NE a l) = true /\ Rabs (B2R (Bplus mode_NE a l) - (B2R a + Rabs (B2R b - B2R a))) <= bpow radix2 (k - 51).
Proof.
  intros Hk A1 B1 A2 B2 l. assert (B : Rabs (B2R b - B2R a) <= bpow radix2 (k + 1)). { rewrite Z.add_comm, bp2. apply Rabs_le. apply Rabs_le_inv in A2, B2. lra. }
  destruct (rnd_err _ (k + 1) ltac:(lia) B) as [E1 E2]. destruct (F_sub b a B1 A1) as [S1 S2]; [apply (finite_lt (k + 1)); [lia|exact E2]|].
  assert (L1 : is_finite l = true) by (unfold l; now rewrite is_finite_Babs). assert (L2 : B2R l = Rabs (rnd64 (B2R b - B2R a))) by (unfold l; now rewrite B2R_Babs, S1).
  assert (L3 : 0 <= B2R l <= bpow radix2 (k + 1)) by (rewrite L2; split; [apply Rabs_pos|exact E2]).
  split; [exact L1|]. split; [exact L3|].
  assert (K : bpow radix2 k <= bpow radix2 (k + 1)) by (apply bpow_le; lia).
  destruct (far_side (k + 1) a l ltac:(lia) A1 L1 ltac:(lra) L3) as (R1 & _ & _ & _ & R5). split; [exact R1|].
  replace (k - 51)%Z with (1 + (1 + (k - 53)))%Z by lia. replace (k + 1 - 54)%Z with (k - 53)%Z in E1 by lia. replace (k + 1 - 53)%Z with (1 + (k - 53))%Z in R5 by lia. rewrite !bp2 in *.
  pose proof (Rabs_triang_inv2 (rnd64 (B2R b - B2R a)) (B2R b - B2R a)) as T. rewrite <- L2 in T.
  assert (T' : Rabs (B2R l - Rabs (B2R b - B2R a)) <= bpow radix2 (k - 53)) by lra. apply Rabs_le_inv in T', R5. pose proof (bpow_ge_0 radix2 (k - 53)). apply Rabs_le. lra.
Qed.
Lemma span_minmax L k a b : (-800 <= k <= 800)%Z -> is_finite a = true -> is_finite b = true -> Rabs (B2R a) <= bpow radix2 k -> Rabs (B2R b) <= bpow radix2 k ->
  let lo := @nmin F (NumF L) a b in let hi := @nmax F (NumF L) a b in let l := Babs (Bminus mode_NE hi lo) in
  (is_finite lo = true /\ B2R lo = Rmin (B2R a) (B2R b)) /\ is_finite (Bplus mode_NE lo l) = true /\ Rabs (B2R (Bplus mode_NE lo l) - Rmax (B2R a) (B2R b)) <= bpow radix2 (k - 51).
Proof.
  intros Hk A1 B1 A2 B2 lo hi l. destruct (nmin_F L a b A1 B1) as [N1 N2]. destruct (nmax_F L a b A1 B1) as [M1 M2]. fold lo in N1, N2. fold hi in M1, M2.
  assert (N3 : Rabs (B2R lo) <= bpow radix2 k) by (rewrite N2; unfold Rmin; now destruct (Rle_dec (B2R a) (B2R b))).
  assert (M3 : Rabs (B2R hi) <= bpow radix2 k) by (rewrite M2; unfold Rmax; now destruct (Rle_dec (B2R a) (B2R b))).
  destruct (span_F k lo hi Hk N1 M1 N3 M3) as (_ & _ & S3 & S4). fold l in S3, S4. split; [easy|]. split; [exact S3|].
  replace (Rmax (B2R a) (B2R b)) with (B2R lo + Rabs (B2R hi - B2R lo)); [exact S4|]. rewrite N2, M2, abs_maxmin. lra.
Qed.

(** ** C161: setting a side *)
(** set_left(x) makes the smaller of x and the old right side the left side,
    exactly, and the larger the right side up to rounding; likewise for the
    other three sides.  The other direction is not touched. *)
Theorem C161_set_side_F : forall (L : libm) (k : Z) (r : rect F) (x : F), (-700 <= k <= 700)%Z -> plain_rect k r -> is_finite x = true -> Rabs (B2R x) <= bpow radix2 k ->
  let far_x := B2R (@Rect2D_right F (NumF L) r) in let near_x := B2R (@Rect2D_left F r) in
  let far_y := B2R (@Rect2D_bottom F (NumF L) r) in let near_y := B2R (@Rect2D_top F r) in
  let exactly (a : F) (v : R) := is_finite a = true /\ B2R a = v in
  let nearly (a : F) (v : R) := is_finite a = true /\ Rabs (B2R a - v) <= bpow radix2 (k - 50) in
  (let q := @Rect2D_set_left F (NumF L) r x in exactly (@Rect2D_left F q) (Rmin far_x (B2R x)) /\ nearly (@Rect2D_right F (NumF L) q) (Rmax far_x (B2R x)) /\
     @Rect2D_top F q = @Rect2D_top F r /\ @Rect2D_bottom F (NumF L) q = @Rect2D_bottom F (NumF L) r) /\
  (let q := @Rect2D_set_right F (NumF L) r x in exactly (@Rect2D_left F q) (Rmin near_x (B2R x)) /\ nearly (@Rect2D_right F (NumF L) q) (Rmax near_x (B2R x)) /\
     @Rect2D_top F q = @Rect2D_top F r /\ @Rect2D_bottom F (NumF L) q = @Rect2D_bottom F (NumF L) r) /\
  (let q := @Rect2D_set_top F (NumF L) r x in exactly (@Rect2D_top F q) (Rmin far_y (B2R x)) /\ nearly (@Rect2D_bottom F (NumF L) q) (Rmax far_y (B2R x)) /\
     @Rect2D_left F q = @Rect2D_left F r /\ @Rect2D_right F (NumF L) q = @Rect2D_right F (NumF L) r) /\
  (let q := @Rect2D_set_bottom F (NumF L) r x in exactly (@Rect2D_top F q) (Rmin near_y (B2R x)) /\ nearly (@Rect2D_bottom F (NumF L) q) (Rmax near_y (B2R x)) /\
     @Rect2D_left F q = @Rect2D_left F r /\ @Rect2D_right F (NumF L) q = @Rect2D_right F (NumF L) r).
Proof.
  intros L k r x Hk ((X1 & Y1 & X2 & Y2) & L1 & W1 & L2 & W2) Fx Bx far_x near_x far_y near_y exactly nearly.
  destruct (far_side k _ _ ltac:(lia) X1 L1 X2 L2) as (R1 & _ & _ & R4 & _). destruct (far_side k _ _ ltac:(lia) Y1 W1 Y2 W2) as (S1 & _ & _ & S4 & _).
  assert (K : bpow radix2 k <= bpow radix2 (k + 1)) by (apply bpow_le; lia).
  assert (G : forall a, is_finite a = true -> Rabs (B2R a) <= bpow radix2 (k + 1) ->
    exactly (@nmin F (NumF L) a x) (Rmin (B2R a) (B2R x)) /\ nearly (Bplus mode_NE (@nmin F (NumF L) a x) (Babs (Bminus mode_NE (@nmax F (NumF L) a x) (@nmin F (NumF L) a x)))) (Rmax (B2R a) (B2R x))).
  { intros a A1 A2. destruct (span_minmax L (k + 1) a x ltac:(lia) A1 Fx A2 ltac:(lra)) as (U & V1 & V2). split; [exact U|]. split; [exact V1|]. replace (k - 50)%Z with (k + 1 - 51)%Z by lia. exact V2. }
  split; [|split; [|split]].
  - destruct (G _ R1 R4) as [U V]. split; [exact U|]. split; [exact V|]. split; reflexivity.
  - destruct (G _ X1 ltac:(lra)) as [U V]. split; [exact U|]. split; [exact V|]. split; reflexivity.
  - destruct (G _ S1 S4) as [U V]. split; [exact U|]. split; [exact V|]. split; reflexivity.
  - destruct (G _ Y1 ltac:(lra)) as [U V]. split; [exact U|]. split; [exact V|]. split; reflexivity.
Qed.
Example C161_nonvacuous : plain_rect 6 (mkRect (mkVec (F_of_Z (-50)) (F_of_Z (-34)) true) (mkSize (F_of_Z 5) (F_of_Z 60)) true) /\ is_finite (F_of_Z 7) = true /\ Rabs (B2R (F_of_Z 7)) <= bpow radix2 6.
Proof.
  split; [exact C138_nonvacuous|]. destruct (F_of_Z_exact 7 eq_refl) as [E1 E2]. split; [exact E2|]. rewrite E1. change (bpow radix2 6) with 64. apply Rabs_le. lra.
Qed.

(** ** C162: intersecting two rectangles *)
(** The near sides of the result are exact, the far ones correct up to
    rounding; so apart from points within 2^(k-50) of its far sides, the
    result contains exactly the points of both rectangles. *)
Lemma intersect_tail_F L r o : @intersect_tail F (NumF L) r o = @rect_set_all F (NumF L) r
    (@nmax F (NumF L) (@Rect2D_left F r) (@Rect2D_left F o)) (@nmax F (NumF L) (@Rect2D_top F r) (@Rect2D_top F o))
    (Bminus mode_NE (@nmin F (NumF L) (@Rect2D_right F (NumF L) r) (@Rect2D_right F (NumF L) o)) (@nmax F (NumF L) (@Rect2D_left F r) (@Rect2D_left F o)))
    (Bminus mode_NE (@nmin F (NumF L) (@Rect2D_bottom F (NumF L) r) (@Rect2D_bottom F (NumF L) o)) (@nmax F (NumF L) (@Rect2D_top F r) (@Rect2D_top F o))).
Proof. unfold intersect_tail. cbv zeta. match goal with |- context [if ?b then _ else _] => destruct b end; reflexivity. Qed.
Lemma contains_F L (r : rect F) (p : vec F) : is_finite (@Rect2D_left F r) = true -> is_finite (@Rect2D_right F (NumF L) r) = true -> is_finite (@Rect2D_top F r) = true -> is_finite (@Rect2D_bottom F (NumF L) r) = true ->
  is_finite (vx p) = true -> is_finite (vy p) = true ->
  (@Rect2D_contains F (NumF L) r p = true <-> B2R (@Rect2D_left F r) <= B2R (vx p) <= B2R (@Rect2D_right F (NumF L) r) /\ B2R (@Rect2D_top F r) <= B2R (vy p) <= B2R (@Rect2D_bottom F (NumF L) r)).
Proof.
  intros A B C D E G. unfold Rect2D_contains. cbn [nleb NumF]. rewrite !leb_F by assumption. rewrite !andb_true_iff.
  do 4 match goal with |- context [Rle_bool ?x ?y] => case (Rle_bool_spec x y); intros ? end; split; intros; try tauto; try lra; repeat match goal with H : _ /\ _ |- _ => destruct H end; try discriminate; lra.
Qed.
Theorem C162_intersected_F : forall (L : libm) (k : Z) (r o : rect F), (-700 <= k <= 700)%Z -> plain_rect k r -> plain_rect k o ->
  @Rect2D_is_valid F (NumF L) o = true ->
  let i := @Rect2D_intersected F (NumF L) r o in let e := bpow radix2 (k - 50) in
  let l := Rmax (B2R (@Rect2D_left F r)) (B2R (@Rect2D_left F o)) in let t := Rmax (B2R (@Rect2D_top F r)) (B2R (@Rect2D_top F o)) in
  let rt := Rmin (B2R (@Rect2D_right F (NumF L) r)) (B2R (@Rect2D_right F (NumF L) o)) in let b := Rmin (B2R (@Rect2D_bottom F (NumF L) r)) (B2R (@Rect2D_bottom F (NumF L) o)) in
  (B2R (@Rect2D_left F i) = l /\ B2R (@Rect2D_top F i) = t /\
   Rabs (B2R (@Rect2D_right F (NumF L) i) - (l + Rabs (rt - l))) <= e /\ Rabs (B2R (@Rect2D_bottom F (NumF L) i) - (t + Rabs (b - t))) <= e) /\
  (l <= rt -> t <= b -> forall p : vec F, is_finite (vx p) = true -> is_finite (vy p) = true -> (B2R (vx p) <= rt - e \/ rt + e < B2R (vx p)) -> (B2R (vy p) <= b - e \/ b + e < B2R (vy p)) ->
   (@Rect2D_contains F (NumF L) i p = true <-> @Rect2D_contains F (NumF L) r p = true /\ @Rect2D_contains F (NumF L) o p = true)).
Proof.
  intros L k r o Hk ((X1 & Y1 & X2 & Y2) & L1 & W1 & L2 & W2) ((X1' & Y1' & X2' & Y2') & L1' & W1' & L2' & W2') V i e l t rt b.
  destruct (far_side k _ _ ltac:(lia) X1 L1 X2 L2) as (R1 & _ & _ & R4 & _). destruct (far_side k _ _ ltac:(lia) Y1 W1 Y2 W2) as (S1 & _ & _ & S4 & _).
  destruct (far_side k _ _ ltac:(lia) X1' L1' X2' L2') as (R1' & _ & _ & R4' & _). destruct (far_side k _ _ ltac:(lia) Y1' W1' Y2' W2') as (S1' & _ & _ & S4' & _).
  assert (K : bpow radix2 k <= bpow radix2 (k + 1)) by (apply bpow_le; lia).
  assert (G : forall a a' c c' : F, is_finite a = true -> is_finite a' = true -> is_finite c = true -> is_finite c' = true ->
    Rabs (B2R a) <= bpow radix2 k -> Rabs (B2R a') <= bpow radix2 k -> Rabs (B2R c) <= bpow radix2 (k + 1) -> Rabs (B2R c') <= bpow radix2 (k + 1) ->
    let lo := @nmax F (NumF L) a a' in let hi := @nmin F (NumF L) c c' in let far := Bplus mode_NE lo (Babs (Bminus mode_NE hi lo)) in
    is_finite lo = true /\ B2R lo = Rmax (B2R a) (B2R a') /\ is_finite far = true /\ Rabs (B2R far - (Rmax (B2R a) (B2R a') + Rabs (Rmin (B2R c) (B2R c') - Rmax (B2R a) (B2R a')))) <= e).
  { intros a a' c c' A1 A1' C1 C1' A2 A2' C2 C2' lo hi far. destruct (nmax_F L a a' A1 A1') as [M1 M2]. destruct (nmin_F L c c' C1 C1') as [N1 N2]. fold lo in M1, M2. fold hi in N1, N2.
    assert (M3 : Rabs (B2R lo) <= bpow radix2 (k + 1)) by (rewrite M2; unfold Rmax; destruct (Rle_dec (B2R a) (B2R a')); lra).
    assert (N3 : Rabs (B2R hi) <= bpow radix2 (k + 1)) by (rewrite N2; unfold Rmin; destruct (Rle_dec (B2R c) (B2R c')); lra).
    destruct (span_F (k + 1) lo hi ltac:(lia) M1 N1 M3 N3) as (_ & _ & P3 & P4). fold far in P3, P4. rewrite M2, N2 in P4. replace (k + 1 - 51)%Z with (k - 50)%Z in P4 by lia. repeat split; assumption. }
  destruct (G _ _ _ _ X1 X1' R1 R1' X2 X2' R4 R4') as (A1 & A2 & A3 & A4). destruct (G _ _ _ _ Y1 Y1' S1 S1' Y2 Y2' S4 S4') as (B1 & B2 & B3 & B4). clear G.
  assert (EI : i = @rect_set_all F (NumF L) r
    (@nmax F (NumF L) (@Rect2D_left F r) (@Rect2D_left F o)) (@nmax F (NumF L) (@Rect2D_top F r) (@Rect2D_top F o))
    (Bminus mode_NE (@nmin F (NumF L) (@Rect2D_right F (NumF L) r) (@Rect2D_right F (NumF L) o)) (@nmax F (NumF L) (@Rect2D_left F r) (@Rect2D_left F o)))
    (Bminus mode_NE (@nmin F (NumF L) (@Rect2D_bottom F (NumF L) r) (@Rect2D_bottom F (NumF L) o)) (@nmax F (NumF L) (@Rect2D_top F r) (@Rect2D_top F o)))).
  { unfold i, Rect2D_intersected. rewrite V. cbn [negb]. apply intersect_tail_F. }
  clearbody i. 
  assert (I1 : @Rect2D_left F i = @nmax F (NumF L) (@Rect2D_left F r) (@Rect2D_left F o)) by now rewrite EI.
  assert (I2 : @Rect2D_top F i = @nmax F (NumF L) (@Rect2D_top F r) (@Rect2D_top F o)) by now rewrite EI.
  match type of A3 with is_finite ?t = _ => assert (I3 : @Rect2D_right F (NumF L) i = t) by now rewrite EI end.
  match type of B3 with is_finite ?t = _ => assert (I4 : @Rect2D_bottom F (NumF L) i = t) by now rewrite EI end.
  change (@Rect2D_left F r) with (vx (r_top_left r)) in I1. change (@Rect2D_left F o) with (vx (r_top_left o)) in I1.
  change (@Rect2D_top F r) with (vy (r_top_left r)) in I2. change (@Rect2D_top F o) with (vy (r_top_left o)) in I2.
  rewrite <- I1 in A1, A2. rewrite <- I2 in B1, B2. rewrite <- I3 in A3, A4. rewrite <- I4 in B3, B4. clear I1 I2 I3 I4 EI.
  split; [repeat split; assumption|]. intros O1 O2 p P1 P2 Q1 Q2.
  rewrite (contains_F L i p A1 A3 B1 B3 P1 P2), (contains_F L r p X1 R1 Y1 S1 P1 P2), (contains_F L o p X1' R1' Y1' S1' P1 P2).
  change (Rmax (B2R (vx (r_top_left r))) (B2R (vx (r_top_left o)))) with l in *. change (Rmax (B2R (vy (r_top_left r))) (B2R (vy (r_top_left o)))) with t in *.
  rewrite A2, B2.
  match type of A4 with Rabs (_ - (_ + Rabs (?m - _))) <= _ => change m with rt in A4 end. match type of B4 with Rabs (_ - (_ + Rabs (?m - _))) <= _ => change m with b in B4 end.
  rewrite (Rabs_pos_eq (rt - l)) in A4 by lra. rewrite (Rabs_pos_eq (b - t)) in B4 by lra. apply Rabs_le_inv in A4, B4.
  assert (T1 : forall v, l <= v <-> B2R (@Rect2D_left F r) <= v /\ B2R (@Rect2D_left F o) <= v). { intros v. unfold l, Rmax. destruct (Rle_dec _ _); lra. }
  assert (T2 : forall v, t <= v <-> B2R (@Rect2D_top F r) <= v /\ B2R (@Rect2D_top F o) <= v). { intros v. unfold t, Rmax. destruct (Rle_dec _ _); lra. }
  assert (T3 : forall v, v <= rt <-> v <= B2R (@Rect2D_right F (NumF L) r) /\ v <= B2R (@Rect2D_right F (NumF L) o)). { intros v. unfold rt, Rmin. destruct (Rle_dec _ _); lra. }
  assert (T4 : forall v, v <= b <-> v <= B2R (@Rect2D_bottom F (NumF L) r) /\ v <= B2R (@Rect2D_bottom F (NumF L) o)). { intros v. unfold b, Rmin. destruct (Rle_dec _ _); lra. }
  specialize (T1 (B2R (vx p))). specialize (T3 (B2R (vx p))). specialize (T2 (B2R (vy p))). specialize (T4 (B2R (vy p))).
  assert (E0 : 0 <= e) by apply bpow_ge_0.
  assert (U1 : B2R (vx p) <= B2R (@Rect2D_right F (NumF L) i) <-> B2R (vx p) <= rt) by (split; intros; lra).
  assert (U2 : B2R (vy p) <= B2R (@Rect2D_bottom F (NumF L) i) <-> B2R (vy p) <= b) by (split; intros; lra).
  clear - T1 T2 T3 T4 U1 U2. tauto.
Qed.
Example C162_nonvacuous : exists r o : rect F, plain_rect 6 r /\ plain_rect 6 o /\ (forall L, @Rect2D_is_valid F (NumF L) o = true) /\
  (forall L, Rmax (B2R (@Rect2D_left F r)) (B2R (@Rect2D_left F o)) <= Rmin (B2R (@Rect2D_right F (NumF L) r)) (B2R (@Rect2D_right F (NumF L) o)) /\
    Rmax (B2R (@Rect2D_top F r)) (B2R (@Rect2D_top F o)) <= Rmin (B2R (@Rect2D_bottom F (NumF L) r)) (B2R (@Rect2D_bottom F (NumF L) o))).
Proof.
  exists (mkRect (mkVec (F_of_Z (-50)) (F_of_Z (-34)) true) (mkSize (F_of_Z 5) (F_of_Z 60)) true), (mkRect (mkVec (F_of_Z (-48)) (F_of_Z (-20)) true) (mkSize (F_of_Z 40) (F_of_Z 10)) true).
  split; [exact C138_nonvacuous|]. destruct (F_of_Z_exact (-50) eq_refl) as [E1 E2]. destruct (F_of_Z_exact (-34) eq_refl) as [E3 E4]. destruct (F_of_Z_exact (-48) eq_refl) as [E5 E6]. destruct (F_of_Z_exact (-20) eq_refl) as [E7 E8].
  destruct (F_of_Z_exact 40 eq_refl) as [E9 E10]. destruct (F_of_Z_exact 10 eq_refl) as [E11 E12].
  split. { unfold plain_rect, within. cbn [r_top_left r_size vx vy sz_length sz_width]. rewrite E5, E7, E9, E11. change (bpow radix2 6) with 64. repeat split; try assumption; try (apply Rabs_le); lra. }
  split; [intros L; vm_compute; reflexivity|]. intros L.
  assert (G : forall a b c, B2SF (Bplus mode_NE (F_of_Z a) (F_of_Z b)) = B2SF (F_of_Z c) -> B2R (Bplus mode_NE (F_of_Z a) (F_of_Z b)) = B2R (F_of_Z c)) by (intros a b c Q; apply B2SF_inj in Q; now rewrite Q).
  unfold Rect2D_right, Rect2D_bottom, Rect2D_left, Rect2D_top. cbn [r_top_left r_size vx vy sz_length sz_width nadd NumF].
  rewrite (G (-50) 5 (-45))%Z by (vm_compute; reflexivity). rewrite (G (-48) 40 (-8))%Z by (vm_compute; reflexivity). rewrite (G (-34) 60 26)%Z by (vm_compute; reflexivity). rewrite (G (-20) 10 (-10))%Z by (vm_compute; reflexivity).
  destruct (F_of_Z_exact (-45) eq_refl) as [E13 _]. destruct (F_of_Z_exact (-8) eq_refl) as [E14 _]. destruct (F_of_Z_exact 26 eq_refl) as [E15 _]. destruct (F_of_Z_exact (-10) eq_refl) as [E16 _].
  rewrite E1, E3, E5, E7, E13, E14, E15, E16. unfold Rmax, Rmin. repeat destruct (Rle_dec _ _); lra.
Qed.
