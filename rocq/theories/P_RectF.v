(** * P_RectF: rectangles in doubles (C138, C139) *)
From Coq Require Import ZArith List Bool String Reals Lra Lia Psatz.
From Flocq Require Import Core BinarySingleNaN Mult_error.
From Verif Require Import Base Types NumR NumF R_Tac Spec Spec2 Abs M_Angle M_Vector M_Rect
  L_Angle P_Vector P_Rect L_Float P_Float P_Robust.
Import ListNotations.
Local Open Scope R_scope.

(** finite fields of magnitude at most 2^k, sides not negative *)
Definition plain_rect (k : Z) (r : rect F) : Prop := within k (r_top_left r) /\
  is_finite (sz_length (r_size r)) = true /\ is_finite (sz_width (r_size r)) = true /\
  0 <= B2R (sz_length (r_size r)) <= bpow radix2 k /\ 0 <= B2R (sz_width (r_size r)) <= bpow radix2 k.
Lemma fmt_double x : fmt64 x -> fmt64 (2 * x).
Proof. intros H. replace (2 * x) with (x * bpow radix2 1) by (cbn; lra). apply mult_bpow_pos_exact_FLT; [exact H|lia]. Qed.
Lemma half_F L : B2R (@nlit F (NumF L) 1 2) = / 2 /\ is_finite (@nlit F (NumF L) 1 2) = true.
Proof. split; [|vm_compute; reflexivity]. replace (@nlit F (NumF L) 1 2) with (Fd 1 (-1)) by (apply B2SF_inj; vm_compute; reflexivity). rewrite Fd_exact by (cbn; lia). cbn. lra. Qed.
Lemma far_side k x l : (-900 <= k <= 900)%Z -> is_finite x = true -> is_finite l = true -> Rabs (B2R x) <= bpow radix2 k -> 0 <= B2R l <= bpow radix2 k ->
  let y := Bplus mode_NE x l in is_finite y = true /\ B2R y = rnd64 (B2R x + B2R l) /\ B2R x <= B2R y /\ Rabs (B2R y) <= bpow radix2 (k + 1) /\ Rabs (B2R y - (B2R x + B2R l)) <= bpow radix2 (k - 53).
Proof.
  intros Hk X1 L1 X2 L2 y. assert (B : Rabs (B2R x + B2R l) <= bpow radix2 (k + 1)). { rewrite Z.add_comm, bp2. apply Rabs_le. apply Rabs_le_inv in X2. lra. }
  destruct (rnd_err _ (k + 1) ltac:(lia) B) as [E1 E2]. destruct (F_add x l X1 L1) as [A1 A2]; [apply (finite_lt (k + 1)); [lia|exact E2]|].
  split; [exact A2|]. split; [exact A1|]. unfold y. rewrite A1. split; [|split; [exact E2|replace (k - 53)%Z with (k + 1 - 54)%Z by lia; exact E1]].
  rewrite <- (rnd_id (B2R x)) at 1 by apply fmt_F. apply rnd_le. lra.
Qed.
Lemma mid_side L k x y : (-900 <= k <= 950)%Z -> is_finite x = true -> is_finite y = true -> Rabs (B2R x) <= bpow radix2 k -> Rabs (B2R y) <= bpow radix2 k -> B2R x <= B2R y ->
  let m := Bmult mode_NE (Bplus mode_NE x y) (@nlit F (NumF L) 1 2) in is_finite m = true /\ B2R x <= B2R m <= B2R y /\ Rabs (B2R m - (B2R x + B2R y) / 2) <= bpow radix2 (k - 53).
Proof.
  intros Hk X1 Y1 X2 Y2 O m. assert (B : Rabs (B2R x + B2R y) <= bpow radix2 (k + 1)). { rewrite Z.add_comm, bp2. apply Rabs_le. apply Rabs_le_inv in X2, Y2. lra. }
  destruct (rnd_err _ (k + 1) ltac:(lia) B) as [E1 E2]. destruct (F_add x y X1 Y1) as [A1 A2]; [apply (finite_lt (k + 1)); [lia|exact E2]|].
  destruct (half_F L) as [H1 H2].
  assert (S : 2 * B2R x <= rnd64 (B2R x + B2R y) <= 2 * B2R y) by (apply rnd_between; [apply fmt_double, fmt_F|apply fmt_double, fmt_F|lra]).
  assert (Q : B2R x <= rnd64 (rnd64 (B2R x + B2R y) * / 2) <= B2R y) by (apply rnd_between; [apply fmt_F|apply fmt_F|lra]).
  assert (B' : Rabs (rnd64 (B2R x + B2R y) * / 2) <= bpow radix2 k). { rewrite Rabs_mult, (Rabs_pos_eq (/ 2)) by lra. rewrite Z.add_comm, bp2 in E2. lra. }
  destruct (rnd_err _ k ltac:(lia) B') as [G1 G2].
  destruct (F_mul (Bplus mode_NE x y) (@nlit F (NumF L) 1 2) A2 H2) as [M1 M2]. { rewrite A1, H1. apply (finite_lt k); [lia|exact G2]. }
  split; [exact M2|]. unfold m. rewrite M1, A1, H1. split; [exact Q|].
  apply Rabs_le_inv in E1, G1. apply Rabs_le. replace (k + 1 - 54)%Z with (k - 53)%Z in E1 by lia. replace (k - 53)%Z with (1 + (k - 54))%Z in * by lia. rewrite bp2 in *. lra.
Qed.

(** ** C138: the corners and the centre a rectangle reports lie in it *)
Theorem C138_corners_F : forall (L : libm) (k : Z) (r : rect F), (-900 <= k <= 900)%Z -> plain_rect k r ->
  Forall (fun p => @Rect2D_contains F (NumF L) r p = true)
    [@Rect2D_top_left F r; @Rect2D_top_right F (NumF L) r; @Rect2D_bottom_left F (NumF L) r; @Rect2D_bottom_right F (NumF L) r; @Rect2D_center F (NumF L) r] /\
  (forall p : vec F, is_finite (vx p) = true -> is_finite (vy p) = true ->
    (@Rect2D_contains F (NumF L) r p = true <->
     B2R (vx (r_top_left r)) <= B2R (vx p) <= rnd64 (B2R (vx (r_top_left r)) + B2R (sz_length (r_size r))) /\
     B2R (vy (r_top_left r)) <= B2R (vy p) <= rnd64 (B2R (vy (r_top_left r)) + B2R (sz_width (r_size r))))).
Proof.
  intros L k r Hk ((X1 & Y1 & X2 & Y2) & L1 & W1 & L2 & W2).
  destruct (far_side k _ _ Hk X1 L1 X2 L2) as (R1 & R2 & R3 & R4 & _). destruct (far_side k _ _ Hk Y1 W1 Y2 W2) as (S1 & S2 & S3 & S4 & _).
  assert (G : forall p : vec F, is_finite (vx p) = true -> is_finite (vy p) = true ->
    (@Rect2D_contains F (NumF L) r p = true <-> B2R (vx (r_top_left r)) <= B2R (vx p) <= B2R (Bplus mode_NE (vx (r_top_left r)) (sz_length (r_size r))) /\ B2R (vy (r_top_left r)) <= B2R (vy p) <= B2R (Bplus mode_NE (vy (r_top_left r)) (sz_width (r_size r))))).
  { intros p P1 P2. unfold Rect2D_contains, Rect2D_left, Rect2D_right, Rect2D_left, Rect2D_top, Rect2D_bottom, Rect2D_top. cbn [nadd nleb NumF]. rewrite !leb_F by assumption. rewrite !andb_true_iff, !Rle_bool_iff. tauto. }
  assert (K : bpow radix2 k <= bpow radix2 (k + 1)) by (apply bpow_le; lia). split; [|intros p P1 P2; rewrite <- R2, <- S2; now apply G].
  destruct (mid_side L (k + 1) _ _ ltac:(lia) X1 R1 ltac:(lra) R4 R3) as (C1 & C2 & _). destruct (mid_side L (k + 1) _ _ ltac:(lia) Y1 S1 ltac:(lra) S4 S3) as (D1 & D2 & _).
  repeat (apply Forall_cons; [apply G; [assumption|assumption|]|]); [..|apply Forall_nil]; unfold Rect2D_top_right, Rect2D_bottom_left, Rect2D_bottom_right, Rect2D_center, Rect2D_right, Rect2D_bottom, Rect2D_left, Rect2D_top, V; cbn [Rect2D_top_left Rect2D_top_right Rect2D_bottom_left Rect2D_bottom_right Rect2D_center Vector2D_of_vec V vx vy Rect2D_left Rect2D_right Rect2D_top Rect2D_bottom nadd nmul NumF] in *; lra.
Qed.
Example C138_nonvacuous : plain_rect 6 (mkRect (mkVec (F_of_Z (-50)) (F_of_Z (-34)) true) (mkSize (F_of_Z 5) (F_of_Z 60)) true).
Proof.
  destruct (F_of_Z_exact (-50) eq_refl) as [E1 E2]. destruct (F_of_Z_exact (-34) eq_refl) as [E3 E4]. destruct (F_of_Z_exact 5 eq_refl) as [E5 E6]. destruct (F_of_Z_exact 60 eq_refl) as [E7 E8].
  unfold plain_rect, within. cbn [r_top_left r_size vx vy sz_length sz_width]. rewrite E1, E3, E5, E7. change (bpow radix2 6) with 64. repeat split; try assumption; try (apply Rabs_le); lra.
Qed.

(** ** C139: moving a rectangle *)
(** The side or centre moved ends up within 2^-50 of the size of the numbers
    involved; left, top and top-left moves are exact. *)
Lemma move_far k x l : (-800 <= k <= 800)%Z -> is_finite x = true -> is_finite l = true -> Rabs (B2R x) <= bpow radix2 k -> 0 <= B2R l <= bpow radix2 k ->
  let y := Bminus mode_NE x l in is_finite y = true /\ Rabs (B2R y) <= bpow radix2 (k + 1) /\ is_finite (Bplus mode_NE y l) = true /\ Rabs (B2R (Bplus mode_NE y l) - B2R x) <= bpow radix2 (k - 51).
Proof.
  intros Hk X1 L1 X2 L2 y. assert (B : Rabs (B2R x - B2R l) <= bpow radix2 (k + 1)). { rewrite Z.add_comm, bp2. apply Rabs_le. apply Rabs_le_inv in X2. lra. }
  destruct (rnd_err _ (k + 1) ltac:(lia) B) as [E1 E2]. destruct (F_sub x l X1 L1) as [A1 A2]; [apply (finite_lt (k + 1)); [lia|exact E2]|]. fold y in A1, A2. rewrite <- A1 in E1, E2.
  assert (K : bpow radix2 k <= bpow radix2 (k + 1)) by (apply bpow_le; lia).
  destruct (far_side (k + 1) y l ltac:(lia) A2 L1 E2 ltac:(lra)) as (R1 & _ & _ & _ & R5). split; [exact A2|]. split; [exact E2|]. split; [exact R1|].
  replace (k - 51)%Z with (1 + (1 + (k - 53)))%Z by lia. replace (k + 1 - 54)%Z with (k - 53)%Z in E1 by lia. replace (k + 1 - 53)%Z with (1 + (k - 53))%Z in R5 by lia. rewrite !bp2 in *.
  apply Rabs_le_inv in E1, R5. pose proof (bpow_ge_0 radix2 (k - 53)). apply Rabs_le. lra.
Qed.
Lemma move_mid L k x l : (-800 <= k <= 800)%Z -> is_finite x = true -> is_finite l = true -> Rabs (B2R x) <= bpow radix2 k -> 0 <= B2R l <= bpow radix2 k ->
  let y := Bminus mode_NE x (Bmult mode_NE l (@nlit F (NumF L) 1 2)) in let m := Bmult mode_NE (Bplus mode_NE y (Bplus mode_NE y l)) (@nlit F (NumF L) 1 2) in
  is_finite m = true /\ Rabs (B2R m - B2R x) <= bpow radix2 (k - 50).
Proof.
  intros Hk X1 L1 X2 L2 y m. destruct (half_F L) as [H1 H2]. set (h := Bmult mode_NE l (@nlit F (NumF L) 1 2)) in *.
  assert (B0 : Rabs (B2R l * / 2) <= bpow radix2 k) by (rewrite Rabs_pos_eq; lra). destruct (rnd_err _ k ltac:(lia) B0) as [G1 G2].
  destruct (F_mul l (@nlit F (NumF L) 1 2) L1 H2) as [M1 M2]. { rewrite H1. apply (finite_lt k); [lia|exact G2]. } fold h in M1, M2. rewrite H1 in M1. rewrite <- M1 in G1, G2.
  assert (B : Rabs (B2R x - B2R h) <= bpow radix2 (k + 1)). { rewrite Z.add_comm, bp2. apply Rabs_le. apply Rabs_le_inv in X2, G2. lra. }
  destruct (rnd_err _ (k + 1) ltac:(lia) B) as [E1 E2]. destruct (F_sub x h X1 M2) as [A1 A2]; [apply (finite_lt (k + 1)); [lia|exact E2]|]. fold y in A1, A2. rewrite <- A1 in E1, E2.
  assert (K : bpow radix2 k <= bpow radix2 (k + 1)) by (apply bpow_le; lia). assert (K' : bpow radix2 (k + 1) <= bpow radix2 (k + 1 + 1)) by (apply bpow_le; lia).
  destruct (far_side (k + 1) y l ltac:(lia) A2 L1 E2 ltac:(lra)) as (R1 & _ & R3 & R4 & R5).
  destruct (mid_side L (k + 1 + 1) y (Bplus mode_NE y l) ltac:(lia) A2 R1 ltac:(lra) R4 R3) as (S1 & _ & S3). fold m in S1, S3. split; [exact S1|].
  replace (k + 1 + 1 - 53)%Z with (1 + (1 + (1 + (k - 54))))%Z in S3 by lia. replace (k + 1 - 53)%Z with (1 + (1 + (k - 54)))%Z in R5 by lia. replace (k + 1 - 54)%Z with (1 + (k - 54))%Z in E1 by lia.
  replace (k - 50)%Z with (1 + (1 + (1 + (1 + (k - 54)))))%Z by lia. rewrite !bp2 in *. pose proof (bpow_ge_0 radix2 (k - 54)). apply Rabs_le_inv in S3, R5, E1, G1. apply Rabs_le. lra.
Qed.
Theorem C139_moves_F : forall (L : libm) (k : Z) (r : rect F) (p : vec F), (-800 <= k <= 800)%Z -> plain_rect k r -> within k p ->
  let near' (a b : F) := is_finite a = true /\ Rabs (B2R a - B2R b) <= bpow radix2 (k - 50) in
  @Rect2D_left F (@Rect2D_move_left F r (vx p)) = vx p /\ @Rect2D_top F (@Rect2D_move_top F r (vy p)) = vy p /\
  pt (rvec (r_top_left (@Rect2D_move_top_left F r p))) = pt (rvec p) /\
  near' (@Rect2D_right F (NumF L) (@Rect2D_move_right F (NumF L) r (vx p))) (vx p) /\
  near' (@Rect2D_bottom F (NumF L) (@Rect2D_move_bottom F (NumF L) r (vy p))) (vy p) /\
  near' (vx (@Rect2D_bottom_right F (NumF L) (@Rect2D_move_bottom_right F (NumF L) r p))) (vx p) /\
  near' (vy (@Rect2D_bottom_right F (NumF L) (@Rect2D_move_bottom_right F (NumF L) r p))) (vy p) /\
  near' (vx (@Rect2D_center F (NumF L) (@Rect2D_move_center F (NumF L) r p))) (vx p) /\
  near' (vy (@Rect2D_center F (NumF L) (@Rect2D_move_center F (NumF L) r p))) (vy p) /\
  Forall (fun q => r_size q = r_size r) [@Rect2D_move_left F r (vx p); @Rect2D_move_top F r (vy p); @Rect2D_move_top_left F r p; @Rect2D_move_right F (NumF L) r (vx p);
    @Rect2D_move_bottom F (NumF L) r (vy p); @Rect2D_move_bottom_right F (NumF L) r p; @Rect2D_move_center F (NumF L) r p].
Proof.
  intros L k r p Hk ((X1 & Y1 & X2 & Y2) & L1 & W1 & L2 & W2) (P1 & P2 & P3 & P4) near'.
  assert (K : bpow radix2 (k - 51) <= bpow radix2 (k - 50)) by (apply bpow_le; lia).
  destruct (move_far k (vx p) (sz_length (r_size r)) Hk P1 L1 P3 L2) as (_ & _ & A1 & A2). destruct (move_far k (vy p) (sz_width (r_size r)) Hk P2 W1 P4 W2) as (_ & _ & B1 & B2).
  destruct (move_mid L k (vx p) (sz_length (r_size r)) Hk P1 L1 P3 L2) as (C1 & C2). destruct (move_mid L k (vy p) (sz_width (r_size r)) Hk P2 W1 P4 W2) as (D1 & D2).
  unfold near'. repeat split; try assumption; try (eapply Rle_trans; [eassumption|exact K]). repeat (apply Forall_cons; [reflexivity|]). apply Forall_nil.
Qed.
Example C139_nonvacuous : plain_rect 6 (mkRect (mkVec (F_of_Z (-50)) (F_of_Z (-34)) true) (mkSize (F_of_Z 5) (F_of_Z 60)) true) /\ within 6 (mkVec (F_of_Z 7) (F_of_Z 8) true).
Proof.
  split; [exact C138_nonvacuous|]. destruct (F_of_Z_exact 7 eq_refl) as [E1 E2]. destruct (F_of_Z_exact 8 eq_refl) as [E3 E4].
  unfold within. cbn [vx vy]. rewrite E1, E3. change (bpow radix2 6) with 64. repeat split; try assumption; apply Rabs_le; lra.
Qed.
(** The far moves are not exact: a long rectangle whose right side is moved to
    x = 1 reports the right side 0 and does not contain x. *)
Theorem C139_exact_refuted_F : exists (r : rect F) (p : vec F), plain_rect 60 r /\ within 60 p /\
  forall L : libm, let m := @Rect2D_move_right F (NumF L) r (vx p) in
  Beqb (@Rect2D_right F (NumF L) m) (vx p) = false /\ @Rect2D_contains F (NumF L) (@Rect2D_move_top F m (vy p)) p = false.
Proof.
  exists (mkRect (mkVec (F_of_Z 0) (F_of_Z 0) true) (mkSize (Fd 1 60) (F_of_Z 1)) true), (mkVec (F_of_Z 1) (F_of_Z 0) true).
  destruct (F_of_Z_exact 0 eq_refl) as [E1 E2]. destruct (F_of_Z_exact 1 eq_refl) as [E3 E4].
  assert (E5 : B2R (Fd 1 60) = bpow radix2 60) by (rewrite Fd_exact by (cbn; lia); lra). assert (K : 1 <= bpow radix2 60) by (apply (bpow_le radix2 0 60); lia).
  split; [|split].
  - unfold plain_rect, within. cbn [r_top_left r_size vx vy sz_length sz_width]. rewrite E1, E3, E5, Rabs_R0. repeat split; try assumption; try lra.
  - unfold within. cbn [vx vy]. rewrite E1, E3, Rabs_R0, Rabs_R1. repeat split; try assumption; try lra.
  - intros L m. split; vm_compute; reflexivity.
Qed.
