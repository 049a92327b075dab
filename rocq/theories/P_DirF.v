(** * P_DirF: objects made from a length and a direction, in doubles (C169)

    set_polar, set_dir, rotated_vector, Matrix2D.rotate, and the segments and rays
    built from a direction or from a second point; of the platform library only
    [trig_accurate] and [atan2_accurate] are asked. *)
From Coq Require Import ZArith List Bool String Reals Lra Lia Psatz.
From Flocq Require Import Core BinarySingleNaN.
From Verif Require Import Base Types NumR NumF R_Tac Spec Spec2 Abs M_Angle M_Vector M_Line M_Segment M_Ray M_Triangle M_Matrix
  L_Angle P_Vector P_Matrix P_Angle P_Triangle L_Float P_Float P_AngleF P_AngleF2 P_Robust P_Hull2 P_VecF P_TrigF P_LineF P_MatF P_LenF P_BisF P_SectorF P_RayF P_IncF.
Import ListNotations.
Local Open Scope R_scope.

(** ** Vectors *)
Lemma norm_lip p q : Rabs (norm p - norm q) <= edist p q.
Proof.
  pose proof (norm_triangle q (psub p q)) as A. pose proof (norm_triangle p (psub q p)) as B. unfold edist. pose proof (edist_sym p q) as S. unfold edist in S.
  replace (px q + px (psub p q), py q + py (psub p q)) with p in A by (unfold psub, px, py; destruct p, q; cbn [fst snd]; f_equal; ring).
  replace (px p + px (psub q p), py p + py (psub q p)) with q in B by (unfold psub, px, py; destruct p, q; cbn [fst snd]; f_equal; ring). apply Rabs_le. lra.
Qed.
Lemma polar_coords L (m : F) x w : @Vector2D_from_polar F (NumF L) m x = Ok w -> forall v, @Vector2D_set_polar F (NumF L) v m x = Ok (mkVec (vx w) (vy w) (v_valid v)).
Proof.
  unfold Vector2D_from_polar, Vector2D_set_polar. intros H v. destruct (@to_angle F (NumF L) x) as [a|]; [|discriminate]. cbn [bind] in *.
  destruct (@AngleDeg_cos F (NumF L) a) as [c|]; [|discriminate]. cbn [bind] in *. destruct (@AngleDeg_sin F (NumF L) a) as [s|]; [|discriminate]. cbn [bind] in *.
  injection H as <-. reflexivity.
Qed.
(** v.set_polar(m, x) puts v at length m in direction x, up to 2^(k-48), and leaves
    its validity flag alone. *)
Theorem C169_set_polar_F : forall (L : libm) (k : Z) (v : vec F) (m : F) (x : ang_arg F), trig_accurate L -> (-500 <= k <= 900)%Z ->
  is_finite m = true -> Rabs (B2R m) <= bpow radix2 k -> arg_ok x ->
  exists w, @Vector2D_set_polar F (NumF L) v m x = Ok w /\ v_valid w = v_valid v /\ is_finite (vx w) = true /\ is_finite (vy w) = true /\
    edist (fpt w) (B2R m * cos (rad (arg_F x)), B2R m * sin (rad (arg_F x))) <= bpow radix2 (k - 48).
Proof.
  intros L k v m x TA Hk M1 M2 H. destruct (C142_from_polar_F L k m x TA Hk M1 M2 H) as (w & E & _ & X & Y & Z).
  eexists. split; [apply (polar_coords L m x w E)|]. cbn [v_valid vx vy]. split; [reflexivity|]. split; [exact X|]. split; [exact Y|exact Z].
Qed.
(** v.set_dir(x) keeps the length of v and the validity flag, and gives v direction x,
    up to 2^(k-46). *)
Theorem C169_set_dir_F : forall (L : libm) (k : Z) (v : vec F) (x : ang_arg F), trig_accurate L -> (-480 <= k <= 500)%Z ->
  is_finite (vx v) = true -> is_finite (vy v) = true -> bpow radix2 (-480) <= norm (fpt v) <= bpow radix2 k -> arg_ok x ->
  let N := norm (fpt v) in
  exists w, @Vector2D_set_dir F (NumF L) v x = Ok w /\ v_valid w = v_valid v /\ is_finite (vx w) = true /\ is_finite (vy w) = true /\
    edist (fpt w) (N * cos (rad (arg_F x)), N * sin (rad (arg_F x))) <= bpow radix2 (k - 46) /\ Rabs (norm (fpt w) - N) <= bpow radix2 (k - 46).
Proof.
  intros L k v x TA Hk F1 F2 NB H N. assert (K5 : bpow radix2 k <= bpow radix2 500) by (apply bpow_le; lia). fold N in NB.
  destruct (C135_length_F L v F1 F2) as (_ & _ & r & R1 & R2 & R3). { change (pt (rvec v)) with (fpt v). fold N. lra. }
  change (pt (rvec v)) with (fpt v) in R3. fold N in R3.
  assert (N0 : 0 < N) by (pose proof (bpow_gt_0 radix2 (-480)); lra). pose proof (bpow_gt_0 radix2 k) as PK.
  assert (RE : Rabs (B2R r - N) <= bpow radix2 (k - 50)).
  { eapply Rle_trans; [exact R3|]. replace (k - 50)%Z with (4 + -54 + k)%Z by lia. rewrite !bpow_plus. change (bpow radix2 4) with 16. pose proof (bpow_gt_0 radix2 (-54)) as P5.
    apply Rmult_le_compat; lra. }
  assert (RB : Rabs (B2R r) <= bpow radix2 (k + 1)).
  { rewrite Z.add_comm, bp2. assert (bpow radix2 (k - 50) <= bpow radix2 k) by (apply bpow_le; lia). apply Rabs_le_inv in RE. apply Rabs_le. lra. }
  destruct (C142_from_polar_F L (k + 1) r x TA ltac:(lia) R2 RB H) as (w & E & _ & X & Y & Z).
  assert (G : @Vector2D_set_dir F (NumF L) v x = Ok (mkVec (vx w) (vy w) (v_valid v))).
  { pose proof (polar_coords L r x w E v) as P. unfold Vector2D_set_polar in P. unfold Vector2D_set_dir. destruct (@to_angle F (NumF L) x) as [a|]; [|discriminate]. cbn [bind] in *. rewrite R1. exact P. }
  eexists. split; [exact G|]. cbn [v_valid vx vy]. split; [reflexivity|]. split; [exact X|]. split; [exact Y|].
  change (fpt (mkVec (vx w) (vy w) (v_valid v))) with (fpt w).
  set (c := cos (rad (arg_F x))) in *. set (s := sin (rad (arg_F x))) in *.
  assert (ED : edist (B2R r * c, B2R r * s) (N * c, N * s) <= bpow radix2 (k - 50)).
  { unfold edist, psub, px, py. cbn [fst snd]. replace (B2R r * c - N * c) with ((B2R r - N) * c) by ring. replace (B2R r * s - N * s) with ((B2R r - N) * s) by ring. unfold c, s. rewrite norm_polar. exact RE. }
  assert (D : edist (fpt w) (N * c, N * s) <= bpow radix2 (k - 46)).
  { eapply Rle_trans; [apply (edist_triangle _ (B2R r * c, B2R r * s))|]. replace (k + 1 - 48)%Z with (3 + (k - 50))%Z in Z by lia. replace (k - 46)%Z with (4 + (k - 50))%Z by lia.
    rewrite bpow_plus in Z |- *. change (bpow radix2 3) with 8 in Z. change (bpow radix2 4) with 16. pose proof (bpow_gt_0 radix2 (k - 50)). lra. }
  split; [exact D|]. assert (NN : norm (N * c, N * s) = N) by (unfold c, s; rewrite norm_polar; now apply Rabs_pos_eq, Rlt_le).
  rewrite <- NN at 1. eapply Rle_trans; [apply norm_lip|exact D].
Qed.
(** v.rotated_vector(x) is a new valid vector: v turned by x degrees, up to 2^(k-47). *)
Theorem C169_rotated_vector_F : forall (L : libm) (k : Z) (v : vec F) (x : ang_arg F), trig_accurate L -> (-500 <= k <= 900)%Z -> within k v -> turn_ok x ->
  exists w, @Vector2D_rotated_vector F (NumF L) v x = Ok w /\ v_valid w = true /\ is_finite (vx w) = true /\ is_finite (vy w) = true /\
    edist (fpt w) (rot (fpt v) (arg_F x)) <= bpow radix2 (k - 47).
Proof. intros L k v x TA Hk W H. exact (C142_rotate_F L k (mkVec (vx v) (vy v) true) x TA Hk W H). Qed.

(** ** Segments and rays *)
(** Segment2D(p, m, x) starts at p and ends, up to 2^(k-47), at distance m from p in
    direction x. *)
Theorem C169_segment_F : forall (L : libm) (k : Z) (p : vec F) (m : F) (x : ang_arg F), trig_accurate L -> (-500 <= k <= 900)%Z -> within k p ->
  is_finite m = true -> Rabs (B2R m) <= bpow radix2 k -> arg_ok x ->
  exists s, @Segment2D_init F (NumF L) [VVec p; VNum m; match x with AA b => VAng b | AN y => VNum y end] = Ok s /\ fpt (s_origin s) = fpt p /\
    v_valid (s_origin s) = true /\ v_valid (s_terminal s) = true /\ is_finite (vx (s_terminal s)) = true /\ is_finite (vy (s_terminal s)) = true /\
    edist (fpt (s_terminal s)) (px (fpt p) + B2R m * cos (rad (arg_F x)), py (fpt p) + B2R m * sin (rad (arg_F x))) <= bpow radix2 (k - 47).
Proof.
  intros L k p m x TA Hk (P1 & P2 & P3 & P4) M1 M2 H. destruct (C142_from_polar_F L k m x TA Hk M1 M2 H) as (w & E & _ & X & Y & Z).
  assert (G : @Segment2D_init F (NumF L) [VVec p; VNum m; match x with AA b => VAng b | AN y => VNum y end] = Ok (mkSeg (Vector2D_of_vec p) (@Vector2D_add F (NumF L) p w))).
  { destruct x as [b|y]; cbn [Segment2D_init]; unfold Segment2D_of_polar; rewrite E; reflexivity. }
  eexists. split; [exact G|]. cbn [s_origin s_terminal]. split; [reflexivity|]. split; [reflexivity|]. split; [reflexivity|].
  set (c := B2R m * cos (rad (arg_F x))) in *. set (s := B2R m * sin (rad (arg_F x))) in *.
  assert (BC : Rabs c <= bpow radix2 k /\ Rabs s <= bpow radix2 k).
  { unfold c, s. rewrite !Rabs_mult. pose proof (Rabs_pos (B2R m)). assert (Rabs (cos (rad (arg_F x))) <= 1) by (apply Rabs_le, COS_bound). assert (Rabs (sin (rad (arg_F x))) <= 1) by (apply Rabs_le, SIN_bound).
    split; (eapply Rle_trans; [|exact M2]); rewrite <- (Rmult_1_r (Rabs (B2R m))) at 2; apply Rmult_le_compat_l; assumption. }
  destruct BC as [BC BS]. pose proof (bpow_gt_0 radix2 k) as PK.
  destruct (abs_le_norm (B2R (vx w) - c) (B2R (vy w) - s)) as [ZX ZY].
  assert (KK : bpow radix2 (k - 48) <= bpow radix2 k) by (apply bpow_le; lia). change (norm (B2R (vx w) - c, B2R (vy w) - s)) with (edist (fpt w) (c, s)) in ZX, ZY.
  assert (AX : close (k + 1 + 1) (0 + 0 + bpow radix2 (k + 1 + 1 - 54)) (B2R (vx p) + B2R (vx w)) (Bplus mode_NE (vx p) (vx w))).
  { apply close_add; [lia| |]; apply close_exact; try assumption; rewrite Z.add_comm, bp2; [lra|]. apply Rle_trans with (Rabs c + Rabs (B2R (vx w) - c)); [|lra]. replace (B2R (vx w)) with (c + (B2R (vx w) - c)) at 1 by ring. apply Rabs_triang. }
  assert (AY : close (k + 1 + 1) (0 + 0 + bpow radix2 (k + 1 + 1 - 54)) (B2R (vy p) + B2R (vy w)) (Bplus mode_NE (vy p) (vy w))).
  { apply close_add; [lia| |]; apply close_exact; try assumption; rewrite Z.add_comm, bp2; [lra|]. apply Rle_trans with (Rabs s + Rabs (B2R (vy w) - s)); [|lra]. replace (B2R (vy w)) with (s + (B2R (vy w) - s)) at 1 by ring. apply Rabs_triang. }
  destruct AX as (AX1 & _ & AX2), AY as (AY1 & _ & AY2). cbn [Vector2D_add vx vy V nadd NumF]. split; [exact AX1|]. split; [exact AY1|].
  eapply Rle_trans; [apply (edist_triangle _ (B2R (vx p) + B2R (vx w), B2R (vy p) + B2R (vy w)))|].
  assert (E1 := edist_coord (fpt (V (Bplus mode_NE (vx p) (vx w)) (Bplus mode_NE (vy p) (vy w)))) (B2R (vx p) + B2R (vx w), B2R (vy p) + B2R (vy w)) _ AX2 AY2).
  assert (E2 : edist (B2R (vx p) + B2R (vx w), B2R (vy p) + B2R (vy w)) (px (fpt p) + c, py (fpt p) + s) = edist (fpt w) (c, s)).
  { unfold edist, psub, fpt, px, py. cbn [fst snd]. f_equal. f_equal; ring. }
  rewrite E2. replace (k + 1 + 1 - 54)%Z with (-4 + (k - 48))%Z in E1 by lia. replace (k - 47)%Z with (1 + (k - 48))%Z by lia. rewrite bp2. rewrite bpow_plus in E1. change (bpow radix2 (-4)) with (/ 16) in E1.
  pose proof (bpow_gt_0 radix2 (k - 48)). eapply Rle_trans; [apply Rplus_le_compat; [exact E1|exact Z]|lra].
Qed.
(** Ray2D(o, p) starts at o and its direction is that of p - o up to 2^-43 degrees;
    Ray2D(o, x) has exactly the direction x when x is an angle, and x up to whole
    turns when x is a number. *)
Theorem C169_ray_F : forall (L : libm) (k : Z) (o p : vec F), atan2_accurate L -> (-200 <= k <= 200)%Z -> within k o -> within k p ->
  (bpow radix2 (-18) <= edist (fpt o) (fpt p) -> exists r t y, @Ray2D_init F (NumF L) (VVec o) (VVec p) = Ok r /\ fpt (ray_origin r) = fpt o /\ good_degree (a_degree (ray_dir r)) /\
     (px (fpt p) = px (fpt o) + edist (fpt o) (fpt p) * cos (rad t) /\ py (fpt p) = py (fpt o) + edist (fpt o) (fpt p) * sin (rad t)) /\
     cong360 (B2R (a_degree (ray_dir r))) y /\ Rabs (y - t) <= bpow radix2 (-43)) /\
  (forall x : F, is_finite x = true -> exists r, @Ray2D_init F (NumF L) (VVec o) (VNum x) = Ok r /\ fpt (ray_origin r) = fpt o /\ good_degree (a_degree (ray_dir r)) /\ cong360 (B2R (a_degree (ray_dir r))) (B2R x)) /\
  (forall a : angle F, good_degree (a_degree a) -> @Ray2D_init F (NumF L) (VVec o) (VAng a) = Ok (mkRay (mkVec (vx o) (vy o) true) a)).
Proof.
  intros L k o p AT Hk WO WP. split; [|split].
  - intros D. destruct (vertex L k o p AT Hk WO WP D) as (a & t & y & A1 & A2 & A3 & A4 & A5). eexists _, t, y. cbn [Ray2D_init]. unfold Ray2D_of_point. rewrite A1. cbn [bind].
    split; [reflexivity|]. cbn [ray_origin ray_dir]. split; [reflexivity|]. split; [exact A2|]. split; [|split; assumption].
    assert (U1 := f_equal px A5). assert (U2 := f_equal py A5). unfold unit_to in U1, U2. unfold px at 1 4 in U1. unfold py at 1 4 in U2. cbn [fst snd] in U1, U2. pose proof (bpow_gt_0 radix2 (-18)). rewrite <- U1, <- U2. split; field; lra.
  - intros x Fx. destruct (of_num_rnd L x Fx) as (a & EA & GA & CA). eexists. cbn [Ray2D_init]. unfold Ray2D_of_angle. cbn [AngleDeg_of_arg]. rewrite EA. cbn [bind].
    split; [reflexivity|]. cbn [ray_origin ray_dir]. repeat (split; [first [reflexivity|assumption]|]). exact CA.
  - intros a GA. cbn [Ray2D_init]. unfold Ray2D_of_angle. rewrite (proj2 (of_arg_good L _ GA)). reflexivity.
Qed.

(** ** Matrix2D.rotate *)
(** M.rotate(a): the rotated matrix transforms a point as M does and then turns the
    result by a, up to 2^(m+k-46). *)
Theorem C169_matrix_rotate_F : forall (L : libm) (m k : Z) (M : matrix F) (a : angle F) (v : vec F), trig_accurate L -> (-200 <= m <= 200)%Z -> (-200 <= k <= 200)%Z ->
  mat_within m (m + k) M -> good_degree (a_degree a) -> within k v ->
  exists N, @Matrix2D_rotate F (NumF L) M a = Ok N /\ coords_near (bpow radix2 (m + k - 46)) (@Matrix2D_transform F (NumF L) N v) (rot (affine (rmat M) (fpt v)) (B2R (a_degree a))).
Proof.
  intros L m k M a v TA Hm Hk (M11 & M12 & M21 & M22 & DX & DY) G (V1 & V2 & V3 & V4).
  destruct (trig_close L (a_degree a) TA (proj1 G) (good_512 _ G)) as ((c & C1 & C2) & (s & S1 & S2)).
  unfold Matrix2D_rotate, AngleDeg_cos, AngleDeg_sin. rewrite S1. cbn [bind]. rewrite C1. cbn [bind]. eexists. split; [reflexivity|].
  set (cc := cos (rad (B2R (a_degree a)))) in *. set (ss := sin (rad (B2R (a_degree a)))) in *.
  assert (E := fun x y t X0 Y0 x0 y0 (X : fbound m x) (Y : fbound m y) => lin_close m 1 0 t (B2R x) (B2R y) X0 Y0 x y x0 y0 ltac:(lia) (proj2 X) (proj2 Y) (fb_close _ _ X) (fb_close _ _ Y)).
  assert (E' := fun x y t X0 Y0 x0 y0 (X : fbound m x) (Y : fbound m y) => lin_close_m m 1 0 t (B2R x) (B2R y) X0 Y0 x y x0 y0 ltac:(lia) (proj2 X) (proj2 Y) (fb_close _ _ X) (fb_close _ _ Y)).
  assert (N11 := E' _ _ _ _ _ _ _ M11 M21 C2 S2). assert (N12 := E' _ _ _ _ _ _ _ M12 M22 C2 S2). assert (N21 := E _ _ _ _ _ _ _ M11 M21 S2 C2). assert (N22 := E _ _ _ _ _ _ _ M12 M22 S2 C2).
  assert (TX := lin_close_m (m + k) 1 0 _ _ _ _ _ _ _ _ _ ltac:(lia) (proj2 DX) (proj2 DY) (fb_close _ _ DX) (fb_close _ _ DY) C2 S2).
  assert (TY := lin_close (m + k) 1 0 _ _ _ _ _ _ _ _ _ ltac:(lia) (proj2 DX) (proj2 DY) (fb_close _ _ DX) (fb_close _ _ DY) S2 C2). clear E E'.
  assert (X := close_exact k _ V1 V3). assert (Y := close_exact k _ V2 V4).
  replace (m + 1 + 1)%Z with (m + 2)%Z in N11, N12, N21, N22 by lia. apply (close_up _ (m + 2 + k + 1)) in TX; [|lia]. apply (close_up _ (m + 2 + k + 1)) in TY; [|lia].
  assert (KC : Rabs cc <= 1) by (apply Rabs_le, COS_bound). assert (KS : Rabs ss <= 1) by (apply Rabs_le, SIN_bound).
  assert (SB : forall x y p q, Rabs x <= bpow radix2 m -> Rabs y <= bpow radix2 m -> Rabs p <= 1 -> Rabs q <= 1 -> Rabs (x * p - y * q) <= bpow radix2 (m + 2) /\ Rabs (x * p + y * q) <= bpow radix2 (m + 2)).
  { intros x y p q HX HY HP HQ. assert (A1 : Rabs (x * p) <= bpow radix2 m * 1) by (rewrite Rabs_mult; apply Rmult_le_compat; try apply Rabs_pos; assumption).
    assert (A2 : Rabs (y * q) <= bpow radix2 m * 1) by (rewrite Rabs_mult; apply Rmult_le_compat; try apply Rabs_pos; assumption).
    rewrite Z.add_comm, bpow_plus. change (bpow radix2 2) with 4. pose proof (bpow_gt_0 radix2 m). apply Rabs_le_inv in A1, A2. split; apply Rabs_le; lra. }
  assert (A := aff_close (m + 2) k _ 0 _ _ _ _ _ _ _ _ _ _ _ ltac:(lia) (proj1 (SB _ _ _ _ (proj2 M11) (proj2 M21) KC KS)) (proj1 (SB _ _ _ _ (proj2 M12) (proj2 M22) KC KS)) N11 N12 X Y TX).
  assert (B := aff_close (m + 2) k _ 0 _ _ _ _ _ _ _ _ _ _ _ ltac:(lia) (proj2 (SB _ _ _ _ (proj2 M11) (proj2 M21) KS KC)) (proj2 (SB _ _ _ _ (proj2 M12) (proj2 M22) KS KC)) N21 N22 X Y TY).
  assert (T : 2 * (bpow radix2 (m + 2) * 0 + bpow radix2 k * (2 * (bpow radix2 m * bpow radix2 (-49) + bpow radix2 1 * 0) + 4 * bpow radix2 (m + 1 - 54))) +
     (2 * (bpow radix2 (m + k) * bpow radix2 (-49) + bpow radix2 1 * 0) + 4 * bpow radix2 (m + k + 1 - 54)) + 8 * bpow radix2 (m + 2 + k - 54) <= bpow radix2 (m + k - 46)).
  { replace (m + 1 - 54)%Z with (m + -53)%Z by lia. replace (m + k + 1 - 54)%Z with (m + (k + -53))%Z by lia. replace (m + 2 + k - 54)%Z with (m + (k + -52))%Z by lia. replace (m + k - 46)%Z with (m + (k + -46))%Z by lia.
    rewrite !bpow_plus. replace (bpow radix2 (-49)) with (16 * bpow radix2 (-53)) by (change 16 with (bpow radix2 4); rewrite <- bpow_plus; reflexivity).
    replace (bpow radix2 (-52)) with (2 * bpow radix2 (-53)) by (change 2 with (bpow radix2 1); rewrite <- bpow_plus; reflexivity). replace (bpow radix2 (-46)) with (128 * bpow radix2 (-53)) by (change 128 with (bpow radix2 7); rewrite <- bpow_plus; reflexivity).
    pose proof (Rmult_lt_0_compat _ _ (bpow_gt_0 radix2 m) (Rmult_lt_0_compat _ _ (bpow_gt_0 radix2 k) (bpow_gt_0 radix2 (-53)))). lra. }
  destruct A as (A1 & _ & A2), B as (B1 & _ & B2). split; [exact A1|]. split; [exact B1|].
  unfold rot, affine, rmat. unfold px, py. cbn [fst snd fpt m11 m12 m21 m22 mdx mdy vx vy]. fold cc ss.
  match type of A2 with Rabs (_ - ?q) <= _ => match goal with |- Rabs (_ - ?p) <= _ /\ _ => replace p with q by ring end end.
  match type of B2 with Rabs (_ - ?q) <= _ => match goal with |- _ /\ Rabs (_ - ?p) <= _ => replace p with q by ring end end.
  split; [eapply Rle_trans; [exact A2|exact T]|eapply Rle_trans; [exact B2|exact T]].
Qed.
Example C169_nonvacuous : exists (L : libm) (v o : vec F) (m : F) (M : matrix F) (a : angle F), trig_accurate L /\ atan2_accurate L /\ within 3 v /\ within 3 o /\ is_finite m = true /\ Rabs (B2R m) <= bpow radix2 3 /\
  arg_ok (AA a) /\ turn_ok (AA a) /\ arg_ok (AN (F_of_Z 400)) /\ turn_ok (AN (F_of_Z 400)) /\ good_degree (a_degree a) /\ bpow radix2 (-480) <= norm (fpt v) <= bpow radix2 3 /\ bpow radix2 (-18) <= edist (fpt o) (fpt v) /\ mat_within 3 (3 + 3) M.
Proof.
  exists libm_round, (fv 3 4), (fv 0 0), (F_of_Z 5), (mkMat (F_of_Z 1) (F_of_Z 2) (F_of_Z 3) (F_of_Z 4) (F_of_Z 5) (F_of_Z 6)), (mkAngle (F_of_Z 30)). split; [exact libm_round_trig|]. split; [exact libm_round_atan2|].
  assert (FB : forall n j : Z, (0 <= n <= 8)%Z -> (3 <= j)%Z -> fbound j (F_of_Z n)).
  { intros n j Hn Hj. destruct (F_of_Z_exact n ltac:(change (2 ^ 53)%Z with 9007199254740992%Z; lia)) as [XE X]. split; [exact X|]. rewrite XE. rewrite <- abs_IZR, Z.abs_eq by lia. apply Rle_trans with (bpow radix2 3); [change (bpow radix2 3) with 8; apply IZR_le; lia|apply bpow_le; lia]. }
  split; [apply within_fv; cbn; lia|]. split; [apply within_fv; cbn; lia|]. split; [apply (FB 5%Z 3%Z); lia|]. split; [apply (FB 5%Z 3%Z); lia|].
  destruct (F_of_Z_exact 30 eq_refl) as [E1 E2]. destruct (F_of_Z_exact 400 eq_refl) as [E3 E4].
  assert (G : good_degree (a_degree (mkAngle (F_of_Z 30)))) by (split; [exact E2|cbn [a_degree]; rewrite E1; lra]).
  split; [exact G|]. split; [exact G|]. split; [exact E4|]. split; [split; [exact E4|rewrite E3, Rabs_pos_eq; lra]|]. split; [exact G|].
  rewrite !fpt_fv by (cbn; lia). assert (B0 : bpow radix2 (-480) <= 1) by (apply (bpow_le radix2 (-480) 0); lia). assert (B1 : bpow radix2 (-18) <= 1) by (apply (bpow_le radix2 (-18) 0); lia).
  assert (N : norm (3, 4) = 5) by (apply P_Triangle.norm_eq; unfold norm2; cbn; lra). split; [rewrite N; change (bpow radix2 3) with 8; lra|].
  split; [rewrite edist_sym; unfold edist, psub; cbn [px py fst snd]; rewrite !Rminus_0_r, N; lra|]. cbn [Z.add]. repeat split; cbn [m11 m12 m21 m22 mdx mdy]; apply FB; lia.
Qed.
