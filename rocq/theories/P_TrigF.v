(** * P_TrigF: trigonometry in doubles (C142, C143)

    The constants PI and DEG2RAD against the real pi, sin/cos of an angle, polar
    construction and rotation of vectors, with explicit error bounds.  Of the C
    library only [trig_accurate] is asked. *)
From Coq Require Import ZArith List Bool String Reals Lra Lia Psatz Machin.
From Flocq Require Import Core BinarySingleNaN.
From Verif Require L_Trig.
From Verif Require Import Base Types NumR NumF R_Tac Spec Spec2 Abs M_Angle M_Vector
  L_Angle P_Angle P_Vector L_Float P_Float P_AngleF P_AngleF2 P_Hull2 P_Robust P_VecF.
Import ListNotations.
Local Open Scope R_scope.

(** ** pi *)
Lemma pi_bounds : 3.14159265358979323 <= PI <= 3.14159265358979325.
Proof.
  assert (A := proj2 (PI_2_3_7_ineq 8)). assert (B := proj1 (PI_2_3_7_ineq 8)).
  cbv [Nat.mul Nat.add] in A, B. cbn [sum_f_R0] in A, B. unfold tg_alt, PI_2_3_7_tg, Ratan_seq in A, B.
  rewrite !INR_IZR_INZ in A. rewrite !INR_IZR_INZ in B. cbn [Nat.mul Nat.add Z.of_nat Pos.of_succ_nat Pos.succ] in A, B.
  cbn [pow] in A, B. split; lra.
Qed.
Lemma deg2rad_const L : is_finite (@DEG2RAD F (NumF L)) = true /\ Rabs (B2R (@DEG2RAD F (NumF L)) - PI / 180) <= bpow radix2 (-61) /\ Rabs (B2R (@DEG2RAD F (NumF L))) <= bpow radix2 (-5).
Proof.
  assert (E : exists m, @DEG2RAD F (NumF L) = m /\ B2SF m = SpecFloat.S754_finite false 5030569068109113 (-58)) by (eexists; split; [reflexivity|vm_compute; reflexivity]).
  destruct E as (m & -> & E).
  assert (V : is_finite m = true /\ B2R m = IZR 5030569068109113 * bpow radix2 (-58)) by (destruct m; try discriminate; injection E as -> -> ->; split; reflexivity).
  destruct V as [V1 V2]. split; [exact V1|]. rewrite V2. pose proof pi_bounds.
  change (bpow radix2 (-58)) with (/ 288230376151711744). change (bpow radix2 (-61)) with (/ 2305843009213693952). change (bpow radix2 (-5)) with (/ 32).
  split; apply Rabs_le; lra.
Qed.

(** ** sin and cos do not amplify an error of the argument *)
Lemma sin_lip x y : Rabs (sin x - sin y) <= Rabs (x - y).
Proof.
  destruct (Req_dec x y) as [->|N]; [rewrite !Rminus_eq_0; lra|].
  destruct (MVT_cor3 sin cos (Rmin x y) (Rmax x y)) as (c & C1 & C2 & C3).
  - unfold Rmin, Rmax. destruct (Rle_dec x y); lra.
  - intros c _ _. apply derivable_pt_lim_sin.
  - assert (E : Rabs (sin x - sin y) = Rabs (cos c) * Rabs (x - y)).
    { rewrite <- Rabs_mult. unfold Rmin, Rmax in C3. destruct (Rle_dec x y).
      - replace (sin x - sin y) with (- (sin y - sin x)) by ring. replace (cos c * (x - y)) with (- (cos c * (y - x))) by ring. rewrite !Rabs_Ropp. f_equal. lra.
      - f_equal. lra. }
    rewrite E. pose proof (COS_bound c). assert (Rabs (cos c) <= 1) by (apply Rabs_le; lra). pose proof (Rabs_pos (x - y)). nra.
Qed.
Lemma cos_lip x y : Rabs (cos x - cos y) <= Rabs (x - y).
Proof. rewrite <- !sin_shift. eapply Rle_trans; [apply sin_lip|]. replace (PI / 2 - x - (PI / 2 - y)) with (- (x - y)) by ring. rewrite Rabs_Ropp. lra. Qed.

(** ** What is asked of the C library: sin and cos of a double of magnitude at
    most 16 are finite and at most 2^-52 off (one unit in the last place of 1). *)
Definition trig_accurate (L : libm) : Prop := forall x : F, is_finite x = true -> Rabs (B2R x) <= 16 ->
  (is_finite (lm_sin L x) = true /\ Rabs (B2R (lm_sin L x) - sin (B2R x)) <= bpow radix2 (-52)) /\
  (is_finite (lm_cos L x) = true /\ Rabs (B2R (lm_cos L x) - cos (B2R x)) <= bpow radix2 (-52)).

Lemma math1_finite f b x : is_finite (f x) = true -> F_math1 f b x = Ok (f x).
Proof. intros H. unfold F_math1. cbv zeta. destruct (f x); try discriminate; reflexivity. Qed.
(** the argument in radians, for degrees of magnitude at most 512 *)
Lemma rad_close L (d : F) : is_finite d = true -> Rabs (B2R d) <= 512 ->
  close 4 (5 * bpow radix2 (-52)) (rad (B2R d)) (@nmul F (NumF L) d (@DEG2RAD F (NumF L))).
Proof.
  intros H1 H2. destruct (deg2rad_const L) as (C1 & C2 & C3).
  assert (X : close (9 + -5) (bpow radix2 9 * bpow radix2 (-61) + bpow radix2 (-5) * 0 + bpow radix2 (9 + -5 - 54)) (B2R d * (PI / 180)) (Bmult mode_NE d (@DEG2RAD F (NumF L)))).
  { apply close_mul; [lia|exact H2|apply close_exact; assumption|]. split; [exact C1|]. split; assumption. }
  refine (close_weaken _ _ _ _ _ _ X). rewrite Rmult_0_r, Rplus_0_r, <- bpow_plus.
  change (9 + -61)%Z with (-52)%Z. change (9 + -5 - 54)%Z with (1 + (1 + -52))%Z. rewrite !bp2. lra.
Qed.
Lemma trig_close L (d : F) : trig_accurate L -> is_finite d = true -> Rabs (B2R d) <= 512 ->
  let r := @nmul F (NumF L) d (@DEG2RAD F (NumF L)) in
  (exists c, @ncos F (NumF L) r = Ok c /\ close 1 (bpow radix2 (-49)) (cos (rad (B2R d))) c) /\
  (exists s, @nsin F (NumF L) r = Ok s /\ close 1 (bpow radix2 (-49)) (sin (rad (B2R d))) s).
Proof.
  intros TA H1 H2 r. destruct (rad_close L d H1 H2) as (R1 & R2 & R3). fold r in R1, R2, R3. change (bpow radix2 4) with 16 in R2.
  destruct (TA r R1 R2) as ((S1 & S2) & (C1 & C2)). cbn [ncos nsin NumF].
  assert (G : forall y t z, Rabs (y - t) <= bpow radix2 (-52) -> Rabs (t - z) <= Rabs (B2R r - rad (B2R d)) -> -1 <= z <= 1 -> Rabs y <= bpow radix2 1 /\ Rabs (y - z) <= bpow radix2 (-49)).
  { intros y t z A B C. assert (B' : Rabs (t - z) <= 5 * bpow radix2 (-52)) by lra. apply Rabs_le_inv in A, B'.
    replace (bpow radix2 (-49)) with (8 * bpow radix2 (-52)) by (cbn; lra). assert (bpow radix2 (-52) <= / 100) by (cbn; lra). pose proof (bpow_gt_0 radix2 (-52)). change (bpow radix2 1) with 2.
    split; apply Rabs_le; lra. }
  split.
  - exists (lm_cos L r). split; [now apply math1_finite|]. destruct (G _ _ (cos (rad (B2R d))) C2 (cos_lip _ _) (COS_bound _)) as [G1 G2]. repeat split; assumption.
  - exists (lm_sin L r). split; [now apply math1_finite|]. destruct (G _ _ (sin (rad (B2R d))) S2 (sin_lip _ _) (SIN_bound _)) as [G1 G2]. repeat split; assumption.
Qed.

(** ** Angles as arguments *)
Definition arg_F (x : ang_arg F) : R := match x with AA b => B2R (a_degree b) | AN y => B2R y end.
(** an AngleDeg as the constructors and operations leave it, or any finite number *)
Definition arg_ok (x : ang_arg F) : Prop := match x with AA b => good_degree (a_degree b) | AN y => is_finite y = true end.
Lemma to_angle_F L x : arg_ok x -> exists a, @to_angle F (NumF L) x = Ok a /\ good_degree (a_degree a) /\ cong360 (B2R (a_degree a)) (arg_F x).
Proof.
  destruct x as [b|y]; cbn [arg_ok to_angle arg_F]; intros H; [exists b; split; [reflexivity|split; [exact H|apply cong360_refl]]|].
  exact (of_num_rnd L y H).
Qed.
Lemma good_512 d : good_degree d -> Rabs (B2R d) <= 512. Proof. intros [_ H]. apply Rabs_le. lra. Qed.

(** C142: sin() and cos() of every angle made from a finite number of degrees *)
Theorem C142_trig_F : forall (L : libm) (x : ang_arg F), trig_accurate L -> arg_ok x ->
  exists a c s, @to_angle F (NumF L) x = Ok a /\ @AngleDeg_cos F (NumF L) a = Ok c /\ @AngleDeg_sin F (NumF L) a = Ok s /\
    is_finite c = true /\ is_finite s = true /\
    Rabs (B2R c - cos (rad (arg_F x))) <= bpow radix2 (-49) /\ Rabs (B2R s - sin (rad (arg_F x))) <= bpow radix2 (-49).
Proof.
  intros L x TA H. destruct (to_angle_F L x H) as (a & E & G & C). destruct (cos_cong _ _ C) as [<- <-].
  destruct (trig_close L (a_degree a) TA (proj1 G) (good_512 _ G)) as ((c & C1 & C2 & _ & C3) & (s & S1 & S2 & _ & S3)).
  exists a, c, s. repeat split; assumption.
Qed.

(** ** Polar construction *)
Lemma edist_coord p q t : Rabs (px p - px q) <= t -> Rabs (py p - py q) <= t -> edist p q <= 3 / 2 * t.
Proof.
  intros A B. pose proof (Rabs_pos (px p - px q)). unfold edist, norm. apply Rsqr_incr_0_var; [|lra]. rewrite Rsqr_sqrt by apply norm2_nonneg.
  unfold norm2, psub, Rsqr. cbn [px py fst snd]. apply Rabs_le_inv in A, B.
  assert (Q : forall z, - t <= z <= t -> z * z <= t * t) by (intros; nra).
  pose proof (Q _ A). pose proof (Q _ B). unfold px, py in *. nra.
Qed.
(** C142: Vector2D.from_polar / polar2vector *)
Theorem C142_from_polar_F : forall (L : libm) (k : Z) (m : F) (x : ang_arg F), trig_accurate L -> (-500 <= k <= 900)%Z ->
  is_finite m = true -> Rabs (B2R m) <= bpow radix2 k -> arg_ok x ->
  exists w, @Vector2D_from_polar F (NumF L) m x = Ok w /\ v_valid w = true /\ is_finite (vx w) = true /\ is_finite (vy w) = true /\
    edist (fpt w) (B2R m * cos (rad (arg_F x)), B2R m * sin (rad (arg_F x))) <= bpow radix2 (k - 48).
Proof.
  intros L k m x TA Hk M1 M2 H. destruct (to_angle_F L x H) as (a & E & G & C). destruct (cos_cong _ _ C) as [<- <-].
  destruct (trig_close L (a_degree a) TA (proj1 G) (good_512 _ G)) as ((c & C1 & C2) & (s & S1 & S2)).
  unfold Vector2D_from_polar. rewrite E. cbn [bind]. unfold AngleDeg_cos, AngleDeg_sin. rewrite C1, S1. cbn [bind]. eexists. split; [reflexivity|]. cbn [vx vy v_valid V].
  assert (PX := close_mul k 1 0 (B2R m) _ _ m c ltac:(lia) M2 (close_exact k m M1 M2) C2). assert (PY := close_mul k 1 0 (B2R m) _ _ m s ltac:(lia) M2 (close_exact k m M1 M2) S2).
  destruct PX as (X1 & _ & X3), PY as (Y1 & _ & Y3). split; [reflexivity|]. split; [exact X1|]. split; [exact Y1|].
  eapply Rle_trans; [apply (edist_coord _ _ (bpow radix2 k * bpow radix2 (-49) + bpow radix2 1 * 0 + bpow radix2 (k + 1 - 54))); assumption|].
  rewrite Rmult_0_r, Rplus_0_r, <- bpow_plus. replace (k + -49)%Z with (4 + (k + 1 - 54))%Z by lia. replace (k - 48)%Z with (5 + (k + 1 - 54))%Z by lia.
  rewrite !(bpow_plus radix2 _ (k + 1 - 54)). change (bpow radix2 4) with 16. change (bpow radix2 5) with 32. pose proof (bpow_gt_0 radix2 (k + 1 - 54)). lra.
Qed.

(** ** Rotation *)
(** what rotate may be given: an AngleDeg, or a number of degrees up to 512 *)
Definition turn_ok (x : ang_arg F) : Prop := match x with AA b => good_degree (a_degree b) | AN y => is_finite y = true /\ Rabs (B2R y) <= 512 end.
Lemma rot_rot p a b : rot (rot p a) b = rot p (a + b).
Proof.
  unfold rot. cbn [px py fst snd]. replace (rad (a + b)) with (rad a + rad b) by (unfold rad; ring). rewrite cos_plus, sin_plus. unfold px, py. cbn [fst snd]. f_equal; ring.
Qed.
Lemma rot_0 p : rot p 0 = p.
Proof. unfold rot. replace (rad 0) with 0 by (unfold rad; ring). rewrite cos_0, sin_0. destruct p. unfold px, py. cbn [fst snd]. f_equal; ring. Qed.
Lemma rot_edist p q a : edist (rot p a) (rot q a) = edist p q.
Proof.
  unfold edist, norm. f_equal. unfold norm2, psub, rot. cbn [px py fst snd]. pose proof (sin2_cos2 (rad a)) as H. unfold Rsqr in H.
  set (c := cos (rad a)) in *. set (s := sin (rad a)) in *. replace (px p * px p) with (px p * px p) by ring.
  assert (E : s * s = 1 - c * c) by lra. unfold px, py in *. 
  transitivity ((s * s + c * c) * ((fst p - fst q) * (fst p - fst q) + (snd p - snd q) * (snd p - snd q))); [ring|]. rewrite H. ring.
Qed.
Lemma rotate_close L k v x : trig_accurate L -> (-500 <= k <= 900)%Z -> within k v -> turn_ok x ->
  exists w, @Vector2D_rotate F (NumF L) v x = Ok w /\ v_valid w = v_valid v /\ (is_finite (vx w) = true /\ is_finite (vy w) = true) /\ edist (fpt w) (rot (fpt v) (arg_F x)) <= bpow radix2 (k - 47).
Proof.
  intros TA Hk (X1 & Y1 & X2 & Y2) H.
  assert (D : exists d, @ang_num F (NumF L) x = Ok d /\ is_finite d = true /\ Rabs (B2R d) <= 512 /\ B2R d = arg_F x).
  { destruct x as [b|y]; cbn [ang_num arg_F turn_ok] in *; [|exists y; repeat split; apply H || reflexivity].
    exists (a_degree b). split; [apply degree_F_good; now right|]. split; [apply H|]. split; [now apply good_512|reflexivity]. }
  destruct D as (d & E & D1 & D2 & D3). destruct (trig_close L d TA D1 D2) as ((c & C1 & C2) & (s & S1 & S2)). rewrite D3 in C2, S2.
  unfold Vector2D_rotate. rewrite E. cbn [bind]. rewrite C1, S1. cbn [bind]. eexists. split; [reflexivity|]. unfold Vector2D_assign. cbn [vx vy v_valid]. split; [reflexivity|].
  set (t := bpow radix2 k * bpow radix2 (-49) + bpow radix2 1 * 0 + bpow radix2 (k + 1 - 54)).
  assert (XC : close (k + 1) t _ _) by exact (close_mul k 1 0 (B2R (vx v)) _ _ (vx v) c ltac:(lia) X2 (close_exact k _ X1 X2) C2).
  assert (XS : close (k + 1) t _ _) by exact (close_mul k 1 0 (B2R (vx v)) _ _ (vx v) s ltac:(lia) X2 (close_exact k _ X1 X2) S2).
  assert (YC : close (k + 1) t _ _) by exact (close_mul k 1 0 (B2R (vy v)) _ _ (vy v) c ltac:(lia) Y2 (close_exact k _ Y1 Y2) C2).
  assert (YS : close (k + 1) t _ _) by exact (close_mul k 1 0 (B2R (vy v)) _ _ (vy v) s ltac:(lia) Y2 (close_exact k _ Y1 Y2) S2).
  destruct (close_sub (k + 1) _ _ _ _ _ _ ltac:(lia) XC YS) as (A1 & _ & A3). destruct (close_add (k + 1) _ _ _ _ _ _ ltac:(lia) XS YC) as (B1 & _ & B3).
  split; [split; assumption|].
  eapply Rle_trans; [apply (edist_coord _ _ (t + t + bpow radix2 (k + 1 + 1 - 54))); [exact A3|exact B3]|].
  unfold t. rewrite Rmult_0_r, Rplus_0_r, <- bpow_plus. replace (k + -49)%Z with (4 + (k + 1 - 54))%Z by lia. replace (k - 47)%Z with (6 + (k + 1 - 54))%Z by lia. replace (k + 1 + 1 - 54)%Z with (1 + (k + 1 - 54))%Z by lia.
  rewrite !(bpow_plus radix2 _ (k + 1 - 54)). change (bpow radix2 4) with 16. change (bpow radix2 6) with 64. change (bpow radix2 1) with 2. pose proof (bpow_gt_0 radix2 (k + 1 - 54)). lra.
Qed.

(** C142: Vector2D.rotate, by an AngleDeg or a number of degrees *)
Theorem C142_rotate_F : forall (L : libm) (k : Z) (v : vec F) (x : ang_arg F), trig_accurate L -> (-500 <= k <= 900)%Z -> within k v -> turn_ok x ->
  exists w, @Vector2D_rotate F (NumF L) v x = Ok w /\ v_valid w = v_valid v /\ is_finite (vx w) = true /\ is_finite (vy w) = true /\
    edist (fpt w) (rot (fpt v) (arg_F x)) <= bpow radix2 (k - 47).
Proof. intros L k v x TA Hk W H. destruct (rotate_close L k v x TA Hk W H) as (w & A & B & (C & D) & E). exists w. repeat split; assumption. Qed.

(** successive rotations of one vector *)
Fixpoint rotate_all {T} `{Num T} (xs : list (ang_arg T)) (v : vec T) : res (vec T) :=
  match xs with [] => Ok v | x :: xs => w <- Vector2D_rotate v x ;; rotate_all xs w end.
Lemma norm_edist p : norm p = edist p (0, 0).
Proof. unfold edist. f_equal. unfold psub, px, py. destruct p. cbn. f_equal; ring. Qed.
Lemma rot_norm p a : norm (rot p a) = norm p.
Proof. rewrite !norm_edist. replace (0, 0) with (rot (0, 0) a) at 1; [apply rot_edist|]. unfold rot, px, py. cbn. f_equal; ring. Qed.
Lemma coord_norm p : Rabs (px p) <= norm p /\ Rabs (py p) <= norm p.
Proof.
  assert (G : forall z, z * z <= norm2 p -> Rabs z <= norm p). { intros z Hz. unfold norm. rewrite <- sqrt_Rsqr_abs. apply sqrt_le_1_alt. exact Hz. }
  split; apply G; unfold norm2; nra.
Qed.
(** C142: after any history of up to 2^40 rotations the vector is the original
    one turned by the sum of the angles, up to 2^(k-46) per rotation; in
    particular its length has drifted no more than that. *)
Theorem C142_rotations_F : forall (L : libm) (k : Z) (xs : list (ang_arg F)) (v : vec F), trig_accurate L -> (-500 <= k <= 890)%Z ->
  is_finite (vx v) = true -> is_finite (vy v) = true -> norm (fpt v) <= bpow radix2 k -> Forall turn_ok xs -> (Z.of_nat (List.length xs) <= 2 ^ 40)%Z ->
  exists w, rotate_all (H := NumF L) xs v = Ok w /\ v_valid w = v_valid v /\ is_finite (vx w) = true /\ is_finite (vy w) = true /\
    edist (fpt w) (rot (fpt v) (fold_right Rplus 0 (map arg_F xs))) <= INR (List.length xs) * bpow radix2 (k - 46) /\
    Rabs (norm (fpt w) - norm (fpt v)) <= INR (List.length xs) * bpow radix2 (k - 46).
Proof.
  intros L k xs v TA Hk F1 F2 N A LN. set (e := bpow radix2 (k - 46)). assert (PE : 0 < e) by apply bpow_gt_0.
  assert (E40 : IZR (2 ^ 40) * e <= bpow radix2 k) by (unfold e; change (IZR (2 ^ 40)) with (bpow radix2 40); rewrite <- bpow_plus; apply bpow_le; lia).
  assert (G : forall p s, norm p <= bpow radix2 k -> edist (fpt v) (rot p s) <= IZR (2 ^ 40 - Z.of_nat (List.length xs)) * e ->
    exists w, rotate_all (H := NumF L) xs v = Ok w /\ v_valid w = v_valid v /\ is_finite (vx w) = true /\ is_finite (vy w) = true /\
    edist (fpt w) (rot p (s + fold_right Rplus 0 (map arg_F xs))) <= edist (fpt v) (rot p s) + INR (List.length xs) * e).
  { clear N. revert v F1 F2. induction A as [|x xs Hx A IH]; intros v F1 F2 p s NP ED.
    - exists v. cbn [rotate_all fold_right map List.length INR]. rewrite Rplus_0_r, Rmult_0_l, Rplus_0_r. repeat split; try assumption. apply Rle_refl.
    - assert (LX : Z.of_nat (List.length (x :: xs)) = (Z.of_nat (List.length xs) + 1)%Z) by (cbn [List.length]; lia).
      assert (NV : norm (fpt v) <= bpow radix2 (1 + k)).
      { rewrite bp2. pose proof (edist_triangle (fpt v) (rot p s) (0, 0)) as T. rewrite <- !norm_edist, rot_norm in T. 
        assert (IZR (2 ^ 40 - Z.of_nat (List.length (x :: xs))) * e <= IZR (2 ^ 40) * e) by (apply Rmult_le_compat_r; [lra|apply IZR_le; lia]). lra. }
      destruct (coord_norm (fpt v)) as [B1 B2].
      destruct (rotate_close L (1 + k) v x TA ltac:(lia)) as (w & W1 & W2 & (W3 & W4) & W5); [split; [assumption|split; [assumption|split]]; eapply Rle_trans; eassumption|exact Hx|].
      replace (1 + k - 47)%Z with (k - 46)%Z in W5 by lia. fold e in W5.
      assert (T : edist (fpt w) (rot p (s + arg_F x)) <= edist (fpt v) (rot p s) + e).
      { rewrite <- rot_rot. eapply Rle_trans; [apply (edist_triangle _ (rot (fpt v) (arg_F x)))|]. rewrite rot_edist. lra. }
      destruct (IH ltac:(lia) w W3 W4 p (s + arg_F x) NP) as (z & Z1 & Z2 & Z3 & Z4 & Z5).
      { eapply Rle_trans; [exact T|]. rewrite LX in ED. replace (2 ^ 40 - Z.of_nat (List.length xs))%Z with (2 ^ 40 - (Z.of_nat (List.length xs) + 1) + 1)%Z by lia. rewrite plus_IZR. lra. }
      exists z. cbn [rotate_all]. rewrite W1. cbn [bind]. split; [exact Z1|]. split; [congruence|]. split; [exact Z3|]. split; [exact Z4|].
      cbn [map fold_right]. rewrite <- Rplus_assoc. eapply Rle_trans; [exact Z5|]. change (List.length (x :: xs)) with (S (List.length xs)). rewrite S_INR. lra. }
  destruct (G (fpt v) 0 N) as (w & W1 & W2 & W3 & W4 & W5).
  { rewrite rot_0, edist_refl. apply Rmult_le_pos; [apply IZR_le; lia|lra]. }
  rewrite rot_0, edist_refl, !Rplus_0_l in W5. exists w. split; [exact W1|]. split; [exact W2|]. split; [exact W3|]. split; [exact W4|]. split; [exact W5|].
  set (tot := fold_right Rplus 0 (map arg_F xs)) in *. rewrite <- (rot_norm (fpt v) tot).
  pose proof (edist_triangle (fpt w) (rot (fpt v) tot) (0, 0)) as T1. pose proof (edist_triangle (rot (fpt v) tot) (fpt w) (0, 0)) as T2. rewrite (edist_sym (rot (fpt v) tot) (fpt w)) in T2. rewrite <- !norm_edist in T1, T2.
  apply Rabs_le. lra.
Qed.

(** ** A C library that meets the requirement: the correctly rounded one *)
Definition F_of_R (x : R) : F := binary_normalize 53 1024 eq_refl eq_refl mode_NE
  (Ztrunc (scaled_mantissa radix2 (FLT_exp (-1074) 53) (rnd64 x))) (cexp radix2 (FLT_exp (-1074) 53) (rnd64 x)) false.
Lemma F_of_R_ok x : Rabs x <= bpow radix2 1000 -> is_finite (F_of_R x) = true /\ B2R (F_of_R x) = rnd64 x.
Proof.
  intros H. destruct (rnd_err x 1000 ltac:(lia) H) as [_ B].
  assert (FM : fmt64 (rnd64 x)) by (apply generic_format_round; [apply FLT_exp_valid; exact prec53|apply valid_rnd_N]).
  assert (E : F2R (Float radix2 (Ztrunc (scaled_mantissa radix2 (FLT_exp (-1074) 53) (rnd64 x))) (cexp radix2 (FLT_exp (-1074) 53) (rnd64 x))) = rnd64 x) by (symmetry; exact FM).
  unfold F_of_R. destruct (normalize_exact (Ztrunc (scaled_mantissa radix2 (FLT_exp (-1074) 53) (rnd64 x))) (cexp radix2 (FLT_exp (-1074) 53) (rnd64 x)) false) as [A1 A2]; rewrite ?E in *; try assumption.
  - now apply (finite_lt 1000).
  - split; assumption.
Qed.
Definition libm_round : libm := {| lm_sin := fun x => F_of_R (sin (B2R x)); lm_cos := fun x => F_of_R (cos (B2R x)); lm_tan := fun x => F_of_R (tan (B2R x));
  lm_asin := fun x => F_of_R (asin (B2R x)); lm_acos := fun x => F_of_R (acos (B2R x)); lm_atan := fun x => F_of_R (atan (B2R x));
  lm_atan2 := fun y x => F_of_R (Ratan2 (B2R y) (B2R x)); lm_exp := fun x => F_of_R (exp (B2R x)); lm_log := fun x => F_of_R (ln (B2R x)); lm_pow := fun x _ => Bmult mode_NE x x |}.
Lemma libm_round_trig : trig_accurate libm_round.
Proof.
  assert (G : forall t, -1 <= t <= 1 -> is_finite (F_of_R t) = true /\ Rabs (B2R (F_of_R t) - t) <= bpow radix2 (-52)).
  { intros t Ht. assert (A : Rabs t <= bpow radix2 0) by (apply Rabs_le; exact Ht). destruct (F_of_R_ok t) as [G1 G2]; [eapply Rle_trans; [exact A|apply bpow_le; lia]|].
    split; [exact G1|]. rewrite G2. destruct (rnd_err t 0 ltac:(lia) A) as [E _]. eapply Rle_trans; [exact E|]. apply bpow_le. lia. }
  intros x _ _. split; apply G; [apply SIN_bound|apply COS_bound].
Qed.
Example C142_nonvacuous : trig_accurate libm_round /\ within 3 (fv 3 4) /\ turn_ok (AN (F_of_Z 30)) /\ arg_ok (AN (F_of_Z 1000)) /\
  (norm (fpt (fv 3 4)) <= bpow radix2 3 /\ Forall turn_ok [AN (F_of_Z 30); AA (mkAngle (F_of_Z (-90)))] /\ (Z.of_nat (List.length [AN (F_of_Z 30); AA (mkAngle (F_of_Z (-90)))]) <= 2 ^ 40)%Z).
Proof.
  destruct (F_of_Z_exact 3 eq_refl) as [A1 A2]. destruct (F_of_Z_exact 4 eq_refl) as [B1 B2]. destruct (F_of_Z_exact 30 eq_refl) as [C1 C2]. destruct (F_of_Z_exact 1000 eq_refl) as [D1 D2]. destruct (F_of_Z_exact (-90) eq_refl) as [E1 E2].
  change (bpow radix2 3) with 8.
  assert (T : turn_ok (AN (F_of_Z 30))) by (cbn [turn_ok]; split; [exact C2|rewrite C1; apply Rabs_le; lra]).
  split; [exact libm_round_trig|]. split; [unfold within, fv; cbn [vx vy]; rewrite A1, B1; change (bpow radix2 3) with 8; repeat split; try assumption; apply Rabs_le; lra|].
  split; [exact T|]. split; [exact D2|]. split; [|split; [|cbn; lia]].
  - rewrite fpt_fv by (cbn; lia). unfold norm, norm2, px, py. cbn [fst snd]. apply Rsqr_incr_0_var; [|lra]. rewrite Rsqr_sqrt by lra. unfold Rsqr. lra.
  - apply Forall_cons; [exact T|]. apply Forall_cons; [|apply Forall_nil]. cbn [turn_ok a_degree]. split; [exact E2|rewrite E1; lra].
Qed.

(** ** Direction of a vector, and back *)
Lemma rad2deg_const L : is_finite (@RAD2DEG F (NumF L)) = true /\ Rabs (B2R (@RAD2DEG F (NumF L)) - 180 / PI) <= bpow radix2 (-48) /\ Rabs (B2R (@RAD2DEG F (NumF L))) <= bpow radix2 6.
Proof.
  assert (E : exists m, @RAD2DEG F (NumF L) = m /\ B2SF m = SpecFloat.S754_finite false 8063664102031864 (-47)) by (eexists; split; [reflexivity|vm_compute; reflexivity]).
  destruct E as (m & -> & E).
  assert (V : is_finite m = true /\ B2R m = IZR 8063664102031864 * bpow radix2 (-47)) by (destruct m; try discriminate; injection E as -> -> ->; split; reflexivity).
  destruct V as [V1 V2]. split; [exact V1|]. rewrite V2. pose proof pi_bounds.
  change (bpow radix2 (-47)) with (/ 140737488355328). change (bpow radix2 (-48)) with (/ 281474976710656). change (bpow radix2 6) with 64.
  split; [|apply Rabs_le; lra]. set (c := 8063664102031864 * / 140737488355328). assert (PP : 0 < PI) by lra.
  assert (G : - / 281474976710656 * PI <= c * PI - 180 <= / 281474976710656 * PI) by (unfold c; lra).
  apply Rabs_le. replace (c - 180 / PI) with ((c * PI - 180) * / PI) by (field; lra). assert (IP : 0 < / PI) by now apply Rinv_0_lt_compat. assert (X : PI * / PI = 1) by (apply Rinv_r; lra).
  destruct G as [G1 G2]. apply (Rmult_le_compat_r (/ PI)) in G1, G2; try lra.
Qed.
(** What is asked of the C library: atan2 of two finite doubles, not both zero, is
    finite and at most 2^-51 (one unit in the last place of pi) from the direction. *)
Definition atan2_accurate (L : libm) : Prop := forall y x : F, is_finite y = true -> is_finite x = true -> B2R x <> 0 \/ B2R y <> 0 ->
  is_finite (lm_atan2 L y x) = true /\ exists t, - PI <= t <= PI /\
    B2R x = norm (B2R x, B2R y) * cos t /\ B2R y = norm (B2R x, B2R y) * sin t /\ Rabs (B2R (lm_atan2 L y x) - t) <= bpow radix2 (-51).
(** C143: th() of a vector not in the square where atan2_deg returns 0 *)
Theorem C143_th_F : forall (L : libm) (v : vec F), atan2_accurate L -> is_finite (vx v) = true -> is_finite (vy v) = true ->
  1 / 999999 <= Rabs (B2R (vx v)) \/ 1 / 999999 <= Rabs (B2R (vy v)) ->
  exists a t, @Vector2D_th F (NumF L) v = Ok a /\ good_degree (a_degree a) /\
    fpt v = (norm (fpt v) * cos (rad t), norm (fpt v) * sin (rad t)) /\
    exists y, cong360 (B2R (a_degree a)) y /\ Rabs (y - t) <= bpow radix2 (-44).
Proof.
  intros L v AA F1 F2 NT. unfold Vector2D_th, atan2_deg.
  assert (E0 : @nltb F (NumF L) (@nabs F (NumF L) (vx v)) (@EPSILON F (NumF L)) && @nltb F (NumF L) (@nabs F (NumF L) (vy v)) (@EPSILON F (NumF L)) = false).
  { cbn [nltb nabs NumF]. assert (EP : is_finite (@EPSILON F (NumF L)) = true /\ B2R (@EPSILON F (NumF L)) <= 1 / 999999) by (split; [vm_compute; reflexivity|vm_compute; lra]). destruct EP as [E1 E2].
    rewrite !ltb_F by (rewrite ?is_finite_Babs; assumption). rewrite !B2R_Babs. apply andb_false_iff. destruct NT; [left|right]; apply Rlt_bool_false; lra. }
  rewrite E0. destruct (AA (vy v) (vx v) F2 F1) as (A1 & t & T1 & T2 & T3 & T4).
  { destruct NT as [N|N]; [left|right]; intros Z; rewrite Z, Rabs_R0 in N; lra. }
  unfold rad2deg. cbn [natan2 NumF]. set (r := lm_atan2 L (vy v) (vx v)) in *. destruct (rad2deg_const L) as (C1 & C2 & C3). pose proof pi_bounds as PB.
  assert (S : bpow radix2 (-51) <= / 1000) by (change (bpow radix2 (-51)) with (/ 2251799813685248); lra).
  assert (X : close (2 + 6) (bpow radix2 2 * bpow radix2 (-48) + bpow radix2 6 * bpow radix2 (-51) + bpow radix2 (2 + 6 - 54)) (t * (180 / PI)) (@nmul F (NumF L) r (@RAD2DEG F (NumF L)))).
  { apply close_mul; [lia|change (bpow radix2 2) with 4; apply Rabs_le; lra| |split; [exact C1|split; assumption]]. split; [exact A1|]. split; [|exact T4].
    change (bpow radix2 2) with 4. apply Rabs_le_inv in T4. apply Rabs_le. lra. }
  destruct X as (X1 & _ & X3). destruct (of_num_rnd L _ X1) as (a & O1 & O2 & O3). exists a, (t * (180 / PI)). split; [exact O1|]. split; [exact O2|].
  assert (ER : rad (t * (180 / PI)) = t) by (unfold rad; field; lra). rewrite ER. split; [unfold fpt; f_equal; [exact T2|exact T3]|].
  exists (B2R (@nmul F (NumF L) r (@RAD2DEG F (NumF L)))). split; [exact O3|]. eapply Rle_trans; [exact X3|]. rewrite <- !bpow_plus.
  change (2 + -48)%Z with (-46)%Z. change (6 + -51)%Z with (1 + -46)%Z. change (2 + 6 - 54)%Z with (-46)%Z. change (-44)%Z with (1 + (1 + -46))%Z. rewrite !bp2. lra.
Qed.
Lemma norm_cs m t : norm (m * cos t, m * sin t) = Rabs m.
Proof.
  unfold norm, norm2, px, py. cbn [fst snd]. rewrite <- sqrt_Rsqr_abs. f_equal. pose proof (sin2_cos2 t). unfold Rsqr in *.
  transitivity (m * m * (sin t * sin t + cos t * cos t)); [ring|]. rewrite H. ring.
Qed.
(** C143: the polar round trip: from_polar(v.r(), v.th()) is v up to 2^(k-46). *)
Theorem C143_polar_roundtrip_F : forall (L : libm) (k : Z) (v : vec F), trig_accurate L -> atan2_accurate L -> (-30 <= k <= 500)%Z ->
  is_finite (vx v) = true -> is_finite (vy v) = true -> norm (fpt v) <= bpow radix2 k ->
  1 / 999999 <= Rabs (B2R (vx v)) \/ 1 / 999999 <= Rabs (B2R (vy v)) ->
  exists r a w, @Vector2D_r F (NumF L) v = Ok r /\ @Vector2D_th F (NumF L) v = Ok a /\ @Vector2D_from_polar F (NumF L) r (AA a) = Ok w /\
    is_finite (vx w) = true /\ is_finite (vy w) = true /\ edist (fpt w) (fpt v) <= bpow radix2 (k - 46).
Proof.
  intros L k v TA AT Hk F1 F2 N NT. set (M := norm (fpt v)) in *.
  assert (NL : bpow radix2 (-480) <= M).
  { destruct (coord_norm (fpt v)) as [B1 B2]. fold M in B1, B2. eapply Rle_trans; [apply (bpow_le radix2 (-480) (-20)); lia|]. change (bpow radix2 (-20)) with (/ 1048576). unfold fpt, px, py in B1, B2. cbn [fst snd] in B1, B2. destruct NT; lra. }
  destruct (C135_length_F L v F1 F2) as (_ & _ & r & R1 & R2 & R3).
  { change (pt (rvec v)) with (fpt v). fold M. split; [exact NL|]. eapply Rle_trans; [exact N|]. apply bpow_le. lia. }
  change (pt (rvec v)) with (fpt v) in R3. fold M in R3.
  destruct (C143_th_F L v AT F1 F2 NT) as (a & t & T1 & T2 & T3 & y & Y1 & Y2). fold M in T3.
  assert (PM : 0 < M) by (eapply Rlt_le_trans; [apply (bpow_gt_0 radix2 (-480))|exact NL]).
  set (e := bpow radix2 (k - 54)). assert (PE : 0 < e) by apply bpow_gt_0.
  assert (EM : bpow radix2 (-54) * M <= e). { unfold e. replace (k - 54)%Z with (-54 + k)%Z by lia. rewrite bpow_plus. apply Rmult_le_compat_l; [apply bpow_ge_0|exact N]. }
  assert (R3' : Rabs (B2R r - M) <= 5 * e) by lra.
  assert (EK : bpow radix2 k = IZR (2 ^ 54) * e). { unfold e. change (IZR (2 ^ 54)) with (bpow radix2 54). rewrite <- bpow_plus. f_equal. lia. }
  destruct (C142_from_polar_F L (1 + k) r (AA a) TA ltac:(lia) R2) as (w & W1 & _ & W2 & W3 & W4).
  { rewrite bp2, EK. apply Rabs_le_inv in R3'. rewrite EK in N. apply Rabs_le. change (IZR (2 ^ 54)) with 18014398509481984 in *. lra. }
  { exact T2. }
  cbn [arg_F] in W4. exists r, a, w. repeat (split; [assumption|]).
  destruct (cos_cong _ _ Y1) as [EC ES]. rewrite EC, ES in W4. replace (1 + k - 48)%Z with (7 + (k - 54))%Z in W4 by lia. rewrite bpow_plus in W4. fold e in W4. change (bpow radix2 7) with 128 in W4.
  replace (k - 46)%Z with (8 + (k - 54))%Z by lia. rewrite bpow_plus. fold e. change (bpow radix2 8) with 256.
  set (q1 := (B2R r * cos (rad y), B2R r * sin (rad y))) in *. set (q2 := (M * cos (rad y), M * sin (rad y))).
  assert (D1 : edist q1 q2 <= 5 * e).
  { unfold edist, psub, q1, q2, px, py. cbn [fst snd]. rewrite <- !Rmult_minus_distr_r, norm_cs. exact R3'. }
  assert (RD : Rabs (rad y - rad t) <= / 57 * bpow radix2 (-44)).
  { pose proof pi_bounds. unfold rad. rewrite <- Rmult_minus_distr_r, Rabs_mult, (Rabs_pos_eq (PI / 180)) by lra. rewrite Rmult_comm. apply Rmult_le_compat; try apply Rabs_pos; lra. }
  assert (D2 : edist q2 (fpt v) <= 27 * e).
  { rewrite T3. eapply Rle_trans; [apply (edist_coord _ _ (M * (/ 57 * bpow radix2 (-44)))); unfold q2, px, py; cbn [fst snd]; rewrite <- Rmult_minus_distr_l, Rabs_mult, (Rabs_pos_eq M) by lra; (apply Rmult_le_compat_l; [lra|])|].
    - eapply Rle_trans; [apply cos_lip|exact RD].
    - eapply Rle_trans; [apply sin_lip|exact RD].
    - replace (bpow radix2 (-44)) with (1024 * bpow radix2 (-54)) by (change 1024 with (bpow radix2 10); rewrite <- bpow_plus; reflexivity). lra. }
  pose proof (edist_triangle (fpt w) q1 (fpt v)). pose proof (edist_triangle q1 q2 (fpt v)). lra.
Qed.
Lemma libm_round_atan2 : atan2_accurate libm_round.
Proof.
  intros y x _ _ NZ. cbn [lm_atan2 libm_round]. set (t := Ratan2 (B2R y) (B2R x)). destruct (L_Trig.Ratan2_polar (B2R y) (B2R x) NZ) as [P1 P2]. fold t in P1, P2.
  pose proof (L_Trig.Ratan2_range (B2R y) (B2R x)) as RG. fold t in RG. pose proof pi_bounds as PB.
  assert (A : Rabs t <= bpow radix2 2) by (change (bpow radix2 2) with 4; apply Rabs_le; lra).
  destruct (F_of_R_ok t) as [G1 G2]; [eapply Rle_trans; [exact A|apply bpow_le; lia]|]. split; [exact G1|]. exists t. split; [lra|].
  unfold norm, norm2, px, py. cbn [fst snd]. split; [now rewrite P1|]. split; [now rewrite P2|]. rewrite G2. destruct (rnd_err t 2 ltac:(lia) A) as [E _]. eapply Rle_trans; [exact E|]. apply bpow_le. lia.
Qed.
Example C143_polar_nonvacuous : trig_accurate libm_round /\ atan2_accurate libm_round /\ is_finite (vx (fv (-3) 4)) = true /\ is_finite (vy (fv (-3) 4)) = true /\
  norm (fpt (fv (-3) 4)) <= bpow radix2 3 /\ (1 / 999999 <= Rabs (B2R (vx (fv (-3) 4))) \/ 1 / 999999 <= Rabs (B2R (vy (fv (-3) 4)))).
Proof.
  destruct (F_of_Z_exact (-3) eq_refl) as [A1 A2]. destruct (F_of_Z_exact 4 eq_refl) as [B1 B2]. split; [exact libm_round_trig|]. split; [exact libm_round_atan2|].
  split; [exact A2|]. split; [exact B2|]. split.
  - rewrite fpt_fv by (cbn; lia). change (bpow radix2 3) with 8. unfold norm, norm2, px, py. cbn [fst snd]. apply Rsqr_incr_0_var; [|lra]. rewrite Rsqr_sqrt by lra. unfold Rsqr. lra.
  - right. unfold fv. cbn [vy]. rewrite B1, Rabs_pos_eq; lra.
Qed.
