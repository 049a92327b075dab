(** * P_Line: properties C19-C26 of Line2D over ideal reals *)
From Coq Require Import ZArith List Bool String Reals Lra Lia Psatz.
From Flocq Require Import Core.
From Verif Require Import Base Types NumR R_Tac Spec Abs M_Angle M_Vector M_Line L_Angle L_Trig P_Angle P_Vector.
Import ListNotations.
Local Open Scope R_scope.

Lemma of_points_R p q : Line2D_of_points p q =
  mkLine (- (vy q - vy p)) (vx q - vx p) (- - (vy q - vy p) * vx p - (vx q - vx p) * vy p).
Proof. reflexivity. Qed.
Lemma lpts_of_points p q r : lpts (Line2D_of_points p q) r <-> collinear (pt p) (pt q) r.
Proof.
  rewrite of_points_R. unfold lpts, on_line, collinear, cross, psub; cbn.
  split; intros; lra.
Qed.
Lemma collinear_on_line2 p q r : p <> q -> (collinear p q r <-> on_line2 p q r).
Proof.
  intros Hpq. unfold collinear, on_line2, cross, psub, lerp; cbn. split.
  - intros H.
    destruct (Req_dec (px q) (px p)) as [Ex|Nx].
    + assert (Ny : py q - py p <> 0). { intros E. apply Hpq. apply point_eq; lra. }
      assert (px r = px p) by nra.
      exists ((py r - py p) / (py q - py p)). apply point_eq; cbn; [rewrite Ex; lra|field; easy].
    + exists ((px r - px p) / (px q - px p)). apply point_eq; cbn.
      * field; lra.
      * apply Rmult_eq_reg_l with (px q - px p); [|lra]. field_simplify; [|lra]. nra.
  - intros [t ->]; cbn. ring.
Qed.

(** ** C19 *)
Theorem C19_line_through_points_R : forall p q : vec R, pt p <> pt q ->
  exists l, Line2D_init [VVec p; VVec q] [] = Ok l /\
    forall r, lpts l r <-> on_line2 (pt p) (pt q) r.
Proof.
  intros p q H. exists (Line2D_of_points p q). split; [reflexivity|]. intros r.
  rewrite lpts_of_points. now apply collinear_on_line2.
Qed.
(** For coinciding points the "line" is the whole plane (a = b = c = 0). *)
Theorem C19_degenerate_R : forall p q : vec R, pt p = pt q ->
  exists l, Line2D_init [VVec p; VVec q] [] = Ok l /\ l_a l = 0 /\ l_b l = 0 /\ l_c l = 0.
Proof.
  intros p q H. exists (Line2D_of_points p q). split; [reflexivity|].
  rewrite of_points_R. cbn. injection H as -> ->. repeat split; ring.
Qed.
Example C19_nonvacuous : pt (mkVec 1 2 true) <> pt (mkVec 3 5 true).
Proof. unfold pt; cbn; intros [=]; lra. Qed.

(** ** C20 *)
Theorem C20_line_from_angle_R : forall (p : vec R) (a : ang_arg R),
  exists l, (match a with AA d => Line2D_init [VVec p; VAng d] [] | AN x => Line2D_init [VVec p; VNum x] [] end) = Ok l /\
    l_a l * l_a l + l_b l * l_b l = 1 /\
    forall r, lpts l r <-> exists t, r = (vx p + t * cos (rad (arg_deg a)), vy p + t * sin (rad (arg_deg a))).
Proof.
  intros p a. destruct (to_angle_trig a) as [d [Hd [Hc Hs]]].
  exists (mkLine (- sin (rad (arg_deg a))) (cos (rad (arg_deg a)))
    (- - sin (rad (arg_deg a)) * vx p - cos (rad (arg_deg a)) * vy p)).
  split.
  { destruct a; cbn [Line2D_init]; unfold Line2D_of_angle; rewrite Hd; cbn [bind]; rewrite Hc, Hs; reflexivity. }
  pose proof (sin2_cos2 (rad (arg_deg a))) as E. unfold Rsqr in E.
  set (c := cos (rad (arg_deg a))) in *. set (s := sin (rad (arg_deg a))) in *. cbn.
  split; [lra|]. intros r. unfold lpts, on_line; cbn. split.
  - intros H. exists (c * (px r - vx p) + s * (py r - vy p)). apply point_eq; cbn.
    + replace (px r) with ((px r - vx p) * (s * s + c * c) + vx p) at 1 by (rewrite E; ring).
      assert (c * (py r - vy p) = s * (px r - vx p)) as K by lra.
      replace (c * (px r - vx p) + s * (py r - vy p)) with (c * (px r - vx p) + s * (py r - vy p)) by ring.
      transitivity (vx p + (px r - vx p) * c * c + s * (c * (py r - vy p))); [rewrite K; ring|ring].
    + replace (py r) with ((py r - vy p) * (s * s + c * c) + vy p) at 1 by (rewrite E; ring).
      assert (c * (py r - vy p) = s * (px r - vx p)) as K by lra.
      transitivity (vy p + (py r - vy p) * s * s + c * (s * (px r - vx p))); [rewrite <- K; ring|ring].
  - intros [t ->]; cbn. ring.
Qed.

(** ** C21: distance *)
Lemma line_foot a b c p : a * a + b * b <> 0 ->
  let k := (a * px p + b * py p + c) / (a * a + b * b) in
  on_line a b c (px p - k * a, py p - k * b).
Proof. intros H k. unfold on_line, k; cbn. field. easy. Qed.

Lemma line_dist_min a b c p : 0 < a * a + b * b ->
  is_min_dist (on_line a b c) p (Rabs ((a * px p + b * py p + c) / sqrt (a * a + b * b))).
Proof.
  intros H. set (d := a * px p + b * py p + c). set (s := sqrt (a*a+b*b)).
  assert (Hs : 0 < s) by (apply sqrt_lt_R0; lra).
  assert (Hss : s * s = a*a+b*b) by (apply sqrt_sqrt; lra).
  assert (HD : Rabs (d / s) = sqrt ((d*d) / (a*a+b*b))).
  { rewrite <- sqrt_Rsqr_abs. f_equal. unfold Rsqr. rewrite <- Hss. field. lra. }
  rewrite HD. split.
  - exists (px p - d / (a*a+b*b) * a, py p - d / (a*a+b*b) * b). split.
    + apply line_foot; lra.
    + unfold edist, norm. f_equal. unfold norm2, psub; cbn. field. lra.
  - intros q Hq. unfold edist, norm. apply sqrt_le_1_alt. unfold norm2, psub; cbn.
    apply Rmult_le_reg_r with (a*a+b*b); [lra|].
    replace (d * d / (a * a + b * b) * (a * a + b * b)) with (d * d) by (field; lra).
    unfold on_line in Hq. assert (Hd : d = a * (px p - px q) + b * (py p - py q)) by (unfold d; lra).
    rewrite Hd. pose proof (Rle_0_sqr (a * (py p - py q) - b * (px p - px q))) as K. unfold Rsqr in K. nra.
Qed.

Theorem C21_dist_R : forall (l : line R) (p : vec R), (l_a l <> 0 \/ l_b l <> 0) ->
  exists d d2, Line2D_dist l p = Ok d /\ Line2D_dist2 l p = Ok d2 /\
    is_min_dist (lpts l) (pt p) d /\ d2 = d * d.
Proof.
  intros l p Hn.
  assert (H : 0 < l_a l * l_a l + l_b l * l_b l) by nra.
  unfold Line2D_dist, Line2D_dist2; rnum. rewrite Rsqrt_py_ok by lra.
  assert (Hs : 0 < sqrt (l_a l * l_a l + l_b l * l_b l)) by now apply sqrt_lt_R0.
  rewrite !Rdiv_py_ok by lra. do 2 eexists. do 2 (split; [reflexivity|]). split.
  - now apply line_dist_min.
  - rewrite <- Rabs_mult.
    replace (_ / sqrt _ * (_ / sqrt _)) with
      (((l_a l * vx p + l_b l * vy p + l_c l) * (l_a l * vx p + l_b l * vy p + l_c l)) / (sqrt (l_a l * l_a l + l_b l * l_b l) * sqrt (l_a l * l_a l + l_b l * l_b l))) by (field; lra).
    rewrite sqrt_sqrt by lra. symmetry. apply Rabs_pos_eq.
    apply Rmult_le_pos; [apply Rle_0_sqr|]. left. now apply Rinv_0_lt_compat.
Qed.
Theorem C21_dist_degenerate_R : forall (l : line R) (p : vec R), l_a l = 0 -> l_b l = 0 ->
  Line2D_dist l p = Raise ZeroDivisionError /\ Line2D_dist2 l p = Raise ZeroDivisionError.
Proof.
  intros l p Ha Hb. unfold Line2D_dist, Line2D_dist2; rnum. rewrite Ha, Hb.
  replace (0*0+0*0) with 0 by ring. rewrite Rsqrt_py_ok, sqrt_0 by lra.
  unfold Rdiv_py. now rewrite Req_bool_true.
Qed.

(** ** C22: intersection *)
Lemma intersection_R l1 l2 :
  Line2D_intersection l1 l2 =
    if Rlt_bool (Rabs (l_a l1 * l_b l2 - l_b l1 * l_a l2)) (1/1000000) then Ok Vector2D_invalid
    else Ok (V ((l_b l1 * l_c l2 - l_b l2 * l_c l1) / (l_a l1 * l_b l2 - l_b l1 * l_a l2))
               ((l_a l2 * l_c l1 - l_a l1 * l_c l2) / (l_a l1 * l_b l2 - l_b l1 * l_a l2))).
Proof.
  unfold Line2D_intersection; rnum. case Rlt_bool_spec; intros H; [reflexivity|].
  rewrite !Rdiv_py_ok; [reflexivity| |]; intros E; rewrite E, Rabs_R0 in H; lra.
Qed.
Lemma cramer a1 b1 c1 a2 b2 c2 p : a1 * b2 - b1 * a2 <> 0 ->
  (on_line a1 b1 c1 p /\ on_line a2 b2 c2 p <->
   p = ((b1 * c2 - b2 * c1) / (a1 * b2 - b1 * a2), (a2 * c1 - a1 * c2) / (a1 * b2 - b1 * a2))).
Proof.
  intros H. unfold on_line. split.
  - intros [H1 H2]. apply point_eq; cbn; apply Rmult_eq_reg_r with (a1 * b2 - b1 * a2); try easy;
    field_simplify; try easy; nra.
  - intros ->; cbn. split; field; easy.
Qed.

Theorem C22_intersection_R : forall l1 l2 : line R,
  exists v, Line2D_intersection l1 l2 = Ok v /\
    (v_valid v = true <-> Rabs (l_a l1 * l_b l2 - l_b l1 * l_a l2) >= 1/1000000) /\
    (v_valid v = true <-> Line2D_is_parallel l1 l2 = false) /\
    (v_valid v = true -> forall q, lpts l1 q /\ lpts l2 q <-> q = pt v) /\
    (v_valid v = false -> v = Vector2D_invalid).
Proof.
  intros l1 l2. rewrite intersection_R. unfold Line2D_is_parallel; rnum.
  replace (l_a l1 * l_b l2 - l_a l2 * l_b l1) with (l_a l1 * l_b l2 - l_b l1 * l_a l2) by ring.
  destruct (Rlt_bool_spec (Rabs (l_a l1 * l_b l2 - l_b l1 * l_a l2)) (1/1000000)) as [H|H];
    eexists; (split; [reflexivity|]); cbn [v_valid V Vector2D_invalid].
  - repeat split; try discriminate; try lra.
  - assert (l_a l1 * l_b l2 - l_b l1 * l_a l2 <> 0) as N
       by (intros E; rewrite E, Rabs_R0 in H; lra).
    split; [split; intros; [lra|easy]|]. split; [easy|]. split; [|discriminate].
    intros _ q. exact (cramer _ _ (l_c l1) _ _ (l_c l2) q N).
Qed.
(** The threshold loses real intersections. *)
Theorem C22_small_coefficients_refuted : exists l1 l2 : line R, exists q,
  lpts l1 q /\ lpts l2 q /\ (forall q', lpts l1 q' /\ lpts l2 q' -> q' = q) /\
  exists v, Line2D_intersection l1 l2 = Ok v /\ v_valid v = false.
Proof.
  exists (mkLine (1/10000) 0 0), (mkLine 0 (1/10000) 0), (0,0).
  unfold lpts, on_line; cbn. split; [lra|]. split; [lra|]. split.
  - intros q' [H1 H2]. apply point_eq; cbn; lra.
  - rewrite intersection_R. cbn. rewrite Rlt_bool_true; [eauto|]. rewrite Rabs_pos_eq; lra.
Qed.
Example C22_nonvacuous : exists v, Line2D_intersection (mkLine 1 1 (-3)) (mkLine 1 (-1) 1) = Ok v /\ v_valid v = true /\ pt v = (1, 2).
Proof.
  rewrite intersection_R. cbn. rewrite Rlt_bool_false.
  - eexists; split; [reflexivity|]. split; [easy|]. unfold pt; cbn. f_equal; field.
  - replace (1 * -1 - 1*1) with (-(2)) by ring. rewrite Rabs_Ropp, Rabs_pos_eq; lra.
Qed.

(** ** C23: projection *)
Theorem C23_projection_R : forall (l : line R) (p : vec R),
  let m := Line2D_perpendicular l p in
  lpts m (pt p) /\ l_a l * l_a m + l_b l * l_b m = 0 /\
  l_a m * l_a m + l_b m * l_b m = l_a l * l_a l + l_b l * l_b l /\
  exists v, Line2D_projection l p = Ok v /\
    (v_valid v = true <-> l_a l * l_a l + l_b l * l_b l >= 1/1000000) /\
    (v_valid v = true ->
       lpts l (pt v) /\
       (forall q, lpts l q -> dot (psub (pt p) (pt v)) (psub q (pt v)) = 0) /\
       (forall q, lpts l q -> edist (pt p) (pt v) <= edist (pt p) q) /\
       Line2D_dist l p = Ok (edist (pt p) (pt v))).
Proof.
  intros l p m.
  split; [unfold m, Line2D_perpendicular, lpts, on_line, pt; cbn; ring|].
  split; [unfold m, Line2D_perpendicular; cbn; ring|].
  split; [unfold m, Line2D_perpendicular; cbn; ring|].
  unfold Line2D_projection. fold m.
  destruct (C22_intersection_R l m) as (v & Hv & Hval & _ & Hq & _).
  exists v. split; [exact Hv|].
  assert (HD : l_a l * l_b m - l_b l * l_a m = - (l_a l * l_a l + l_b l * l_b l)).
  { unfold m, Line2D_perpendicular; rnum; cbn. ring. }
  rewrite HD, Rabs_Ropp, Rabs_pos_eq in Hval by nra. split; [exact Hval|].
  intros HV. pose proof (proj1 Hval HV) as HN.
  destruct (proj2 (Hq HV (pt v)) eq_refl) as [H1 H2].
  assert (Hperp : forall q, lpts l q -> dot (psub (pt p) (pt v)) (psub q (pt v)) = 0).
  { intros q H3. unfold lpts, on_line in *. unfold m, Line2D_perpendicular in H2; revert H2; rnum; cbn [l_a l_b l_c]; intros H2.
    set (a := l_a l) in *; set (b := l_b l) in *.
    unfold dot, psub; cbn [px py fst snd pt] in *.
    assert (E1 : a * (px q - vx v) + b * (py q - vy v) = 0) by lra.
    assert (E2 : b * (vx p - vx v) - a * (vy p - vy v) = 0) by lra.
    assert (K : (a*a+b*b) * ((vx p - vx v) * (px q - vx v) + (vy p - vy v) * (py q - vy v)) = 0).
    { transitivity ((a * (px q - vx v) + b * (py q - vy v)) * (a * (vx p - vx v) + b * (vy p - vy v))
         + (b * (vx p - vx v) - a * (vy p - vy v)) * (b * (px q - vx v) - a * (py q - vy v))); [ring|].
      rewrite E1, E2; ring. }
    apply Rmult_integral in K. destruct K; [lra|easy]. }
  assert (Hmin : forall q, lpts l q -> edist (pt p) (pt v) <= edist (pt p) q).
  { intros q H3. apply edist_le. specialize (Hperp q H3).
    unfold dot, norm2, psub in *; cbn [px py fst snd pt] in *.
    pose proof (Rle_0_sqr (px q - vx v)); pose proof (Rle_0_sqr (py q - vy v)); unfold Rsqr in *. nra. }
  split; [exact H1|]. split; [exact Hperp|]. split; [exact Hmin|].
  assert (Hne : l_a l <> 0 \/ l_b l <> 0).
  { destruct (Req_dec (l_a l) 0) as [Ea|]; [|auto]. right. intros Eb. rewrite Ea, Eb in HN. lra. }
  destruct (C21_dist_R l p Hne) as (d & d2 & Hd & _ & [[q [Hq1 Hq2]] Hmn] & _). rewrite Hd. f_equal.
  apply Rle_antisym.
  - now apply Hmn.
  - rewrite <- Hq2. now apply Hmin.
Qed.
Example C23_nonvacuous : exists v, Line2D_projection (mkLine 1 1 (-2)) (mkVec 3 1 true) = Ok v /\ v_valid v = true /\ pt v = (2, 0).
Proof.
  unfold Line2D_projection. rewrite intersection_R. unfold Line2D_perpendicular; rnum; cbn. rewrite Rlt_bool_false.
  - eexists; split; [reflexivity|]. split; [easy|]. unfold pt; cbn. f_equal; field.
  - rewrite Rabs_left; lra.
Qed.

(** ** C24: perpendicular bisector *)
Theorem C24_perpendicular_bisector_R : forall p q : vec R,
  (~ tiny (vx q - vx p) (vy q - vy p) ->
   forall r, lpts (Line2D_perpendicular_bisector p q) r <-> edist r (pt p) = edist r (pt q)) /\
  (tiny (vx q - vx p) (vy q - vy p) -> lpts (Line2D_perpendicular_bisector p q) (pt p) /\
     l_b (Line2D_perpendicular_bisector p q) = 1).
Proof.
  intros p q. unfold Line2D_perpendicular_bisector; rnum. split.
  - intros H r. rewrite andb_comm.
    match goal with |- context [if ?c then _ else _] => replace c with false end.
    2:{ symmetry. apply andb_false_iff. destruct (Rlt_bool_spec (Rabs (vy q - vy p)) (1/1000000)); [|now left].
        destruct (Rlt_bool_spec (Rabs (vx q - vx p)) (1/1000000)); [|now right]. exfalso; apply H; now split. }
    unfold lpts, on_line; cbn [l_a l_b l_c].
    assert (E : edist r (pt p) = edist r (pt q) <-> norm2 (psub r (pt p)) = norm2 (psub r (pt q))).
    { unfold edist. split; intros K.
      - rewrite <- !norm_sq. now rewrite K.
      - unfold norm. now rewrite K. }
    rewrite E. unfold norm2, psub; cbn. split; intros; lra.
  - intros [H1 H2]. rewrite !Rlt_bool_true by easy. cbn [andb]. rewrite of_points_R.
    unfold lpts, on_line; cbn. split; ring.
Qed.
Example C24_nonvacuous : ~ tiny (vx (mkVec 3 0 true) - vx (mkVec 1 0 true)) (vy (mkVec 3 0 true) - vy (mkVec 1 0 true)).
Proof. cbn; intros [H _]. rewrite Rabs_pos_eq in H; lra. Qed.

(** ** C25: get_x, get_y *)
Theorem C25_get_xy_R : forall (l : line R) (t : R),
  (Rabs (l_a l) >= 1/1000000 -> exists x, Line2D_get_x l t = Ok x /\ lpts l (x, t)) /\
  (Rabs (l_a l) < 1/1000000 -> Line2D_get_x l t = Ok 100000000000000000000) /\
  (Rabs (l_b l) >= 1/1000000 -> exists y, Line2D_get_y l t = Ok y /\ lpts l (t, y)) /\
  (Rabs (l_b l) < 1/1000000 -> Line2D_get_y l t = Ok 100000000000000000000).
Proof.
  intros l t. unfold Line2D_get_x, Line2D_get_y; rnum. unfold lpts, on_line; cbn [px py fst snd].
  repeat split; intros H; try (now rewrite Rlt_bool_true);
  rewrite Rlt_bool_false by lra.
  - assert (l_a l <> 0) by (intros E; rewrite E, Rabs_R0 in H; lra).
    rewrite Rdiv_py_ok by easy. eexists; split; [reflexivity|]. field; easy.
  - assert (l_b l <> 0) by (intros E; rewrite E, Rabs_R0 in H; lra).
    rewrite Rdiv_py_ok by easy. eexists; split; [reflexivity|]. field; easy.
Qed.

(** ** C26: equality *)
Theorem C26_eq_R : forall l m : line R,
  Line2D_eq l l = true /\ Line2D_eq l m = Line2D_eq m l /\
  (Line2D_eq l m = true <-> Rabs (l_a l * l_b m - l_a m * l_b l) < 1/1000000 /\ l_c l = l_c m).
Proof.
  intros l m. unfold Line2D_eq; rnum. split; [|split].
  - rewrite Req_bool_true, andb_true_r by easy. apply Rlt_bool_true.
    replace (l_a l * l_b l - l_a l * l_b l) with 0 by ring. rewrite Rabs_R0; lra.
  - replace (l_a m * l_b l - l_a l * l_b m) with (- (l_a l * l_b m - l_a m * l_b l)) by ring.
    rewrite Rabs_Ropp. f_equal.
    destruct (Req_bool_spec (l_c l) (l_c m)); destruct (Req_bool_spec (l_c m) (l_c l)); congruence.
  - rewrite andb_true_iff, Rlt_bool_iff, Req_bool_iff. easy.
Qed.
Theorem C26_eq_refuted :
  (exists l m : line R, Line2D_eq l m = true /\ (exists q, lpts l q) /\ (exists q, lpts m q) /\
      forall q, ~ (lpts l q /\ lpts m q)) /\
  (exists l m : line R, Line2D_eq l m = false /\ (exists q, lpts l q) /\ forall q, lpts l q <-> lpts m q).
Proof.
  split.
  - exists (mkLine 1 0 1), (mkLine 2 0 1). unfold Line2D_eq, lpts, on_line; rnum; cbn [l_a l_b l_c].
    split; [|split; [|split]].
    + rewrite Req_bool_true, andb_true_r by easy. apply Rlt_bool_true.
      replace (1*0-2*0) with 0 by ring. rewrite Rabs_R0; lra.
    + exists (-1, 0); cbn; lra.
    + exists (-1/2, 0); cbn; lra.
    + intros q [H1 H2]. lra.
  - exists (mkLine 1 0 1), (mkLine 2 0 2). unfold Line2D_eq, lpts, on_line; rnum; cbn [l_a l_b l_c].
    split; [|split].
    + rewrite (Req_bool_false 1 2) by lra. apply andb_false_r.
    + exists (-1,0); cbn; lra.
    + intros q; split; lra.
Qed.
