(** * P_Misc: angle bisector lines (C100), ray equality (C101), the angular comparison (C111) *)
From Coq Require Import ZArith List Bool String Reals Lra Lia Psatz.
From Flocq Require Import Core.
From Verif Require Import Base Types NumR R_Tac Spec Spec2 Abs M_Angle M_Vector M_Line M_Ray M_Triangle M_Hull
  L_Angle P_Angle L_Trig P_Vector P_Line P_Hull P_Hull2.
Import ListNotations.
Local Open Scope R_scope.

(** ** C100: the bisector line *)

Lemma is_min_dist_unique S p d e : is_min_dist S p d -> is_min_dist S p e -> d = e.
Proof.
  intros [[q [Sq Eq]] Lq] [[r [Sr Er]] Lr]. apply Rle_antisym.
  - rewrite <- Er. now apply Lq.
  - rewrite <- Eq. now apply Lr.
Qed.
Lemma is_min_dist_ext S S' p d : (forall q, S q <-> S' q) -> is_min_dist S p d -> is_min_dist S' p d.
Proof.
  intros E [[q [Sq Eq]] Lq]. split.
  - exists q. split; [now apply E|easy].
  - intros r Sr. apply Lq. now apply E.
Qed.
Lemma dir_line_eqn o a q : dir_line o a q <->
  on_line (- sin (rad a)) (cos (rad a)) (sin (rad a) * px o - cos (rad a) * py o) q.
Proof.
  pose proof (sin2_cos2 (rad a)) as E. unfold Rsqr in E.
  unfold dir_line, on_line. set (c := cos (rad a)) in *. set (s := sin (rad a)) in *. split.
  - intros [t ->]. unfold px, py; cbn [fst snd]. ring.
  - intros H. exists (c * (px q - px o) + s * (py q - py o)).
    destruct q as [qx qy]. unfold px, py in *; cbn [fst snd] in *. f_equal.
    + assert (K : s * (s * (qx - fst o) - c * (qy - snd o)) = 0) by (replace (s * (qx - fst o) - c * (qy - snd o)) with 0 by lra; ring).
      replace qx with (fst o + (qx - fst o) * (s * s + c * c)) at 1 by (rewrite E; ring). lra.
    + assert (K : c * (s * (qx - fst o) - c * (qy - snd o)) = 0) by (replace (s * (qx - fst o) - c * (qy - snd o)) with 0 by lra; ring).
      replace qy with (snd o + (qy - snd o) * (s * s + c * c)) at 1 by (rewrite E; ring). lra.
Qed.
Lemma dir_line_dist o a q :
  is_min_dist (dir_line o a) q (Rabs (sin (rad a) * (px q - px o) - cos (rad a) * (py q - py o))).
Proof.
  pose proof (sin2_cos2 (rad a)) as E. unfold Rsqr in E.
  apply is_min_dist_ext with (on_line (- sin (rad a)) (cos (rad a)) (sin (rad a) * px o - cos (rad a) * py o)).
  { intros r. symmetry. apply dir_line_eqn. }
  assert (N : - sin (rad a) * - sin (rad a) + cos (rad a) * cos (rad a) = 1) by lra.
  pose proof (line_dist_min (- sin (rad a)) (cos (rad a)) (sin (rad a) * px o - cos (rad a) * py o) q ltac:(lra)) as D.
  unfold Rdiv in D. rewrite N, sqrt_1, Rinv_1, Rmult_1_r in D.
  replace (Rabs (sin (rad a) * (px q - px o) - cos (rad a) * (py q - py o))) with
    (Rabs (- sin (rad a) * px q + cos (rad a) * py q + (sin (rad a) * px o - cos (rad a) * py o))); [exact D|].
  rewrite <- Rabs_Ropp. f_equal. ring.
Qed.
(** Directions that agree up to half turns give the same line. *)
Lemma dir_line_half o a b q : cong360 (2 * a) (2 * b) -> dir_line o a q -> dir_line o b q.
Proof.
  intros [k K] [t ->]. assert (A : a = b + 180 * IZR k) by lra.
  destruct (Z.Even_or_Odd k) as [[m M]|[m M]].
  - assert (C : cong360 a b) by (exists m; rewrite A, M, mult_IZR; lra).
    destruct (cos_cong _ _ C) as [-> ->]. now exists t.
  - assert (C : cong360 a (b + 180)) by (exists m; rewrite A, M, plus_IZR, mult_IZR; lra).
    destruct (cos_cong _ _ C) as [-> ->]. exists (- t).
    replace (rad (b + 180)) with (rad b + PI) by (unfold rad; field).
    rewrite neg_cos, neg_sin. f_equal; ring.
Qed.

(** The line returned for a corner [o] with sides in directions [l] and [r]
    goes through [o] in the direction reached from [r] by half of the turn to
    [l], and each of its points is at the same distance from the two side lines. *)
Theorem C100_angle_bisector_R : forall (o : vec R) (l r : ang_arg R),
  exists b, Line2D_angle_bisector o l r = Ok b /\ l_a b * l_a b + l_b b * l_b b = 1 /\
    lpts b (pt o) /\
    (forall t q, turn (arg_deg r) (arg_deg l) (2 * t) -> (lpts b q <-> dir_line (pt o) (arg_deg r + t) q)) /\
    (forall q d1 d2, lpts b q -> is_min_dist (dir_line (pt o) (arg_deg l)) q d1 ->
       is_min_dist (dir_line (pt o) (arg_deg r)) q d2 -> d1 = d2).
Proof.
  intros o l r. destruct (C08_bisect_R l r) as [bi [E [_ [C _]]]].
  destruct (C20_line_from_angle_R o (AA bi)) as [ln [EL [U L]]]. cbn [Line2D_init] in EL.
  exists ln. unfold Line2D_angle_bisector. rewrite E. cbn [bind]. split; [exact EL|]. split; [exact U|].
  assert (L' : forall q, lpts ln q <-> dir_line (pt o) (arg_deg (AA bi)) q) by (intros q; rewrite L; reflexivity).
  cbn [arg_deg] in L'.
  assert (T : forall t q, turn (arg_deg r) (arg_deg l) (2 * t) -> (lpts ln q <-> dir_line (pt o) (arg_deg r + t) q)).
  { intros t q [_ TC]. rewrite L'.
    assert (CC : cong360 (2 * a_degree bi) (2 * (arg_deg r + t))).
    { apply cong360_trans with (1 := C). replace (2 * (arg_deg r + t)) with ((arg_deg r + 2 * t) + arg_deg r) by ring.
      apply cong360_add; [now apply cong360_sym|apply cong360_refl]. }
    split; apply dir_line_half; [exact CC|now apply cong360_sym]. }
  split.
  { apply L'. exists 0. unfold pt, px, py; cbn [fst snd]. f_equal; ring. }
  split; [exact T|].
  intros q d1 d2 Q D1 D2. apply L' in Q.
  rewrite (is_min_dist_unique _ _ _ _ D1 (dir_line_dist _ _ _)), (is_min_dist_unique _ _ _ _ D2 (dir_line_dist _ _ _)).
  destruct Q as [s ->]. unfold px, py; cbn [fst snd].
  replace (sin (rad (arg_deg l)) * _ - _) with (s * sin (rad (arg_deg l) - rad (a_degree bi))) by (rewrite sin_minus; ring).
  replace (sin (rad (arg_deg r)) * _ - _) with (s * sin (rad (arg_deg r) - rad (a_degree bi))) by (rewrite sin_minus; ring).
  replace (rad (arg_deg l) - rad (a_degree bi)) with (rad (arg_deg l - a_degree bi)) by (unfold rad; ring).
  assert (CC : cong360 (arg_deg l - a_degree bi) (- (arg_deg r - a_degree bi))).
  { destruct C as [k C]. exists (- k)%Z. rewrite opp_IZR. lra. }
  destruct (cos_cong _ _ CC) as [_ ->]. replace (rad (- (arg_deg r - a_degree bi))) with (- (rad (arg_deg r) - rad (a_degree bi))) by (unfold rad; ring).
  rewrite sin_neg, !Rabs_mult, Rabs_Ropp. reflexivity.
Qed.
Example C100_nonvacuous : turn (arg_deg (AN (-90))) (arg_deg (AN 0)) (2 * 45) /\
  exists b, Line2D_angle_bisector (V 0 0) (AN 0) (AN (-90)) = Ok b /\ lpts b (1, -1) /\ ~ lpts b (1, 1).
Proof.
  assert (T : turn (arg_deg (AN (-90))) (arg_deg (AN 0)) (2 * 45)) by (split; [lra|exists 0%Z; cbn; lra]).
  split; [exact T|]. destruct (C100_angle_bisector_R (V 0 0) (AN 0) (AN (-90))) as [b [E [_ [_ [H _]]]]].
  exists b. split; [exact E|]. specialize (H 45). cbn [arg_deg] in H.
  assert (A : cos (rad (-90 + 45)) = / sqrt 2 /\ sin (rad (-90 + 45)) = - / sqrt 2).
  { replace (rad (-90 + 45)) with (- (PI / 4)) by (unfold rad; field). rewrite cos_neg, sin_neg, cos_PI4, sin_PI4. lra. }
  destruct A as [A1 A2].
  assert (S : 0 < / sqrt 2) by (apply Rinv_0_lt_compat, sqrt_lt_R0; lra).
  split.
  - apply H; [exact T|]. apply dir_line_eqn. unfold on_line, pt, px, py; cbn [fst snd vx vy V]. rewrite A1, A2. ring.
  - rewrite H by exact T. rewrite dir_line_eqn. unfold on_line, pt, px, py; cbn [fst snd vx vy V]. rewrite A1, A2. lra.
Qed.

(** ** C101: equality of rays *)

(** The angles are compared up to full turns (within 1e-6 of a degree), the
    origins exactly. *)
Theorem C101_ray_eq_R : forall r s : ray R,
  exists e, Ray2D_eq r s = Ok e /\ Ray2D_eq s r = Ok e /\ Ray2D_eq r r = Ok true /\
    (e = true <-> pt (ray_origin r) = pt (ray_origin s) /\
       exists z, Rabs z < 1/1000000 /\ cong360 (a_degree (ray_dir r)) (a_degree (ray_dir s) + z)).
Proof.
  assert (F : forall r s : ray R, Ray2D_eq r s =
    Ok (Rlt_bool (Rabs (nrm (a_degree (ray_dir r) - a_degree (ray_dir s)))) (1/1000000) && Vector2D_eq (ray_origin r) (ray_origin s))).
  { intros r s. unfold Ray2D_eq, AngleDeg_sub, AngleDeg_float, ang_num. rewrite ?degree_R. cbn [bind]. rewrite ?of_num_R. cbn [bind].
    rewrite ?degree_R. cbn [bind a_degree]. rewrite nrm_nrm. rnum. reflexivity. }
  assert (Z0 : forall x, (Rabs (nrm x) < 1/1000000 <-> exists z, Rabs z < 1/1000000 /\ cong360 x z)).
  { intros x. split.
    - intros H. exists (nrm x). split; [exact H|]. apply cong360_sym, nrm_cong.
    - intros [z [H C]]. replace (nrm x) with z; [exact H|]. apply cong360_small.
      + apply cong360_trans with x; [now apply cong360_sym|apply cong360_sym, nrm_cong].
      + pose proof (nrm_range x). apply Rabs_def2 in H. apply Rabs_def1; lra. }
  assert (VE : forall v w : vec R, Vector2D_eq v w = true <-> pt v = pt w).
  { intros v w. unfold Vector2D_eq, pt; rnum. rewrite andb_true_iff. split.
    - intros [A B]. revert A B. destruct (Req_bool_spec (vx v) (vx w)), (Req_bool_spec (vy v) (vy w)); try discriminate. congruence.
    - intros [= A B]. rewrite A, B. now rewrite !Req_bool_true. }
  assert (X : forall r s : ray R, Rlt_bool (Rabs (nrm (a_degree (ray_dir r) - a_degree (ray_dir s)))) (1/1000000) && Vector2D_eq (ray_origin r) (ray_origin s) = true <->
    pt (ray_origin r) = pt (ray_origin s) /\ exists z, Rabs z < 1/1000000 /\ cong360 (a_degree (ray_dir r)) (a_degree (ray_dir s) + z)).
  { intros r s. rewrite andb_true_iff, Rlt_bool_iff, Z0, VE.
    assert (Q : (exists z, Rabs z < 1 / 1000000 /\ cong360 (a_degree (ray_dir r) - a_degree (ray_dir s)) z) <->
      exists z, Rabs z < 1/1000000 /\ cong360 (a_degree (ray_dir r)) (a_degree (ray_dir s) + z)).
    { split; intros [z [H [k K]]]; exists z; (split; [exact H|]); exists k; lra. }
    rewrite Q. tauto. }
  intros r s. eexists. split; [apply F|]. split; [|split; [|apply X]].
  - rewrite F. f_equal. apply eq_true_iff_eq. rewrite !X. split; intros [A [z [H C]]]; (split; [congruence|]);
      exists (- z); (split; [now rewrite Rabs_Ropp|]); destruct C as [k C]; exists (- k)%Z; rewrite opp_IZR; lra.
  - rewrite F. f_equal. apply X. split; [easy|]. exists 0. split; [rewrite Rabs_R0; lra|]. exists 0%Z; lra.
Qed.
Example C101_nonvacuous :
  Ray2D_eq (mkRay (V 1 2) (mkAngle (180 : R))) (mkRay (V 1 2) (mkAngle (-180))) = Ok true /\
  Ray2D_eq (mkRay (V 1 2) (mkAngle (10 : R))) (mkRay (V 1 2) (mkAngle (11))) = Ok false.
Proof.
  split.
  - destruct (C101_ray_eq_R (mkRay (V 1 2) (mkAngle (180 : R))) (mkRay (V 1 2) (mkAngle (-180)))) as [e [-> [_ [_ H]]]].
    f_equal. apply H. split; [easy|]. exists 0. rewrite Rabs_R0. split; [lra|]. exists 1%Z. cbn. lra.
  - destruct (C101_ray_eq_R (mkRay (V 1 2) (mkAngle (10 : R))) (mkRay (V 1 2) (mkAngle (11)))) as [e [-> [_ [_ H]]]].
    f_equal. destruct e; [|easy]. destruct (proj1 H eq_refl) as [_ [z [Z [k K]]]]. cbn in K. apply Rabs_def2 in Z.
    exfalso. assert (-1 < IZR k < 1) as [K1 K2] by lra. apply lt_IZR in K1. apply lt_IZR in K2. assert (k = 0)%Z by lia. subst. lra.
Qed.
(** Equal rays need not have the same points, and equality is not transitive. *)
Theorem C101_ray_eq_refuted :
  (exists r s : ray R, Ray2D_eq r s = Ok true /\ exists q, rpts r q /\ ~ rpts s q) /\
  (exists r s t : ray R, Ray2D_eq r s = Ok true /\ Ray2D_eq s t = Ok true /\ Ray2D_eq r t = Ok false).
Proof.
  split.
  - exists (mkRay (V 0 0) (mkAngle 0)), (mkRay (V 0 0) (mkAngle (1/2000000))). split.
    + destruct (C101_ray_eq_R (mkRay (V 0 0) (mkAngle 0)) (mkRay (V 0 0) (mkAngle (1/2000000)))) as [e [-> [_ [_ H]]]].
      f_equal. apply H. split; [easy|]. exists (- (1/2000000)). split; [rewrite Rabs_Ropp, Rabs_pos_eq; lra|]. exists 0%Z. cbn. lra.
    + exists (1, 0). split.
      * exists 1. split; [lra|]. unfold pt, px, py; cbn [fst snd vx vy V ray_origin ray_dir a_degree].
        replace (rad 0) with 0 by (unfold rad; ring). rewrite cos_0, sin_0. f_equal; ring.
      * intros [t [_ E]]. unfold pt, px, py in E; cbn [fst snd vx vy V ray_origin ray_dir a_degree] in E. injection E as E1 E2.
        assert (P : 0 < sin (rad (1/2000000))).
        { pose proof PI_RGT_0. apply sin_gt_0; unfold rad; lra. }
        assert (t = 0) by nra. subst t. lra.
  - exists (mkRay (V 0 0) (mkAngle 0)), (mkRay (V 0 0) (mkAngle (1/2000000))), (mkRay (V 0 0) (mkAngle (1/1000000))).
    split; [|split].
    + destruct (C101_ray_eq_R (mkRay (V 0 0) (mkAngle 0)) (mkRay (V 0 0) (mkAngle (1/2000000)))) as [e [-> [_ [_ H]]]].
      f_equal. apply H. split; [easy|]. exists (- (1/2000000)). split; [rewrite Rabs_Ropp, Rabs_pos_eq; lra|]. exists 0%Z. cbn. lra.
    + destruct (C101_ray_eq_R (mkRay (V 0 0) (mkAngle (1/2000000))) (mkRay (V 0 0) (mkAngle (1/1000000)))) as [e [-> [_ [_ H]]]].
      f_equal. apply H. split; [easy|]. exists (- (1/2000000)). split; [rewrite Rabs_Ropp, Rabs_pos_eq; lra|]. exists 0%Z. cbn. lra.
    + destruct (C101_ray_eq_R (mkRay (V 0 0) (mkAngle 0)) (mkRay (V 0 0) (mkAngle (1/1000000)))) as [e [-> [_ [_ H]]]].
      f_equal. destruct e; [|easy]. destruct (proj1 H eq_refl) as [_ [z [Z [k K]]]]. cbn in K. apply Rabs_def2 in Z.
      exfalso. assert (-1 < IZR k < 1) as [K1 K2] by lra. apply lt_IZR in K1. apply lt_IZR in K2. assert (k = 0)%Z by lia. subst. lra.
Qed.

(** ** C111: the angular comparison used for sorting *)

(** [cross (lhs - base) (rhs - base)] decides when it is negative or at least
    1e-6; in between the two distances from the base decide.  The comparison
    never says "equal". *)
Theorem C111_compare_R : forall p q base : vec R,
  exists c, angle_sort_predicate p q base = Ok c /\ (c = -1 \/ c = 1)%Z /\
    let area := cross (psub (pt p) (pt base)) (psub (pt q) (pt base)) in
    (area < 0 -> c = (-1)%Z) /\ (1/1000000 <= area -> c = 1%Z) /\
    (0 <= area < 1/1000000 -> vy base < vy p -> (c = (-1)%Z <-> edist (pt base) (pt q) < edist (pt base) (pt p))) /\
    (0 <= area < 1/1000000 -> vy p <= vy base -> (c = (-1)%Z <-> edist (pt base) (pt p) < edist (pt base) (pt q))).
Proof.
  intros p q b. unfold angle_sort_predicate. rewrite area_side, !dist2_R. rnum. cbn [bind].
  fold (side (pt b) (pt p) (pt q)).
  assert (M : forall u v, edist (pt b) u < edist (pt b) v <-> norm2 (psub (pt b) u) < norm2 (psub (pt b) v)).
  { intros u v. unfold edist, norm. split; intros H.
    - now apply sqrt_lt_0_alt in H.
    - apply sqrt_lt_1_alt. split; [apply norm2_nonneg|exact H]. }
  cbv zeta. setoid_rewrite M. unfold side.
  set (area := cross (psub (pt p) (pt b)) (psub (pt q) (pt b))).
  set (dp := norm2 (psub (pt b) (pt p))). set (dq := norm2 (psub (pt b) (pt q))).
  destruct (Rlt_bool_spec area 0); [|destruct (Rlt_bool_spec area (1/1000000))];
    try (destruct (Rlt_bool_spec (vy b) (vy p)); [destruct (Rlt_bool_spec dq dp)|destruct (Rlt_bool_spec dp dq)]);
    (eexists; split; [reflexivity|]); (split; [auto|]); repeat split; intros; try lra; try easy.
Qed.
(** Away from the tolerance band the comparison is antisymmetric, and
    transitive among points in an open half plane through the base. *)
Theorem C111_half_plane_order_R : forall (base : vec R) (n : point) (p q r : vec R),
  let side u v := cross (psub (pt u) (pt base)) (psub (pt v) (pt base)) in
  let front u := 0 < dot n (psub (pt u) (pt base)) in
  let clear u v := 1/1000000 <= Rabs (side u v) in
  front p -> front q -> front r -> clear p q -> clear q r -> clear p r ->
  (angle_sort_predicate p q base = Ok (-1)%Z <-> angle_sort_predicate q p base = Ok 1%Z) /\
  (angle_sort_predicate p q base = Ok (-1)%Z -> angle_sort_predicate q r base = Ok (-1)%Z ->
   angle_sort_predicate p r base = Ok (-1)%Z).
Proof.
  intros b n p q r side front clear FP FQ FR C1 C2 C3.
  assert (K : forall u v, clear u v -> (angle_sort_predicate u v b = Ok (-1)%Z <-> side u v < 0) /\
     (angle_sort_predicate u v b = Ok 1%Z <-> 0 < side u v)).
  { intros u v C. destruct (C111_compare_R u v b) as [c [-> [D [A [B _]]]]]. fold (side u v) in A, B. unfold clear in C.
    unfold Rabs in C. destruct Rcase_abs.
    - rewrite A by lra. split; split; intros; try lra; easy.
    - rewrite B by lra. split; split; intros; try lra; try easy. }
  assert (S : forall u v, side u v = - side v u) by (intros; unfold side, cross; ring).
  assert (C1' : clear q p) by (unfold clear; rewrite S, Rabs_Ropp; exact C1).
  split.
  - rewrite (proj1 (K _ _ C1)), (proj2 (K _ _ C1')), (S p q). lra.
  - rewrite (proj1 (K _ _ C1)), (proj1 (K _ _ C2)), (proj1 (K _ _ C3)). intros H1 H2.
    unfold front, side, cross, dot in *. set (P := psub (pt p) (pt b)) in *. set (Q := psub (pt q) (pt b)) in *. set (R' := psub (pt r) (pt b)) in *.
    destruct P as [a1 a2], Q as [b1 b2], R' as [c1 c2], n as [n1 n2]. unfold px, py in *; cbn [fst snd] in *.
    assert (I : (n1 * b1 + n2 * b2) * (a1 * c2 - a2 * c1) = (n1 * c1 + n2 * c2) * (a1 * b2 - a2 * b1) + (n1 * a1 + n2 * a2) * (b1 * c2 - b2 * c1)) by ring.
    assert (N1 : (n1 * c1 + n2 * c2) * (a1 * b2 - a2 * b1) < 0) by (rewrite <- (Rmult_0_r (n1 * c1 + n2 * c2)); apply Rmult_lt_compat_l; lra).
    assert (N2 : (n1 * a1 + n2 * a2) * (b1 * c2 - b2 * c1) < 0) by (rewrite <- (Rmult_0_r (n1 * a1 + n2 * a2)); apply Rmult_lt_compat_l; lra).
    destruct (Rlt_or_le (a1 * c2 - a2 * c1) 0) as [|G]; [easy|].
    assert (0 <= (n1 * b1 + n2 * b2) * (a1 * c2 - a2 * c1)) by (apply Rmult_le_pos; lra). lra.
Qed.
Example C111_half_plane_nonvacuous : let base := V 0 0 in
  let side u v := cross (psub (pt u) (pt base)) (psub (pt v) (pt base)) in
  let front u := 0 < dot (1, 0) (psub (pt u) (pt base)) in
  let clear u v := 1/1000000 <= Rabs (side u v) in
  front (V 1 1) /\ front (V 1 0) /\ front (V 1 (-1)) /\ clear (V 1 1) (V 1 0) /\ clear (V 1 0) (V 1 (-1)) /\ clear (V 1 1) (V 1 (-1)) /\
  angle_sort_predicate (V 1 1) (V 1 0) base = Ok (-1)%Z /\ angle_sort_predicate (V 1 0) (V 1 (-1)) base = Ok (-1)%Z.
Proof.
  cbv zeta. unfold cross, psub, dot, pt, px, py, V; cbn [fst snd vx vy].
  repeat match goal with |- _ /\ _ => split end; try lra; try (unfold Rabs; destruct Rcase_abs; lra);
  unfold angle_sort_predicate; rewrite area_side; unfold side, cross, psub, pt, px, py; cbn [fst snd vx vy]; rnum; rdec; reflexivity.
Qed.
(** With the base used by the sorts (the origin) it is not an order: three
    directions can each come before the next, a point never equals itself, and
    two distinct points can each be before, or each be after, the other. *)
Theorem C111_not_an_order_refuted :
  (exists p q r : vec R, angle_lt p q = Ok true /\ angle_lt q r = Ok true /\ angle_lt r p = Ok true) /\
  (forall p base : vec R, angle_sort_predicate p p base = Ok 1%Z) /\
  (exists p q : vec R, angle_lt p q = Ok true /\ angle_lt q p = Ok true) /\
  (exists p q : vec R, pt p <> pt q /\ angle_sort_predicate p q (V 0 0) = Ok 1%Z /\ angle_sort_predicate q p (V 0 0) = Ok 1%Z).
Proof.
  assert (A : forall p q : vec R, cross (pt p) (pt q) < 0 -> angle_lt p q = Ok true).
  { intros p q H. unfold angle_lt. destruct (C111_compare_R p q (V 0 0)) as [c [E [_ [X _]]]]. change (V (num 0) (num 0)) with (V 0 0 : vec R). rewrite E. cbn [bind].
    rewrite X; [reflexivity|]. replace (cross _ _) with (cross (pt p) (pt q)); [exact H|].
    unfold cross, psub, pt, px, py; cbn [fst snd vx vy V]. ring. }
  split; [|split; [|split]].
  - exists (V 2 0), (V (-1) (-2)), (V (-1) 2). repeat split; apply A; unfold cross, pt, px, py; cbn; lra.
  - intros p b. unfold angle_sort_predicate. rewrite area_side, !dist2_R. rnum. cbn [bind].
    replace (side (pt b) (pt p) (pt p)) with 0 by (unfold side, cross; ring). rdec.
    now destruct Rlt_bool.
  - exists (V (-2) (-1/10000000)), (V (-1) 0). split; [apply A; unfold cross, pt, px, py; cbn; lra|].
    unfold angle_lt, angle_sort_predicate. rewrite area_side, !dist2_R. unfold side, cross, norm2, psub, pt, px, py; cbn [fst snd vx vy V bind]. rnum.
    rdec. reflexivity.
  - exists (V 1 0), (V (-1) 0). split; [unfold pt; cbn; intros [= K]; lra|].
    unfold angle_sort_predicate. rewrite !area_side, !dist2_R. unfold side, cross, norm2, psub, pt, px, py; cbn [fst snd vx vy V bind]. rnum.
    rdec. split; reflexivity.
Qed.
