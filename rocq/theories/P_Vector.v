(** * P_Vector: properties C09, C12-C18 over ideal reals *)
From Coq Require Import ZArith List Bool String Reals Lra Lia Psatz.
From Flocq Require Import Core.
From Verif Require Import Base Types NumR R_Tac Spec Abs M_Angle M_Vector L_Angle L_Trig P_Angle.
Import ListNotations.
Local Open Scope R_scope.

Definition clamp1 (c : R) : R := Rmax (-1) (Rmin 1 c).

(** ** C09: inverse trigonometric helpers *)
Theorem C09_acos_R : forall c : R, exists d, acos_deg c = Ok d /\ 0 <= d <= 180 /\
  cos_deg d = Ok (clamp1 c).
Proof.
  intros c. unfold acos_deg, cos_deg. rewrite RAD2DEG_R || idtac. rnum. unfold clamp1, Rmin, Rmax.
  destruct (Rle_bool_spec 1 c).
  { eexists; split; [reflexivity|]. split; [lra|]. rewrite deg2rad_R. unfold rad. rewrite Rmult_0_l, cos_0.
    f_equal. repeat destruct Rle_dec; lra. }
  destruct (Rle_bool_spec c (-1)).
  { eexists; split; [reflexivity|]. split; [lra|]. rewrite deg2rad_R. unfold rad.
    replace (180 * (PI/180)) with PI by field. rewrite cos_PI.
    f_equal. repeat destruct Rle_dec; lra. }
  unfold Racos_py. rewrite !Rle_bool_true by lra. cbn [andb].
  eexists; split; [reflexivity|]. rewrite rad2deg_R, deg2rad_R, rad_deg.
  pose proof (acos_bound c) as [B1 B2]. split.
  - apply deg_scale_le in B1. apply deg_scale_le in B2. rewrite PI_deg in B2. lra.
  - rewrite cos_acos by lra. f_equal. repeat destruct Rle_dec; lra.
Qed.
Theorem C09_asin_R : forall s : R, exists d, asin_deg s = Ok d /\ -90 <= d <= 90 /\
  sin_deg d = Ok (clamp1 s).
Proof.
  intros c. unfold asin_deg, sin_deg. rnum. unfold clamp1, Rmin, Rmax.
  destruct (Rle_bool_spec 1 c).
  { eexists; split; [reflexivity|]. split; [lra|]. rewrite deg2rad_R. unfold rad.
    replace (90 * (PI/180)) with (PI/2) by field. rewrite sin_PI2.
    f_equal. repeat destruct Rle_dec; lra. }
  destruct (Rle_bool_spec c (-1)).
  { eexists; split; [reflexivity|]. split; [lra|]. rewrite deg2rad_R. unfold rad.
    replace (-90 * (PI/180)) with (-(PI/2)) by field. rewrite sin_neg, sin_PI2.
    f_equal. repeat destruct Rle_dec; lra. }
  unfold Rasin_py. rewrite !Rle_bool_true by lra. cbn [andb].
  eexists; split; [reflexivity|]. rewrite rad2deg_R, deg2rad_R, rad_deg.
  pose proof (asin_bound c) as [B1 B2]. split.
  - apply deg_scale_le in B1. apply deg_scale_le in B2.
    replace (PI/2 * (180/PI)) with 90 in B2 by (field; pose proof PI_RGT_0; lra).
    replace (-(PI/2) * (180/PI)) with (-90) in B1 by (field; pose proof PI_RGT_0; lra). lra.
  - rewrite sin_asin by lra. f_equal. repeat destruct Rle_dec; lra.
Qed.
Theorem C09_atan_R : forall t : R, exists d, atan_deg t = Ok d /\ -90 < d < 90 /\
  tan_deg d = Ok t.
Proof.
  intros t. unfold atan_deg, tan_deg. rnum. eexists; split; [reflexivity|].
  rewrite rad2deg_R, deg2rad_R, rad_deg. pose proof (atan_bound t) as [B1 B2]. split.
  - apply deg_scale_lt in B1. apply deg_scale_lt in B2.
    replace (PI/2 * (180/PI)) with 90 in B2 by (field; pose proof PI_RGT_0; lra).
    replace (-PI/2 * (180/PI)) with (-90) in B1 by (field; pose proof PI_RGT_0; lra). lra.
  - now rewrite tan_atan.
Qed.
(** atan2_deg is a direction of (x, y), in (-180,180]; 0 inside the 1e-6 box. *)
Theorem C09_atan2_R : forall y x : R, -180 < atan2_deg y x <= 180 /\
  (tiny x y -> atan2_deg y x = 0) /\
  (~ tiny x y -> x = norm (x,y) * cos (rad (atan2_deg y x)) /\
                 y = norm (x,y) * sin (rad (atan2_deg y x))).
Proof.
  intros y x. split; [apply atan2_deg_range|]. split; [apply atan2_deg_tiny|].
  intros H. destruct (atan2_deg_nontiny _ _ H) as [-> Hn]. rewrite rad_deg.
  destruct (Ratan2_polar y x Hn) as [H1 H2]. unfold norm, norm2; cbn. auto.
Qed.
Example C09_nonvacuous : acos_deg 0 = Ok 90.
Proof.
  unfold acos_deg. rnum. rcasesp. unfold Racos_py. rewrite !Rle_bool_true by lra. cbn [andb].
  rewrite rad2deg_R, acos_0. f_equal. field. pose proof PI_RGT_0; lra.
Qed.

(** ** C12: polar round trip *)
Lemma r_R v : Vector2D_r v = Ok (norm (pt v)).
Proof.
  unfold Vector2D_r, Vector2D_r2; rnum. rewrite Rsqrt_py_ok by nra. reflexivity.
Qed.
Lemma th_R v : Vector2D_th v = Ok (mkAngle (atan2_deg (vy v) (vx v))).
Proof.
  unfold Vector2D_th. rewrite of_num_R, nrm_id; [easy|]. pose proof (atan2_deg_range (vy v) (vx v)). lra.
Qed.
Lemma to_angle_trig x : exists a, to_angle x = Ok a /\
  AngleDeg_cos a = Ok (cos (rad (arg_deg x))) /\ AngleDeg_sin a = Ok (sin (rad (arg_deg x))).
Proof.
  destruct (to_angle_R x) as [a [Ha [Hc _]]]. exists a; split; [easy|].
  destruct (cos_cong _ _ Hc) as [E1 E2]. unfold AngleDeg_cos, AngleDeg_sin. rewrite DEG2RAD_R. rnum.
  unfold rad in E1, E2 |- *. now rewrite E1, E2.
Qed.
Lemma from_polar_R r x : Vector2D_from_polar r x =
  Ok (mkVec (r * cos (rad (arg_deg x))) (r * sin (rad (arg_deg x))) true).
Proof.
  unfold Vector2D_from_polar. destruct (to_angle_trig x) as [a [-> [Hc Hs]]]. cbn [bind].
  rewrite Hc, Hs. reflexivity.
Qed.
Lemma norm_polar r t : norm (r * cos t, r * sin t) = Rabs r.
Proof.
  unfold norm, norm2; cbn. replace (r * cos t * (r * cos t) + r * sin t * (r * sin t)) with (Rsqr r).
  apply sqrt_Rsqr_abs. pose proof (sin2_cos2 t) as H. unfold Rsqr in *.
  replace (r * cos t * (r * cos t) + r * sin t * (r * sin t)) with (r*r*(sin t * sin t + cos t * cos t)) by ring.
  rewrite H. ring.
Qed.

Theorem C12_polar_of_cartesian_R : forall v : vec R, ~ tiny (vx v) (vy v) ->
  exists r th w, Vector2D_r v = Ok r /\ Vector2D_th v = Ok th /\
    r = norm (pt v) /\ in_range th /\
    Vector2D_from_polar r (AA th) = Ok w /\ pt w = pt v.
Proof.
  intros v Hv. exists (norm (pt v)), (mkAngle (atan2_deg (vy v) (vx v))).
  eexists. rewrite r_R, th_R, from_polar_R. repeat split.
  1,2: cbn; pose proof (atan2_deg_range (vy v) (vx v)); lra.
  destruct (C09_atan2_R (vy v) (vx v)) as (_ & _ & H). destruct (H Hv) as [Hx Hy].
  cbn [arg_deg a_degree]. apply point_eq; symmetry; [exact Hx|exact Hy].
Qed.
Theorem C12_tiny_R : forall v : vec R, tiny (vx v) (vy v) -> Vector2D_th v = Ok (mkAngle 0).
Proof. intros v Hv. rewrite th_R. now rewrite atan2_deg_tiny. Qed.

Lemma cos_sin_eq_cong x y : cos (rad x) = cos (rad y) -> sin (rad x) = sin (rad y) -> cong360 x y.
Proof.
  intros Hc Hs.
  assert (H : cos (rad x - rad y) = 1).
  { rewrite cos_minus, Hc, Hs. pose proof (sin2_cos2 (rad y)). unfold Rsqr in *; lra. }
  assert (H2 : sin ((rad x - rad y) / 2) = 0).
  { replace (rad x - rad y) with (2 * ((rad x - rad y)/2)) in H by field.
    rewrite cos_2a_sin in H. nra. }
  apply sin_eq_0_0 in H2. destruct H2 as [k Hk]. exists k.
  unfold rad in Hk. pose proof PI_RGT_0.
  apply Rmult_eq_reg_r with (PI/180); [|lra]. lra.
Qed.

Theorem C12_cartesian_of_polar_R : forall (r : R) (a : ang_arg R),
  exists w, Vector2D_from_polar r a = Ok w /\ v_valid w = true /\
    pt w = (r * cos (rad (arg_deg a)), r * sin (rad (arg_deg a))) /\
    Vector2D_r w = Ok (Rabs r) /\
    (0 < r -> ~ tiny (vx w) (vy w) ->
       exists th, Vector2D_th w = Ok th /\ cong360 (a_degree th) (arg_deg a)).
Proof.
  intros r a. rewrite from_polar_R. eexists; split; [reflexivity|]. split; [easy|]. split; [easy|]. split.
  { rewrite r_R. unfold pt; cbn [vx vy]. now rewrite norm_polar. }
  cbn [vx vy]. intros Hr Hn. rewrite th_R. eexists; split; [reflexivity|]. cbn [a_degree vx vy].
  destruct (C09_atan2_R (r * sin (rad (arg_deg a))) (r * cos (rad (arg_deg a)))) as (_ & _ & H).
  specialize (H Hn). rewrite norm_polar, Rabs_pos_eq in H by lra. destruct H as [H1 H2].
  apply cos_sin_eq_cong; [apply Rmult_eq_reg_l with r|apply Rmult_eq_reg_l with r]; lra.
Qed.
(** All polar forms agree: constructor with r=,a=, set_polar, from_polar. *)
Theorem C12_polar_forms_R : forall (v : vec R) (r : R) (x : R) (a : angle R),
  Vector2D_init [] [("r"%string, VNum r); ("a"%string, VNum x)] = Vector2D_from_polar r (AN x) /\
  Vector2D_init [] [("r"%string, VNum r); ("a"%string, VAng a)] = Vector2D_from_polar r (AA a) /\
  (exists w u, Vector2D_set_polar v r (AN x) = Ok w /\ Vector2D_from_polar r (AN x) = Ok u /\
     pt w = pt u /\ v_valid w = v_valid v).
Proof.
  intros. unfold Vector2D_init. cbn [kw_get String.eqb Ascii.eqb Bool.eqb].
  split; [|split].
  - unfold Vector2D_set_polar, Vector2D_from_polar. reflexivity.
  - reflexivity.
  - unfold Vector2D_set_polar. rewrite from_polar_R.
    destruct (to_angle_trig (AN x)) as [b [-> [Hc Hs]]]. cbn [bind]. rewrite Hc, Hs. cbn [bind].
    do 2 eexists. repeat split; reflexivity.
Qed.
Example C12_nonvacuous : ~ tiny (vx (mkVec 3 4 true)) (vy (mkVec 3 4 true)) /\ Vector2D_r (mkVec 3 4 true) = Ok 5.
Proof.
  split.
  - cbn. intros [H _]. rewrite Rabs_pos_eq in H; lra.
  - rewrite r_R. unfold norm, norm2; cbn. f_equal. replace (3*3+4*4) with (5*5) by ring. apply sqrt_square; lra.
Qed.

(** ** C13: rotate *)
Definition rot (p : point) (d : R) : point :=
  (px p * cos (rad d) - py p * sin (rad d), px p * sin (rad d) + py p * cos (rad d)).
Lemma rotate_R v x : Vector2D_rotate v x =
  Ok (mkVec (px (rot (pt v) (arg_deg x))) (py (rot (pt v) (arg_deg x))) (v_valid v)).
Proof.
  unfold Vector2D_rotate. destruct (ang_num_R x) as [d [-> Hd]]. cbn [bind].
  rewrite DEG2RAD_R. rnum. destruct (cos_cong _ _ Hd) as [Hc Hs].
  unfold rad in *. unfold rot, rad; cbn. now rewrite Hc, Hs.
Qed.

Theorem C13_rotate_R : forall (v w : vec R) (x : ang_arg R),
  exists v' w', Vector2D_rotate v x = Ok v' /\ Vector2D_rotate w x = Ok w' /\
    v_valid v' = v_valid v /\
    norm (pt v') = norm (pt v) /\
    dot (pt v') (pt w') = dot (pt v) (pt w) /\
    cross (pt v') (pt w') = cross (pt v) (pt w) /\
    (** it turns every vector by the angle, anticlockwise-positive *)
    dot (pt v) (pt v') = norm2 (pt v) * cos (rad (arg_deg x)) /\
    cross (pt v) (pt v') = norm2 (pt v) * sin (rad (arg_deg x)).
Proof.
  intros v w x. rewrite !rotate_R. do 2 eexists. do 2 (split; [reflexivity|]). split; [reflexivity|].
  unfold pt, rot, norm, norm2, dot, cross; cbn [px py vx vy fst snd].
  pose proof (sin2_cos2 (rad (arg_deg x))) as H. unfold Rsqr in H.
  set (c := cos (rad (arg_deg x))) in *. set (s := sin (rad (arg_deg x))) in *.
  assert (Hs : s * s = 1 - c * c) by lra.
  repeat split.
  - f_equal. replace ((vx v * c - vy v * s) * (vx v * c - vy v * s) + (vx v * s + vy v * c) * (vx v * s + vy v * c))
     with ((vx v * vx v + vy v * vy v) * (s * s + c * c)) by ring. rewrite H; ring.
  - replace ((vx v * c - vy v * s) * (vx w * c - vy w * s) + (vx v * s + vy v * c) * (vx w * s + vy w * c))
     with ((vx v * vx w + vy v * vy w) * (s * s + c * c)) by ring. rewrite H; ring.
  - replace ((vx v * c - vy v * s) * (vx w * s + vy w * c) - (vx v * s + vy v * c) * (vx w * c - vy w * s))
     with ((vx v * vy w - vy v * vx w) * (s * s + c * c)) by ring. rewrite H; ring.
  - ring.
  - ring.
Qed.
Theorem C13_compose_R : forall (v : vec R) (x y : ang_arg R),
  exists v1 v2, Vector2D_rotate v x = Ok v1 /\ Vector2D_rotate v1 y = Ok v2 /\
    Vector2D_rotate v (AN (arg_deg x + arg_deg y)) = Ok v2 /\
    (cong360 (arg_deg y) (- arg_deg x) -> pt v2 = pt v) /\
    (cong360 (arg_deg x) 0 -> pt v1 = pt v) /\
    Vector2D_rotated_vector v x = Ok (mkVec (vx v1) (vy v1) true).
Proof.
  intros v x y. unfold Vector2D_rotated_vector. rewrite !rotate_R. do 2 eexists. split; [reflexivity|].
  rewrite !rotate_R. cbn [pt vx vy v_valid arg_deg]. split; [reflexivity|]. split; [|split; [|split]].
  - unfold rot; cbn [px py fst snd].
    replace (rad (arg_deg x + arg_deg y)) with (rad (arg_deg x) + rad (arg_deg y)) by (unfold rad; ring).
    rewrite cos_plus, sin_plus. unfold pt; cbn. f_equal. f_equal; ring.
  - intros H. destruct (cos_cong _ _ H) as [Hc Hs]. unfold rot; cbn [px py fst snd pt vx vy].
    rewrite Hc, Hs. replace (rad (- arg_deg x)) with (- rad (arg_deg x)) by (unfold rad; ring).
    rewrite cos_neg, sin_neg. pose proof (sin2_cos2 (rad (arg_deg x))) as E. unfold Rsqr in E.
    unfold pt. f_equal.
    + transitivity (vx v * (sin (rad (arg_deg x)) * sin (rad (arg_deg x)) + cos (rad (arg_deg x)) * cos (rad (arg_deg x)))); [cbn; ring|rewrite E; ring].
    + transitivity (vy v * (sin (rad (arg_deg x)) * sin (rad (arg_deg x)) + cos (rad (arg_deg x)) * cos (rad (arg_deg x)))); [cbn; ring|rewrite E; ring].
  - intros H. destruct (cos_cong _ _ H) as [Hc Hs]. unfold rot; cbn [px py fst snd pt vx vy].
    rewrite Hc, Hs. unfold rad. rewrite Rmult_0_l, cos_0, sin_0. unfold pt; cbn. f_equal; ring.
  - reflexivity.
Qed.
Example C13_nonvacuous : Vector2D_rotate (mkVec 1 0 true) (AN 90) = Ok (mkVec 0 1 true).
Proof.
  rewrite rotate_R. unfold rot, rad; cbn. replace (90 * (PI/180)) with (PI/2) by field.
  rewrite cos_PI2, sin_PI2. do 2 f_equal; ring.
Qed.

(** ** C14: set_length *)
Theorem C14_set_length_R : forall (v : vec R) (l : R),
  (norm (pt v) > 1/1000000 ->
    exists w, Vector2D_set_length v l = Ok w /\ v_valid w = v_valid v /\
      pt w = (vx v * (l / norm (pt v)), vy v * (l / norm (pt v))) /\
      norm (pt w) = Rabs l) /\
  (norm (pt v) <= 1/1000000 -> Vector2D_set_length v l = Ok v) /\
  (norm (pt v) > 1/1000000 ->
    exists w, Vector2D_normalize v = Ok w /\ norm (pt w) = 1 /\
      exists k, 0 < k /\ pt w = (vx v * k, vy v * k)).
Proof.
  intros v l.
  assert (K : forall l, norm (pt v) > 1/1000000 ->
    exists w, Vector2D_set_length v l = Ok w /\ v_valid w = v_valid v /\
      pt w = (vx v * (l / norm (pt v)), vy v * (l / norm (pt v))) /\
      norm (pt w) = Rabs l).
  { clear l. intros l H. unfold Vector2D_set_length. rewrite r_R. cbn [bind]. rnum.
    rewrite Rlt_bool_true by lra. rewrite Rdiv_py_ok by lra.
    eexists; split; [reflexivity|]. split; [reflexivity|]. split; [reflexivity|].
    unfold Vector2D_scale, pt; cbn [vx vy]. rnum.
    set (n := norm (vx v, vy v)). pose proof (norm_sq (vx v, vy v)) as E. fold n in E.
    change (norm (pt v)) with n in *. unfold norm2 in E; cbn in E.
    unfold norm, norm2; cbn.
    replace (vx v * (l / n) * (vx v * (l / n)) + vy v * (l / n) * (vy v * (l / n)))
      with ((vx v * vx v + vy v * vy v) * ((l/n)*(l/n))) by ring.
    rewrite <- E. replace (n * n * (l / n * (l / n))) with (Rsqr l) by (unfold Rsqr; field; lra).
    apply sqrt_Rsqr_abs. }
  split; [apply K|]. split.
  - intros H. unfold Vector2D_set_length. rewrite r_R. cbn [bind]. rnum.
    now rewrite Rlt_bool_false by lra.
  - intros H. destruct (K 1 H) as (w & Hw & _ & Hp & Hn). exists w. split; [exact Hw|].
    split; [rewrite Hn; apply Rabs_R1|]. exists (1 / norm (pt v)). split; [|exact Hp].
    apply Rdiv_lt_0_compat; lra.
Qed.
Theorem C14_set_dir_R : forall (v : vec R) (x : ang_arg R),
  exists w, Vector2D_set_dir v x = Ok w /\ v_valid w = v_valid v /\
    norm (pt w) = norm (pt v) /\
    pt w = (norm (pt v) * cos (rad (arg_deg x)), norm (pt v) * sin (rad (arg_deg x))).
Proof.
  intros v x. unfold Vector2D_set_dir. destruct (to_angle_trig x) as [a [-> [Hc Hs]]].
  cbn [bind]. rewrite r_R, Hc, Hs. cbn [bind]. eexists; split; [reflexivity|].
  split; [reflexivity|]. split; [|reflexivity]. etransitivity; [apply norm_polar|].
  apply Rabs_pos_eq, norm_nonneg.
Qed.
Example C14_nonvacuous : norm (pt (mkVec 3 4 true)) > 1/1000000.
Proof. unfold norm, norm2; cbn. replace (3*3+4*4) with (5*5) by ring. rewrite sqrt_square; lra. Qed.

(** ** C15: dist is a metric *)
Lemma dist2_R v w : Vector2D_dist2 v w = Ok (norm2 (psub (pt v) (pt w))).
Proof. unfold Vector2D_dist2; rnum. rewrite !Rpowi_py_2. reflexivity. Qed.
Lemma dist_R v w : Vector2D_dist v w = Ok (edist (pt v) (pt w)).
Proof.
  unfold Vector2D_dist. rewrite dist2_R. cbn [bind]. rnum. rewrite Rsqrt_py_ok by apply norm2_nonneg. reflexivity.
Qed.
Theorem C15_metric_R : forall u v w : vec R, exists duv dvu dvw duw d2,
  Vector2D_dist u v = Ok duv /\ Vector2D_dist v u = Ok dvu /\
  Vector2D_dist v w = Ok dvw /\ Vector2D_dist u w = Ok duw /\
  Vector2D_dist2 u v = Ok d2 /\
  0 <= duv /\ duv = dvu /\ duw <= duv + dvw /\ d2 = duv * duv /\
  (duv = 0 <-> vx u = vx v /\ vy u = vy v) /\
  duv * duv = (vx u - vx v) * (vx u - vx v) + (vy u - vy v) * (vy u - vy v) /\
  Vector2D_r (Vector2D_sub u v) = Ok duv.
Proof.
  intros. rewrite !dist_R, dist2_R, r_R. do 5 eexists. do 5 (split; [reflexivity|]).
  split; [apply edist_nonneg|]. split; [apply edist_sym|]. split; [apply edist_triangle|].
  split; [symmetry; apply norm_sq|]. split; [split|].
  - intros H. apply edist_zero in H. now injection H.
  - intros [H1 H2]. replace (pt u) with (pt v) by (apply point_eq; cbn; congruence). apply edist_refl.
  - split; [apply norm_sq|reflexivity].
Qed.

(** ** C16: products *)
Theorem C16_products_R : forall (u v w : vec R) (k : R),
  let ip := Vector2D_inner_product (T := R) in
  let op := Vector2D_outer_product (T := R) in
  ip u v = ip v u /\ op u v = - op v u /\ op u u = 0 /\
  ip (Vector2D_add u (Vector2D_mul v k)) w = ip u w + k * ip v w /\
  op (Vector2D_add u (Vector2D_mul v k)) w = op u w + k * op v w /\
  ip u u = norm (pt u) * norm (pt u) /\
  ip u v * ip u v + op u v * op u v = norm2 (pt u) * norm2 (pt v) /\
  Rabs (ip u v) <= norm (pt u) * norm (pt v).
Proof.
  intros. unfold ip, op, Vector2D_inner_product, Vector2D_outer_product, Vector2D_add, Vector2D_mul, V; rnum; cbn [vx vy].
  repeat split; try ring.
  - symmetry; apply norm_sq.
  - unfold norm2; cbn; ring.
  - apply Rabs_le. pose proof (dot_le (pt u) (pt v)). pose proof (dot_le (pt u) (- vx v, - vy v)).
    replace (norm (- vx v, - vy v)) with (norm (pt v)) in H0.
    2:{ unfold norm, norm2; cbn; f_equal; ring. }
    unfold dot, pt in *; cbn in *. lra.
Qed.
Theorem C16_polar_products_R : forall u v : vec R, ~ tiny (vx u) (vy u) -> ~ tiny (vx v) (vy v) ->
  exists tu tv, Vector2D_th u = Ok tu /\ Vector2D_th v = Ok tv /\
   Vector2D_inner_product u v = norm (pt u) * norm (pt v) * cos (rad (a_degree tv - a_degree tu)) /\
   Vector2D_outer_product u v = norm (pt u) * norm (pt v) * sin (rad (a_degree tv - a_degree tu)).
Proof.
  intros u v Hu Hv. rewrite !th_R. do 2 eexists. do 2 (split; [reflexivity|]). cbn [a_degree].
  destruct (C09_atan2_R (vy u) (vx u)) as (_ & _ & H1). destruct (H1 Hu) as [Hux Huy].
  destruct (C09_atan2_R (vy v) (vx v)) as (_ & _ & H2). destruct (H2 Hv) as [Hvx Hvy].
  set (tu := atan2_deg (vy u) (vx u)) in *. set (tv := atan2_deg (vy v) (vx v)) in *.
  change (vx u, vy u) with (pt u) in *. change (vx v, vy v) with (pt v) in *.
  replace (rad (tv - tu)) with (rad tv - rad tu) by (unfold rad; ring).
  rewrite cos_minus, sin_minus. unfold Vector2D_inner_product, Vector2D_outer_product; rnum.
  split.
  - transitivity ((norm (pt u) * cos (rad tu)) * (norm (pt v) * cos (rad tv)) + (norm (pt u) * sin (rad tu)) * (norm (pt v) * sin (rad tv))); [now rewrite <- Hux, <- Huy, <- Hvx, <- Hvy|ring].
  - transitivity ((norm (pt u) * cos (rad tu)) * (norm (pt v) * sin (rad tv)) - (norm (pt u) * sin (rad tu)) * (norm (pt v) * cos (rad tv))); [now rewrite <- Hux, <- Huy, <- Hvx, <- Hvy|ring].
Qed.

(** ** C17: the validity flag *)
(** Holds in every arithmetic: stated over an arbitrary number type. *)
Section C17.
  Context {T : Type} `{Num T}.
  Theorem C17_flag : forall (v o : vec T) (x y k : T) (a : ang_arg T),
    (** results that are always valid, whatever the operands *)
    (forall w, Vector2D_init [VVec v] [] = Ok w -> v_valid w = true) /\
    v_valid (Vector2D_copy v) = true /\
    v_valid (Vector2D_add v o) = true /\ v_valid (Vector2D_sub v o) = true /\
    v_valid (Vector2D_mul v k) = true /\
    (forall w, Vector2D_truediv v k = Ok w -> v_valid w = true) /\
    v_valid (Vector2D_abs v) = true /\
    v_valid (Vector2D_reverse_vector v) = true /\
    (forall w, Vector2D_set_length_vector v k = Ok w -> v_valid w = true) /\
    (forall w, Vector2D_rotated_vector v a = Ok w -> v_valid w = true) /\
    (forall w, Vector2D_from_polar k a = Ok w -> v_valid w = true) /\
    (** mutators keep the receiver's flag *)
    v_valid (Vector2D_assign v x y) = v_valid v /\
    v_valid (Vector2D_iadd v o) = v_valid v /\ v_valid (Vector2D_isub v o) = v_valid v /\
    v_valid (Vector2D_imul v k) = v_valid v /\
    v_valid (Vector2D_add_inplace v o) = v_valid v /\
    v_valid (Vector2D_reverse v) = v_valid v /\
    (forall w, Vector2D_set_length v k = Ok w -> v_valid w = v_valid v) /\
    (forall w, Vector2D_rotate v a = Ok w -> v_valid w = v_valid v) /\
    (forall w, Vector2D_set_polar v k a = Ok w -> v_valid w = v_valid v) /\
    (** only set_vector transfers it *)
    v_valid (Vector2D_set_vector v o) = v_valid o /\
    v_valid (Vector2D_validate v) = true /\ v_valid (Vector2D_invalidate v) = false.
  Proof.
    intros v o x y k a. repeat split; try reflexivity.
    - intros w [= <-]; reflexivity.
    - unfold Vector2D_truediv. intros w. destruct (ndiv _ _); cbn; [|discriminate].
      destruct (ndiv _ _); cbn; [|discriminate]. intros [= <-]; reflexivity.
    - unfold Vector2D_set_length_vector, Vector2D_set_length. intros w.
      destruct (Vector2D_r _); cbn [bind]; [|discriminate].
      destruct (nltb _ _); [destruct (ndiv _ _); cbn; [|discriminate]|]; intros [= <-]; reflexivity.
    - unfold Vector2D_rotated_vector, Vector2D_rotate. intros w.
      destruct (ang_num _); cbn [bind]; [|discriminate].
      destruct (ncos _); cbn [bind]; [|discriminate].
      destruct (nsin _); cbn [bind]; [|discriminate]. intros [= <-]; reflexivity.
    - unfold Vector2D_from_polar. intros w.
      destruct (to_angle _); cbn [bind]; [|discriminate].
      destruct (AngleDeg_cos _); cbn [bind]; [|discriminate].
      destruct (AngleDeg_sin _); cbn [bind]; [|discriminate]. intros [= <-]; reflexivity.
    - unfold Vector2D_set_length. intros w.
      destruct (Vector2D_r _); cbn [bind]; [|discriminate].
      destruct (nltb _ _); [destruct (ndiv _ _); cbn; [|discriminate]|]; intros [= <-]; reflexivity.
    - unfold Vector2D_rotate. intros w.
      destruct (ang_num _); cbn [bind]; [|discriminate].
      destruct (ncos _); cbn [bind]; [|discriminate].
      destruct (nsin _); cbn [bind]; [|discriminate]. intros [= <-]; reflexivity.
    - unfold Vector2D_set_polar. intros w.
      destruct (to_angle _); cbn [bind]; [|discriminate].
      destruct (AngleDeg_cos _); cbn [bind]; [|discriminate].
      destruct (AngleDeg_sin _); cbn [bind]; [|discriminate]. intros [= <-]; reflexivity.
  Qed.
End C17.
(** == ignores the flag: two vectors compare equal iff the coordinates do. *)
Theorem C17_eq_ignores_flag_R : forall v w : vec R,
  (Vector2D_eq v w = true <-> pt v = pt w) /\
  Vector2D_eq Vector2D_invalid (mkVec 0 0 true) = true.
Proof.
  intros v w. unfold Vector2D_eq; rnum. rewrite andb_true_iff, !Req_bool_iff. split.
  - unfold pt. split; [intros [-> ->]; easy|intros [=]; easy].
  - cbn. now rewrite Req_bool_true by lra.
Qed.

(** ** C18: vector algebra *)
Theorem C18_algebra_R : forall (u v w : vec R) (k m : R),
  let add := Vector2D_add (T := R) in let sub := Vector2D_sub (T := R) in let mul := Vector2D_mul (T := R) in
  pt (add u v) = (vx u + vx v, vy u + vy v) /\
  pt (sub u v) = (vx u - vx v, vy u - vy v) /\
  pt (mul u k) = (vx u * k, vy u * k) /\
  add u v = add v u /\ add (add u v) w = add u (add v w) /\
  pt (sub (add u v) v) = pt u /\ pt (add (sub u v) v) = pt u /\
  mul (add u v) k = add (mul u k) (mul v k) /\
  mul (mul u k) m = mul u (k * m) /\
  pt (Vector2D_iadd u v) = pt (add u v) /\ pt (Vector2D_isub u v) = pt (sub u v) /\
  pt (Vector2D_imul u k) = pt (mul u k) /\
  pt (Vector2D_add_inplace u v) = pt (add u v) /\ pt (Vector2D_sub_inplace u v) = pt (sub u v) /\
  pt (Vector2D_scale u k) = pt (mul u k) /\
  pt (Vector2D_reverse u) = pt (mul u (-1)) /\
  (k <> 0 -> exists d, Vector2D_truediv u k = Ok d /\ pt (mul d k) = pt u) /\
  Vector2D_truediv u 0 = Raise ZeroDivisionError.
Proof.
  intros. unfold add, sub, mul, Vector2D_add, Vector2D_sub, Vector2D_mul, Vector2D_iadd, Vector2D_isub,
    Vector2D_imul, Vector2D_add_inplace, Vector2D_sub_inplace, Vector2D_scale, Vector2D_reverse, Vector2D_truediv, V, pt; rnum; cbn [vx vy].
  repeat split; try (f_equal; ring); try reflexivity.
  - intros Hk. rewrite !Rdiv_py_ok by easy. eexists; split; [reflexivity|]. cbn.
    f_equal; field; easy.
  - unfold Rdiv_py. now rewrite Req_bool_true.
Qed.
Example C18_nonvacuous : exists d, Vector2D_truediv (mkVec 3 4 true) 2 = Ok d /\ pt d = (3/2, 4/2).
Proof. unfold Vector2D_truediv; rnum. rewrite !Rdiv_py_ok by lra. eexists; split; reflexivity. Qed.
