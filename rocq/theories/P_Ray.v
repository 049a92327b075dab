(** * P_Ray: properties C40-C41 of Ray2D over ideal reals *)
From Coq Require Import ZArith List Bool String Reals Lra Lia Psatz.
From Flocq Require Import Core.
From Verif Require Import Base Types NumR R_Tac Spec Abs M_Angle M_Vector M_Line M_Ray
  L_Angle L_Trig P_Angle P_Vector P_Line.
Import ListNotations.
Local Open Scope R_scope.

Lemma nrm_abs_lt x c : c <= 180 -> (Rabs (nrm x) < c <-> exists d, Rabs d < c /\ cong360 x d).
Proof.
  intros Hc. split.
  - intros H. exists (nrm x). split; [easy|]. apply cong360_sym, nrm_cong.
  - intros (d & Hd & Hx). replace (nrm x) with d; [easy|]. apply cong360_small.
    + apply cong360_sym. eapply cong360_trans; [apply nrm_cong|easy].
    + pose proof (nrm_range x). apply Rabs_def2 in Hd. apply Rabs_def1; lra.
Qed.
Lemma in_right_dir_thr_R r p thr :
  Ray2D_in_right_dir_thr r p thr =
  Ok (Rlt_bool (Rabs (nrm (atan2_deg (vy p - vy (ray_origin r)) (vx p - vx (ray_origin r)) - a_degree (ray_dir r)))) thr).
Proof.
  unfold Ray2D_in_right_dir_thr. rewrite th_R. cbn [bind]. unfold AngleDeg_sub. rewrite of_num_R. cbn [bind].
  unfold AngleDeg_abs. rewrite degree_R. cbn [bind a_degree]. rewrite nrm_nrm. reflexivity.
Qed.

(** in_right_dir: the direction of p seen from the origin deviates from the
    ray's direction by less than the threshold. *)
Theorem C40_in_right_dir_R : forall (r : ray R) (p : vec R) (thr : R), thr <= 180 ->
  let dx := vx p - vx (ray_origin r) in let dy := vy p - vy (ray_origin r) in
  let deg := a_degree (ray_dir r) in
  exists b, Ray2D_in_right_dir_thr r p thr = Ok b /\
  (~ tiny dx dy ->
    (b = true <-> exists d, Rabs d < thr /\
        (dx, dy) = (norm (dx,dy) * cos (rad (deg + d)), norm (dx,dy) * sin (rad (deg + d))))) /\
  (tiny dx dy -> (b = true <-> exists d, Rabs d < thr /\ cong360 deg d)).
Proof.
  intros r p thr Hthr dx dy deg. rewrite in_right_dir_thr_R. eexists; split; [reflexivity|].
  fold dx dy deg. destruct (C09_atan2_R dy dx) as (_ & HT & HN). split.
  - intros H. specialize (HN H). set (th := atan2_deg dy dx) in *.
    rewrite Rlt_bool_iff, nrm_abs_lt by easy. split.
    + intros (d & Hd & C). exists d. split; [easy|]. destruct HN as [E1 E2].
      assert (C' : cong360 (deg + d) th). { destruct C as [k Hk]. exists (-k)%Z. rewrite opp_IZR. lra. }
      apply cos_cong in C'. destruct C' as [-> ->]. rewrite <- E1, <- E2. easy.
    + intros (d & Hd & E). injection E as E1 E2. destruct HN as [E3 E4]. exists d. split; [easy|].
      assert (norm (dx,dy) <> 0).
      { intros Z. apply norm_zero in Z. cbn in Z. apply H. destruct Z as [-> ->]. unfold tiny. rewrite Rabs_R0. lra. }
      assert (C : cong360 th (deg + d)).
      { apply cos_sin_eq_cong; apply Rmult_eq_reg_l with (norm (dx,dy)); try easy; congruence. }
      destruct C as [k Hk]. exists k. lra.
  - intros H. rewrite (HT H), Rlt_bool_iff, nrm_abs_lt by easy. split.
    + intros (d & Hd & [k C]). exists (-d). rewrite Rabs_Ropp. split; [easy|]. exists (-k)%Z. rewrite opp_IZR. lra.
    + intros (d & Hd & [k C]). exists (-d). rewrite Rabs_Ropp. split; [easy|]. exists (-k)%Z. rewrite opp_IZR. lra.
Qed.
Example C40_dir_nonvacuous : 10 <= 180 /\ ~ tiny (3 - 1) (4 - 1).
Proof. split; [lra|]. intros [H _]. rewrite Rabs_pos_eq in H; lra. Qed.

(** A point of the carrier is accepted iff it is in front (outside the box). *)
Lemma in_right_dir_carrier_thr r v t thr : 0 < thr <= 180 ->
  pt v = (vx (ray_origin r) + t * cos (rad (a_degree (ray_dir r))), vy (ray_origin r) + t * sin (rad (a_degree (ray_dir r)))) ->
  exists b, Ray2D_in_right_dir_thr r v thr = Ok b /\
    (~ tiny (vx v - vx (ray_origin r)) (vy v - vy (ray_origin r)) -> (b = true <-> 0 < t)) /\
    (tiny (vx v - vx (ray_origin r)) (vy v - vy (ray_origin r)) ->
       (b = true <-> exists d, Rabs d < thr /\ cong360 (a_degree (ray_dir r)) d)).
Proof.
  intros RT E. injection E as Ex Ey.
  destruct (C40_in_right_dir_R r v thr ltac:(lra)) as (b & Hb & HN & HT). exists b.
  split; [exact Hb|]. split; [|exact HT]. intros Nt. specialize (HN Nt). rewrite HN. clear HN HT.
  set (deg := a_degree (ray_dir r)) in *. set (dx := vx v - vx (ray_origin r)) in *. set (dy := vy v - vy (ray_origin r)) in *.
  assert (Edx : dx = t * cos (rad deg)) by (unfold dx; lra).
  assert (Edy : dy = t * sin (rad deg)) by (unfold dy; lra).
  assert (N : norm (dx, dy) = Rabs t) by (rewrite Edx, Edy; apply norm_polar).
  split.
  - intros (d & Hd & Ep). rewrite N in Ep. injection Ep as E1 E2.
    destruct (Rlt_dec 0 t) as [|Hn]; [easy|exfalso].
    assert (T : t < 0). { destruct (Req_dec t 0) as [Z|]; [|lra]. exfalso; apply Nt. rewrite Edx, Edy, Z. unfold tiny. rewrite !Rmult_0_l, Rabs_R0. lra. }
    rewrite Rabs_left in * by lra.
    assert (C1 : cos (rad deg) = - cos (rad (deg + d))) by (apply Rmult_eq_reg_l with t; lra).
    assert (S1 : sin (rad deg) = - sin (rad (deg + d))) by (apply Rmult_eq_reg_l with t; lra).
    assert (K : cong360 (deg + d) (deg + 180)).
    { apply cos_sin_eq_cong.
      - replace (rad (deg + 180)) with (rad deg + PI) by (unfold rad; field). rewrite neg_cos. lra.
      - replace (rad (deg + 180)) with (rad deg + PI) by (unfold rad; field). rewrite neg_sin. lra. }
    destruct K as [k K]. apply Rabs_def2 in Hd.
    assert (d = 180 + 360 * IZR k) by lra.
    destruct (Z.le_gt_cases 0 k) as [P|P]; [apply IZR_le in P; lra|].
    assert (k <= -1)%Z as P' by lia. apply IZR_le in P'. lra.
  - intros T. exists 0. rewrite Rabs_R0, Rplus_0_r, N, Rabs_pos_eq by lra. split; [lra|]. congruence.
Qed.

Lemma in_right_dir_carrier r v t :
  pt v = (vx (ray_origin r) + t * cos (rad (a_degree (ray_dir r))), vy (ray_origin r) + t * sin (rad (a_degree (ray_dir r)))) ->
  exists b, Ray2D_in_right_dir r v = Ok b /\
    (~ tiny (vx v - vx (ray_origin r)) (vy v - vy (ray_origin r)) -> (b = true <-> 0 < t)) /\
    (tiny (vx v - vx (ray_origin r)) (vy v - vy (ray_origin r)) ->
       (b = true <-> exists d, Rabs d < 10 /\ cong360 (a_degree (ray_dir r)) d)).
Proof. intros E. apply (in_right_dir_carrier_thr r v t 10); [lra|exact E]. Qed.

Lemma ray_line_R r : exists l, Ray2D_line r = Ok l /\
  l_a l = - sin (rad (a_degree (ray_dir r))) /\ l_b l = cos (rad (a_degree (ray_dir r))) /\
  forall q, lpts l q <-> carrier r q.
Proof.
  destruct (C20_line_from_angle_R (ray_origin r) (AA (ray_dir r))) as (l & Hl & _ & Hq).
  exists l. unfold Ray2D_line. cbn [Line2D_init] in Hl. split; [exact Hl|].
  unfold Line2D_of_angle in Hl.
  destruct (to_angle_trig (AA (ray_dir r))) as [d [Hd [Hc Hs]]]. rewrite Hd in Hl. cbn [bind] in Hl.
  rewrite Hc, Hs in Hl. cbn [bind] in Hl. injection Hl as <-.
  split; [reflexivity|]. split; [reflexivity|]. exact Hq.
Qed.

(** Where a found point may be: on the half line, or (carrier points in the
    1e-6 box at the origin) accepted because the ray points to within 10
    degrees of the x axis. *)
Definition ray_hit (r : ray R) (q : point) : Prop :=
  carrier r q /\
  (~ tiny (px q - vx (ray_origin r)) (py q - vy (ray_origin r)) -> rpts r q) /\
  (tiny (px q - vx (ray_origin r)) (py q - vy (ray_origin r)) ->
     exists d, Rabs d < 10 /\ cong360 (a_degree (ray_dir r)) d).
Lemma in_right_dir_hit r v : carrier r (pt v) ->
  exists b, Ray2D_in_right_dir r v = Ok b /\ (b = true <-> ray_hit r (pt v)).
Proof.
  intros Hc. assert (Hc' := Hc). destruct Hc as [t Ht].
  destruct (in_right_dir_carrier r v t Ht) as (b & Hb & HN & HT). exists b. split; [exact Hb|].
  unfold ray_hit. rewrite px_pt, py_pt.
  destruct (tiny_dec (vx v - vx (ray_origin r)) (vy v - vy (ray_origin r))) as [Y|N].
  - rewrite (HT Y). tauto.
  - rewrite (HN N). split.
    + intros T. split; [exact Hc'|]. split; [|tauto]. intros _. exists t. split; [lra|exact Ht].
    + intros (_ & H & _). destruct (H N) as (u & Hu & Eu). rewrite Ht in Eu. cbn in Eu.
      injection Ht as Ex Ey. injection Eu as E1 E2.
      pose proof (sin2_cos2 (rad (a_degree (ray_dir r)))) as SC. unfold Rsqr in SC.
      set (c := cos _) in *. set (s := sin _) in *.
      assert (K1 : t * c = u * c) by lra. assert (K2 : t * s = u * s) by lra.
      assert (t = u).
      { transitivity (t * c * c + t * s * s); [transitivity (t * (s * s + c * c)); [rewrite SC|]; ring|].
        rewrite K1, K2. transitivity (u * (s * s + c * c)); [|rewrite SC]; ring. }
      subst u.
      destruct Hu as [|Z]; [easy|]. exfalso. apply N. rewrite <- Z in *. unfold tiny.
      replace (vx v - vx (ray_origin r)) with 0 by lra. replace (vy v - vy (ray_origin r)) with 0 by lra. rewrite Rabs_R0. lra.
Qed.

(** ** C40 *)
Theorem C40_intersection_line_R : forall (r : ray R) (l : line R),
  let deg := a_degree (ray_dir r) in
  exists v, Ray2D_intersection r (VLine l) = Ok v /\
    (** validity: not (nearly) parallel, and the common point of the carriers is a hit *)
    (v_valid v = true <->
       Rabs (l_a l * cos (rad deg) + l_b l * sin (rad deg)) >= 1/1000000 /\
       exists q, lpts l q /\ ray_hit r q) /\
    (** a valid result is that point *)
    (v_valid v = true -> lpts l (pt v) /\ ray_hit r (pt v)) /\
    (** nothing in front of the ray is missed *)
    (forall q, Rabs (l_a l * cos (rad deg) + l_b l * sin (rad deg)) >= 1/1000000 ->
       lpts l q -> rpts r q -> ~ tiny (px q - vx (ray_origin r)) (py q - vy (ray_origin r)) ->
       v_valid v = true /\ pt v = q) /\
    (v_valid v = false -> v = Vector2D_invalid).
Proof.
  intros r l deg. cbn [Ray2D_intersection]. unfold Ray2D_intersection_line.
  destruct (ray_line_R r) as (rl & -> & Ea & Eb & Hrl). cbn [bind].
  destruct (C22_intersection_R rl l) as (w & -> & Hval & _ & Hq & Hinv). cbn [bind].
  assert (HD : Rabs (l_a rl * l_b l - l_b rl * l_a l) = Rabs (l_a l * cos (rad deg) + l_b l * sin (rad deg))).
  { rewrite Ea, Eb, <- Rabs_Ropp. f_equal. unfold deg. ring. }
  rewrite HD in Hval.
  destruct (v_valid w) eqn:EW; cbn [negb].
  2:{ exists Vector2D_invalid. split; [reflexivity|]. split; [split; [discriminate|]|split; [discriminate|split; [|easy]]].
      - intros [K _]. apply Hval in K. discriminate.
      - intros q K. apply Hval in K. discriminate. }
  assert (NP := proj1 Hval eq_refl). specialize (Hq eq_refl).
  destruct (proj2 (Hq (pt w)) eq_refl) as [W1 W2]. apply Hrl in W1.
  destruct (in_right_dir_hit r w W1) as (b & Hb & Hhit). rewrite Hb. cbn [bind].
  destruct b; cbn [negb].
  - exists w. split; [reflexivity|]. assert (HW : ray_hit r (pt w)) by now apply Hhit.
    split; [split; [|easy]|split; [easy|split; [|congruence]]].
    + intros _. split; [exact NP|]. now exists (pt w).
    + intros q _ Q1 Q2 _. split; [exact EW|]. symmetry. apply Hq. split; [|exact Q1]. apply Hrl.
      destruct Q2 as (t & _ & E). now exists t.
  - exists Vector2D_invalid. split; [reflexivity|]. split; [split; [discriminate|]|split; [discriminate|split; [|easy]]].
    + intros [_ (q & Q1 & Q2)]. exfalso. assert (q = pt w) by (apply Hq; split; [apply Hrl; apply Q2|easy]). subst q.
      apply Hhit in Q2. discriminate.
    + intros q _ Q1 Q2 Q3. exfalso. assert (q = pt w).
      { apply Hq. split; [|easy]. apply Hrl. destruct Q2 as (t & _ & E). now exists t. }
      subst q. rewrite px_pt, py_pt in Q3. assert (ray_hit r (pt w)); [|now apply Hhit in H].
      split; [easy|]. rewrite px_pt, py_pt. split; [now intros|]. intros ?; contradiction.
Qed.
Example C40_nonvacuous : Rabs (1 * cos (rad 0) + 0 * sin (rad 0)) >= 1/1000000 /\
  lpts (mkLine 1 0 (-5)) (5, 0) /\ rpts (mkRay (mkVec 0 0 true) (mkAngle 0)) (5, 0) /\ ~ tiny (5 - 0) (0 - 0).
Proof.
  assert (E : rad 0 = 0) by (unfold rad; field).
  rewrite E, cos_0, sin_0. split; [rewrite Rabs_pos_eq; lra|]. split; [unfold lpts, on_line; cbn; lra|]. split.
  - exists 5. split; [lra|]. cbn. rewrite E, cos_0, sin_0. apply point_eq; cbn; lra.
  - intros [H _]. rewrite Rabs_pos_eq in H; lra.
Qed.

(** ** C41 *)
Theorem C41_intersection_ray_R : forall r o : ray R,
  let sep := Rabs (sin (rad (a_degree (ray_dir o) - a_degree (ray_dir r)))) >= 1/1000000 in
  exists v, Ray2D_intersection r (VRay o) = Ok v /\
    (v_valid v = true <-> sep /\ exists q, ray_hit r q /\ ray_hit o q) /\
    (v_valid v = true -> ray_hit r (pt v) /\ ray_hit o (pt v)) /\
    (forall q, sep -> rpts r q -> rpts o q ->
       ~ tiny (px q - vx (ray_origin r)) (py q - vy (ray_origin r)) ->
       ~ tiny (px q - vx (ray_origin o)) (py q - vy (ray_origin o)) ->
       v_valid v = true /\ pt v = q) /\
    (v_valid v = false -> v = Vector2D_invalid).
Proof.
  intros r o sep. cbn [Ray2D_intersection]. unfold Ray2D_intersection_ray.
  destruct (ray_line_R r) as (rl & -> & Ea & Eb & Hrl). cbn [bind].
  destruct (ray_line_R o) as (ol & -> & Ea' & Eb' & Hol). cbn [bind].
  destruct (C22_intersection_R rl ol) as (w & -> & Hval & _ & Hq & Hinv). cbn [bind].
  assert (HD : Rabs (l_a rl * l_b ol - l_b rl * l_a ol) = Rabs (sin (rad (a_degree (ray_dir o) - a_degree (ray_dir r))))).
  { rewrite Ea, Eb, Ea', Eb'. f_equal.
    replace (rad (a_degree (ray_dir o) - a_degree (ray_dir r))) with (rad (a_degree (ray_dir o)) - rad (a_degree (ray_dir r))) by (unfold rad; field).
    rewrite sin_minus. ring. }
  rewrite HD in Hval. fold sep in Hval.
  assert (CAR : forall x q, rpts x q -> carrier x q) by (intros x q (t & _ & E); now exists t).
  destruct (v_valid w) eqn:EW; cbn [negb].
  2:{ exists Vector2D_invalid. split; [reflexivity|]. split; [split; [discriminate|]|split; [discriminate|split; [|easy]]].
      - intros [K _]. apply Hval in K. discriminate.
      - intros q K. apply Hval in K. discriminate. }
  assert (NP := proj1 Hval eq_refl). specialize (Hq eq_refl).
  destruct (proj2 (Hq (pt w)) eq_refl) as [W1 W2]. apply Hrl in W1. apply Hol in W2.
  assert (UQ : forall q, carrier r q -> carrier o q -> q = pt w).
  { intros q Q1 Q2. apply Hq. split; [now apply Hrl|now apply Hol]. }
  assert (FR : forall x q, rpts x q -> ~ tiny (px q - vx (ray_origin x)) (py q - vy (ray_origin x)) -> ray_hit x q).
  { intros x q Q Hn. split; [now apply CAR|]. split; [easy|contradiction]. }
  destruct (in_right_dir_hit r w W1) as (b & Hb & Hhit). rewrite Hb. cbn [bind].
  destruct (in_right_dir_hit o w W2) as (b' & Hb' & Hhit').
  assert (BAD : (b && b')%bool = false -> forall q, ray_hit r q -> ray_hit o q -> False).
  { intros Hbb q Q1 Q2. assert (q = pt w) by (apply UQ; [apply Q1|apply Q2]). subst q.
    apply Hhit in Q1. apply Hhit' in Q2. subst. discriminate. }
  destruct b; cbn [negb]; [rewrite Hb'; cbn [bind]; destruct b'; cbn [negb]|].
  - exists w. split; [reflexivity|]. assert (ray_hit r (pt w)) by now apply Hhit. assert (ray_hit o (pt w)) by now apply Hhit'.
    split; [split; [|easy]|split; [easy|split; [|congruence]]].
    + intros _. split; [exact NP|]. now exists (pt w).
    + intros q _ Q1 Q2 _ _. split; [exact EW|]. symmetry. apply UQ; now apply CAR.
  - exists Vector2D_invalid. split; [reflexivity|]. split; [split; [discriminate|]|split; [discriminate|split; [|easy]]].
    + intros [_ (q & Q1 & Q2)]. destruct (BAD eq_refl q Q1 Q2).
    + intros q _ Q1 Q2 N1 N2. destruct (BAD eq_refl q); now apply FR.
  - exists Vector2D_invalid. split; [reflexivity|]. split; [split; [discriminate|]|split; [discriminate|split; [|easy]]].
    + intros [_ (q & Q1 & Q2)]. destruct (BAD eq_refl q Q1 Q2).
    + intros q _ Q1 Q2 N1 N2. destruct (BAD eq_refl q); now apply FR.
Qed.
(** Symmetric in validity and in the point found. *)
Theorem C41_symmetric_R : forall r o : ray R,
  exists v w, Ray2D_intersection r (VRay o) = Ok v /\ Ray2D_intersection o (VRay r) = Ok w /\
    v_valid v = v_valid w /\ (v_valid v = true -> pt v = pt w).
Proof.
  intros r o.
  destruct (C41_intersection_ray_R r o) as (v & Hv & V1 & V2 & _ & _).
  destruct (C41_intersection_ray_R o r) as (w & Hw & W1 & W2 & _ & _).
  exists v, w. split; [easy|]. split; [easy|].
  assert (S : Rabs (sin (rad (a_degree (ray_dir o) - a_degree (ray_dir r)))) = Rabs (sin (rad (a_degree (ray_dir r) - a_degree (ray_dir o))))).
  { rewrite <- Rabs_Ropp, <- sin_neg. do 2 f_equal. unfold rad. field. }
  rewrite S in V1.
  assert (E : v_valid v = v_valid w).
  { apply eq_true_iff_eq. rewrite V1, W1. split; intros [H (q & Q1 & Q2)]; (split; [easy|]); now exists q. }
  split; [exact E|]. intros Hv1. assert (Hw1 : v_valid w = true) by congruence.
  destruct (V2 Hv1) as [(A1 & _) (A2 & _)]. destruct (W2 Hw1) as [(B2 & _) (B1 & _)].
  destruct (proj1 W1 Hw1) as [SEP _].
  destruct (ray_line_R r) as (rl & Hrl & Ea & Eb & Lr). destruct (ray_line_R o) as (ol & Hol & Ea' & Eb' & Lo).
  destruct (C22_intersection_R rl ol) as (u & _ & Hval & _ & Hq & _).
  assert (v_valid u = true).
  { apply Hval. rewrite Ea, Eb, Ea', Eb'. rewrite <- S in SEP. revert SEP.
    replace (rad (a_degree (ray_dir o) - a_degree (ray_dir r))) with (rad (a_degree (ray_dir o)) - rad (a_degree (ray_dir r))) by (unfold rad; field).
    rewrite sin_minus. intros SEP. replace (_ - _) with (sin (rad (a_degree (ray_dir o))) * cos (rad (a_degree (ray_dir r))) - cos (rad (a_degree (ray_dir o))) * sin (rad (a_degree (ray_dir r)))) by ring.
    exact SEP. }
  specialize (Hq H). transitivity (pt u); [|symmetry]; apply Hq; split; first [apply Lr; assumption|apply Lo; assumption].
Qed.
(** The constructor through two points: the second point is on the half line. *)
Theorem C40_ray_through_points_R : forall o p : vec R, ~ tiny (vx p - vx o) (vy p - vy o) ->
  exists r, Ray2D_init (VVec o) (VVec p) = Ok r /\ pt (ray_origin r) = pt o /\ rpts r (pt p) /\
    -180 <= a_degree (ray_dir r) <= 180.
Proof.
  intros o p H. cbn [Ray2D_init]. unfold Ray2D_of_point. rewrite th_R. cbn [bind].
  eexists; split; [reflexivity|]. split; [reflexivity|]. unfold rpts, half_line; cbn.
  change (vx (Vector2D_sub p o)) with (vx p - vx o). change (vy (Vector2D_sub p o)) with (vy p - vy o).
  destruct (C09_atan2_R (vy p - vy o) (vx p - vx o)) as (R1 & _ & H2). destruct (H2 H) as [Ex Ey]. split; [|lra].
  exists (norm (vx p - vx o, vy p - vy o)). split; [apply norm_nonneg|]. apply point_eq; cbn; lra.
Qed.
